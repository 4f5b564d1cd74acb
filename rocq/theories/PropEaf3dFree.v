(** Property C85: what the three-objective empirical attainment function gives back.

    Specification: EafSpec.v (attains, cumsizes), Eaf3dSpec.v (is_surface), AvlSpec.v
    ([holds s xs]: the tree s consists of exactly the nodes xs).  Model:
    Eaf3dFreeModel.v, where touching a node that was given back, giving back a node or
    an item twice, or giving back an item that is part of the caller's data is an
    error.  Nodes with even numbers ([level_addr]) are those of levels, output lists
    and the list of removed nodes. *)
From Coq Require Import List ZArith Lia Bool Arith.
From Verif Require Import Base Spec EafSpec EafModel AvlModel AvlSpec Eaf3dSpec Eaf3dModel Eaf3dTop Eaf3dPtrModel Eaf3dFreeModel Eaf3dFree PropEaf3d PropEaf3dPtr.
Import ListNotations.
Open Scope Z_scope.

(** The program ends without any such error and still returns the exact surfaces.
    It gives back all the nodes of the trees of all the sets, each once, and two items
    per set; none of the nodes from which the result is read is given back. *)
Theorem C85_sets_given_back_once : forall lo hi wipe start runs sortz junk levels, lo < hi ->
  runs <> [] -> (forall r, In r runs -> r <> []) -> wf_points 3 (concat runs) ->
  (forall p, In p (concat runs) -> lo < coord p 0 < hi /\ lo < coord p 1 < hi) ->
  Z.of_nat (length (concat runs)) < 2 ^ 118 ->
  is_dataz (concat runs) (sortz (concat runs)) ->
  Forall (fun l => (1 <= l <= length runs)%nat) levels ->
  exists out st trees nodes items,
    f_eaf3d lo hi wipe start sortz junk (concat runs) (cumsizes runs) (length runs) (map Z.of_nat levels)
      = Ret (out, (st, trees, (nodes, items))) /\
    Forall2 (fun l s => is_surface 3 runs l (map fst s) /\
      forall p flags, In (p, flags) s -> length flags = length runs /\
        forall k, (k < length runs)%nat -> (nth k flags false = true <-> attains 3 (nth k runs []) p)) levels out /\
    length trees = length runs /\
    NoDup nodes /\ NoDup items /\ length items = (2 * length runs)%nat /\
    (forall i, ~ In (level_addr i) nodes) /\
    exists xss, length xss = length runs /\
      (forall k h xs, nth_error trees k = Some h -> nth_error xss k = Some xs -> holds (view (mem st) h) xs) /\
      nodes = concat xss.
Proof.
  intros lo hi wipe start runs sortz junk levels LH H1 H2 H3 H4 Hs H5 H6.
  destruct (eaf3d_ok lo hi LH runs sortz junk levels H1 H2 H3 H4 H5 H6) as (out & E & F).
  destruct (f_eaf3d_ok lo hi wipe start _ _ _ _ _ _ _ LH H4 Hs E) as (st & trees & nodes & items & G & P).
  exists out, st, trees, nodes, items. split; [exact G|]. split; [exact F|]. exact P.
Qed.

(** ** Concrete instances *)
(** the hypotheses are met by the runs of C59_hypotheses_met; there the trees of the
    three sets consist of eleven nodes: six sentinels and the points that are left *)
Example C85_values :
  match f_eaf3d (-100) 100 dirty dirty sortz_exec (fun _ => 7) (concat runs_ex) (cumsizes runs_ex) 3 [1; 2; 3] with
  | Ret (out, (_, _, (nodes, items))) =>
      (map (@length _) out, forallb Nat.odd nodes, nodes, items)
  | _ => ([], false, [], [])
  end = ([5; 6; 4]%nat, true, [1; 35; 37; 25; 3; 9; 31; 11; 17; 39; 19]%nat, [1; 3; 9; 11; 17; 19]%nat).
Proof. vm_compute. reflexivity. Qed.

Print Assumptions C85_sets_given_back_once.
