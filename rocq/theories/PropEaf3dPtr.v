(** Property C59: the linked trees and lists of the three-objective empirical
    attainment function.

    Specification: EafSpec.v (attains, cumsizes), Eaf3dSpec.v (is_surface),
    AvlSpec.v (holds).  Model: Eaf3dPtrModel.v, which follows next, prev, parent and
    child pointers through one memory shared by the trees of all sets, the trees of
    all levels, the output lists and the list of removed nodes.  Reading an item of a
    freed or never allocated node is an error there, and the fields of a freed node
    take arbitrary values ([wipe]). *)
From Coq Require Import List ZArith Lia Bool Arith.
From Verif Require Import Base Spec EafSpec EafModel AvlModel AvlSpec AvlOps AvlFrame Eaf3dSpec Eaf3dModel Eaf3dTop Eaf3dPtrModel Eaf3dPtrOut PropEaf3d.
Import ListNotations.
Open Scope Z_scope.

(** The program with pointers terminates without reading a freed item, following a
    null pointer or running past an array, whatever the memory held before and
    whatever free leaves behind, and returns one exact surface per level, each
    point with the exact set of runs that attain it. *)
Theorem C59_pointer_eaf3d_exact : forall lo hi wipe start runs sortz junk levels, lo < hi ->
  runs <> [] -> (forall r, In r runs -> r <> []) -> wf_points 3 (concat runs) ->
  (forall p, In p (concat runs) -> lo < coord p 0 < hi /\ lo < coord p 1 < hi) ->
  Z.of_nat (length (concat runs)) < 2 ^ 118 ->
  is_dataz (concat runs) (sortz (concat runs)) ->
  Forall (fun l => (1 <= l <= length runs)%nat) levels ->
  exists out, p_eaf3d lo hi wipe start sortz junk (concat runs) (cumsizes runs) (length runs) (map Z.of_nat levels) = Ret out /\
    Forall2 (fun l s => is_surface 3 runs l (map fst s) /\
      forall p flags, In (p, flags) s -> length flags = length runs /\
        forall k, (k < length runs)%nat -> (nth k flags false = true <-> attains 3 (nth k runs []) p)) levels out.
Proof.
  intros lo hi wipe start runs sortz junk levels LH H1 H2 H3 H4 Hs H5 H6.
  destruct (eaf3d_ok lo hi LH runs sortz junk levels H1 H2 H3 H4 H5 H6) as (out & E & F). exists out. split; auto.
  apply p_eaf3d_refines; auto.
Qed.

(** The result depends neither on the memory before the call nor on what free
    leaves behind; it is the result of the program on sequences. *)
Theorem C59_pointers_refine_sequences : forall lo hi wipe start sortz junk data cumsize nruns att r, lo < hi ->
  (forall p, In p data -> lo < coord p 0 < hi /\ lo < coord p 1 < hi) -> Z.of_nat (length data) < 2 ^ 118 ->
  eaf3d lo hi sortz junk data cumsize nruns att = Ret r ->
  p_eaf3d lo hi wipe start sortz junk data cumsize nruns att = Ret r.
Proof. exact p_eaf3d_refines. Qed.

(** Several trees in one memory: inserting a node next to one of a tree, or
    unlinking one of its nodes, leaves every tree without common nodes as it was.
    [view s h]: the tree with head, tail and root [h] in the memory of [s]. *)
Theorem C59_insert_keeps_other_trees : forall s s' w n xs ys h,
  holds s xs -> In w xs -> ~ In n xs -> allocatable (n :: xs) ->
  avl_insert_after (Some w) n s = Ret s' \/ avl_insert_before (Some w) n s = Ret s' ->
  holds (view s h) ys ->
  (forall i, In i ys -> i <> n /\ ~ In i xs) ->
  holds (view s' h) ys.
Proof.
  intros s s' w n xs ys h H Hw Nn Al E Hy D.
  apply (holds_frame _ _ ys Hy); try reflexivity.
  intros i Hi. destruct (D i Hi) as [D1 D2]. destruct E as [E|E].
  - apply (insert_after_other s xs (Some w) n s' H) with (i := i) in E; auto.
  - apply (insert_before_other s xs (Some w) n s' H) with (i := i) in E; auto.
Qed.
Theorem C59_unlink_keeps_other_trees : forall s s' a xs ys h,
  holds s xs -> In a xs -> avl_unlink_node a s = Ret s' ->
  holds (view s h) ys ->
  (forall i, In i ys -> ~ In i xs) ->
  holds (view s' h) ys.
Proof.
  intros s s' a xs ys h H Ha E Hy D.
  apply (holds_frame _ _ ys Hy); try reflexivity.
  intros i Hi. apply (unlink_other s xs a s' H Ha E i (D i Hi)).
Qed.

(** ** Concrete instances *)
(** arbitrary memory before the call *)
Definition dirty : avl :=
  mkAvl (fun i => Some (S i)) (fun i => Some (S (S i))) (fun _ => Some 1%nat) (fun i => Some i) (fun _ => Some 2%nat) (fun _ => 77%nat) (Some 3%nat) (Some 4%nat) (Some 5%nat).

Example C59_hypotheses_met :
  runs_ex <> [] /\ (forall r, In r runs_ex -> r <> []) /\ wf_points 3 (concat runs_ex) /\
  (forall p, In p (concat runs_ex) -> -100 < coord p 0 < 100 /\ -100 < coord p 1 < 100) /\
  Z.of_nat (length (concat runs_ex)) < 2 ^ 118 /\
  is_dataz (concat runs_ex) (sortz_exec (concat runs_ex)).
Proof. destruct C42_hypotheses_met as (A & B & C & D & E). do 4 (split; [assumption|]). split; [reflexivity|exact E]. Qed.

Example C59_values :
  p_eaf3d (-100) 100 dirty dirty sortz_exec (fun _ => 7) (concat runs_ex) (cumsizes runs_ex) 3 [1; 2; 3] =
    Ret [[([3; 3; 1], [false; true; false]); ([4; 1; 1], [true; false; false]);
          ([2; 2; 2], [false; false; true]); ([1; 5; 3], [true; false; false]);
          ([1; 1; 9], [false; false; true])];
         [([4; 3; 1], [true; true; false]); ([4; 2; 2], [true; false; true]);
          ([2; 3; 2], [false; true; true]); ([1; 5; 9], [true; false; true]);
          ([2; 2; 6], [true; false; true]); ([4; 1; 9], [true; false; true])];
         [([5; 5; 1], [true; true; true]); ([4; 3; 2], [true; true; true]);
          ([2; 5; 3], [true; true; true]); ([2; 3; 6], [true; true; true])]].
Proof. vm_compute. reflexivity. Qed.

Example C59_values_shared :
  p_eaf3d (-100) 100 dirty dirty sortz_exec (fun _ => 7) (concat [[[1;1;1]];[[2;0;1];[1;1;1]];[[1;1;1];[0;3;3]]])
    (cumsizes [[[1;1;1]];[[2;0;1];[1;1;1]];[[1;1;1];[0;3;3]]]) 3 [1; 3] =
    Ret [[([0; 3; 3], [false; false; true]); ([1; 1; 1], [true; true; true]); ([2; 0; 1], [false; true; false])];
         [([1; 1; 1], [true; true; true])]].
Proof. vm_compute. reflexivity. Qed.

Print Assumptions C59_pointer_eaf3d_exact.
Print Assumptions C59_pointers_refine_sequences.
Print Assumptions C59_insert_keeps_other_trees.
Print Assumptions C59_unlink_keeps_other_trees.
