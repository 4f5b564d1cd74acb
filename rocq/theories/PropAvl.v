(** Property theorems about the AVL tree inside the hypervolume code (C36, C37) and
    about the hypervolume computed with it (C47).  The specification is [holds] in
    AvlSpec.v. *)
From Coq Require Import List ZArith Lia Bool Arith Sorted.
From Verif Require Import Base AvlModel AvlSpec AvlProofs AvlRotate AvlOps.
From Verif Require Import NondomModel NondomProofs2d HvSpec Hv2dModel HvModel HvMain HvFacts HvAvlModel HvAvlProofs.
Import ListNotations.
Open Scope Z_scope.

(** ** C36 *)

(** The operations of a client of the tree.  Nodes are identified by numbers; before /
    after without a node means at the end / at the beginning. *)
Inductive op :=
| Clear                                   (* forget all nodes *)
| Top (n : nat)                           (* make n the only node *)
| Before (where_ : option nat) (n : nat)  (* insert n before a node *)
| After (where_ : option nat) (n : nat)   (* insert n after a node *)
| Unlink (n : nat).                       (* remove n *)

Definition run_op (o : op) (s : avl) : outcome avl :=
  match o with
  | Clear => Ret (avl_clear_tree s)
  | Top n => avl_insert_top n s
  | Before w n => avl_insert_before w n s
  | After w n => avl_insert_after w n s
  | Unlink n => avl_unlink_node n s
  end.

(** What the operation does to a sequence of nodes; no answer if it may not be used:
    the node to insert is already there or the node referred to is not. *)
Inductive seq_op : op -> list nat -> list nat -> Prop :=
| do_clear : forall xs, seq_op Clear xs []
| do_top : forall xs n, seq_op (Top n) xs [n]
| do_last : forall xs n, ~ In n xs -> seq_op (Before None n) xs (xs ++ [n])
| do_first : forall xs n, ~ In n xs -> seq_op (After None n) xs (n :: xs)
| do_before : forall xs a ys n, ~ In n (xs ++ a :: ys) -> seq_op (Before (Some a) n) (xs ++ a :: ys) (xs ++ n :: a :: ys)
| do_after : forall xs a ys n, ~ In n (xs ++ a :: ys) -> seq_op (After (Some a) n) (xs ++ a :: ys) (xs ++ a :: n :: ys)
| do_unlink : forall xs a ys, seq_op (Unlink a) (xs ++ a :: ys) (xs ++ ys).

Inductive seq_ops : list op -> list nat -> list nat -> Prop :=
| ops_nil : forall xs, seq_ops [] xs xs
| ops_cons : forall o os xs ys zs, seq_op o xs ys -> seq_ops os ys zs -> seq_ops (o :: os) xs zs.

Fixpoint run_ops (os : list op) (s : avl) : outcome avl :=
  match os with
  | [] => Ret s
  | o :: os => s <- run_op o s ;; run_ops os s
  end.

(** every operation that may be used succeeds on the pointers and the result is a
    balanced threaded tree of the new sequence *)
Theorem C36_each_operation : forall o s xs ys,
  holds s xs -> seq_op o xs ys -> allocatable xs -> allocatable ys ->
  exists s', run_op o s = Ret s' /\ holds s' ys.
Proof.
  intros o s xs ys H O A1 A2. destruct O; cbn [run_op].
  - eexists. split; [reflexivity|apply clear_holds].
  - apply insert_top_ok.
  - apply insert_before_null; auto. eapply alloc_le; [|exact A2]. rewrite app_length. cbn. lia.
  - apply insert_after_null; auto.
  - apply insert_before_node; auto. eapply alloc_le; [|exact A2]. cbn [length]. rewrite !app_length. cbn. lia.
  - apply insert_after_node; auto. eapply alloc_le; [|exact A2]. cbn [length]. rewrite !app_length. cbn. lia.
  - destruct (unlink_node s xs a ys H A1) as (s' & E & H' & _). eauto.
Qed.
Print Assumptions C36_each_operation.

(** at most [k] insertions happen, so all sequences stay small *)
Lemma seq_op_length : forall o xs ys, seq_op o xs ys -> (length ys <= S (length xs))%nat.
Proof. intros o xs ys O. destruct O; cbn; rewrite ?app_length; cbn; lia. Qed.

(** ** every history: any sequence of operations, starting from an empty tree with
    arbitrary contents of the node memory *)
Theorem C36_every_history : forall os s xs,
  seq_ops os [] xs -> Z.of_nat (length os) < 2 ^ 120 ->
  hd_ s = None -> tl_ s = None -> tp s = None ->
  exists s', run_ops os s = Ret s' /\ holds s' xs.
Proof.
  intros os s xs O HL H1 H2 H3.
  assert (G : forall os ws zs s, seq_ops os ws zs -> holds s ws -> Z.of_nat (length ws + length os) < 2 ^ 120 ->
     exists s', run_ops os s = Ret s' /\ holds s' zs).
  { clear. induction os as [|o os IH]; intros ws zs s O H HL; inversion O; subst.
    - exists s. auto.
    - match goal with A : seq_op _ _ _, B : seq_ops _ _ _ |- _ =>
        pose proof (seq_op_length _ _ _ A) as L; cbn [length] in HL;
        destruct (C36_each_operation o s ws _ H A) as (s1 & E1 & K1); [unfold allocatable; lia|unfold allocatable; lia|];
        destruct (IH _ _ s1 B K1) as (s2 & E2 & K2); [lia|] end.
      exists s2. cbn [run_ops]. rewrite E1. auto. }
  apply (G os [] xs s O); [apply holds_nil; assumption|cbn; lia].
Qed.
Print Assumptions C36_every_history.

(** the tree is never deeper than 2 log2 (number of nodes + 1) + 1 *)
Theorem C36_depth_logarithmic : forall s xs, holds s xs ->
  exists t, inorder t = xs /\ points_to s t None (tp s) /\
    2 ^ (Z.of_nat (height t) / 2) <= Z.of_nat (length xs) + 1.
Proof.
  intros s xs (_ & (t & <- & B & P) & _). exists t. split; [reflexivity|]. split; [exact P|].
  apply balanced_height. exact B.
Qed.
Print Assumptions C36_depth_logarithmic.

(** [holds] determines what a client sees: walking next from the head or prev from the
    tail gives the sequence *)
Fixpoint walk_next (k : nat) (s : avl) (p : option nat) : list nat :=
  match k, p with
  | S k, Some n => n :: walk_next k s (AvlModel.nxt s n)
  | _, _ => []
  end.
Fixpoint walk_prev (k : nat) (s : avl) (p : option nat) : list nat :=
  match k, p with
  | S k, Some n => n :: walk_prev k s (AvlModel.prv s n)
  | _, _ => []
  end.

Theorem C36_walks : forall s xs, holds s xs -> forall k, (length xs <= k)%nat ->
  walk_next k s (hd_ s) = xs /\ walk_prev k s (tl_ s) = rev xs.
Proof.
  intros s xs (_ & _ & Hh & Ht & L) k Hk. rewrite Hh, Ht. clear Hh Ht. split.
  - assert (G : forall xs k p, linked s p xs None -> (length xs <= k)%nat -> walk_next k s (hd_error xs) = xs).
    { clear. induction xs as [|x xs IH]; intros k p L Hk; [destruct k; reflexivity|].
      destruct k as [|k]; [cbn in Hk; lia|]. cbn [hd_error walk_next]. cbn [linked] in L. destruct L as (_ & E & L).
      f_equal. rewrite E. replace (match xs with y :: _ => Some y | [] => None end) with (hd_error xs) by (destruct xs; reflexivity).
      eapply IH; [exact L|cbn in Hk; lia]. }
    eapply G; eauto.
  - (* walking back does not look at the next pointers *)
    assert (G : forall us j q, linked s None us q -> (length us <= j)%nat -> walk_prev j s (last_error us) = rev us).
    { clear. induction us as [|u us IHu] using rev_ind; intros j q Lk Hj; [destruct j; reflexivity|].
      rewrite last_error_snoc, rev_unit. rewrite app_length in Hj. cbn in Hj. destruct j as [|j]; [lia|].
      cbn [walk_prev]. f_equal. destruct (linked_at us u [] s None q Lk) as [E _]. rewrite E.
      apply linked_app in Lk. destruct Lk as [Lk _].
      replace (last_or us None) with (last_error us) by (unfold last_or; destruct (last_error us); reflexivity).
      eapply IHu; [exact Lk|lia]. }
    eapply G; eauto.
Qed.
Print Assumptions C36_walks.

(** a history with insertions that rotate in all directions and removals, from garbage *)
Definition garbage : avl :=
  mkAvl (fun n => Some (7 * n)%nat) (fun n => Some (n + 3)%nat) (fun n => Some 1%nat) (fun n => Some n) (fun n => Some 0%nat)
        (fun n => (n * 5)%nat) None None None.
Definition history : list op :=
  [Before None 1; Before None 2; Before None 3; Before None 4; Before None 5; Before None 6; Before None 7;
   After None 8; After None 9; After (Some 9) 10; Before (Some 4) 11; After (Some 11) 12; Unlink 4; Unlink 8; Unlink 1]%nat.

Example C36_nonvacuous :
  seq_ops history [] [9; 10; 2; 3; 11; 12; 5; 6; 7]%nat /\
  (exists s, run_ops history garbage = Ret s /\ walk_next 20 s (hd_ s) = [9; 10; 2; 3; 11; 12; 5; 6; 7]%nat /\
     walk_prev 20 s (tl_ s) = rev [9; 10; 2; 3; 11; 12; 5; 6; 7]%nat) /\
  hd_ garbage = None /\ tl_ garbage = None /\ tp garbage = None.
Proof.
  split; [|split; [eexists; split; [vm_compute; reflexivity|split; vm_compute; reflexivity]|auto]].
  assert (B : forall xs a ys n zs ws us, zs = xs ++ a :: ys -> us = xs ++ n :: a :: ys -> ~ In n zs ->
     forall os, seq_ops os us ws -> seq_ops (Before (Some a) n :: os) zs ws)
    by (intros; subst; econstructor; [apply do_before; assumption|assumption]).
  assert (A : forall xs a ys n zs ws us, zs = xs ++ a :: ys -> us = xs ++ a :: n :: ys -> ~ In n zs ->
     forall os, seq_ops os us ws -> seq_ops (After (Some a) n :: os) zs ws)
    by (intros; subst; econstructor; [apply do_after; assumption|assumption]).
  assert (U : forall xs a ys zs ws us, zs = xs ++ a :: ys -> us = xs ++ ys ->
     forall os, seq_ops os us ws -> seq_ops (Unlink a :: os) zs ws)
    by (intros; subst; econstructor; [apply do_unlink|assumption]).
  assert (D : forall n xs, (if in_dec Nat.eq_dec n xs then False else True) -> ~ In n xs)
    by (intros n xs; destruct (in_dec Nat.eq_dec n xs); [contradiction|auto]).
  unfold history.
  repeat (eapply ops_cons; [first [apply do_last|apply do_first]; apply D; vm_compute; exact I|cbn [app]]).
  eapply (A [] 9%nat); [reflexivity|reflexivity|apply D; vm_compute; exact I|cbn [app]].
  eapply (B [9; 10; 8; 1; 2; 3]%nat 4%nat); [reflexivity|reflexivity|apply D; vm_compute; exact I|cbn [app]].
  eapply (A [9; 10; 8; 1; 2; 3]%nat 11%nat); [reflexivity|reflexivity|apply D; vm_compute; exact I|cbn [app]].
  eapply (U [9; 10; 8; 1; 2; 3; 11; 12]%nat); [reflexivity|reflexivity|cbn [app]].
  eapply (U [9; 10]%nat); [reflexivity|reflexivity|cbn [app]].
  eapply (U [9; 10]%nat); [reflexivity|reflexivity|cbn [app]].
  apply ops_nil.
Qed.

(** ** C37: search.  [cmp n] is the comparison of the item searched for with the item
    of node n: positive if it belongs after n.  [ordered cmp xs]: the comparison is
    monotone along the sequence, as it is when the sequence is sorted. *)
Lemma sorted_ordered : forall cmp xs, StronglySorted (fun a b => cmp b <= cmp a) xs -> ordered cmp xs.
Proof.
  intros cmp xs H ws a ys b zs ->. induction ws as [|w ws IH]; [|apply IH; inversion H; assumption].
  cbn [app] in H. inversion H as [|? ? _ F]; subst. rewrite Forall_forall in F. specialize (F b).
  rewrite in_app_iff in F. cbn in F. specialize (F (or_intror (or_introl eq_refl))).
  destruct (cmp a), (cmp b); cbn; lia.
Qed.

Theorem C37_search_closest : forall cmp s xs,
  holds s xs -> allocatable xs -> ordered cmp xs ->
  (xs = [] /\ avl_search_closest cmp s = Ret (None, 0)) \/
  exists ws m ys c, xs = ws ++ m :: ys /\ avl_search_closest cmp s = Ret (Some m, c) /\
    ((c = 0 /\ cmp m = 0) \/
     (c = -1 /\ Forall (fun i => cmp i > 0) ws /\ Forall (fun i => cmp i < 0) (m :: ys)) \/
     (c = 1 /\ Forall (fun i => cmp i > 0) (ws ++ [m]) /\ Forall (fun i => cmp i < 0) ys)).
Proof.
  intros cmp s xs H A O. destruct (search_ok cmp s xs H A O) as [K|(m & c & E & ws & ys & Ex & C)]; [left; exact K|right].
  exists ws, m, ys, c. split; [exact Ex|]. split; [exact E|].
  destruct C as [C|[[[C1 C2] [C3 C4]]|[[C1 C2] [C3 C4]]]].
  - left. exact C.
  - right. left. split; [exact C1|]. split; [exact C3|]. constructor; assumption.
  - right. right. split; [exact C1|]. split; [|exact C4]. apply Forall_app. split; [exact C3|]. repeat constructor. exact C2.
Qed.
Print Assumptions C37_search_closest.

(** equality is reported exactly when there is an equal item *)
Theorem C37_equality_reported_iff : forall cmp s xs m c,
  holds s xs -> allocatable xs -> ordered cmp xs -> avl_search_closest cmp s = Ret (Some m, c) ->
  (c = 0 <-> exists e, In e xs /\ cmp e = 0).
Proof.
  intros cmp s xs m c H A O E.
  destruct (C37_search_closest cmp s xs H A O) as [[_ E']|(ws & m' & ys & c' & Ex & E' & C)]; rewrite E in E'; [discriminate|].
  injection E' as <- <-. split.
  - intros ->. destruct C as [[_ C]|[[C _]|[C _]]]; try discriminate. exists m. split; [rewrite Ex; apply in_app_iff; simpl; auto|exact C].
  - intros (e & He & Ce). destruct C as [[C _]|[(C & F1 & F2)|(C & F1 & F2)]]; [exact C|exfalso|exfalso];
      rewrite Forall_forall in F1, F2; rewrite Ex in He; apply in_app_iff in He; simpl in He, F2.
    + destruct He as [He|He]; [specialize (F1 e He)|specialize (F2 e He)]; lia.
    + destruct He as [He|[->|He]]; [| |specialize (F2 e He); lia];
        specialize (F1 e); rewrite in_app_iff in F1; simpl in F1; assert (cmp e > 0) by (apply F1; auto); lia.
Qed.
Print Assumptions C37_equality_reported_iff.

(** searching and then inserting on the side told by the sign puts the new node between
    the smaller and the larger items *)
Theorem C37_insert_sorted : forall cmp s xs n m c,
  holds s xs -> allocatable (n :: xs) -> ordered cmp xs -> ~ In n xs ->
  avl_search_closest cmp s = Ret (Some m, c) -> c <> 0 ->
  exists ws ys s', xs = ws ++ ys /\ Forall (fun i => cmp i > 0) ws /\ Forall (fun i => cmp i < 0) ys /\
    (if c <? 0 then avl_insert_before (Some m) n s else avl_insert_after (Some m) n s) = Ret s' /\
    holds s' (ws ++ n :: ys).
Proof.
  intros cmp s xs n m c H A O Nn E Hc.
  assert (A' : allocatable xs) by (eapply alloc_le; [|exact A]; cbn; lia).
  destruct (C37_search_closest cmp s xs H A' O) as [[_ E']|(ws & m' & ys & c' & Ex & E' & C)]; rewrite E in E'; [discriminate|].
  injection E' as <- <-. subst xs. destruct C as [[C _]|[(-> & F1 & F2)|(-> & F1 & F2)]]; [contradiction| |].
  - destruct (insert_before_node s ws m ys n H Nn A) as (s' & E1 & H1).
    exists ws, (m :: ys), s'. auto.
  - destruct (insert_after_node s ws m ys n H Nn A) as (s' & E1 & H1).
    exists (ws ++ [m]), ys, s'. rewrite <- !app_assoc. auto.
Qed.
Print Assumptions C37_insert_sorted.

(** node n holds the item 10 n; look for 35 and for 40 *)
Example C37_nonvacuous :
  exists s, run_ops [Before None 1; Before None 2; Before None 4; Before None 5; Before None 6]%nat garbage = Ret s /\
    avl_search_closest (fun n => 35 - 10 * Z.of_nat n) s = Ret (Some 4%nat, -1) /\
    avl_search_closest (fun n => 65 - 10 * Z.of_nat n) s = Ret (Some 6%nat, 1) /\
    avl_search_closest (fun n => 40 - 10 * Z.of_nat n) s = Ret (Some 4%nat, 0) /\
    ordered (fun n => 35 - 10 * Z.of_nat n) [1; 2; 4; 5; 6]%nat.
Proof.
  eexists. split; [vm_compute; reflexivity|]. do 3 (split; [vm_compute; reflexivity|]).
  apply sorted_ordered. repeat constructor; cbn; lia.
Qed.

(** ** C47: the hypervolume computed through the pointer tree is exact, for every number
    of objectives and whatever the uninitialised memory holds.  As for C10 the sort must
    be stable when there are four or more objectives and ties. *)
Theorem C47_hypervolume_with_pointer_tree :
  forall mem sort2d sortd dbl_max g d (pts : list point) (ref : point),
  valid_sort2d sort2d -> valid_sort sortd -> (d <= 3)%nat \/ stable_sort sortd ->
  wf_points d pts -> length ref = d -> (2 <= d)%nat ->
  (forall p i, In p pts -> (i < d)%nat -> - dbl_max <= coord p i) ->
  Z.of_nat (length pts) < 2 ^ 120 ->
  exists v, fpli_hv_avl mem sort2d sortd dbl_max g pts d ref = Ret v /\ hypervolume pts ref v.
Proof. intros. apply fpli_hv_avl_ok; auto. tauto. Qed.
Print Assumptions C47_hypervolume_with_pointer_tree.

Example C47_nonvacuous :
  let pts := [[1;1;1;1;7]; [1;1;1;2;3]; [5;5;0;3;2]; [2;0;6;1;1]; [0;7;2;2;2]; [3;3;1;0;4]; [4;2;2;1;1]] in
  fpli_hv_avl garbage sort2d_exec sortd_exec 1000 st0 pts 5 [10;10;10;10;10] =
  fpli_hv sort2d_exec sortd_exec 1000 st0 pts 5 [10;10;10;10;10] /\
  fpli_hv_avl garbage sort2d_exec sortd_exec 1000 st0 pts 5 [10;10;10;10;10] = Ret 62535 /\
  stable_sort sortd_exec /\ wf_points 5 pts.
Proof.
  split. vm_compute; reflexivity. split. vm_compute; reflexivity. split. apply sortd_exec_stable. repeat constructor.
Qed.
