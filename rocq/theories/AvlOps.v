(** Proofs about insertion, removal and search in the AVL tree of AvlModel.v. *)
From Coq Require Import List ZArith Lia Bool Arith.
From Verif Require Import Base AvlModel AvlSpec AvlProofs AvlRotate.
Import ListNotations.
Open Scope nat_scope.

(** * Finding a node in the tree *)

Lemma height_plug : forall c t, length c + height t <= height (plug c t).
Proof.
  induction c as [|[n r|l n] c IH]; intros t; cbn [plug length]; [lia| |].
  - specialize (IH (Node t n r)). cbn [height] in IH. lia.
  - specialize (IH (Node l n t)). cbn [height] in IH. lia.
Qed.

Lemma split_at : forall t s c0 pr root a,
  points_to s t pr root -> balanced t -> ctx_ok s c0 root pr -> ctx_bal c0 (height t) -> In a (inorder t) ->
  exists c l r, plug c (Node l a r) = plug c0 t /\
    points_to s l (Some a) (lft s a) /\ points_to s r (Some a) (rgt s a) /\
    ctx_ok s c (Some a) (par s a) /\ ctx_bal c (height (Node l a r)) /\ balanced (Node l a r) /\
    dep s a = height (Node l a r).
Proof.
  induction t as [|l IHl n r IHr]; intros s c0 pr root a H B C CB Hin; [destruct Hin|].
  cbn [points_to] in H. destruct H as (-> & Hp & Hd & Hl & Hr). pose proof B as B'. cbn [balanced] in B'. destruct B' as (B1 & B2 & Bl & Br).
  cbn [inorder] in Hin. apply in_app_or in Hin. destruct Hin as [Hin|[->|Hin]].
  - destruct (IHl s (FL n r :: c0) (Some n) (lft s n) a Hl Bl) as (c & l' & r' & E & R); auto.
    + cbn [ctx_ok]. rewrite Hp. auto.
    + cbn [ctx_bal]. cbn [height] in CB. auto.
    + exists c, l', r'. split; [exact E|exact R].
  - exists c0, l, r. subst pr. auto 10.
  - destruct (IHr s (FR l n :: c0) (Some n) (rgt s n) a Hr Br) as (c & l' & r' & E & R); auto.
    + cbn [ctx_ok]. rewrite Hp. auto.
    + cbn [ctx_bal]. cbn [height] in CB. rewrite Nat.max_comm. auto.
    + exists c, l', r'. split; [exact E|exact R].
Qed.

(** * The linked list *)

Definition first_or (xs : list nat) (q : option nat) : option nat := match xs with y :: _ => Some y | [] => q end.
Definition last_or (xs : list nat) (p : option nat) : option nat := match last_error xs with Some y => Some y | None => p end.

Lemma last_error_snoc : forall xs x, last_error (xs ++ [x]) = Some x.
Proof. induction xs as [|y xs IH]; intros x; [reflexivity|]. cbn. rewrite IH. destruct (xs ++ [x]) eqn:E; [destruct xs; discriminate|reflexivity]. Qed.
Lemma last_error_app : forall xs x ys, last_error (xs ++ x :: ys) = last_error (x :: ys).
Proof. induction xs as [|y xs IH]; intros x ys; [reflexivity|]. cbn [app last_error]. rewrite IH. destruct (xs ++ x :: ys) eqn:E; [destruct xs; discriminate|reflexivity]. Qed.
Lemma last_error_In : forall xs x, last_error xs = Some x -> In x xs.
Proof. induction xs as [|y xs IH]; intros x H; [discriminate|]. cbn in H. destruct xs; [injection H as ->; left; reflexivity|right; apply IH; exact H]. Qed.
Lemma last_error_none : forall xs, last_error xs = None -> xs = [].
Proof. induction xs as [|y xs IH]; intros H; [reflexivity|]. cbn in H. destruct xs; [discriminate|]. apply IH in H. discriminate. Qed.

Lemma last_or_cons : forall x xs p, last_or (x :: xs) p = last_or xs (Some x).
Proof. intros x [|y xs] p; [reflexivity|]. unfold last_or. change (last_error (x :: y :: xs)) with (last_error (y :: xs)). destruct (last_error (y :: xs)) eqn:E; [reflexivity|]. apply last_error_none in E. discriminate. Qed.

Lemma linked_app : forall xs ys s p q,
  linked s p (xs ++ ys) q <-> linked s p xs (first_or ys q) /\ linked s (last_or xs p) ys q.
Proof.
  induction xs as [|x xs IH]; intros ys s p q; [cbn; tauto|].
  cbn [app linked]. rewrite IH, last_or_cons.
  assert (E : match xs ++ ys with y :: _ => Some y | [] => q end = match xs with y :: _ => Some y | [] => first_or ys q end) by (destruct xs; reflexivity).
  rewrite E. tauto.
Qed.

Lemma linked_change : forall xs s s' p q p' q',
  linked s p xs q -> NoDup xs ->
  (forall x, In x xs -> hd_error xs <> Some x -> prv s' x = prv s x) ->
  (forall x, In x xs -> last_error xs <> Some x -> nxt s' x = nxt s x) ->
  (forall x, hd_error xs = Some x -> prv s' x = p') ->
  (forall x, last_error xs = Some x -> nxt s' x = q') ->
  linked s' p' xs q'.
Proof.
  induction xs as [|x xs IH]; intros s s' p q p' q' H ND F1 F2 F3 F4; [exact I|].
  cbn [linked] in *. destruct H as (H1 & H2 & H3). inversion ND; subst.
  split; [apply F3; reflexivity|]. destruct xs as [|y xs].
  - split; [apply F4; reflexivity|exact I].
  - assert (NL : last_error (x :: y :: xs) <> Some x).
    { intro E. change (last_error (y :: xs) = Some x) in E. apply last_error_In in E. contradiction. }
    split; [rewrite F2; [exact H2|left; reflexivity|exact NL]|].
    apply (IH s s' (Some x) q (Some x) q' H3); [assumption| | | |].
    + intros z Hz Hne. apply F1; [right; exact Hz|]. cbn. intro E. injection E as ->. contradiction.
    + intros z Hz Hne. apply F2; [right; exact Hz|]. exact Hne.
    + intros z Hz. cbn in Hz. injection Hz as <-. rewrite F1; [destruct H3; assumption|right; left; reflexivity|].
      cbn. intro E. injection E as ->. apply H4. left. reflexivity.
    + intros z Hz. apply F4. exact Hz.
Qed.

Lemma linked_frame : forall xs s s' p q,
  linked s p xs q -> (forall x, In x xs -> prv s' x = prv s x /\ nxt s' x = nxt s x) -> linked s' p xs q.
Proof.
  induction xs as [|x xs IH]; intros s s' p q H F; [exact I|]. cbn [linked] in *. destruct H as (H1 & H2 & H3).
  destruct (F x) as [A B]; [left; reflexivity|]. split; [congruence|]. split; [congruence|]. apply (IH s); [exact H3|]. intros z Hz. apply F. right. exact Hz.
Qed.

Lemma linked_at : forall xs a ys s p q, linked s p (xs ++ a :: ys) q -> prv s a = last_or xs p /\ nxt s a = first_or ys q.
Proof. intros xs a ys s p q H. apply linked_app in H. destruct H as [_ H]. cbn [linked] in H. destruct H as (A & B & _). split; assumption. Qed.

(** putting [n] between [xs] and [ys] *)
Lemma linked_insert : forall xs n ys s s',
  linked s None (xs ++ ys) None -> NoDup (xs ++ ys) -> ~ In n (xs ++ ys) ->
  prv s' n = last_error xs -> nxt s' n = hd_error ys ->
  (forall x, last_error xs = Some x -> nxt s' x = Some n) ->
  (forall x, hd_error ys = Some x -> prv s' x = Some n) ->
  (forall x, In x (xs ++ ys) -> last_error xs <> Some x -> nxt s' x = nxt s x) ->
  (forall x, In x (xs ++ ys) -> hd_error ys <> Some x -> prv s' x = prv s x) ->
  linked s' None (xs ++ n :: ys) None.
Proof.
  intros xs n ys s s' H ND Nn P1 P2 P3 P4 P5 P6. apply linked_app in H. destruct H as [Hx Hy].
  assert (NDx := nodup_l _ _ ND). assert (NDy := nodup_r _ _ ND).
  apply linked_app. split.
  - cbn [first_or]. apply (linked_change xs s s' _ _ None (Some n) Hx NDx).
    + intros x Hx' _. apply P6; [apply in_or_app; left; exact Hx'|]. intro E. apply (nodup_disj _ _ x ND Hx').
      destruct ys; [discriminate|]. injection E as ->. left. reflexivity.
    + intros x Hx' E. apply P5; [apply in_or_app; left; exact Hx'|exact E].
    + intros x E. rewrite P6.
      * destruct xs; [discriminate|]. injection E as ->. destruct Hx as [A _]. exact A.
      * destruct xs; [discriminate|]. injection E as ->. left. reflexivity.
      * intro E'. apply (nodup_disj _ _ x ND); [destruct xs; [discriminate|]; injection E as ->; left; reflexivity|].
        destruct ys; [discriminate|]. injection E' as ->. left. reflexivity.
    + exact P3.
  - cbn [linked]. split; [|split].
    + rewrite P1. unfold last_or. destruct (last_error xs); reflexivity.
    + rewrite P2. destruct ys; reflexivity.
    + apply (linked_change ys s s' _ None (Some n) None Hy NDy).
      * intros x Hx' E. apply P6; [apply in_or_app; right; exact Hx'|exact E].
      * intros x Hx' _. apply P5; [apply in_or_app; right; exact Hx'|]. intro E. apply (nodup_disj _ _ x ND); [apply last_error_In; exact E|exact Hx'].
      * exact P4.
      * intros x E. rewrite P5.
        { assert (L : linked s (last_or xs None) ys None) by exact Hy. clear -L E. revert L. generalize (last_or xs None) as p.
          induction ys as [|y ys IH]; intros p L; [discriminate|]. cbn [linked] in L. destruct L as (_ & L2 & L3).
          destruct ys as [|y' ys]; [cbn in E; injection E as <-; exact L2|]. apply (IH E (Some y)). exact L3. }
        { apply in_or_app. right. apply last_error_In. exact E. }
        { intro E'. apply (nodup_disj _ _ x ND); apply last_error_In; assumption. }
Qed.

(** taking [a] out from between [xs] and [ys] *)
Lemma linked_remove : forall xs a ys s s',
  linked s None (xs ++ a :: ys) None -> NoDup (xs ++ a :: ys) ->
  (forall x, last_error xs = Some x -> nxt s' x = hd_error ys) ->
  (forall x, hd_error ys = Some x -> prv s' x = last_error xs) ->
  (forall x, In x (xs ++ ys) -> last_error xs <> Some x -> nxt s' x = nxt s x) ->
  (forall x, In x (xs ++ ys) -> hd_error ys <> Some x -> prv s' x = prv s x) ->
  linked s' None (xs ++ ys) None.
Proof.
  intros xs a ys s s' H ND P3 P4 P5 P6. apply linked_app in H. destruct H as [Hx Hy]. cbn [linked] in Hy. destruct Hy as (Ha1 & Ha2 & Hy).
  assert (ND' := NoDup_remove_1 _ _ _ ND). assert (NDx := nodup_l _ _ ND'). assert (NDy := nodup_r _ _ ND').
  apply linked_app. split.
  - apply (linked_change xs s s' _ _ None (first_or ys None) Hx NDx).
    + intros x Hx' _. apply P6; [apply in_or_app; left; exact Hx'|]. intro E. apply (nodup_disj _ _ x ND' Hx').
      destruct ys; [discriminate|]. injection E as ->. left. reflexivity.
    + intros x Hx' E. apply P5; [apply in_or_app; left; exact Hx'|exact E].
    + intros x E. rewrite P6.
      * destruct xs; [discriminate|]. injection E as ->. destruct Hx as [A _]. exact A.
      * destruct xs; [discriminate|]. injection E as ->. left. reflexivity.
      * intro E'. apply (nodup_disj _ _ x ND'); [destruct xs; [discriminate|]; injection E as ->; left; reflexivity|].
        destruct ys; [discriminate|]. injection E' as ->. left. reflexivity.
    + intros x E. rewrite (P3 x E). destruct ys; reflexivity.
  - apply (linked_change ys s s' _ None (last_or xs None) None Hy NDy).
    + intros x Hx' E. apply P6; [apply in_or_app; right; exact Hx'|exact E].
    + intros x Hx' _. apply P5; [apply in_or_app; right; exact Hx'|]. intro E. apply (nodup_disj _ _ x ND'); [apply last_error_In; exact E|exact Hx'].
    + intros x E. rewrite (P4 x E). unfold last_or. destruct (last_error xs); reflexivity.
    + intros x E. rewrite P5.
      { clear -Hy E. revert Hy. generalize (Some a) as p.
        induction ys as [|y ys IH]; intros p L; [discriminate|]. cbn [linked] in L. destruct L as (_ & L2 & L3).
        destruct ys as [|y' ys]; [cbn in E; injection E as <-; exact L2|]. apply (IH E (Some y)). exact L3. }
      { apply in_or_app. right. apply last_error_In. exact E. }
      { intro E'. apply (nodup_disj _ _ x ND'); apply last_error_In; assumption. }
Qed.

Lemma nodup_insert : forall (xs ys : list nat) n, NoDup (xs ++ ys) -> ~ In n (xs ++ ys) -> NoDup (xs ++ n :: ys).
Proof.
  intros xs ys n ND Nn. apply nodup_app_iff; [eapply nodup_l; eassumption| |].
  - constructor; [intro; apply Nn; apply in_or_app; right; assumption|eapply nodup_r; eassumption].
  - intros x X [->|Y]; [apply Nn; apply in_or_app; left; exact X|exact (nodup_disj _ _ x ND X Y)].
Qed.

Lemma split_unique : forall (xs xs' ys ys' : list nat) a, NoDup (xs ++ a :: ys) -> xs ++ a :: ys = xs' ++ a :: ys' -> xs = xs' /\ ys = ys'.
Proof.
  induction xs as [|x xs IH]; intros [|x' xs'] ys ys' a ND E; cbn in *.
  - injection E as ->. auto.
  - injection E as <- ->. inversion ND; subst. exfalso. apply H1. apply in_or_app. right. left. reflexivity.
  - injection E as -> <-. inversion ND; subst. exfalso. apply H1. apply in_or_app. right. left. reflexivity.
  - injection E as <- E. inversion ND; subst. destruct (IH xs' ys ys' a H2 E) as [-> ->]. auto.
Qed.

(** * Insertion *)

Lemma links_of : forall s s' xs, same_links s s' -> hd_ s = hd_error xs -> tl_ s = last_error xs -> linked s None xs None ->
  hd_ s' = hd_error xs /\ tl_ s' = last_error xs /\ linked s' None xs None.
Proof.
  intros s s' xs (A & B & C & D) H1 H2 H3. rewrite C, D. split; [exact H1|]. split; [exact H2|].
  apply (linked_frame xs s); [exact H3|]. intros x _. rewrite A, B. auto.
Qed.

Ltac ne := first [assumption | congruence | (intros ->; contradiction) | (intro; subst; contradiction)].
Ltac fo := repeat first [rewrite fset_same | rewrite fset_other by ne].

Lemma insert_before_leaf : forall k s xs a ys n,
  holds s (xs ++ a :: ys) -> ~ In n (xs ++ a :: ys) -> allocatable (n :: xs ++ a :: ys) -> lft s a = None ->
  exists s', insert_before (S k) (Some a) n s = Ret s' /\ holds s' (xs ++ n :: a :: ys).
Proof.
  intros k s xs a ys n (ND & (t & It & Bt & Pt) & Hh & Ht & HL) Nn Al La.
  destruct (split_at t s [] None (tp s) a Pt Bt) as (c & l & r & Ep & Pl & Pr & Cc & CB & B & Dd); [cbn; auto|exact I|rewrite It; apply in_or_app; right; left; reflexivity|].
  rewrite La in Pl. destruct l as [|ll ln lr]; [|destruct Pl as [Pl _]; discriminate]. clear Pl.
  cbn [plug] in Ep. pose proof It as It'. rewrite <- Ep, inorder_plug in It'. cbn [inorder app] in It'.
  assert (ND2 := ND). rewrite <- It' in ND2.
  destruct (split_unique _ _ _ _ _ ND2 It') as [Exs Eys].
  destruct (linked_at _ _ _ _ _ _ HL) as [Ha Hb].
  assert (Ha' : prv s a = last_error xs) by (rewrite Ha; unfold last_or; destruct (last_error xs); reflexivity).
  assert (Nna : n <> a) by (intros ->; apply Nn; apply in_or_app; right; left; reflexivity).
  cbn [insert_before]. rewrite La.
  set (s5 := set_lft a (Some n) (set_prv a (Some n)
               (match prv s a with Some p => set_nxt p (Some n) | None => set_hd (Some n) end
                 (set_prv n (prv s a) (set_par n (Some a) (set_nxt n (Some a) (avl_clear_node n s))))))).
  match goal with |- exists s', ?e = _ /\ _ => assert (Ee : e = avl_rebalance s5 (Some a)) end.
  { cbv zeta. cbn [prv set_prv set_par set_nxt avl_clear_node set_dep set_rgt set_lft]. rewrite (fset_other _ (prv s) n _ a) by congruence.
    unfold s5. destruct (prv s a); reflexivity. }
  rewrite Ee. clear Ee.
  (* fields of s5 *)
  assert (F1 : forall i, lft s5 i = if i =? a then Some n else if i =? n then None else lft s i) by (intros i; unfold s5; destruct (prv s a); reflexivity).
  assert (F2 : forall i, rgt s5 i = if i =? n then None else rgt s i) by (intros i; unfold s5; destruct (prv s a); reflexivity).
  assert (F3 : forall i, par s5 i = if i =? n then Some a else par s i) by (intros i; unfold s5; destruct (prv s a); reflexivity).
  assert (F4 : forall i, dep s5 i = if i =? n then 1 else dep s i) by (intros i; unfold s5; destruct (prv s a); reflexivity).
  assert (F5 : tp s5 = tp s) by (unfold s5; destruct (prv s a); reflexivity).
  assert (F6 : forall i, prv s5 i = if i =? a then Some n else if i =? n then prv s a else prv s i) by (intros i; unfold s5; destruct (prv s a); reflexivity).
  assert (F7 : forall i, nxt s5 i = if opt_is (prv s a) i then Some n else if i =? n then Some a else nxt s i).
  { intros i; unfold s5; destruct (prv s a) as [p|]; cbn; [|reflexivity]. unfold fset. rewrite (Nat.eqb_sym i p). reflexivity. }
  assert (F8 : hd_ s5 = match prv s a with Some _ => hd_ s | None => Some n end) by (unfold s5; destruct (prv s a); reflexivity).
  assert (F9 : tl_ s5 = tl_ s) by (unfold s5; destruct (prv s a); reflexivity).
  clearbody s5.
  assert (Old : forall i, In i (inorder t) -> i <> n) by (intros i Hi ->; apply Nn; rewrite <- It; exact Hi).
  rewrite <- Ep, inorder_plug in Old. cbn [inorder app] in Old.
  assert (Inc : forall i, In i (cnodes c) -> i <> n /\ i <> a).
  { intros i Hi. split; [apply Old; apply in_app_or in Hi; apply in_or_app; destruct Hi; [left|right; right; apply in_or_app; right]; assumption|].
    intros ->. apply NoDup_remove_2 in ND2. apply ND2. apply in_app_or in Hi. apply in_or_app. destruct Hi; [left|right; apply in_or_app; right]; assumption. }
  assert (Inr : forall i, In i (inorder r) -> i <> n /\ i <> a).
  { intros i Hi. split; [apply Old; apply in_or_app; right; right; apply in_or_app; left; assumption|].
    intros ->. apply NoDup_remove_2 in ND2. apply ND2. apply in_or_app. right. apply in_or_app. left. assumption. }
  assert (NDr : NoDup (inorder r)) by (apply nodup_r in ND2; inversion ND2; subst; eapply nodup_l; eassumption).
  assert (NDc : NoDup (cnodes c)).
  { apply nodup_app_iff; [eapply nodup_l; eassumption|apply nodup_r in ND2; inversion ND2; subst; eapply nodup_r; eassumption|].
    intros x X Y. apply (nodup_disj _ _ x ND2 X). right. apply in_or_app. right. exact Y. }
  assert (Eqn : forall i j : nat, i <> j -> (i =? j) = false) by (intros; apply Nat.eqb_neq; assumption).
  destruct (rebalance_loop_ok (FL a r :: c) s5 (Node Leaf n Leaf) (Some n) (Some a) 0 FUEL) as (s' & t' & E & P & B' & I' & L').
  - cbn [points_to]. rewrite F1, F2, F3, F4, Nat.eqb_refl, (Eqn n a Nna). auto.
  - cbn [ctx_ok]. rewrite F1, F2, F3, Nat.eqb_refl, (Eqn a n) by congruence. split; [reflexivity|]. split; [reflexivity|]. split.
    + apply (points_to_frame r s s5 _ _ _ Pr NDr).
      * intros i Hi. destruct (Inr i Hi) as [X Y]. rewrite F1, F2, F3, F4, (Eqn i a Y), (Eqn i n X). auto.
      * intros q Hq. rewrite Hq in Pr. assert (Hi := points_to_root _ _ _ _ Pr). destruct (Inr q Hi) as [X Y]. rewrite F3, (Eqn q n X).
        eapply points_to_par; eassumption.
    + apply (ctx_ok_frame c s s5 _ _ Cc NDc); [|exact F5].
      intros i Hi. destruct (Inc i Hi) as [X Y]. rewrite F1, F2, F3, F4, (Eqn i a Y), (Eqn i n X). auto.
  - cbn. lia.
  - cbn [ctx_bal]. cbn [height balanced] in *. destruct B as (B1 & B2 & _ & Br). split; [lia|]. split; [lia|]. split; [exact Br|].
    cbn [Nat.max] in CB |- *. exact CB.
  - cbn. lia.
  - lia.
  - rewrite inorder_plug. cbn [pre post inorder app]. apply nodup_insert; [exact ND2|]. rewrite It'. exact Nn.
  - unfold allocatable in *. rewrite inorder_plug. cbn [pre post inorder app]. rewrite app_length. cbn [length] in *. rewrite <- It', !app_length in Al. cbn [length] in *. lia.
  - cbn [length]. assert (Hs : height t < 242) by (apply height_small; [exact Bt|rewrite It; unfold allocatable in Al; cbn [length] in Al; lia]).
    pose proof (height_plug c (Node Leaf a r)) as Hp. rewrite Ep in Hp. unfold FUEL. lia.
  - exists s'. split; [exact E|].
    assert (I2 : inorder t' = xs ++ n :: a :: ys).
    { rewrite I', inorder_plug. cbn [pre post inorder app]. rewrite Exs, Eys. reflexivity. }
    split; [rewrite <- I2, I', inorder_plug; cbn [pre post inorder app]; apply nodup_insert; [exact ND2|rewrite It'; exact Nn]|].
    split; [exists t'; auto|].
    apply (links_of s5 s' _ L').
    + rewrite F8, Ha'. destruct xs as [|x xs]; [reflexivity|]. rewrite Hh. destruct (last_error (x :: xs)) eqn:El; [reflexivity|apply last_error_none in El; discriminate].
    + rewrite F9, Ht, !last_error_app. reflexivity.
    + apply (linked_insert xs n (a :: ys) s s5 HL ND Nn).
      * rewrite F6, Nat.eqb_refl, (Eqn n a Nna). exact Ha'.
      * rewrite F7, Nat.eqb_refl. destruct (opt_is (prv s a) n) eqn:Eo; [|reflexivity].
        exfalso. rewrite Ha' in Eo. destruct (last_error xs) as [p|] eqn:El; [|discriminate]. cbn in Eo. apply Nat.eqb_eq in Eo. subst p.
        apply Nn. apply in_or_app. left. apply last_error_In. exact El.
      * intros x Hx. rewrite F7, Ha', Hx. cbn. rewrite Nat.eqb_refl. reflexivity.
      * intros x Hx. cbn in Hx. injection Hx as <-. rewrite F6, Nat.eqb_refl. reflexivity.
      * intros x Hx Hne. rewrite F7, Ha'. destruct (last_error xs) as [p|]; cbn.
        { destruct (Nat.eqb_spec p x) as [->|]; [congruence|]. rewrite (Eqn x n) by (intros ->; contradiction). reflexivity. }
        { rewrite (Eqn x n) by (intros ->; contradiction). reflexivity. }
      * intros x Hx Hne. cbn in Hne. rewrite F6, (Eqn x a) by congruence. rewrite (Eqn x n) by (intros ->; contradiction). reflexivity.
Qed.

Lemma insert_after_leaf : forall k s xs a ys n,
  holds s (xs ++ a :: ys) -> ~ In n (xs ++ a :: ys) -> allocatable (n :: xs ++ a :: ys) -> rgt s a = None ->
  exists s', insert_after (S k) (Some a) n s = Ret s' /\ holds s' (xs ++ a :: n :: ys).
Proof.
  intros k s xs a ys n (ND & (t & It & Bt & Pt) & Hh & Ht & HL) Nn Al La.
  destruct (split_at t s [] None (tp s) a Pt Bt) as (c & l & r & Ep & Pl & Pr & Cc & CB & B & Dd); [cbn; auto|exact I|rewrite It; apply in_or_app; right; left; reflexivity|].
  rewrite La in Pr. destruct r as [|rl rn rr]; [|destruct Pr as [Pr _]; discriminate]. clear Pr.
  cbn [plug] in Ep. pose proof It as It'. rewrite <- Ep, inorder_plug in It'. cbn [inorder app] in It'. rewrite <- app_assoc in It'. cbn [app] in It'.
  assert (It2 : (pre c ++ inorder l) ++ a :: post c = xs ++ a :: ys) by (rewrite <- app_assoc; exact It').
  assert (ND2 := ND). rewrite <- It2 in ND2.
  destruct (split_unique _ _ _ _ _ ND2 It2) as [Exs Eys].
  destruct (linked_at _ _ _ _ _ _ HL) as [Ha Hb].
  assert (Hb' : nxt s a = hd_error ys) by (rewrite Hb; destruct ys; reflexivity).
  assert (Nna : n <> a) by (intros ->; apply Nn; apply in_or_app; right; left; reflexivity).
  cbn [insert_after]. rewrite La.
  set (s5 := set_rgt a (Some n) (set_nxt a (Some n)
               (match nxt s a with Some p => set_prv p (Some n) | None => set_tl (Some n) end
                 (set_nxt n (nxt s a) (set_par n (Some a) (set_prv n (Some a) (avl_clear_node n s))))))).
  match goal with |- exists s', ?e = _ /\ _ => assert (Ee : e = avl_rebalance s5 (Some a)) end.
  { cbv zeta. cbn [nxt set_nxt set_par set_prv avl_clear_node set_dep set_rgt set_lft]. rewrite (fset_other _ (nxt s) n _ a) by congruence.
    unfold s5. destruct (nxt s a); reflexivity. }
  rewrite Ee. clear Ee.
  assert (F1 : forall i, rgt s5 i = if i =? a then Some n else if i =? n then None else rgt s i) by (intros i; unfold s5; destruct (nxt s a); reflexivity).
  assert (F2 : forall i, lft s5 i = if i =? n then None else lft s i) by (intros i; unfold s5; destruct (nxt s a); reflexivity).
  assert (F3 : forall i, par s5 i = if i =? n then Some a else par s i) by (intros i; unfold s5; destruct (nxt s a); reflexivity).
  assert (F4 : forall i, dep s5 i = if i =? n then 1 else dep s i) by (intros i; unfold s5; destruct (nxt s a); reflexivity).
  assert (F5 : tp s5 = tp s) by (unfold s5; destruct (nxt s a); reflexivity).
  assert (F6 : forall i, nxt s5 i = if i =? a then Some n else if i =? n then nxt s a else nxt s i) by (intros i; unfold s5; destruct (nxt s a); reflexivity).
  assert (F7 : forall i, prv s5 i = if opt_is (nxt s a) i then Some n else if i =? n then Some a else prv s i).
  { intros i; unfold s5; destruct (nxt s a) as [p|]; cbn; [|reflexivity]. unfold fset. rewrite (Nat.eqb_sym i p). reflexivity. }
  assert (F8 : tl_ s5 = match nxt s a with Some _ => tl_ s | None => Some n end) by (unfold s5; destruct (nxt s a); reflexivity).
  assert (F9 : hd_ s5 = hd_ s) by (unfold s5; destruct (nxt s a); reflexivity).
  clearbody s5.
  assert (Old : forall i, In i (xs ++ a :: ys) -> i <> n) by (intros i Hi ->; contradiction).
  rewrite <- It2 in Old.
  assert (Inc : forall i, In i (cnodes c) -> i <> n /\ i <> a).
  { intros i Hi. split.
    - apply Old. apply in_app_or in Hi. apply in_or_app. destruct Hi; [left; apply in_or_app; left|right; right]; assumption.
    - intros ->. apply NoDup_remove_2 in ND2. apply ND2. apply in_app_or in Hi. apply in_or_app. destruct Hi; [left; apply in_or_app; left|right]; assumption. }
  assert (Inr : forall i, In i (inorder l) -> i <> n /\ i <> a).
  { intros i Hi. split; [apply Old; apply in_or_app; left; apply in_or_app; right; assumption|].
    intros ->. apply NoDup_remove_2 in ND2. apply ND2. apply in_or_app. left. apply in_or_app. right. assumption. }
  assert (NDl : NoDup (inorder l)) by (apply nodup_l in ND2; eapply nodup_r; eassumption).
  assert (NDc : NoDup (cnodes c)).
  { apply nodup_app_iff; [apply nodup_l in ND2; eapply nodup_l; eassumption|apply nodup_r in ND2; inversion ND2; assumption|].
    intros x X Y. apply (nodup_disj _ _ x ND2); [apply in_or_app; left; exact X|right; exact Y]. }
  assert (Eqn : forall i j : nat, i <> j -> (i =? j) = false) by (intros; apply Nat.eqb_neq; assumption).
  assert (Ipl : inorder (plug (FR l a :: c) (Node Leaf n Leaf)) = (pre c ++ inorder l ++ [a]) ++ n :: post c) by (rewrite inorder_plug; reflexivity).
  assert (Epl : (pre c ++ inorder l ++ [a]) ++ n :: post c = xs ++ a :: n :: ys).
  { rewrite <- Exs, <- Eys, <- !app_assoc. reflexivity. }
  assert (NDn : NoDup (xs ++ a :: n :: ys)).
  { change (a :: n :: ys) with ([a] ++ n :: ys). rewrite app_assoc. apply nodup_insert; rewrite <- app_assoc; assumption. }
  destruct (rebalance_loop_ok (FR l a :: c) s5 (Node Leaf n Leaf) (Some n) (Some a) 0 FUEL) as (s' & t' & E & P & B' & I' & L').
  - cbn [points_to]. rewrite F1, F2, F3, F4, Nat.eqb_refl, (Eqn n a Nna). auto.
  - cbn [ctx_ok]. rewrite F1, F2, F3, Nat.eqb_refl, (Eqn a n) by congruence. split; [reflexivity|]. split; [reflexivity|]. split.
    + apply (points_to_frame l s s5 _ _ _ Pl NDl).
      * intros i Hi. destruct (Inr i Hi) as [X Y]. rewrite F1, F2, F3, F4, (Eqn i a Y), (Eqn i n X). auto.
      * intros q Hq. rewrite Hq in Pl. assert (Hi := points_to_root _ _ _ _ Pl). destruct (Inr q Hi) as [X Y]. rewrite F3, (Eqn q n X).
        eapply points_to_par; eassumption.
    + apply (ctx_ok_frame c s s5 _ _ Cc NDc); [|exact F5].
      intros i Hi. destruct (Inc i Hi) as [X Y]. rewrite F1, F2, F3, F4, (Eqn i a Y), (Eqn i n X). auto.
  - cbn. lia.
  - cbn [ctx_bal]. cbn [height balanced] in *. destruct B as (B1 & B2 & Bl & _). split; [lia|]. split; [lia|]. split; [exact Bl|].
    rewrite Nat.max_comm in CB. cbn [Nat.max] in CB |- *. exact CB.
  - cbn. lia.
  - lia.
  - rewrite Ipl, Epl. exact NDn.
  - rewrite Ipl, Epl. unfold allocatable in *. cbn [length] in Al. rewrite app_length in *. cbn [length] in *. lia.
  - cbn [length]. assert (Hs : height t < 242) by (apply height_small; [exact Bt|rewrite It; unfold allocatable in Al; cbn [length] in Al; lia]).
    pose proof (height_plug c (Node l a Leaf)) as Hp. rewrite Ep in Hp. unfold FUEL. lia.
  - exists s'. split; [exact E|].
    split; [exact NDn|].
    split; [exists t'; rewrite I', Ipl, Epl; auto|].
    change (a :: n :: ys) with ([a] ++ n :: ys). rewrite app_assoc.
    assert (HL' : linked s None ((xs ++ [a]) ++ ys) None) by (rewrite <- app_assoc; exact HL).
    apply (links_of s5 s' _ L').
    + rewrite F9, Hh. destruct xs; reflexivity.
    + rewrite F8, Hb', last_error_app. destruct ys as [|y ys]; [reflexivity|]. cbn [hd_error]. rewrite Ht, last_error_app. reflexivity.
    + apply (linked_insert (xs ++ [a]) n ys s s5 HL').
      * rewrite <- app_assoc. exact ND.
      * rewrite <- app_assoc. exact Nn.
      * rewrite last_error_snoc, F7, Nat.eqb_refl. destruct (opt_is (nxt s a) n) eqn:Eo; [|reflexivity].
        exfalso. rewrite Hb' in Eo. destruct ys as [|y ys]; [discriminate|]. cbn in Eo. apply Nat.eqb_eq in Eo. subst y.
        apply Nn. apply in_or_app. right. right. left. reflexivity.
      * rewrite F6, Nat.eqb_refl, (Eqn n a Nna). exact Hb'.
      * intros x Hx. rewrite last_error_snoc in Hx. injection Hx as <-. rewrite F6, Nat.eqb_refl. reflexivity.
      * intros x Hx. rewrite F7, Hb', Hx. cbn. rewrite Nat.eqb_refl. reflexivity.
      * intros x Hx Hne. rewrite last_error_snoc in Hne. rewrite <- app_assoc in Hx. rewrite F6, (Eqn x a) by congruence. rewrite (Eqn x n) by (intros ->; contradiction). reflexivity.
      * intros x Hx Hne. rewrite <- app_assoc in Hx. rewrite F7, Hb'. destruct ys as [|p ys]; cbn.
        { rewrite (Eqn x n) by (intros ->; contradiction). reflexivity. }
        { cbn in Hne. destruct (Nat.eqb_spec p x) as [->|]; [congruence|]. rewrite (Eqn x n) by (intros ->; contradiction). reflexivity. }
Qed.

Lemma points_to_last : forall s t pr root b, points_to s t pr root -> last_error (inorder t) = Some b -> rgt s b = None.
Proof.
  intros s t. induction t as [|l IHl n r IHr]; intros pr root b H E; cbn [inorder] in E; [discriminate|].
  destruct H as (_ & _ & _ & _ & Hr). rewrite last_error_app in E.
  destruct r as [|rl rn rr]; [cbn in E; injection E as <-; exact Hr|].
  apply (IHr (Some n) (rgt s n) b Hr). cbn [inorder] in *. destruct (inorder rl); exact E.
Qed.
Lemma points_to_first : forall s t pr root b, points_to s t pr root -> hd_error (inorder t) = Some b -> lft s b = None.
Proof.
  intros s t. induction t as [|l IHl n r IHr]; intros pr root b H E; cbn [inorder] in E; [discriminate|].
  destruct H as (_ & _ & _ & Hl & _).
  destruct l as [|ll ln lr]; [cbn in E; injection E as <-; exact Hl|].
  apply (IHl (Some n) (lft s n) b Hl). cbn [inorder] in *. destruct (inorder ll); exact E.
Qed.

Lemma snoc_last : forall xs b, last_error xs = Some b -> exists xs', xs = xs' ++ [b].
Proof.
  induction xs as [|x xs IH]; intros b H; [discriminate|]. destruct xs as [|y xs].
  - injection H as ->. exists []. reflexivity.
  - destruct (IH b H) as [xs' E]. exists (x :: xs'). cbn. rewrite <- E. reflexivity.
Qed.

(** a node with a left child has a predecessor without a right child *)
Lemma holds_prev : forall s xs a ys, holds s (xs ++ a :: ys) -> lft s a <> None ->
  exists xs' b, xs = xs' ++ [b] /\ prv s a = Some b /\ rgt s b = None.
Proof.
  intros s xs a ys (ND & (t & It & Bt & Pt) & Hh & Ht & HL) La.
  destruct (split_at t s [] None (tp s) a Pt Bt) as (c & l & r & Ep & Pl & Pr & Cc & CB & B & Dd); [cbn; auto|exact I|rewrite It; apply in_or_app; right; left; reflexivity|].
  destruct l as [|ll ln lr]; [cbn in Pl; contradiction|].
  destruct (last_error (inorder (Node ll ln lr))) as [b|] eqn:Eb; [|apply last_error_none in Eb; cbn in Eb; destruct (inorder ll); discriminate].
  cbn [plug] in Ep. rewrite <- Ep, inorder_plug in It. set (L := Node ll ln lr) in *. cbn [inorder] in It. rewrite <- app_assoc in It. cbn [app] in It.
  rewrite app_assoc in It. rewrite <- It in ND. destruct (split_unique _ _ _ _ _ ND It) as [<- Eys].
  destruct (snoc_last _ _ Eb) as [w Ew]. exists (pre c ++ w), b. split; [rewrite Ew, app_assoc; reflexivity|]. split.
  - destruct (linked_at _ _ _ _ _ _ HL) as [-> _]. rewrite Ew, app_assoc. unfold last_or. rewrite last_error_snoc. reflexivity.
  - exact (points_to_last s L _ _ b Pl Eb).
Qed.
Lemma holds_next : forall s xs a ys, holds s (xs ++ a :: ys) -> rgt s a <> None ->
  exists b ys', ys = b :: ys' /\ nxt s a = Some b /\ lft s b = None.
Proof.
  intros s xs a ys (ND & (t & It & Bt & Pt) & Hh & Ht & HL) La.
  destruct (split_at t s [] None (tp s) a Pt Bt) as (c & l & r & Ep & Pl & Pr & Cc & CB & B & Dd); [cbn; auto|exact I|rewrite It; apply in_or_app; right; left; reflexivity|].
  destruct r as [|rl rn rr]; [cbn in Pr; contradiction|].
  destruct (hd_error (inorder (Node rl rn rr))) as [b|] eqn:Eb; [|cbn in Eb; destruct (inorder rl); discriminate].
  cbn [plug] in Ep. rewrite <- Ep, inorder_plug in It. set (R := Node rl rn rr) in *. cbn [inorder] in It. rewrite <- app_assoc in It. cbn [app] in It.
  rewrite app_assoc in It. rewrite <- It in ND. destruct (split_unique _ _ _ _ _ ND It) as [Exs <-].
  destruct (inorder R) as [|b' w] eqn:Ew; [discriminate|]. cbn in Eb. injection Eb as ->. exists b, (w ++ post c). split; [reflexivity|]. split.
  - destruct (linked_at _ _ _ _ _ _ HL) as [_ ->]. reflexivity.
  - eapply points_to_first; [exact Pr|]. rewrite Ew. reflexivity.
Qed.

Lemma alloc_perm : forall n (xs ys : list nat), length xs = length ys -> allocatable (n :: xs) -> allocatable (n :: ys).
Proof. intros n xs ys E H. unfold allocatable in *. cbn [length] in *. rewrite <- E. exact H. Qed.

Theorem insert_before_node : forall s xs a ys n,
  holds s (xs ++ a :: ys) -> ~ In n (xs ++ a :: ys) -> allocatable (n :: xs ++ a :: ys) ->
  exists s', avl_insert_before (Some a) n s = Ret s' /\ holds s' (xs ++ n :: a :: ys).
Proof.
  intros s xs a ys n H Nn Al. unfold avl_insert_before. destruct (lft s a) as [q|] eqn:La; [|apply insert_before_leaf; assumption].
  destruct (holds_prev s xs a ys H) as (xs' & b & -> & Pb & Rb); [congruence|].
  assert (H' : holds s (xs' ++ b :: a :: ys)) by (rewrite <- app_assoc in H; exact H).
  destruct (insert_after_leaf 1 s xs' b (a :: ys) n H') as (s' & E & Hs').
  - rewrite <- app_assoc in Nn. exact Nn.
  - rewrite <- app_assoc in Al. exact Al.
  - exact Rb.
  - exists s'. split; [|rewrite <- app_assoc; exact Hs']. rewrite <- E. cbn [insert_before]. rewrite La, Pb. reflexivity.
Qed.
Theorem insert_after_node : forall s xs a ys n,
  holds s (xs ++ a :: ys) -> ~ In n (xs ++ a :: ys) -> allocatable (n :: xs ++ a :: ys) ->
  exists s', avl_insert_after (Some a) n s = Ret s' /\ holds s' (xs ++ a :: n :: ys).
Proof.
  intros s xs a ys n H Nn Al. unfold avl_insert_after. destruct (rgt s a) as [q|] eqn:La; [|apply insert_after_leaf; assumption].
  destruct (holds_next s xs a ys H) as (b & ys' & -> & Pb & Rb); [congruence|].
  assert (H' : holds s ((xs ++ [a]) ++ b :: ys')) by (rewrite <- app_assoc; exact H).
  destruct (insert_before_leaf 1 s (xs ++ [a]) b ys' n H') as (s' & E & Hs').
  - rewrite <- app_assoc. exact Nn.
  - rewrite <- app_assoc. exact Al.
  - exact Rb.
  - exists s'. split; [|rewrite <- app_assoc in Hs'; exact Hs']. rewrite <- E. cbn [insert_after]. rewrite La, Pb. reflexivity.
Qed.

Lemma holds_nil : forall s, hd_ s = None -> tl_ s = None -> tp s = None -> holds s [].
Proof. intros s A B C. split; [constructor|]. split; [exists Leaf; cbn; auto|]. cbn. auto. Qed.
Lemma holds_nil_inv : forall s, holds s [] -> hd_ s = None /\ tl_ s = None /\ tp s = None.
Proof.
  intros s (_ & (t & It & _ & Pt) & Hh & Ht & _). split; [exact Hh|]. split; [exact Ht|].
  destruct t as [|l n r]; [exact Pt|]. cbn in It. destruct (inorder l); discriminate.
Qed.
Lemma clear_holds : forall s, holds (avl_clear_tree s) [].
Proof. intros s. apply holds_nil; reflexivity. Qed.

Lemma insert_top_ok : forall s n, exists s', avl_insert_top n s = Ret s' /\ holds s' [n].
Proof.
  intros s n. eexists. split; [reflexivity|]. split; [constructor; [intros []|constructor]|].
  split; [exists (Node Leaf n Leaf)|]; cbn; rewrite ?fset_same; auto 20.
Qed.

Theorem insert_before_null : forall s xs n,
  holds s xs -> ~ In n xs -> allocatable (n :: xs) ->
  exists s', avl_insert_before None n s = Ret s' /\ holds s' (xs ++ [n]).
Proof.
  intros s xs n H Nn Al. unfold avl_insert_before.
  destruct (last_error xs) as [b|] eqn:Eb.
  - destruct (snoc_last _ _ Eb) as [w ->]. assert (H' := H). destruct H' as (_ & (t & It & Bt & Pt) & _ & Ht & _).
    destruct (insert_after_leaf 1 s w b [] n H Nn Al) as (s' & E & Hs').
    + eapply points_to_last; [exact Pt|]. rewrite It. exact Eb.
    + exists s'. split; [|rewrite <- app_assoc; exact Hs']. rewrite <- E. cbn [insert_before]. rewrite Ht, Eb. reflexivity.
  - apply last_error_none in Eb. subst xs. destruct (holds_nil_inv s H) as (_ & Ht & _). cbn [insert_before]. rewrite Ht. apply insert_top_ok.
Qed.
Theorem insert_after_null : forall s xs n,
  holds s xs -> ~ In n xs -> allocatable (n :: xs) ->
  exists s', avl_insert_after None n s = Ret s' /\ holds s' (n :: xs).
Proof.
  intros s xs n H Nn Al. unfold avl_insert_after.
  destruct xs as [|b w].
  - destruct (holds_nil_inv s H) as (Ht & _). cbn [insert_after]. rewrite Ht. apply insert_top_ok.
  - assert (H' := H). destruct H' as (_ & (t & It & Bt & Pt) & Ht & _).
    destruct (insert_before_leaf 1 s [] b w n H Nn Al) as (s' & E & Hs').
    + eapply points_to_first; [exact Pt|]. rewrite It. reflexivity.
    + exists s'. split; [|exact Hs']. rewrite <- E. cbn [insert_after]. rewrite Ht. reflexivity.
Qed.

(** * Removal *)

Lemma par_in : forall t s pr root b, points_to s t pr root -> NoDup (inorder t) -> In b (inorder t) -> root <> Some b ->
  exists m, par s b = Some m /\ In m (inorder t) /\ m <> b.
Proof.
  induction t as [|l IHl n r IHr]; intros s pr root b H ND Hb Hr; [destruct Hb|].
  destruct H as (-> & _ & _ & Pl & Pr). cbn [inorder] in *.
  assert (Nn := NoDup_remove_2 _ _ _ ND). assert (ND' := NoDup_remove_1 _ _ _ ND).
  apply in_app_or in Hb. destruct Hb as [Hb|[->|Hb]]; [| congruence |].
  - destruct (lft s n) as [q|] eqn:Eq.
    + destruct (Nat.eq_dec q b) as [->|Hne].
      * exists n. split; [eapply points_to_par; eassumption|]. split; [apply in_or_app; right; left; reflexivity|].
        intros ->. apply Nn. apply in_or_app. left. exact Hb.
      * destruct (IHl s (Some n) (Some q) b Pl (nodup_l _ _ ND') Hb) as (m & E & Hm & Hne'); [congruence|].
        exists m. split; [exact E|]. split; [apply in_or_app; left; exact Hm|exact Hne'].
    + destruct l; [destruct Hb|destruct Pl as [Pl _]; discriminate].
  - destruct (rgt s n) as [q|] eqn:Eq.
    + destruct (Nat.eq_dec q b) as [->|Hne].
      * exists n. split; [eapply points_to_par; eassumption|]. split; [apply in_or_app; right; left; reflexivity|].
        intros ->. apply Nn. apply in_or_app. right. exact Hb.
      * destruct (IHr s (Some n) (Some q) b Pr (nodup_r _ _ ND') Hb) as (m & E & Hm & Hne'); [congruence|].
        exists m. split; [exact E|]. split; [apply in_or_app; right; right; exact Hm|exact Hne'].
    + destruct r; [destruct Hb|destruct Pr as [Pr _]; discriminate].
Qed.

Lemma child_par : forall t s pr root b q, points_to s t pr root -> In b (inorder t) -> lft s b = Some q -> par s q = Some b /\ In q (inorder t).
Proof.
  induction t as [|l IHl n r IHr]; intros s pr root b q H Hb Hq; [destruct Hb|].
  destruct H as (-> & _ & _ & Pl & Pr). cbn [inorder] in *.
  apply in_app_or in Hb. destruct Hb as [Hb|[->|Hb]].
  - destruct (IHl _ _ _ _ _ Pl Hb Hq) as [A B]. split; [exact A|apply in_or_app; left; exact B].
  - rewrite Hq in Pl. split; [eapply points_to_par; eassumption|]. apply in_or_app. left. eapply points_to_root; eassumption.
  - destruct (IHr _ _ _ _ _ Pr Hb Hq) as [A B]. split; [exact A|apply in_or_app; right; right; exact B].
Qed.

(** detaching the last node [b] of a subtree whose root is another node *)
Lemma spine : forall l s s1 pr pr' root b C,
  points_to s l pr root -> balanced l -> NoDup (inorder l) -> last_error (inorder l) = Some b -> root <> Some b ->
  (forall i, In i (inorder l) -> i <> b ->
     lft s1 i = lft s i /\ dep s1 i = dep s i /\ (par s b <> Some i -> rgt s1 i = rgt s i) /\
     (root <> Some i -> lft s b <> Some i -> par s1 i = par s i)) ->
  (forall m, par s b = Some m -> rgt s1 m = lft s b) ->
  (forall q m, lft s b = Some q -> par s b = Some m -> par s1 q = Some m) ->
  (forall q, root = Some q -> par s1 q = pr') ->
  ctx_ok s1 C root pr' -> ctx_bal C (height l) ->
  exists c' bl m w, par s b = Some m /\ points_to s1 bl (Some m) (lft s b) /\ ctx_ok s1 (c' ++ C) (lft s b) (Some m) /\
    ctx_bal (c' ++ C) (S (height bl)) /\ balanced bl /\ pre (c' ++ C) = pre C ++ w /\ post (c' ++ C) = post C /\
    inorder l = w ++ inorder bl ++ [b] /\ length c' + 1 + height bl <= height l.
Proof.
  induction l as [|ll _ m lr IH]; intros s s1 pr pr' root b C P B ND Lb Rb F Fm Fq Fr CC CB; [discriminate|].
  destruct P as (-> & _ & _ & Pl & Pr). cbn [balanced] in B. destruct B as (B1 & B2 & Bll & Blr).
  cbn [inorder] in *. assert (Nm := NoDup_remove_2 _ _ _ ND). assert (ND' := NoDup_remove_1 _ _ _ ND).
  assert (NDl := nodup_l _ _ ND'). assert (NDr := nodup_r _ _ ND').
  rewrite last_error_app in Lb.
  destruct lr as [|lrl mr lrr] eqn:Elr.
  { exfalso. cbn in Lb. injection Lb as ->. congruence. }
  rewrite <- Elr in *. assert (Hne : inorder lr <> []) by (rewrite Elr; cbn; destruct (inorder lrl); discriminate).
  assert (Lb' : last_error (inorder lr) = Some b) by (destruct (inorder lr); [congruence|exact Lb]).
  assert (Hb : In b (inorder lr)) by (apply last_error_In; exact Lb').
  assert (Hbm : b <> m) by (intros ->; apply Nm; apply in_or_app; right; exact Hb).
  assert (Qb : forall q, lft s b = Some q -> par s q = Some b /\ In q (inorder lr)) by (intros q Hq; eapply child_par; eassumption).
  assert (Hll : points_to s1 ll (Some m) (lft s1 m)).
  { destruct (F m) as (-> & _); [apply in_or_app; right; left; reflexivity|congruence|].
    apply (points_to_frame ll s s1 _ _ _ Pl NDl).
    - intros i Hi.
      assert (i <> b) by (intros ->; eapply (nodup_disj _ _ b ND'); eassumption).
      assert (i <> m) by (intros ->; apply Nm; apply in_or_app; left; exact Hi).
      destruct (F i) as (A1 & A2 & A3 & A4); [apply in_or_app; left; exact Hi|assumption|].
      split; [exact A1|]. split; [apply A3|split; [exact A2|intros _; apply A4; [congruence|]]].
      + intro E. destruct (Nat.eq_dec mr b) as [->|Hr].
        * rewrite Elr in Pr. destruct Pr as (_ & Pp & _). congruence.
        * destruct (par_in lr s (Some m) (rgt s m) b Pr NDr Hb) as (m' & E' & Hm' & _); [rewrite Elr in Pr; destruct Pr as (-> & _); congruence|].
          rewrite E in E'. injection E' as ->. eapply (nodup_disj _ _ m' ND'); eassumption.
      + intro E. destruct (Qb i E) as [_ X]. eapply (nodup_disj _ _ i ND'); eassumption.
    - intros q Hq. rewrite Hq in Pl. assert (Hi := points_to_root _ _ _ _ Pl).
      assert (q <> b) by (intros ->; eapply (nodup_disj _ _ b ND'); eassumption).
      assert (q <> m) by (intros ->; apply Nm; apply in_or_app; left; exact Hi).
      destruct (F q) as (_ & _ & _ & A4); [apply in_or_app; left; exact Hi|assumption|].
      rewrite A4; [eapply points_to_par; eassumption|congruence|].
      intro E. destruct (Qb q E) as [_ X]. eapply (nodup_disj _ _ q ND'); eassumption. }
  assert (Hpm : par s1 m = pr') by (apply Fr; reflexivity).
  destruct (Nat.eq_dec mr b) as [->|Hmr].
  - (* the root of the right subtree is the last node *)
    rewrite Elr in Pr, Lb', Blr, NDr. cbn [inorder] in Lb', NDr. destruct Pr as (Erm & Pb & Db & Pbl & Pbr).
    assert (lrr = Leaf) as ->.
    { destruct lrr as [|x y w]; [reflexivity|]. exfalso. assert (NN := NoDup_remove_2 _ _ _ NDr). apply NN. apply in_or_app. right.
      rewrite last_error_app in Lb'. set (T := Node x y w) in *. destruct (inorder T) as [|t0 ts] eqn:ET; [cbn in ET; destruct (inorder x); discriminate|].
      apply last_error_In. exact Lb'. }
    exists [FR ll m], lrl, m, (inorder ll ++ [m]).
    split; [exact Pb|]. split; [|split; [|split; [|split; [|split; [|split; [|split]]]]]].
    + apply (points_to_frame lrl s s1 _ _ _ Pbl (nodup_l _ _ NDr)).
      * intros i Hi.
        assert (Hi2 : In i (inorder lr)) by (rewrite Elr; cbn; apply in_or_app; left; exact Hi).
        assert (i <> b) by (intros ->; apply (NoDup_remove_2 _ _ _ NDr); apply in_or_app; left; exact Hi).
        assert (i <> m) by (intros ->; apply Nm; apply in_or_app; right; exact Hi2).
        destruct (F i) as (A1 & A2 & A3 & A4); [apply in_or_app; right; right; exact Hi2|assumption|].
        split; [exact A1|]. split; [apply A3; congruence|split; [exact A2|intros Hq; apply A4; congruence]].
      * intros q Hq. apply Fq; assumption.
    + cbn [app ctx_ok]. split; [reflexivity|]. split; [apply Fm; exact Pb|]. split; [exact Hll|]. rewrite Hpm. exact CC.
    + cbn [app ctx_bal]. rewrite Elr in *. cbn [height] in *. rewrite Nat.max_0_r in *. split; [lia|]. split; [lia|]. split; [exact Bll|].
      rewrite Nat.max_comm. exact CB.
    + cbn [balanced] in Blr. tauto.
    + reflexivity.
    + reflexivity.
    + rewrite Elr. cbn [inorder]. rewrite <- app_assoc. reflexivity.
    + rewrite Elr. cbn [length height]. lia.
  - assert (Erm : rgt s m = Some mr) by (rewrite Elr in Pr; destruct Pr as (E & _); exact E).
    assert (Hroot : rgt s m <> Some b) by congruence.
    destruct (par_in lr s (Some m) (rgt s m) b Pr NDr Hb Hroot) as (m' & Em' & Hm' & _).
    assert (Hm'm : m' <> m) by (intros ->; apply Nm; apply in_or_app; right; exact Hm').
    destruct (F m) as (Am1 & Am2 & Am3 & _); [apply in_or_app; right; left; reflexivity|congruence|].
    assert (Hrm : rgt s1 m = rgt s m) by (apply Am3; congruence).
    assert (Hmr1 : par s1 mr = Some m).
    { assert (Hi : In mr (inorder lr)) by (rewrite Elr; cbn; apply in_or_app; right; left; reflexivity).
      destruct (F mr) as (_ & _ & _ & A4); [apply in_or_app; right; right; exact Hi|exact Hmr|].
      assert (Pmr : par s mr = Some m) by (rewrite Erm in Pr; eapply points_to_par; eassumption).
      rewrite A4; [exact Pmr| |].
      - intro E. injection E as ->. apply Nm. apply in_or_app. right. exact Hi.
      - intro E. destruct (Qb mr E) as [X _]. congruence. }
    destruct (IH s s1 (Some m) (Some m) (rgt s m) b (FR ll m :: C) Pr Blr NDr Lb' Hroot) as (c' & bl & m2 & w & R1 & R2 & R3 & R4 & R5 & R6 & R7 & R8 & R9).
    + intros i Hi Hib. destruct (F i) as (A1 & A2 & A3 & A4); [apply in_or_app; right; right; exact Hi|exact Hib|].
      split; [exact A1|]. split; [exact A2|]. split; [exact A3|]. intros _ H2. apply A4; [|exact H2].
      intro E. injection E as ->. apply Nm. apply in_or_app. right. exact Hi.
    + exact Fm.
    + exact Fq.
    + intros q Hq. rewrite Erm in Hq. injection Hq as <-. exact Hmr1.
    + cbn [ctx_ok]. rewrite Hrm, Hpm. auto.
    + cbn [ctx_bal]. cbn [height] in CB. split; [lia|]. split; [lia|]. split; [exact Bll|]. rewrite Nat.max_comm. exact CB.
    + exists (c' ++ [FR ll m]), bl, m2, ((inorder ll ++ [m]) ++ w).
      rewrite <- app_assoc. cbn [app]. split; [exact R1|]. split; [exact R2|]. split; [exact R3|]. split; [exact R4|]. split; [exact R5|].
      split; [|split; [exact R7|split]].
      * rewrite R6. cbn [pre]. rewrite <- !app_assoc. reflexivity.
      * rewrite R8, <- !app_assoc. reflexivity.
      * rewrite app_length. cbn [length height]. lia.
Qed.

Definition unthread (a : nat) (s : avl) : avl :=
  let s := match prv s a with Some p => set_nxt p (nxt s a) s | None => set_hd (nxt s a) s end in
  match nxt s a with Some p => set_prv p (prv s a) s | None => set_tl (prv s a) s end.

Lemma unthread_tree : forall a s, lft (unthread a s) = lft s /\ rgt (unthread a s) = rgt s /\ par (unthread a s) = par s /\
  dep (unthread a s) = dep s /\ tp (unthread a s) = tp s.
Proof.
  intros a s. unfold unthread. cbv zeta. destruct (prv s a) as [p|];
  match goal with |- context [match ?e with Some _ => _ | None => _ end] => destruct e end; auto 10.
Qed.

Lemma unthread_ok : forall s xs a ys,
  NoDup (xs ++ a :: ys) -> hd_ s = hd_error (xs ++ a :: ys) -> tl_ s = last_error (xs ++ a :: ys) -> linked s None (xs ++ a :: ys) None ->
  hd_ (unthread a s) = hd_error (xs ++ ys) /\ tl_ (unthread a s) = last_error (xs ++ ys) /\ linked (unthread a s) None (xs ++ ys) None /\
  prv (unthread a s) a = prv s a /\ nxt (unthread a s) a = nxt s a.
Proof.
  intros s xs a ys ND Hh Ht HL. destruct (linked_at _ _ _ _ _ _ HL) as [Ha Hb].
  assert (Ha' : prv s a = last_error xs) by (rewrite Ha; unfold last_or; destruct (last_error xs); reflexivity).
  assert (Hb' : nxt s a = hd_error ys) by (rewrite Hb; destruct ys; reflexivity).
  assert (Nn := NoDup_remove_2 _ _ _ ND).
  assert (F1 : forall i, nxt (unthread a s) i = if opt_is (prv s a) i then nxt s a else nxt s i).
  { intros i. unfold unthread. cbv zeta. destruct (prv s a) as [p|] eqn:Ep; cbn [opt_is];
    match goal with |- context [match ?e with Some _ => _ | None => _ end] => destruct e end; cbn; unfold fset;
    rewrite ?(Nat.eqb_sym i p); reflexivity. }
  assert (Nla : last_error xs <> Some a) by (intro E; apply Nn; apply in_or_app; left; apply last_error_In; exact E).
  assert (Nfa : hd_error ys <> Some a) by (intro E; apply Nn; apply in_or_app; right; destruct ys; [discriminate|injection E as ->; left; reflexivity]).
  assert (En : nxt (match prv s a with Some p => set_nxt p (nxt s a) s | None => set_hd (nxt s a) s end) a = nxt s a).
  { rewrite Ha'. destruct (last_error xs) as [p|]; [|reflexivity]. cbn. apply fset_other. congruence. }
  assert (Epp : prv (match prv s a with Some p => set_nxt p (nxt s a) s | None => set_hd (nxt s a) s end) = prv s) by (destruct (prv s a); reflexivity).
  assert (F2 : forall i, prv (unthread a s) i = if opt_is (nxt s a) i then prv s a else prv s i).
  { intros i. unfold unthread. cbv zeta. rewrite En, Epp. destruct (nxt s a) as [p|]; cbn [opt_is set_prv prv set_tl]; rewrite ?Epp; unfold fset;
    rewrite ?(Nat.eqb_sym i p); reflexivity. }
  split; [|split; [|split; [|split]]].
  - unfold unthread. cbv zeta. rewrite En, Epp, Ha', Hb'. destruct xs as [|x xs].
    + cbn [last_error]. destruct ys; reflexivity.
    + destruct (last_error (x :: xs)) eqn:El; [|apply last_error_none in El; discriminate]. destruct (hd_error ys); exact Hh.
  - unfold unthread. cbv zeta. rewrite En, Epp, Ha', Hb'. destruct ys as [|y ys].
    + cbn [hd_error]. rewrite app_nil_r. destruct (last_error xs); reflexivity.
    + cbn [hd_error]. rewrite last_error_app in *. destruct (last_error xs); exact Ht.
  - apply (linked_remove xs a ys s _ HL ND).
    + intros x Hx. rewrite F1, Ha', Hx. cbn. rewrite Nat.eqb_refl. exact Hb'.
    + intros x Hx. rewrite F2, Hb', Hx. cbn. rewrite Nat.eqb_refl. exact Ha'.
    + intros x _ Hne. rewrite F1, Ha'. destruct (last_error xs) as [p|]; cbn; [|reflexivity]. destruct (Nat.eqb_spec p x); [congruence|reflexivity].
    + intros x _ Hne. rewrite F2, Hb'. destruct (hd_error ys) as [p|]; cbn; [|reflexivity]. destruct (Nat.eqb_spec p x); [congruence|reflexivity].
  - rewrite F2, Hb'. destruct (hd_error ys) as [p|]; cbn; [|reflexivity]. destruct (Nat.eqb_spec p a); [congruence|reflexivity].
  - rewrite F1, Ha'. destruct (last_error xs) as [p|]; cbn; [|reflexivity]. destruct (Nat.eqb_spec p a); [congruence|reflexivity].
Qed.

Lemma unlink_node : forall s xs a ys,
  holds s (xs ++ a :: ys) -> allocatable (xs ++ a :: ys) ->
  exists s', avl_unlink_node a s = Ret s' /\ holds s' (xs ++ ys) /\ prv s' a = prv s a /\ nxt s' a = nxt s a.
Proof.
  intros s xs a ys (ND & (t & It & Bt & Pt) & Hh & Ht & HL) Al.
  destruct (split_at t s [] None (tp s) a Pt Bt) as (c & l & r & Ep & Pl & Pr & Cc & CB & B & Dd); [cbn; auto|exact I|rewrite It; apply in_or_app; right; left; reflexivity|].
  cbn [plug] in Ep. pose proof It as It'. rewrite <- Ep, inorder_plug in It'. cbn [inorder] in It'. rewrite <- app_assoc in It'. cbn [app] in It'.
  assert (It2 : (pre c ++ inorder l) ++ a :: (inorder r ++ post c) = xs ++ a :: ys) by (rewrite <- app_assoc; exact It').
  assert (ND2 := ND). rewrite <- It2 in ND2.
  destruct (split_unique _ _ _ _ _ ND2 It2) as [Exs Eys].
  assert (Hht : height t < 242) by (apply height_small; [exact Bt|rewrite It; exact Al]).
  assert (Hcl := height_plug c (Node l a r)). rewrite Ep in Hcl.
  destruct (unthread_ok s xs a ys ND Hh Ht HL) as (Uh & Ut & UL & Up & Un).
  destruct (unthread_tree a s) as (U1 & U2 & U3 & U4 & U5).
  assert (NDxy := NoDup_remove_1 _ _ _ ND).
  (* zones *)
  assert (ND' : NoDup (concat [pre c; inorder l; [a]; inorder r; post c])).
  { cbn [concat app]. rewrite app_nil_r. rewrite It'. exact ND. }
  destruct (zones _ ND') as [z Z].
  assert (Z0 : forall i, In i (pre c) -> z i = 0) by (intros i; apply (Z 0)).
  assert (Z_l : forall i, In i (inorder l) -> z i = 1) by (intros i; apply (Z 1)).
  assert (Z_a : z a = 2) by (apply (Z 2); left; reflexivity).
  assert (Z_r : forall i, In i (inorder r) -> z i = 3) by (intros i; apply (Z 3)).
  assert (Zp : forall i, In i (post c) -> z i = 4) by (intros i; apply (Z 4)). clear Z.
  assert (Zc : forall i, In i (cnodes c) -> z i = 0 \/ z i = 4) by (intros i Hi; apply in_app_or in Hi; destruct Hi; auto).
  cbn [concat] in ND'.
  assert (ND0 := nodup_l _ _ ND'). apply nodup_r in ND'. assert (NDl := nodup_l _ _ ND'). apply nodup_r, nodup_r in ND'.
  assert (NDr := nodup_l _ _ ND'). apply nodup_r, nodup_l in ND'.
  assert (NDc : NoDup (cnodes c)) by (apply nodup_app_iff; auto; intros x X Y; apply Z0 in X; apply Zp in Y; lia).
  assert (Nc : ~ In a (cnodes c)) by (intro X; apply Zc in X; lia).
  unfold avl_unlink_node. fold (unthread a s). set (s0 := unthread a s) in *.
  assert (Cc0 : ctx_ok s0 c (Some a) (par s0 a)).
  { rewrite U3. apply (ctx_ok_frame c s s0 _ _ Cc NDc); [|exact U5]. intros i _. rewrite U1, U2, U3, U4. auto. }
  assert (Pl0 : points_to s0 l (Some a) (lft s0 a)).
  { rewrite U1. apply (points_to_frame l s s0 _ _ _ Pl NDl); [intros i _; rewrite U1, U2, U3, U4; auto|].
    intros q Hq. rewrite U3. rewrite Hq in Pl. eapply points_to_par; eassumption. }
  assert (Pr0 : points_to s0 r (Some a) (rgt s0 a)).
  { rewrite U2. apply (points_to_frame r s s0 _ _ _ Pr NDr); [intros i _; rewrite U1, U2, U3, U4; auto|].
    intros q Hq. rewrite U3. rewrite Hq in Pr. eapply points_to_par; eassumption. }
  assert (Ep0 : prv s0 a = last_error xs) by (rewrite Up; destruct (linked_at _ _ _ _ _ _ HL) as [-> _]; unfold last_or; destruct (last_error xs); reflexivity).
  rewrite <- Up, <- Un.
  clearbody s0. clear U1 U2 U3 U4 U5 Up Un Cc Pl Pr Dd HL Hh Ht s It Ep Pt.
  set (pr := par s0 a) in *. set (sp := slot_of s0 a pr).
  assert (SN : forall i, z i <> 0 -> z i <> 4 -> slot_not sp i).
  { intros i Y0 Y6. apply (slot_not_out s0 c a pr i Cc0). intro X. apply Zc in X. lia. }
  (* the end of the proof, common to all cases *)
  assert (Fin : forall s1 b C x h, 
     points_to s1 b (match C with [] => None | FL m _ :: _ | FR _ m :: _ => Some m end) x ->
     ctx_ok s1 C x (match C with [] => None | FL m _ :: _ | FR _ m :: _ => Some m end) ->
     balanced b -> ctx_bal C h -> height b <= S h -> h <= S (height b) -> inorder (plug C b) = xs ++ ys -> length C <= FUEL -> same_links s0 s1 ->
     exists s', avl_rebalance s1 (match C with [] => None | FL m _ :: _ | FR _ m :: _ => Some m end) = Ret s' /\ holds s' (xs ++ ys) /\ prv s' a = prv s0 a /\ nxt s' a = nxt s0 a).
  { intros s1 b C x h P1 C1 Bb CBb H1 H2 E1 Lc (S1 & S2 & S3 & S4).
    destruct (rebalance_loop_ok C s1 b x _ h FUEL P1 C1 Bb CBb H1 H2) as (s' & t' & E & P & B' & I' & L').
    - rewrite E1. exact NDxy.
    - rewrite E1. unfold allocatable in *. rewrite app_length in *. cbn [length] in Al. lia.
    - exact Lc.
    - exists s'. split; [exact E|]. split; [|destruct L' as (L1 & L2 & _); rewrite L1, L2, S1, S2; auto].
      split; [exact NDxy|]. split; [exists t'; rewrite I'; auto|].
      apply (links_of s1 s' _ L'); [congruence|congruence|]. apply (linked_frame _ s0); [exact UL|]. intros y _. rewrite S1, S2. auto. }
  assert (Prc : pr = match c with [] => None | FL m _ :: _ | FR _ m :: _ => Some m end).
  { destruct c as [|[m k|k m] c0]; cbn [ctx_ok] in Cc0; tauto. }
  cbn [height] in Hcl, CB. assert (B' := B). cbn [balanced] in B'. destruct B' as (B1 & B2 & Bl & Br).
  assert (Zr : forall q, rgt s0 a = Some q -> z q = 3) by (intros q Hq; rewrite Hq in Pr0; apply Z_r; eapply points_to_root; eassumption).
  assert (Zl : forall q, lft s0 a = Some q -> z q = 1) by (intros q Hq; rewrite Hq in Pl0; apply Z_l; eapply points_to_root; eassumption).
  destruct (lft s0 a) as [left_|] eqn:El.
  2:{ (* no left child *)
    assert (l = Leaf) as -> by (destruct l; [reflexivity|destruct Pl0 as [X _]; discriminate]).
    cbn [inorder] in *. rewrite app_nil_r in *.
    set (s1 := set_par_opt (rgt s0 a) pr (set_slot sp (rgt s0 a) s0)).
    rewrite Prc. apply (Fin s1 r c (rgt s0 a) (S (height r))).
    - rewrite <- Prc. unfold s1. sub_ok ltac:(apply SN; lia) Pr0 NDr Z_r.
    - rewrite <- Prc. apply (ctx_ok_slot c s0 s1 a pr (rgt s0 a) Cc0 NDc Nc); fold sp; unfold s1.
      + intros i Hi. apply Zc in Hi. split; [|split; [|split]]; fld fail; try reflexivity.
      + fld fail. reflexivity.
    - exact Br.
    - cbn [height Nat.max] in CB. exact CB.
    - lia.
    - lia.
    - rewrite inorder_plug, <- Exs, <- Eys. reflexivity.
    - unfold FUEL. lia.
    - unfold s1. repeat split; fld fail; reflexivity. }
  destruct (rgt s0 a) as [right_|] eqn:Er.
  2:{ (* no right child *)
    assert (r = Leaf) as -> by (destruct r; [reflexivity|destruct Pr0 as [X _]; discriminate]).
    cbn [inorder app] in *.
    set (s1 := set_par_opt (Some left_) pr (set_slot sp (Some left_) s0)).
    change (set_par left_ pr (set_slot sp (Some left_) s0)) with s1.
    rewrite Prc. apply (Fin s1 l c (Some left_) (S (height l))).
    - rewrite <- Prc. unfold s1. sub_ok ltac:(apply SN; lia) Pl0 NDl Z_l.
    - rewrite <- Prc. apply (ctx_ok_slot c s0 s1 a pr (Some left_) Cc0 NDc Nc); fold sp; unfold s1.
      + intros i Hi. apply Zc in Hi. split; [|split; [|split]]; fld fail; try reflexivity.
      + fld fail. reflexivity.
    - exact Bl.
    - cbn [height] in CB. rewrite Nat.max_0_r in CB. exact CB.
    - lia.
    - lia.
    - rewrite inorder_plug, <- Exs, <- Eys, <- app_assoc. reflexivity.
    - unfold FUEL. lia.
    - unfold s1. repeat split; fld fail; reflexivity. }
  (* two children *)
  assert (Zr' := Zr _ eq_refl). assert (Zl' := Zl _ eq_refl).
  assert (Hlne : inorder l <> []) by (destruct l; [discriminate Pl0|cbn; destruct (inorder l1); discriminate]).
  destruct (last_error (inorder l)) as [b|] eqn:Eb; [|apply last_error_none in Eb; contradiction].
  assert (Eb' : prv s0 a = Some b).
  { rewrite Ep0, <- Exs. destruct (snoc_last _ _ Eb) as [w ->]. rewrite app_assoc. apply last_error_snoc. }
  rewrite Eb'. rewrite Eb' in Fin. cbn [deref bind].
  assert (Hb : In b (inorder l)) by (apply last_error_In; exact Eb). assert (Zb := Z_l b Hb).
  destruct (Nat.eqb_spec b left_) as [->|Hbl].
  - (* the predecessor is the left child *)
    cbn [bind fst snd].
    destruct l as [|bl b' br]; [discriminate Pl0|]. destruct Pl0 as (X & Pb & Db & Pbl & Pbr). injection X as <-.
    cbn [inorder] in *.
    assert (br = Leaf) as ->.
    { destruct br as [|u v w]; [reflexivity|]. exfalso. assert (NN := NoDup_remove_2 _ _ _ NDl). apply NN. apply in_or_app. right.
      rewrite last_error_app in Eb. set (T := Node u v w) in *. destruct (inorder T) as [|t0 ts] eqn:ET; [cbn in ET; destruct (inorder u); discriminate|].
      apply last_error_In. exact Eb. }
    set (s1 := set_slot sp (Some left_) (set_par right_ (Some left_) (set_par left_ pr (set_rgt left_ (Some right_) s0)))).
    assert (Hbl_ne : forall i, In i (inorder bl) -> i <> left_ /\ z i = 1).
    { intros i Hi. split; [|apply Z_l; apply in_or_app; left; exact Hi]. intros ->. apply (NoDup_remove_2 _ _ _ NDl). apply in_or_app. left. exact Hi. }
    apply (Fin s1 bl (FL left_ r :: c) (lft s0 left_) (S (height bl))).
    + unfold s1. apply (points_to_frame bl s0 _ _ _ _ Pbl (nodup_l _ _ NDl)).
      * intros i Hi. destruct (Hbl_ne i Hi) as [Hne Zi]. repeat split; intros; fld ltac:(apply SN; lia); rewrite ?fset_other by first [assumption|zne]; reflexivity.
      * intros q Hq. rewrite Hq in Pbl. assert (Hi := points_to_root _ _ _ _ Pbl). destruct (Hbl_ne q Hi) as [Hne Zi].
        fld fail. rewrite ?fset_other by assumption. eapply points_to_par; eassumption.
    + cbn [ctx_ok]. unfold s1. fld ltac:(apply SN; lia). split; [reflexivity|]. split; [reflexivity|]. split.
      * apply (points_to_frame r s0 _ _ _ _ Pr0 NDr).
        { intros i Hi. apply Z_r in Hi. repeat split; intros.
          - fld ltac:(apply SN; lia). reflexivity.
          - fld ltac:(apply SN; lia). reflexivity.
          - fld ltac:(apply SN; lia). reflexivity.
          - fld fail. rewrite !fset_other by first [congruence|zne]. reflexivity. }
        { intros q Hq. injection Hq as <-. fld fail. reflexivity. }
      * apply (ctx_ok_slot c s0 _ a pr (Some left_) Cc0 NDc Nc); fold sp.
        { intros i Hi. apply Zc in Hi. split; [|split; [|split]]; fld fail; try reflexivity.
          - apply lft_slot_ext. fld fail. reflexivity.
          - apply rgt_slot_ext. fld fail. reflexivity. }
        { fld fail. apply tp_slot_ext. reflexivity. }
    + cbn [balanced] in Bl. tauto.
    + cbn [ctx_bal]. cbn [height] in *. rewrite Nat.max_0_r in *. split; [lia|]. split; [lia|]. split; [exact Br|]. exact CB.
    + lia.
    + lia.
    + rewrite inorder_plug. cbn [pre post]. rewrite <- Exs, <- Eys. rewrite <- !app_assoc. reflexivity.
    + cbn [length]. unfold FUEL. lia.
    + unfold s1. repeat split; fld fail; reflexivity.
  - (* the predecessor is deeper *)
    assert (Hroot : Some left_ <> Some b) by congruence.
    destruct (par_in l s0 (Some a) (Some left_) b Pl0 NDl Hb Hroot) as (m & Em & Hm & Hmb). assert (Zm := Z_l m Hm).
    rewrite Em. cbn [deref bind fst snd].
    assert (Qb : forall q, lft s0 b = Some q -> par s0 q = Some b /\ In q (inorder l)) by (intros q Hq; eapply child_par; eassumption).
    assert (Pleft : par s0 left_ = Some a) by (eapply points_to_par; eassumption).
    set (s2 := set_par left_ (Some b) (set_lft b (Some left_) (set_par_opt (lft s0 b) (Some m) (set_rgt m (lft s0 b) s0)))).
    match goal with |- context [set_par left_ (Some b) ?u] => assert (Es2 : set_par left_ (Some b) u = s2) end.
    { unfold s2. cbn [set_rgt rgt]. rewrite fset_same. reflexivity. }
    rewrite Es2. clear Es2.
    set (s1 := set_slot sp (Some b) (set_par right_ (Some b) (set_par b pr (set_rgt b (Some right_) s2)))).
    assert (Zq : forall q, lft s0 b = Some q -> z q = 1) by (intros q Hq; apply Z_l; apply Qb; exact Hq).
    destruct (spine l s0 s1 (Some a) (Some b) (Some left_) b (FL b r :: c) Pl0 Bl NDl Eb Hroot) as (c' & bl & m2 & w & R1 & R2 & R3 & R4 & R5 & R6 & R7 & R8 & R9).
    + intros i Hi Hib. apply Z_l in Hi. unfold s1, s2. split; [|split; [|split]].
      * repeat first [progress fld ltac:(apply SN; lia) | rewrite fset_other by congruence]. reflexivity.
      * fld fail. reflexivity.
      * intros Hne. repeat first [progress fld ltac:(apply SN; lia) | rewrite fset_other by congruence]. reflexivity.
      * intros Hne Hne2. repeat first [progress fld fail | rewrite fset_other by congruence]. reflexivity.
    + intros m3 Hm3. rewrite Em in Hm3. injection Hm3 as <-. unfold s1, s2. repeat first [progress fld ltac:(apply SN; lia) | rewrite fset_other by congruence]. reflexivity.
    + intros q m3 Hq Hm3. rewrite Em in Hm3. injection Hm3 as <-. destruct (Qb q Hq) as [Q1 Q2].
      assert (q <> b) by (intros ->; congruence). assert (q <> left_) by (intros ->; rewrite Pleft in Q1; injection Q1 as ->; rewrite Z_a in Zb; discriminate).
      unfold s1, s2. rewrite Hq. fld fail. pose proof (Zq q Hq). rewrite !fset_other by first [assumption|zne]. apply par_popt_same.
    + intros q Hq. injection Hq as <-. unfold s1, s2. repeat first [progress fld fail | rewrite fset_other by congruence]. reflexivity.
    + assert (X1 : lft s1 b = Some left_) by (unfold s1, s2; fld ltac:(apply SN; lia); reflexivity).
      assert (X2 : rgt s1 b = Some right_) by (unfold s1, s2; fld ltac:(apply SN; lia); reflexivity).
      assert (X3 : par s1 b = pr) by (unfold s1, s2; fld fail; reflexivity).
      cbn [ctx_ok]. rewrite X1, X2, X3. split; [reflexivity|]. split; [reflexivity|]. split.
      * apply (points_to_frame r s0 _ _ _ _ Pr0 NDr).
        { intros i Hi. apply Z_r in Hi. unfold s1, s2. repeat split; intros.
          - fld ltac:(apply SN; lia). reflexivity.
          - fld ltac:(apply SN; lia). reflexivity.
          - fld ltac:(apply SN; lia). reflexivity.
          - fld fail. rewrite !fset_other by first [congruence|zne]. fld fail. reflexivity. }
        { intros q Hq. injection Hq as <-. unfold s1. fld fail. reflexivity. }
      * apply (ctx_ok_slot c s0 _ a pr (Some b) Cc0 NDc Nc); fold sp; unfold s1, s2.
        { intros i Hi. apply Zc in Hi. split; [|split; [|split]]; fld fail; try reflexivity.
          - apply lft_slot_ext. fld fail. reflexivity.
          - apply rgt_slot_ext. fld fail. reflexivity. }
        { apply tp_slot_ext. fld fail. reflexivity. }
    + cbn [ctx_bal]. cbn [height] in *. split; [lia|]. split; [lia|]. split; [exact Br|]. exact CB.
    + rewrite Em in R1. injection R1 as <-.
      assert (Em2 : Some m = match c' ++ FL b r :: c with [] => None | FL m0 _ :: _ | FR _ m0 :: _ => Some m0 end).
      { destruct (c' ++ FL b r :: c) as [|[m0 k|k m0] c0]; cbn [ctx_ok] in R3; [destruct R3; discriminate|tauto|tauto]. }
      rewrite Em2. apply (Fin s1 bl (c' ++ FL b r :: c) (lft s0 b) (S (height bl))).
      * rewrite <- Em2. exact R2.
      * rewrite <- Em2. exact R3.
      * exact R5.
      * exact R4.
      * lia.
      * lia.
      * rewrite inorder_plug, R6, R7. cbn [pre post]. rewrite <- Exs, <- Eys, R8, <- !app_assoc. reflexivity.
      * rewrite app_length. cbn [length]. unfold FUEL. lia.
      * unfold s1, s2. repeat split; fld fail; reflexivity.
Qed.

(** * Search *)

(** the items in the sequence are sorted with respect to the item searched for: first
    those that it follows, then those equal to it, then those that it precedes *)
Definition ordered (cmp : nat -> Z) (xs : list nat) : Prop :=
  forall ws a ys b zs, xs = ws ++ a :: ys ++ b :: zs -> (Z.sgn (cmp b) <= Z.sgn (cmp a))%Z.

Definition closest (cmp : nat -> Z) (xs : list nat) (m : nat) (c : Z) : Prop :=
  exists ws ys, xs = ws ++ m :: ys /\
    ((c = 0 /\ cmp m = 0)%Z \/
     ((c = -1 /\ cmp m < 0)%Z /\ Forall (fun i => cmp i > 0)%Z ws /\ Forall (fun i => cmp i < 0)%Z ys) \/
     ((c = 1 /\ cmp m > 0)%Z /\ Forall (fun i => cmp i > 0)%Z ws /\ Forall (fun i => cmp i < 0)%Z ys)).

Lemma ordered_left : forall cmp xs a ys, ordered cmp (xs ++ a :: ys) -> (cmp a > 0)%Z -> Forall (fun i => cmp i > 0)%Z xs.
Proof.
  intros cmp xs a ys H Ha. apply Forall_forall. intros x Hx. apply in_split in Hx. destruct Hx as (u & v & ->).
  specialize (H u x v a ys). rewrite <- app_assoc in H. cbn [app] in H. specialize (H eq_refl).
  destruct (cmp a), (cmp x); cbn in H; lia.
Qed.
Lemma ordered_right : forall cmp xs a ys, ordered cmp (xs ++ a :: ys) -> (cmp a < 0)%Z -> Forall (fun i => cmp i < 0)%Z ys.
Proof.
  intros cmp xs a ys H Ha. apply Forall_forall. intros x Hx. apply in_split in Hx. destruct Hx as (u & v & ->).
  specialize (H xs a u x v eq_refl). destruct (cmp a), (cmp x); cbn in H; lia.
Qed.
Lemma ordered_app : forall cmp xs ys, ordered cmp (xs ++ ys) -> ordered cmp xs /\ ordered cmp ys.
Proof.
  intros cmp xs ys H. split; intros ws a us b zs ->.
  - apply (H ws a us b (zs ++ ys)). repeat (progress (rewrite <- ?app_assoc; cbn [app])). reflexivity.
  - apply (H (xs ++ ws) a us b zs). rewrite <- app_assoc. reflexivity.
Qed.

Lemma search_loop_ok : forall t fuel cmp s pr n, points_to s t pr (Some n) -> height t <= fuel -> ordered cmp (inorder t) ->
  exists m c, search_loop fuel cmp s n = Ret (m, c) /\ closest cmp (inorder t) m c.
Proof.
  induction t as [|l IHl x r IHr]; intros fuel cmp s pr n P Hf O; [discriminate P|].
  destruct P as (E & _ & _ & Pl & Pr). injection E as <-. cbn [height] in Hf. destruct fuel as [|fuel]; [lia|]. cbn [search_loop inorder] in *.
  destruct (ordered_app _ _ _ O) as [Ol Or'].
  destruct (Z.ltb_spec (cmp n) 0).
  - assert (Fr := ordered_right _ _ _ _ O H).
    destruct (lft s n) as [q|] eqn:El.
    + destruct (IHl fuel cmp s (Some n) q Pl) as (m & c & E & ws & ys & Ei & C); [lia|exact Ol|].
      exists m, c. split; [exact E|]. exists ws, (ys ++ n :: inorder r). split; [rewrite Ei, <- app_assoc; reflexivity|].
      assert (Fy : Forall (fun i => cmp i < 0)%Z ys -> Forall (fun i => cmp i < 0)%Z (ys ++ n :: inorder r)) by (intros Hy; apply Forall_app; split; [exact Hy|constructor; assumption]).
      tauto.
    + destruct l; [|destruct Pl; discriminate]. exists n, (-1)%Z. split; [reflexivity|]. exists [], (inorder r). split; [reflexivity|]. right. left. auto.
  - destruct (Z.ltb_spec 0 (cmp n)).
    + assert (Fl := ordered_left _ _ _ _ O ltac:(lia)).
      change (n :: inorder r) with ([n] ++ inorder r) in Or'. destruct (ordered_app _ _ _ Or') as [_ Or''].
      destruct (rgt s n) as [q|] eqn:Er.
      * destruct (IHr fuel cmp s (Some n) q Pr) as (m & c & E & ws & ys & Ei & C); [lia|exact Or''|].
        exists m, c. split; [exact E|]. exists (inorder l ++ n :: ws), ys. split; [rewrite Ei, <- app_assoc; reflexivity|].
        assert (Fy : Forall (fun i => cmp i > 0)%Z ws -> Forall (fun i => cmp i > 0)%Z (inorder l ++ n :: ws)) by (intros Hy; apply Forall_app; split; [exact Fl|constructor; [lia|assumption]]).
        tauto.
      * destruct r; [|destruct Pr; discriminate]. exists n, 1%Z. split; [reflexivity|]. exists (inorder l), []. split; [reflexivity|]. right. right.
        split; [lia|]. split; [exact Fl|constructor].
    + exists n, 0%Z. split; [reflexivity|]. exists (inorder l), (inorder r). split; [reflexivity|]. left. lia.
Qed.

Lemma search_ok : forall cmp s xs, holds s xs -> allocatable xs -> ordered cmp xs ->
  (xs = [] /\ avl_search_closest cmp s = Ret (None, 0%Z)) \/
  (exists m c, avl_search_closest cmp s = Ret (Some m, c) /\ closest cmp xs m c).
Proof.
  intros cmp s xs (ND & (t & It & Bt & Pt) & _) Al O. unfold avl_search_closest. destruct (tp s) as [n|] eqn:Et.
  - right. destruct (search_loop_ok t FUEL cmp s None n Pt) as (m & c & E & C).
    + assert (height t < 242) by (apply height_small; [exact Bt|rewrite It; exact Al]). unfold FUEL. lia.
    + rewrite It. exact O.
    + exists m, c. rewrite E. cbn [bind fst snd]. split; [reflexivity|]. rewrite <- It. exact C.
  - left. destruct t as [|l x r]; [|destruct Pt; discriminate]. split; [symmetry; exact It|reflexivity].
Qed.
