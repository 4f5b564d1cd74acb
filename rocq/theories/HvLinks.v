(** Circular doubly linked lists: deletion, reinsertion ("dancing links"), and
    sublists given by a predicate. *)
From Coq Require Import List ZArith Lia Bool Arith Permutation Sorted.
From Verif Require Import Base.
Import ListNotations.
Local Open Scope nat_scope.

(** [nx]/[pv] link [a], the nodes [l] and [b] in this order *)
Fixpoint seg (nx pv : nat -> nat) (a : nat) (l : list nat) (b : nat) : Prop :=
  match l with
  | [] => nx a = b /\ pv b = a
  | x :: l' => nx a = x /\ pv x = a /\ seg nx pv x l' b
  end.

(** circular list with head 0 *)
Definition dll (nx pv : nat -> nat) (l : list nat) : Prop :=
  NoDup (0 :: l) /\ seg nx pv 0 l 0.

Lemma seg_app : forall nx pv l1 a x l2 b,
  seg nx pv a (l1 ++ x :: l2) b <-> seg nx pv a l1 x /\ seg nx pv x l2 b.
Proof.
  induction l1; simpl; intros. tauto. rewrite IHl1. tauto.
Qed.

Lemma seg_ext : forall nx pv nx' pv' l a b,
  (forall y, In y (a :: l) -> nx' y = nx y) -> (forall y, In y (l ++ [b]) -> pv' y = pv y) ->
  seg nx pv a l b -> seg nx' pv' a l b.
Proof.
  induction l as [|c l IH]; intros a b Hn Hp H; simpl in H |- *.
  - destruct H as [A B]. rewrite Hn, Hp by (simpl; auto). auto.
  - destruct H as (A & B & C). rewrite Hn, Hp by (simpl; auto). split; auto. split; auto.
    apply IH; auto. intros y Hy. apply Hn. right. exact Hy. intros y Hy. apply Hp. right. exact Hy.
Qed.

Lemma seg_next : forall nx pv l a b, seg nx pv a l b -> nx a = hd b l.
Proof. destruct l; simpl; tauto. Qed.

Lemma last_cons : forall (l : list nat) a d, last (a :: l) d = last l a.
Proof.
  intros. destruct l as [|b l]; auto. change (last (a :: b :: l) d) with (last (b :: l) d).
  revert b. induction l; intros; auto. simpl in *. apply (IHl a0).
Qed.

Lemma seg_prev : forall nx pv l a b, seg nx pv a l b -> pv b = last l a.
Proof.
  induction l; intros. simpl in *; tauto.
  destruct H as (_ & _ & H). apply IHl in H. rewrite H. now rewrite last_cons.
Qed.

Definition same (nx pv nx' pv' : nat -> nat) : Prop :=
  (forall a, nx' a = nx a) /\ (forall a, pv' a = pv a).
Definition is_del (x : nat) (nx pv nx' pv' : nat -> nat) : Prop :=
  (forall a, nx' a = if a =? pv x then nx x else nx a) /\
  (forall a, pv' a = if a =? nx x then pv x else pv a).
Definition is_ins (x : nat) (nx pv nx' pv' : nat -> nat) : Prop :=
  (forall a, nx' a = if a =? pv x then x else nx a) /\
  (forall a, pv' a = if a =? nx x then x else pv a).

Lemma same_refl : forall nx pv, same nx pv nx pv.
Proof. split; auto. Qed.
Lemma same_trans : forall a b c d e f, same a b c d -> same c d e f -> same a b e f.
Proof. intros a b c d e f [] []. split; intros; rewrite ?H1, ?H2; auto. Qed.
Lemma same_sym : forall a b c d, same a b c d -> same c d a b.
Proof. intros a b c d []. split; intros; auto. Qed.

Lemma dll_same : forall nx pv nx' pv' l, same nx pv nx' pv' -> dll nx pv l -> dll nx' pv' l.
Proof. intros. destruct H0. split; auto. destruct H. eapply seg_ext; eauto. Qed.

Lemma dll_at : forall nx pv l1 x l2, dll nx pv (l1 ++ x :: l2) ->
  nx x = hd 0 l2 /\ pv x = last l1 0 /\ nx (pv x) = x /\ pv (nx x) = x /\ nx x <> x /\ pv x <> x.
Proof.
  intros nx pv l1 x l2 [N S]. apply seg_app in S. destruct S as [S1 S2].
  pose proof (seg_next _ _ _ _ _ S2) as E1. pose proof (seg_prev _ _ _ _ _ S1) as E2.
  assert (N0 : x <> 0) by (inversion N; subst; intros ->; apply H1; apply in_app_iff; simpl; auto).
  assert (N2 : ~ In x l1 /\ ~ In x l2).
  { inversion N; subst. apply NoDup_remove_2 in H2. rewrite in_app_iff in H2. tauto. }
  rewrite E1, E2. repeat split; auto.
  - destruct l1 using rev_ind. simpl in *; tauto. rewrite last_last. clear IHl1.
    apply seg_app in S1. destruct S1 as [_ S1]. simpl in S1. tauto.
  - destruct l2; simpl in *; tauto.
  - destruct l2; simpl in *; auto. intros ->. tauto.
  - destruct l1 using rev_ind; auto. rewrite last_last. intros ->. apply (proj1 N2).
    apply in_app_iff; simpl; auto.
Qed.

Lemma dll_in : forall nx pv l x, dll nx pv l -> In x l ->
  nx (pv x) = x /\ pv (nx x) = x /\ nx x <> x /\ pv x <> x.
Proof.
  intros. apply in_split in H0. destruct H0 as (l1 & l2 & ->).
  destruct (dll_at _ _ _ _ _ H) as (_ & _ & A). exact A.
Qed.

Lemma last_app_cons : forall (l1 : list nat) a l2 d, last (l1 ++ a :: l2) d = last (a :: l2) d.
Proof.
  induction l1; intros; auto. change ((a :: l1) ++ a0 :: l2) with (a :: (l1 ++ a0 :: l2)).
  destruct (l1 ++ a0 :: l2) eqn:E. destruct l1; discriminate. rewrite <- (IHl1 a0 l2 d), E. reflexivity.
Qed.

Lemma last_in : forall (l : list nat) a d, In (last (a :: l) d) (a :: l).
Proof.
  induction l; intros; simpl; auto. right. apply (IHl a d).
Qed.

Lemma dll_is_last : forall nx pv P p R, dll nx pv (P ++ p :: R) ->
  (p =? pv 0) = match R with [] => true | _ => false end.
Proof.
  intros nx pv P p R [N S]. rewrite (seg_prev _ _ _ _ _ S). rewrite last_app_cons.
  destruct R as [|r R]. simpl. apply Nat.eqb_refl.
  apply Nat.eqb_neq. intros E. destruct (proj1 (NoDup_cons_iff _ _) N) as [_ N2].
  apply NoDup_remove_2 in N2. apply N2. apply in_app_iff. right.
  rewrite E at 1. change (last (p :: r :: R) 0) with (last (r :: R) 0). apply last_in.
Qed.

Lemma del_dll : forall nx pv nx' pv' l1 x l2,
  dll nx pv (l1 ++ x :: l2) -> is_del x nx pv nx' pv' -> dll nx' pv' (l1 ++ l2).
Proof.
  intros nx pv nx' pv' l1 x l2 D [D1 D2].
  destruct (dll_at _ _ _ _ _ D) as (E1 & E2 & _ & _ & E3 & E4).
  destruct D as [N S]. split.
  { change (0 :: l1 ++ l2) with ((0 :: l1) ++ l2). eapply NoDup_remove_1. exact N. }
  apply seg_app in S. destruct S as [S1 S2].
  assert (N' : NoDup ((0 :: l1) ++ x :: l2)) by exact N.
  destruct l2 as [|b l2]; simpl in E1.
  - rewrite app_nil_r. destruct l1 as [|a l1] using rev_ind.
    + simpl in *. rewrite D1, D2, E1, E2. simpl. auto.
    + clear IHl1. rewrite last_last in E2.
      apply seg_app in S1. apply seg_app. destruct S1 as [S1 S3]. split.
      * eapply seg_ext; [..|exact S1]; intros y Hy.
        -- rewrite D1, E2. destruct (Nat.eqb_spec y a); auto. subst y.
           exfalso. destruct (proj1 (NoDup_cons_iff _ _) N) as [N1 N2]. apply NoDup_remove_1 in N2.
           rewrite app_nil_r in N2. apply NoDup_remove_2 in N2. rewrite app_nil_r in N2.
           destruct Hy as [<-|Hy]; auto. apply N1. rewrite !in_app_iff; simpl; auto.
        -- rewrite D2, E1. destruct (Nat.eqb_spec y 0); auto. subst y.
           exfalso. destruct (proj1 (NoDup_cons_iff _ _) N) as [N1 N2]. apply N1. rewrite !in_app_iff.
           apply in_app_iff in Hy. tauto.
      * simpl. rewrite D1, D2, E1, E2, !Nat.eqb_refl. auto.
  - apply seg_app. simpl in S2. destruct S2 as (_ & _ & S2). split.
    + destruct l1 as [|a l1] using rev_ind.
      * simpl in *. rewrite D1, D2, E1, E2, !Nat.eqb_refl. auto.
      * clear IHl1. rewrite last_last in E2. apply seg_app in S1. apply seg_app. destruct S1 as [S1 S3].
        split.
        -- destruct (proj1 (NoDup_cons_iff _ _) N) as [N1 N2]. rewrite <- app_assoc in N1, N2. simpl in N1, N2.
           eapply seg_ext; [..|exact S1]; intros y Hy.
           ++ rewrite D1, E2. destruct (Nat.eqb_spec y a); auto. subst y. exfalso.
              apply NoDup_remove_2 in N2. destruct Hy as [<-|Hy].
              apply N1; rewrite !in_app_iff; simpl; auto. apply N2; rewrite in_app_iff; auto.
           ++ rewrite D2, E1. destruct (Nat.eqb_spec y b); auto. subst y. exfalso.
              replace (l1 ++ a :: x :: b :: l2) with ((l1 ++ [a; x]) ++ b :: l2) in N2
                by (now rewrite <- app_assoc).
              apply NoDup_remove_2 in N2. apply N2. rewrite !in_app_iff in *. simpl in *. tauto.
        -- simpl. rewrite D1, D2, E1, E2, !Nat.eqb_refl. auto.
    + assert (Hl : ~ In (last l1 0) (b :: l2)).
      { intros Hb. replace (l1 ++ x :: b :: l2) with (l1 ++ [x] ++ b :: l2) in N by reflexivity.
        destruct l1 as [|a l1] using rev_ind.
        - simpl in *. destruct (proj1 (NoDup_cons_iff _ _) N) as [N1 N2]. apply N1. simpl. tauto.
        - rewrite last_last in Hb. destruct (proj1 (NoDup_cons_iff _ _) N) as [N1 N2].
          rewrite <- app_assoc in N2. simpl in N2. apply NoDup_remove_2 in N2. apply N2.
          rewrite in_app_iff. right. right. exact Hb. }
      assert (Hb : ~ In b (l2 ++ [0])).
      { intros Hb. destruct (proj1 (NoDup_cons_iff _ _) N) as [N1 N2]. apply in_app_iff in Hb. simpl in Hb.
        destruct Hb as [Hb|[<-|[]]].
        - replace (l1 ++ x :: b :: l2) with ((l1 ++ [x]) ++ b :: l2) in N2 by (now rewrite <- app_assoc).
          apply NoDup_remove_2 in N2. apply N2. rewrite in_app_iff; auto.
        - apply N1. rewrite in_app_iff. simpl; auto. }
      eapply seg_ext; [..|exact S2]; intros y Hy.
      * rewrite D1, E2. destruct (Nat.eqb_spec y (last l1 0)); auto. subst y. tauto.
      * rewrite D2, E1. destruct (Nat.eqb_spec y b); auto. subst y. tauto.
Qed.

Lemma ins_del : forall nx pv nx1 pv1 nx2 pv2 l x,
  dll nx pv l -> In x l -> is_del x nx pv nx1 pv1 -> is_ins x nx1 pv1 nx2 pv2 ->
  same nx pv nx2 pv2.
Proof.
  intros nx pv nx1 pv1 nx2 pv2 l x D I [D1 D2] [I1 I2].
  destruct (dll_in _ _ _ _ D I) as (A & B & C1 & C2).
  assert (E1 : nx1 x = nx x). { rewrite D1. destruct (Nat.eqb_spec x (pv x)); auto. }
  assert (E2 : pv1 x = pv x). { rewrite D2. destruct (Nat.eqb_spec x (nx x)); auto. }
  split; intros.
  - rewrite I1, E2, D1. destruct (Nat.eqb_spec a (pv x)); auto. subst; auto.
  - rewrite I2, E1, D2. destruct (Nat.eqb_spec a (nx x)); auto. subst; auto.
Qed.

(** the nodes [todo] have been deleted, the last one first *)
Fixpoint dels (todo : list nat) (nx pv nx' pv' : nat -> nat) : Prop :=
  match todo with
  | [] => same nx pv nx' pv'
  | t :: ts => exists nx1 pv1, dels ts nx pv nx1 pv1 /\ is_del t nx1 pv1 nx' pv'
  end.

Lemma dels_same : forall todo nx pv nx1 pv1 nx2 pv2,
  dels todo nx pv nx1 pv1 -> same nx1 pv1 nx2 pv2 -> dels todo nx pv nx2 pv2.
Proof.
  destruct todo; simpl; intros.
  - eapply same_trans; eauto.
  - destruct H as (a & b & H1 & [H2 H3]). destruct H0. exists a, b. split; auto.
    split; intros; rewrite ?H, ?H0; auto.
Qed.

(** ** Sublists given by predicates *)

Definition minus (S : nat -> bool) (l : list nat) : nat -> bool :=
  fun p => S p && negb (existsb (Nat.eqb p) l).

Lemma existsb_eqb : forall l p, existsb (Nat.eqb p) l = true <-> In p l.
Proof.
  intros. rewrite existsb_exists. split.
  - intros (x & H & E). apply Nat.eqb_eq in E. now subst.
  - intros. exists p. split; auto. apply Nat.eqb_refl.
Qed.

Lemma minus_true : forall S l p, minus S l p = true <-> S p = true /\ ~ In p l.
Proof.
  intros. unfold minus. rewrite andb_true_iff, negb_true_iff.
  rewrite <- existsb_eqb. destruct (existsb (Nat.eqb p) l); intuition congruence.
Qed.

Lemma filter_filter : forall A (f g : A -> bool) l,
  filter f (filter g l) = filter (fun x => g x && f x) l.
Proof.
  induction l; simpl; auto. destruct (g a) eqn:E; simpl; rewrite ?IHl; auto.
Qed.

Lemma filter_all : forall A (f : A -> bool) l, (forall x, In x l -> f x = true) -> filter f l = l.
Proof.
  induction l; simpl; intros; auto. rewrite H by auto. f_equal. apply IHl. auto.
Qed.

Lemma filter_none : forall A (f : A -> bool) l, (forall x, In x l -> f x = false) -> filter f l = [].
Proof.
  induction l; simpl; intros; auto. rewrite H by auto. apply IHl. auto.
Qed.

Lemma filter_ext_in' : forall A (f g : A -> bool) l, (forall x, In x l -> f x = g x) ->
  filter f l = filter g l.
Proof. intros. apply filter_ext_in. auto. Qed.

Lemma filter_split : forall A (f : A -> bool) l l1 b l2, filter f l = l1 ++ b :: l2 ->
  exists m1 m2, l = m1 ++ b :: m2 /\ l1 = filter f m1 /\ l2 = filter f m2 /\ f b = true.
Proof.
  induction l; simpl; intros.
  - destruct l1; discriminate.
  - destruct (f a) eqn:E.
    + destruct l1 as [|c l1]; simpl in H; inversion H; subst.
      * exists [], l. auto.
      * destruct (IHl _ _ _ H2) as (m1 & m2 & -> & -> & -> & F).
        exists (c :: m1), m2. simpl. rewrite E. auto.
    + destruct (IHl _ _ _ H) as (m1 & m2 & -> & -> & -> & F).
      exists (a :: m1), m2. simpl. rewrite E. auto.
Qed.

Lemma NoDup_filter' : forall A (f : A -> bool) l, NoDup l -> NoDup (filter f l).
Proof. intros. now apply NoDup_filter. Qed.

(** deleting one more node from a filtered list *)
Lemma filter_minus1 : forall S G l1 x l2, NoDup G -> filter S G = l1 ++ x :: l2 ->
  filter (minus S [x]) G = l1 ++ l2.
Proof.
  intros. unfold minus. rewrite <- filter_filter. rewrite H0.
  pose proof (NoDup_filter S H) as N. rewrite H0 in N. apply NoDup_remove_2 in N.
  rewrite in_app_iff in N. rewrite filter_app. simpl.
  replace (x =? x) with true by (symmetry; apply Nat.eqb_refl). simpl.
  rewrite !filter_all; auto; intros y Hy; destruct (Nat.eqb_spec y x); simpl; auto; subst; tauto.
Qed.

(** [a] occurs before [b] in [l] *)
Definition before (l : list nat) (a b : nat) : Prop :=
  exists l1 l2, l = l1 ++ b :: l2 /\ In a l1.

Lemma NoDup_split_unique : forall (l1 l2 l1' l2' : list nat) b,
  NoDup (l1 ++ b :: l2) -> l1 ++ b :: l2 = l1' ++ b :: l2' -> l1 = l1' /\ l2 = l2'.
Proof.
  induction l1; simpl; intros.
  - destruct l1'; simpl in *; inversion H0; subst; auto.
    exfalso. inversion H; subst. apply H3. apply in_app_iff; simpl; auto.
  - destruct l1'; simpl in *; inversion H0; subst.
    + exfalso. inversion H; subst. apply H3. apply in_app_iff; simpl; auto.
    + inversion H; subst. destruct (IHl1 _ _ _ _ H5 H3). subst; auto.
Qed.

Lemma before_filter : forall S l a b l1 l2, NoDup l -> before l a b -> S a = true ->
  filter S l = l1 ++ b :: l2 -> In a l1.
Proof.
  intros S l a b l1 l2 N (m1 & m2 & -> & I) Sa F.
  destruct (filter_split _ _ _ _ _ _ F) as (m1' & m2' & E & -> & -> & Sb).
  destruct (NoDup_split_unique _ _ _ _ _ N E). subst. apply filter_In. auto.
Qed.

Lemma filter_before : forall S l a b l1 l2, filter S l = l1 ++ b :: l2 -> In a l1 -> before l a b.
Proof.
  intros. destruct (filter_split _ _ _ _ _ _ H) as (m1 & m2 & -> & -> & -> & Sb).
  exists m1, m2. split; auto. apply filter_In in H0. tauto.
Qed.

Lemma before_in : forall l a b, before l a b -> In a l /\ In b l.
Proof. intros l a b (l1 & l2 & -> & H). rewrite !in_app_iff. simpl. auto. Qed.

Lemma before_total : forall l a b, In a l -> In b l -> a <> b -> before l a b \/ before l b a.
Proof.
  intros. apply in_split in H0. destruct H0 as (l1 & l2 & ->).
  apply in_app_iff in H. simpl in H. destruct H as [H|[H|H]].
  - left. exists l1, l2. auto.
  - congruence.
  - right. apply in_split in H. destruct H as (m1 & m2 & ->).
    exists (l1 ++ b :: m1), m2. rewrite <- app_assoc. simpl. split; auto.
    apply in_app_iff. simpl; auto.
Qed.

Lemma before_asym : forall l a b, NoDup l -> before l a b -> before l b a -> False.
Proof.
  intros l a b N (l1 & l2 & E & H) (m1 & m2 & E2 & H2). subst.
  apply in_split in H. destruct H as (k1 & k2 & ->).
  rewrite <- app_assoc in *. simpl in *.
  destruct (NoDup_split_unique _ _ _ _ _ N E2) as [<- _].
  apply in_split in H2. destruct H2 as (j1 & j2 & ->). rewrite <- app_assoc in N. simpl in N.
  apply NoDup_remove_2 in N. apply N. rewrite !in_app_iff. simpl. rewrite in_app_iff. simpl. tauto.
Qed.
