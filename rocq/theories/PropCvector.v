(** C29: growable vectors. *)
From Coq Require Import List ZArith Lia Bool Arith.
From Verif Require Import Base CvectorModel CvectorSpec.
Import ListNotations.
Open Scope Z_scope.

Section Vec.
Context {A : Type}.
Variables (junk : nat -> A) (maxn : Z).

Definition represents (v : vec A) (l : list A) : Prop :=
  v_size v = length l /\ (v_size v <= capacity v)%nat /\
  forall i x, nth_error l i = Some x -> nth_error (v_block v) i = Some x.

(** capacity never exceeds 8 + twice the pushes + twice the reserves *)
Definition bounded (v : vec A) (l : list A) (budget : nat) : Prop :=
  Z.of_nat (capacity v + budget) <= maxn /\ Z.of_nat (8 + 2 * length l + budget) <= maxn.

Lemma nth_error_rd : forall (b : list A) i x, nth_error b i = Some x -> rd b i = Ret x.
Proof. intros. unfold rd. now rewrite H. Qed.

Lemma nth_error_firstn_lt : forall (b : list A) n i, (i < n)%nat -> nth_error (firstn n b) i = nth_error b i.
Proof. induction b; destruct n; destruct i; simpl; intros; auto; try lia. apply IHb. lia. Qed.

Lemma reserve_block : forall v l n v', represents v l -> reserve junk maxn v n = Ret v' ->
  represents v' l /\ capacity v' = Nat.max (capacity v) n.
Proof.
  intros v l n v' (S1 & S2 & S3). unfold reserve. destruct (Nat.ltb_spec (capacity v) n) as [L|L].
  - destruct (Z.of_nat n <=? maxn); cbn [assert_ bind]; intros E; [|discriminate]. injection E as <-.
    assert (C : capacity (mkVec (firstn n (v_block v) ++ map junk (seq (length (v_block v)) (n - length (v_block v)))) (v_size v)) = n).
    { unfold capacity. cbn [v_block]. rewrite app_length, firstn_length, map_length, seq_length.
      unfold capacity in L. lia. }
    split; [|rewrite C; lia]. split; auto. split; [rewrite C; cbn [v_size]; lia|].
    intros i x H. cbn [v_block]. pose proof (S3 i x H) as N.
    assert (i < length (v_block v))%nat by (apply nth_error_Some; congruence).
    unfold capacity in L. rewrite nth_error_app1 by (rewrite firstn_length; lia).
    rewrite nth_error_firstn_lt by lia. auto.
  - intros E. injection E as <-. split; [split; auto|]. lia.
Qed.

Lemma reserve_ok : forall v n, Z.of_nat n <= maxn -> exists v', reserve junk maxn v n = Ret v'.
Proof.
  intros. unfold reserve. destruct (capacity v <? n)%nat; eauto.
  apply Z.leb_le in H. rewrite H. cbn [assert_ bind]. eauto.
Qed.

Lemma list_eq_nth_error : forall (a b : list A), (forall i, nth_error a i = nth_error b i) -> a = b.
Proof.
  induction a as [|x a IH]; destruct b as [|y b]; intros H; auto.
  - specialize (H 0%nat). discriminate.
  - specialize (H 0%nat). discriminate.
  - pose proof (H 0%nat) as H0. injection H0 as ->. f_equal. apply IH. intros i. exact (H (S i)).
Qed.

Lemma wr_nth_error : forall (b : list A) i x, (i < length b)%nat ->
  exists b', wr b i x = Ret b' /\ length b' = length b /\
    forall j, nth_error b' j = if (j =? i)%nat then Some x else nth_error b j.
Proof.
  intros b i x H. rewrite (wr_ok _ b i x H). exists (upd b i x). split; auto. split. apply upd_length.
  intros j. destruct (Nat.eqb_spec j i) as [->|N].
  - rewrite (nth_error_nth' _ x) by (rewrite upd_length; auto). now rewrite nth_upd_same.
  - destruct (lt_dec j (length b)) as [L|L].
    + rewrite (nth_error_nth' (upd b i x) x), (nth_error_nth' b x) by (rewrite ?upd_length; auto).
      rewrite nth_upd_other by auto. reflexivity.
    + assert (E : nth_error b j = None) by (apply nth_error_None; lia). rewrite E.
      apply nth_error_None. rewrite upd_length. lia.
Qed.

Lemma push_ok : forall v l x budget, represents v l -> bounded v l (2 + budget) ->
  exists v', push_back junk maxn v x = Ret v' /\ represents v' (l ++ [x]) /\ bounded v' (l ++ [x]) budget.
Proof.
  intros v l x budget R [B1 B2].
  assert (X : exists v1, (if (v_size v =? capacity v)%nat
        then reserve junk maxn v (if (capacity v =? 0)%nat then 8 else 2 * capacity v) else Ret v) = Ret v1 /\
        represents v1 l /\ (v_size v1 < capacity v1)%nat /\ Z.of_nat (capacity v1 + budget) <= maxn).
  { destruct (Nat.eqb_spec (v_size v) (capacity v)) as [E|E].
    - assert (Hc : Z.of_nat ((if (capacity v =? 0)%nat then 8 else 2 * capacity v) + budget) <= maxn).
      { destruct R as (S1 & _). destruct (Nat.eqb_spec (capacity v) 0); lia. }
      destruct (reserve_ok v (if (capacity v =? 0)%nat then 8 else 2 * capacity v)) as (v1 & E1).
      { destruct (capacity v =? 0)%nat; lia. }
      destruct (reserve_block _ _ _ _ R E1) as [R1 C1]. exists v1. split; auto. split; auto.
      destruct R as (S1 & _). destruct R1 as (S1' & _).
      destruct (Nat.eqb_spec (capacity v) 0); lia.
    - exists v. split; auto. split; auto. destruct R as (S1 & S2 & S3). lia. }
  destruct X as (v1 & E1 & R1 & L1 & M1). unfold push_back. rewrite E1. cbn [bind].
  destruct (wr_nth_error (v_block v1) (v_size v1) x L1) as (b & E2 & Lb & N2). rewrite E2. cbn [bind].
  eexists. split; [reflexivity|]. destruct R1 as (S1 & S2 & S3).
  split.
  - split; [cbn [v_size]; rewrite app_length; simpl; lia|]. split.
    + unfold capacity in *. cbn [v_size v_block]. lia.
    + intros i y H. cbn [v_block]. rewrite N2. destruct (Nat.eqb_spec i (v_size v1)) as [->|Ne].
      * rewrite nth_error_app2 in H by lia. rewrite S1, Nat.sub_diag in H. exact H.
      * apply S3. assert (i < length (l ++ [x]))%nat by (apply nth_error_Some; congruence).
        rewrite app_length in H0. simpl in H0. rewrite nth_error_app1 in H by lia. auto.
  - split.
    + unfold capacity in *. cbn [v_block]. lia.
    + rewrite app_length. simpl. lia.
Qed.

Lemma rev_cons_last : forall (l : list A) x r, rev l = x :: r -> l = rev r ++ [x].
Proof. intros. rewrite <- (rev_involutive l), H. reflexivity. Qed.

Lemma bounded_weaken : forall v l b b', bounded v l b -> (b' <= b)%nat -> bounded v l b'.
Proof. intros v l b b' [H1 H2] L. split; lia. Qed.

Lemma step_ok : forall v l o l' b budget, represents v l -> bounded v l (demand o + budget) ->
  spec_step l o = Some (l', b) ->
  exists v', step junk maxn v o = Ret (v', b) /\ represents v' l' /\ bounded v' l' budget.
Proof.
  intros v l o l' b budget R B E.
  pose proof (bounded_weaken v l _ budget B ltac:(lia)) as B'.
  pose proof R as (S1 & S2 & S3). destruct o as [x| |n|pos x|pos| | |]; cbn [spec_step step demand] in *.
  - injection E as <- <-. destruct (push_ok v l x budget R B) as (v' & E' & R' & BB').
    rewrite E'. cbn [bind]. eauto.
  - destruct (rev l) as [|x r] eqn:Er; [discriminate|]. injection E as <- <-.
    pose proof (rev_cons_last _ _ _ Er) as El. subst l. rewrite app_length in S1. simpl in S1.
    unfold pop_back, empty. replace (v_size v =? 0)%nat with false by (symmetry; apply Nat.eqb_neq; lia).
    cbn [negb assert_ bind].
    rewrite (nth_error_rd _ _ x).
    2:{ apply S3. rewrite nth_error_app2 by lia. replace (v_size v - 1 - length (rev r))%nat with 0%nat by lia. auto. }
    cbn [bind fst snd]. eexists. split; [reflexivity|]. split.
    + split; [cbn [v_size]; lia|]. split. unfold capacity in *. cbn [v_size v_block]. lia.
      intros i y H. cbn [v_block]. apply S3. rewrite nth_error_app1; auto. apply nth_error_Some. congruence.
    + destruct B' as [B1 B2]. split. exact B1. rewrite app_length in B2. simpl in B2. lia.
  - injection E as <- <-. destruct B as [B1 B2]. destruct (reserve_ok v n ltac:(lia)) as (v' & E').
    destruct (reserve_block _ _ _ _ R E') as [R' C']. rewrite E'. cbn [bind]. eexists. split; [reflexivity|].
    split; auto. split; lia.
  - destruct (Nat.ltb_spec pos (length l)) as [L|]; [|discriminate].
    assert (El : l' = firstn pos l ++ x :: skipn (S pos) l) by congruence.
    assert (Eb : b = OVal x) by congruence. clear E. subst l' b.
    unfold set_. replace (pos <=? v_size v)%nat with true by (symmetry; apply Nat.leb_le; lia). cbn [assert_ bind].
    unfold capacity in S2. destruct (wr_nth_error (v_block v) pos x ltac:(lia)) as (bb & E2 & Lb & N2).
    rewrite E2. cbn [bind]. eexists. split; [reflexivity|].
    assert (Ll : length (firstn pos l ++ x :: skipn (S pos) l) = length l).
    { rewrite app_length, firstn_length. cbn [length]. rewrite skipn_length. lia. }
    split.
    + split. { cbn [v_size]. rewrite Ll. auto. } split. { unfold capacity. cbn [v_size v_block]. lia. }
      intros i y H. cbn [v_block]. rewrite N2. destruct (Nat.eqb_spec i pos) as [->|Ne].
      * rewrite nth_error_app2 in H by (rewrite firstn_length; lia). rewrite firstn_length in H.
        replace (pos - Nat.min pos (length l))%nat with 0%nat in H by lia. exact H.
      * apply S3. destruct (lt_dec i pos).
        -- rewrite nth_error_app1 in H by (rewrite firstn_length; lia). now rewrite nth_error_firstn_lt in H.
        -- rewrite nth_error_app2 in H by (rewrite firstn_length; lia). rewrite firstn_length in H.
           replace (i - Nat.min pos (length l))%nat with (S (i - S pos)) in H by lia. cbn [nth_error] in H.
           rewrite <- (firstn_skipn (S pos) l). rewrite nth_error_app2 by (rewrite firstn_length; lia).
           rewrite firstn_length. replace (i - Nat.min (S pos) (length l))%nat with (i - S pos)%nat by lia. exact H.
    + destruct B' as [B1 B2]. split. unfold capacity in *. cbn [v_block]. lia. rewrite Ll. lia.
  - destruct (nth_error l pos) as [x|] eqn:N; [|discriminate]. injection E as <- <-.
    assert (pos < length l)%nat by (apply nth_error_Some; congruence).
    unfold at_. replace (pos <=? v_size v)%nat with true by (symmetry; apply Nat.leb_le; lia). cbn [assert_ bind].
    rewrite (nth_error_rd _ _ x) by auto. cbn [bind]. eauto.
  - destruct l as [|x l0]; [discriminate|]. injection E as <- <-. simpl in S1.
    unfold front, empty. replace (v_size v =? 0)%nat with false by (symmetry; apply Nat.eqb_neq; lia).
    cbn [negb assert_ bind]. rewrite (nth_error_rd _ _ x) by (apply S3; auto). cbn [bind]. eauto.
  - destruct (rev l) as [|x r] eqn:Er; [discriminate|]. injection E as <- <-.
    pose proof (rev_cons_last _ _ _ Er) as El. assert (Sl : v_size v = S (length (rev r))).
    { rewrite S1, El, app_length. simpl. lia. }
    unfold back, empty. replace (v_size v =? 0)%nat with false by (symmetry; apply Nat.eqb_neq; lia).
    cbn [negb assert_ bind]. rewrite (nth_error_rd _ _ x). cbn [bind]; eauto.
    apply S3. rewrite El, nth_error_app2 by lia. replace (v_size v - 1 - length (rev r))%nat with 0%nat by lia. auto.
  - injection E as <- <-. rewrite S1. eauto.
Qed.

Lemma run_ok : forall os v l l' bs, represents v l -> bounded v l (demands os) ->
  spec_run l os = Some (l', bs) ->
  exists v', run junk maxn v os = Ret (v', bs) /\ represents v' l'.
Proof.
  induction os as [|o os IH]; intros v l l' bs R B E; cbn [spec_run run] in *.
  - injection E as <- <-. eauto.
  - destruct (spec_step l o) as [[l1 b]|] eqn:E1; [|discriminate].
    destruct (spec_run l1 os) as [[l2 bs2]|] eqn:E2; [|discriminate]. injection E as <- <-.
    destruct (step_ok v l o l1 b (demands os) R B E1) as (v1 & Ev & R1 & B1). rewrite Ev. cbn [bind fst snd].
    destruct (IH v1 l1 l2 bs2 R1 B1 E2) as (v2 & Ev2 & R2). rewrite Ev2. cbn [bind fst snd]. eauto.
Qed.

(** Any sequence of operations that is legal for a list behaves as on a list:
    same observations, no assertion failure, no access outside the block, and at
    the end the block holds the elements in order with size <= capacity.  The
    memory limit is the only other precondition. *)
Theorem C29_behaves_as_list : forall (os : list (op A)) l' bs,
  spec_run [] os = Some (l', bs) -> Z.of_nat (8 + demands os) <= maxn ->
  exists v', run junk maxn ctor_zero os = Ret (v', bs) /\
    v_size v' = length l' /\ (v_size v' <= capacity v')%nat /\ firstn (v_size v') (v_block v') = l'.
Proof.
  intros os l' bs E M. destruct (run_ok os ctor_zero [] l' bs) as (v' & Er & S1 & S2 & S3); auto.
  - split; [reflexivity|]. split; [simpl; lia|]. intros [|] x H; discriminate.
  - split; unfold capacity, ctor_zero; cbn [v_block length]; lia.
  - exists v'. split; auto. split; auto. split; auto.
    assert (Lf : length (firstn (v_size v') (v_block v')) = length l') by (rewrite firstn_length; unfold capacity in S2; lia).
    apply list_eq_nth_error. intros i. destruct (nth_error l' i) as [x|] eqn:N.
    + rewrite nth_error_firstn_lt. now apply S3. assert (i < length l')%nat by (apply nth_error_Some; congruence). lia.
    + apply nth_error_None. apply nth_error_None in N. lia.
Qed.

(** growth: the capacity after n pushes on an empty vector is below 8 + 2n *)
Theorem C29_capacity_bound : forall (xs : list A) v', Z.of_nat (16 + 2 * length xs) <= maxn ->
  run junk maxn ctor_zero (map (@Push A) xs) = Ret v' ->
  (capacity (fst v') <= 8 + 2 * length xs)%nat.
Proof.
  assert (G : forall xs v l v', represents v l -> (capacity v <= 8 + 2 * length l)%nat ->
    run junk maxn v (map (@Push A) xs) = Ret v' -> (capacity (fst v') <= 8 + 2 * (length l + length xs))%nat).
  { induction xs as [|x xs IH]; intros v l v' R C E; cbn [map run] in E.
    - injection E as <-. cbn [fst length]. lia.
    - destruct (step junk maxn v (Push x)) as [r| | |] eqn:Es; try discriminate. cbn [bind] in E.
      destruct (run junk maxn (fst r) (map (@Push A) xs)) as [s| | |] eqn:Er; try discriminate. cbn [bind] in E.
      injection E as <-. cbn [fst].
      cbn [step] in Es. unfold push_back in Es.
      destruct (if (v_size v =? capacity v)%nat then reserve junk maxn v (if (capacity v =? 0)%nat then 8 else 2 * capacity v) else Ret v)
        as [v1| | |] eqn:E1; try discriminate. cbn [bind] in Es.
      assert (R1 : represents v1 l /\ (v_size v1 < capacity v1)%nat /\ (capacity v1 <= 8 + 2 * S (length l))%nat).
      { pose proof R as (S1 & S2 & S3). destruct (Nat.eqb_spec (v_size v) (capacity v)).
        - destruct (reserve_block _ _ _ _ R E1) as [R1 C1]. split; auto. pose proof R1 as (T1 & _).
          destruct (Nat.eqb_spec (capacity v) 0); lia.
        - injection E1 as <-. split; auto. lia. }
      destruct R1 as (R1 & L1 & C1).
      destruct (wr_nth_error (v_block v1) (v_size v1) x L1) as (b & E2 & Lb & N2). rewrite E2 in Es. cbn [bind] in Es.
      injection Es as <-. cbn [fst] in Er.
      cbn [length].
      replace (length l + S (length xs))%nat with (length (l ++ [x]) + length xs)%nat by (rewrite app_length; simpl; lia).
      eapply (IH _ (l ++ [x]) s); [| |exact Er].
      + destruct R1 as (S1 & S2 & S3). split; [cbn [v_size]; rewrite app_length; simpl; lia|]. split.
        * unfold capacity in *. cbn [v_size v_block]. lia.
        * intros i y H. cbn [v_block]. rewrite N2. destruct (Nat.eqb_spec i (v_size v1)) as [->|Ne].
          -- rewrite nth_error_app2 in H by lia. rewrite S1, Nat.sub_diag in H. exact H.
          -- apply S3. assert (i < length (l ++ [x]))%nat by (apply nth_error_Some; congruence).
             rewrite app_length in H0. simpl in H0. rewrite nth_error_app1 in H by lia. auto.
      + rewrite app_length. unfold capacity in *. cbn [v_block length]. lia. }
  intros xs v' M E. apply (G xs ctor_zero [] v'); auto.
  - split; [reflexivity|]. split; [simpl; lia|]. intros [|] x H; discriminate.
  - unfold capacity. simpl. lia.
Qed.

(** reserve keeps the elements and guarantees that the next pushes do not move
    the block *)
Theorem C29_reserve_no_reallocation : forall v l n v1 x, represents v l ->
  reserve junk maxn v n = Ret v1 -> (length l < n)%nat ->
  exists v2, push_back junk maxn v1 x = Ret v2 /\ capacity v2 = capacity v1.
Proof.
  intros v l n v1 x R E L. destruct (reserve_block _ _ _ _ R E) as [(S1 & S2 & S3) C].
  unfold push_back. replace (v_size v1 =? capacity v1)%nat with false by (symmetry; apply Nat.eqb_neq; lia).
  cbn [bind]. destruct (wr_nth_error (v_block v1) (v_size v1) x) as (b & E2 & Lb & N2). unfold capacity in C. lia.
  rewrite E2. cbn [bind]. eexists. split; [reflexivity|]. exact Lb.
Qed.
End Vec.

(** pop, front and back of an empty vector are caught *)
Theorem C29_empty_is_caught : forall A (b : list A), pop_back (mkVec b 0) = AssertFailed /\
  front (mkVec b 0) = AssertFailed /\ back (mkVec b 0) = AssertFailed.
Proof. intros. repeat split. Qed.

(** the bounds check of at/set accepts position = size: here it reads past the
    end of the allocated block *)
Theorem C29_at_end_refuted : exists v : vec Z, represents v [1; 2] /\ at_ v 2 = OutOfBounds /\
  set_ v 2 0 = OutOfBounds.
Proof.
  exists (mkVec [1; 2] 2). split; [|split; reflexivity].
  split; [reflexivity|]. split; [unfold capacity; simpl; lia|]. auto.
Qed.

Definition ex_ops : list (op Z) :=
  map (@Push Z) [1; 2; 3; 4; 5; 6; 7; 8; 9; 10] ++ [Size; Pop; Back; At_ 3; Set_ 0 42; Front; Reserve 100; Push 11; Back].
Example ex_cvector :
  spec_run [] ex_ops = Some ([42; 2; 3; 4; 5; 6; 7; 8; 9; 11],
    [ONone; ONone; ONone; ONone; ONone; ONone; ONone; ONone; ONone; ONone;
     OSize 10; OVal 10; OVal 9; OVal 4; OVal 42; OVal 42; ONone; ONone; OVal 11])
  /\ Z.of_nat (8 + demands ex_ops) <= (2 ^ 64 - 1) / 8
  /\ (r <- run (fun i => Z.of_nat i * 7) ((2 ^ 64 - 1) / 8) ctor_zero ex_ops ;; Ret (snd r)) =
     Ret [ONone; ONone; ONone; ONone; ONone; ONone; ONone; ONone; ONone; ONone;
     OSize 10; OVal 10; OVal 9; OVal 4; OVal 42; OVal 42; ONone; ONone; OVal 11].
Proof. split; [reflexivity|]. split; [vm_compute; discriminate|]. vm_compute. reflexivity. Qed.

Print Assumptions C29_behaves_as_list.
Print Assumptions C29_capacity_bound.
Print Assumptions C29_reserve_no_reallocation.
Print Assumptions C29_empty_is_caught.
Print Assumptions C29_at_end_refuted.
