(** Proofs about c/nondominated.h, part 1: the O(n^2) loop. *)
From Coq Require Import List ZArith Lia Bool Arith Permutation Sorted.
From Verif Require Import Base Spec NondomModel.
Import ListNotations.
Open Scope Z_scope.

(** ** Finite strict orders have unbeaten elements *)

Section Unbeaten.
  Variable n : nat.
  Variable B : nat -> nat -> bool. (* [B a b]: a beats b *)
  Hypothesis Birr : forall a, (a < n)%nat -> B a a = false.
  Hypothesis Btr : forall a b c, (a < n)%nat -> (b < n)%nat -> (c < n)%nat ->
     B a b = true -> B b c = true -> B a c = true.

  Lemma filter_length_lt : forall A (f g : A -> bool) l x,
    (forall y, In y l -> f y = true -> g y = true) ->
    In x l -> f x = false -> g x = true ->
    (length (filter f l) < length (filter g l))%nat.
  Proof.
    intros A f g l x Hfg. induction l; simpl; intros; try contradiction.
    assert (L : forall l', (forall y, In y l' -> f y = true -> g y = true) ->
       (length (filter f l') <= length (filter g l'))%nat).
    { clear. induction l'; simpl; intros; auto.
      destruct (f a) eqn:E.
      - rewrite (H a); auto. simpl. specialize (IHl' ltac:(auto)). lia.
      - specialize (IHl' ltac:(auto)). destruct (g a); simpl; lia. }
    destruct H as [->|H].
    - rewrite H0, H1. simpl. specialize (L l).
      assert (length (filter f l) <= length (filter g l))%nat by (apply L; intros; apply Hfg; simpl; auto).
      lia.
    - specialize (IHl ltac:(intros; apply Hfg; simpl; auto) H H0 H1).
      destruct (f a) eqn:E.
      + rewrite (Hfg a); simpl; auto. lia.
      + destruct (g a); simpl; lia.
  Qed.

  Lemma unbeaten_exists : forall x, (x < n)%nat ->
    (exists a, (a < n)%nat /\ B a x = true) ->
    exists a, (a < n)%nat /\ B a x = true /\
              forall b, (b < n)%nat -> B b a = false.
  Proof.
    intros x Hx (a & Ha & HB).
    remember (length (filter (fun b => B b a) (seq 0 n))) as m eqn:Em.
    revert a Ha HB Em. induction m as [m IH] using lt_wf_ind. intros.
    destruct (existsb (fun b => B b a) (seq 0 n)) eqn:E.
    - apply existsb_exists in E. destruct E as (b & Hb & HBb).
      apply in_seq in Hb.
      apply (IH (length (filter (fun c => B c b) (seq 0 n)))) with (a := b); auto.
      + subst m. apply filter_length_lt with (x := b).
        * intros y Hy K. apply in_seq in Hy. apply Btr with b; auto; lia.
        * apply in_seq. lia.
        * apply Birr; lia.
        * auto.
      + lia.
      + apply Btr with a; auto; lia.
    - exists a. split; [auto|]. split; [auto|]. intros b Hb.
      destruct (B b a) eqn:K; auto.
      assert (existsb (fun b => B b a) (seq 0 n) = true).
      { apply existsb_exists. exists b. split; auto. apply in_seq. lia. }
      congruence.
  Qed.
End Unbeaten.

(** ** The comparison loop *)

(** what [leq_pair] tests in objective [d] *)
Definition goodA (agree : Z) (mm : list Z) (p q : point) (d : nat) : bool :=
  if agree <? 0 then coord p d <=? coord q d
  else if 0 <? agree then coord q d <=? coord p d
  else if coord mm d <? 0 then coord p d <=? coord q d
  else if 0 <? coord mm d then coord q d <=? coord p d
  else true.

Definition wdomA agree mm dim p q : bool :=
  forallb (goodA agree mm p q) (seq 0 dim).

Lemma leq_pair_eq : forall agree mm pj pk dims d a b,
  leq_pair agree mm pj pk d dims a b =
  (a && forallb (goodA agree mm pj pk) (seq d dims),
   b && forallb (goodA agree mm pk pj) (seq d dims)).
Proof.
  induction dims; simpl; intros.
  - now rewrite !andb_true_r.
  - unfold goodA at 1 3.
    destruct (agree <? 0); [|destruct (0 <? agree); [|
      destruct (coord mm d <? 0); [|destruct (0 <? coord mm d)]]];
    rewrite IHdims; now rewrite ?andb_assoc, ?andb_true_r.
Qed.

Lemma goodA_refl : forall agree mm p d, goodA agree mm p p d = true.
Proof.
  intros. unfold goodA.
  repeat match goal with |- context [if ?c then _ else _] => destruct c end;
    auto; apply Z.leb_refl.
Qed.

Lemma goodA_trans : forall agree mm p q r d,
  goodA agree mm p q d = true -> goodA agree mm q r d = true ->
  goodA agree mm p r d = true.
Proof.
  intros. unfold goodA in *.
  repeat match goal with H : context [if ?c then _ else _] |- _ => destruct c end;
    auto; rewrite Z.leb_le in *; lia.
Qed.

Lemma wdomA_refl : forall agree mm dim p, wdomA agree mm dim p p = true.
Proof. intros. apply forallb_forall. intros. apply goodA_refl. Qed.

Lemma wdomA_trans : forall agree mm dim p q r,
  wdomA agree mm dim p q = true -> wdomA agree mm dim q r = true ->
  wdomA agree mm dim p r = true.
Proof.
  intros. unfold wdomA in *. rewrite forallb_forall in *. intros.
  eapply goodA_trans; eauto.
Qed.

(** ** The double loop as a tournament *)

Definition beats (leq : nat -> nat -> bool) (kw : bool) (a b : nat) : bool :=
  leq a b && (negb (leq b a) || (negb kw && (b <? a)%nat)).

Section Tournament.
  Variables (pts : list point) (dim : nat) (mm : list Z) (agree : Z) (fd kw : bool).
  Let n := length pts.
  Let leq (a b : nat) := wdomA agree mm dim (row pts a) (row pts b).
  Let B := beats leq kw.

  Lemma leq_refl : forall a, leq a a = true.
  Proof. intros. apply wdomA_refl. Qed.
  Lemma leq_trans : forall a b c, leq a b = true -> leq b c = true -> leq a c = true.
  Proof. intros. eapply wdomA_trans; eauto. Qed.

  Lemma B_irr : forall a, B a a = false.
  Proof.
    intros. unfold B, beats. rewrite leq_refl, Nat.ltb_irrefl. simpl.
    now rewrite andb_false_r.
  Qed.

  Lemma B_trans : forall a b c, B a b = true -> B b c = true -> B a c = true.
  Proof.
    unfold B, beats. intros a b c H1 H2.
    rewrite andb_true_iff, orb_true_iff, andb_true_iff, !negb_true_iff in *.
    destruct H1 as [L1 H1]. destruct H2 as [L2 H2].
    split. eapply leq_trans; eauto.
    rewrite Nat.ltb_lt in *.
    destruct (leq c a) eqn:E; auto. right.
    destruct H1 as [H1|[K1 H1]].
    - exfalso. assert (leq b a = true) by (eapply leq_trans; eauto). congruence.
    - destruct H2 as [H2|[K2 H2]].
      + exfalso. assert (leq c b = true) by (eapply leq_trans; eauto). congruence.
      + split; auto. lia.
  Qed.

  Definition Inv (nd : list bool) (k j0 : nat) : Prop :=
    length nd = n /\
    (forall i, (i < n)%nat -> nth i nd false = false ->
       exists b, (b < n)%nat /\ B b i = true) /\
    (forall a b, (a < b < n)%nat -> (a < k \/ (a = k /\ b < j0))%nat ->
       nth a nd false = true -> nth b nd false = true ->
       B a b = false /\ B b a = false).

  Lemma nd_inner_ok : forall m j0 k nd,
    (k < j0)%nat -> (j0 + m = n)%nat -> Inv nd k j0 ->
    exists nd' r,
      nd_inner pts dim mm agree fd kw k (seq j0 m) nd = Ret (nd', r) /\
      (fd = true -> (forall i, (i < n)%nat -> nth i nd false = true) ->
         r = None -> forall i, (i < n)%nat -> nth i nd' false = true) /\
      (fd = false -> r = None) /\
      match r with
      | None => Inv nd' k n
      | Some pos => (pos < n)%nat /\ exists b, (b < n)%nat /\ B b pos = true
      end.
  Proof.
    induction m; intros j0 k nd Hk Hm HI.
    - simpl. exists nd, None. split; auto. split; auto. split; auto.
      replace n with j0 by lia. exact HI.
    - destruct HI as (HL & HI1 & HI2).
      cbn [seq nd_inner].
      rewrite (rd_ok _ nd k false) by lia. cbn [bind].
      destruct (nth k nd false) eqn:Ek; cbn [negb].
      2:{ exists nd, None. split; auto. split; auto. split; auto.
          split; [auto|]. split; [auto|].
          intros a b Hab [H|[-> H]] Ha Hb; auto. congruence. }
      rewrite (rd_ok _ nd j0 false) by lia. cbn [bind].
      destruct (nth j0 nd false) eqn:Ej; cbn [negb].
      2:{ apply IHm; auto; try lia.
          split; [auto|]. split; [auto|].
          intros a b Hab [H|[-> H]] Ha Hb; auto.
          destruct (Nat.eq_dec b j0). subst; congruence.
          apply HI2; auto. right. split; auto. lia. }
      rewrite (rd_ok _ pts k []) by (fold n; lia). cbn [bind].
      rewrite (rd_ok _ pts j0 []) by (fold n; lia). cbn [bind].
      rewrite leq_pair_eq. rewrite !andb_true_l.
      change (forallb (goodA agree mm (nth j0 pts []) (nth k pts [])) (seq 0 dim))
        with (leq j0 k).
      change (forallb (goodA agree mm (nth k pts []) (nth j0 pts [])) (seq 0 dim))
        with (leq k j0).
      rewrite wr_ok by lia. cbn [bind].
      rewrite wr_ok by (rewrite upd_length; lia). cbn [bind].
      set (vk := negb (leq j0 k) || kw && leq k j0).
      set (vj := negb (leq k j0) || leq j0 k).
      set (nd2 := upd (upd nd k vk) j0 vj).
      assert (L2 : length nd2 = n) by (unfold nd2; rewrite !upd_length; auto).
      assert (N2 : forall i, nth i nd2 false =
          if (j0 =? i)%nat then vj else if (k =? i)%nat then vk else nth i nd false).
      { intros. unfold nd2. rewrite nth_upd by (rewrite upd_length; lia).
        destruct (j0 =? i)%nat; auto. rewrite nth_upd by lia. auto. }
      rewrite (rd_ok _ nd2 k false) by lia. cbn [bind].
      rewrite (rd_ok _ nd2 j0 false) by lia. cbn [bind].
      assert (Vk : nth k nd2 false = vk).
      { rewrite N2. destruct (Nat.eqb_spec j0 k); try lia. now rewrite Nat.eqb_refl. }
      assert (Vj : nth j0 nd2 false = vj).
      { rewrite N2. now rewrite Nat.eqb_refl. }
      rewrite Vk, Vj.
      assert (HA : vk || vj = true).
      { unfold vk, vj. destruct (leq j0 k); destruct (leq k j0); case kw; auto. }
      rewrite HA. cbn [assert_ bind].
      assert (Bk : vk = negb (B j0 k)).
      { unfold vk, B, beats. replace (k <? j0)%nat with true
          by (symmetry; apply Nat.ltb_lt; lia).
        destruct (leq j0 k); destruct (leq k j0); case kw; auto. }
      assert (Bj : vj = negb (B k j0)).
      { unfold vj, B, beats. replace (j0 <? k)%nat with false
          by (symmetry; apply Nat.ltb_ge; lia).
        destruct (leq j0 k); destruct (leq k j0); case kw; auto. }
      destruct (fd && (negb vk || negb vj)) eqn:EF.
      + exists nd2, (Some (if vk then j0 else k)). split; auto.
        apply andb_true_iff in EF. destruct EF as [EF1 EF2].
        split; [intros; discriminate|]. split; [intros; congruence|].
        destruct vk eqn:Evk.
        * split; [lia|]. exists k. split; [lia|].
          simpl in EF2. rewrite Bj in EF2. now destruct (B k j0).
        * split; [lia|]. exists j0. split; [lia|]. now destruct (B j0 k).
      + assert (HI' : Inv nd2 k (S j0)).
        { split; [auto|]. split.
          - intros i Hi Hf. rewrite N2 in Hf.
            destruct (Nat.eqb_spec j0 i). subst i.
            { exists k. split; [lia|]. rewrite Bj in Hf. now destruct (B k j0). }
            destruct (Nat.eqb_spec k i). subst i.
            { exists j0. split; [lia|]. rewrite Bk in Hf. now destruct (B j0 k). }
            auto.
          - intros a b Hab Hp Ha Hb.
            assert (Mono : forall i, nth i nd2 false = true -> nth i nd false = true).
            { intros i. rewrite N2. destruct (Nat.eqb_spec j0 i). subst; auto.
              destruct (Nat.eqb_spec k i). subst; auto. auto. }
            destruct (Nat.eq_dec a k), (Nat.eq_dec b j0); subst.
            + rewrite Vk in Ha. rewrite Vj in Hb. rewrite Bk in Ha. rewrite Bj in Hb.
              split. now destruct (B k j0). now destruct (B j0 k).
            + apply HI2; auto. destruct Hp; auto. right. lia.
            + apply HI2; auto. destruct Hp; auto. lia.
            + apply HI2; auto. destruct Hp; auto. lia. }
        destruct (IHm (S j0) k nd2 ltac:(lia) ltac:(lia) HI') as (nd' & r & E & E1 & E2 & E3).
        exists nd', r. split; [exact E|]. split; [|auto].
        intros Hfd Hall. apply E1; auto. intros i Hi. rewrite N2.
        rewrite Hfd in EF. simpl in EF. apply orb_false_iff in EF.
        destruct EF as [F1 F2]. rewrite negb_false_iff in *.
        destruct (j0 =? i)%nat; auto. destruct (k =? i)%nat; auto.
  Qed.

  Lemma nd_outer_ok : forall m k0 nd,
    (k0 + m = n - 1)%nat -> (0 < n)%nat -> Inv nd k0 0 ->
    exists nd' r,
      nd_outer pts dim mm agree fd kw (seq k0 m) nd = Ret (nd', r) /\
      (fd = true -> (forall i, (i < n)%nat -> nth i nd false = true) ->
         r = None -> forall i, (i < n)%nat -> nth i nd' false = true) /\
      (fd = false -> r = None) /\
      match r with
      | None => Inv nd' (n - 1) 0
      | Some pos => (pos < n)%nat /\ exists b, (b < n)%nat /\ B b pos = true
      end.
  Proof.
    induction m; intros k0 nd Hm Hn HI.
    - simpl. exists nd, None. split; auto. split; auto. split; auto.
      replace (n - 1)%nat with k0 by lia. exact HI.
    - cbn [seq nd_outer].
      destruct (nd_inner_ok (n - S k0) (S k0) k0 nd) as (nd1 & r1 & E & E1 & E2 & E3).
      lia. lia.
      { destruct HI as (A1 & A2 & A3). split; [auto|]. split; [auto|].
        intros. apply A3; auto. lia. }
      fold n. rewrite E. cbn [bind].
      destruct r1 as [pos|].
      + exists nd1, (Some pos). repeat (split; auto); intros; discriminate.
      + destruct (IHm (S k0) nd1) as (nd2 & r2 & F & F1 & F2 & F3); try lia.
        { destruct E3 as (A1 & A2 & A3). split; [auto|]. split; [auto|].
          intros. apply A3; auto. lia. }
        exists nd2, r2. split; auto.
  Qed.

  Lemma nd_init_inv : Inv (nondom_init n) 0 0.
  Proof.
    unfold nondom_init. split. apply repeat_length. split.
    - intros. exfalso.
      assert (nth i (repeat true n) false = true).
      { rewrite nth_indep with (d' := true) by (rewrite repeat_length; auto).
        apply nth_repeat. }
      congruence.
    - intros. lia.
  Qed.

  Lemma nondom_init_nth : forall i m, (i < m)%nat -> nth i (nondom_init m) false = true.
  Proof.
    intros. unfold nondom_init.
    rewrite nth_indep with (d' := true) by (rewrite repeat_length; auto).
    apply nth_repeat.
  Qed.

  (** The final flags are exactly the unbeaten rows. *)
  Lemma inv_final : forall nd, Inv nd (n - 1) 0 ->
    forall i, (i < n)%nat ->
      (nth i nd false = true <-> forall b, (b < n)%nat -> B b i = false).
  Proof.
    intros nd (HL & H1 & H2) i Hi. split.
    - intros Ht.
      assert (NB : ~ exists a, (a < n)%nat /\ B a i = true).
      { intro HB.
        destruct (unbeaten_exists n B) with (x := i) as (a & Ha & HBa & HU); auto.
        - intros; apply B_irr.
        - intros a b c _ _ _; apply B_trans.
        - assert (nth a nd false = true).
          { destruct (nth a nd false) eqn:E; auto.
            destruct (H1 a Ha E) as (b & Hb & Hbb). rewrite HU in Hbb; auto. }
          assert (a <> i) by (intro; subst; rewrite B_irr in HBa; discriminate).
          destruct (Nat.lt_ge_cases a i).
          + destruct (H2 a i); auto; try lia. congruence.
          + destruct (H2 i a); auto; try lia. congruence. }
      intros b Hb. destruct (B b i) eqn:E; auto. exfalso. apply NB. eauto.
    - intros HU. destruct (nth i nd false) eqn:E; auto.
      destruct (H1 i Hi E) as (b & Hb & Hbb). rewrite HU in Hbb; auto.
  Qed.
End Tournament.
