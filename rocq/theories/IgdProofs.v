(** Proofs about the generational distances. *)
From Coq Require Import List ZArith Reals Lia Lra Bool Arith.
From Verif Require Import Base Spec NondomModel NondomMain IndSpec EpsModel EpsProofs IgdSpec IgdModel.
Import ListNotations.
Open Scope R_scope.

(** ** Link with the loops *)

Lemma fold_left_rsum : forall (g : Z -> nat -> Z) (f : nat -> R) n,
  (forall acc d, (d < n)%nat -> IZR (g acc d) = IZR acc + f d) ->
  IZR (fold_left g (seq 0 n) 0%Z) = rsum f n.
Proof.
  intros g f n H. induction n; auto.
  rewrite seq_S, fold_left_app. cbn [fold_left]. rewrite H by lia.
  rewrite IHn. reflexivity. intros. apply H. lia.
Qed.

Lemma sq_dist_euclid : forall mx a r,
  IZR (sq_dist (length mx) (minmax_from_bool mx) false a r) =
  rsum (fun d => (IZR (coord a d) - IZR (coord r d)) ^ 2) (length mx).
Proof.
  intros. unfold sq_dist. apply fold_left_rsum. intros acc d Hd.
  rewrite coord_minmax by auto.
  replace ((if nth d mx false then 1 else -1) =? 0)%Z with false
    by (destruct (nth d mx false); reflexivity).
  cbn [negb]. cbv zeta. rewrite plus_IZR, mult_IZR, minus_IZR. ring.
Qed.

Lemma IZR_max0 : forall z, IZR (Z.max z 0) = Rmax (IZR z) 0.
Proof.
  intros. unfold Rmax. destruct (Rle_dec (IZR z) 0).
  - apply le_IZR in r. rewrite Z.max_r by lia. reflexivity.
  - apply Rnot_le_lt in n. apply lt_IZR in n. rewrite Z.max_l by lia. reflexivity.
Qed.

(** note the argument order of IGD+: the first set of [gd_common] is the
    reference set *)
Lemma sq_dist_plus : forall mx a r,
  IZR (sq_dist (length mx) (minmax_from_bool mx) true r a) =
  rsum (fun d => excess mx a r d ^ 2) (length mx).
Proof.
  intros. unfold sq_dist. apply fold_left_rsum. intros acc d Hd.
  rewrite coord_minmax by auto.
  replace ((if nth d mx false then 1 else -1) =? 0)%Z with false
    by (destruct (nth d mx false); reflexivity).
  cbn [negb]. cbv zeta. rewrite plus_IZR, mult_IZR, IZR_max0. unfold excess.
  destruct (nth d mx false).
  - change (1 <? 0)%Z with false. cbv iota. rewrite minus_IZR. ring.
  - change (-1 <? 0)%Z with true. cbv iota. rewrite minus_IZR. ring.
Qed.

Lemma rsum_nonneg : forall f n, (forall d, (d < n)%nat -> 0 <= f d) -> 0 <= rsum f n.
Proof.
  induction n; simpl; intros. lra.
  specialize (IHn ltac:(intros; apply H; lia)). specialize (H n ltac:(lia)). lra.
Qed.

Lemma rsum_le : forall f g n, (forall d, (d < n)%nat -> f d <= g d) -> rsum f n <= rsum g n.
Proof.
  induction n; simpl; intros. lra.
  specialize (IHn ltac:(intros; apply H; lia)). specialize (H n ltac:(lia)). lra.
Qed.

Lemma rsum_zero : forall f n, (forall d, (d < n)%nat -> 0 <= f d) -> rsum f n = 0 ->
  forall d, (d < n)%nat -> f d = 0.
Proof.
  induction n; simpl; intros. lia.
  assert (0 <= rsum f n) by (apply rsum_nonneg; intros; apply H; lia).
  pose proof (H n ltac:(lia)).
  destruct (Nat.eq_dec d n). subst; lra.
  apply IHn; try lia; try lra. intros; apply H; lia.
Qed.

Lemma sq_dist_nonneg : forall dim mm plus a r, (0 <= sq_dist dim mm plus a r)%Z.
Proof.
  intros. unfold sq_dist.
  assert (G : forall l acc, (0 <= acc)%Z -> (0 <= fold_left (fun dist d =>
    if (coord mm d =? 0)%Z then dist
    else let diff := if negb plus then (coord r d - coord a d)%Z
                     else Z.max (if (coord mm d <? 0)%Z then coord r d - coord a d
                                 else coord a d - coord r d)%Z 0 in
         (dist + diff * diff)%Z) l acc)%Z).
  { induction l; intros; cbn [fold_left]; auto. apply IHl.
    destruct (coord mm a0 =? 0)%Z; auto. cbv zeta.
    match goal with |- (0 <= acc + ?x * ?x)%Z => pose proof (Z.square_nonneg x) end. lia. }
  apply G. lia.
Qed.

(** the loop over r computes the minimum *)
Lemma min_sq_eq : forall (f : point -> Z) l,
  fold_left (fun m r => let dist := Fin (f r) in
                        if negb (eleb Z.leb m dist) then dist else m) l PosInf
  = fold_left (fun m r => emin Z.leb m (Fin (f r))) l PosInf.
Proof.
  intros f. generalize (@PosInf Z) as m0. intros m0 l. revert m0.
  induction l; intros m0; cbn [fold_left]; auto.
  cbv zeta.
  replace (if negb (eleb Z.leb m0 (Fin (f a))) then Fin (f a) else m0)
    with (emin Z.leb m0 (Fin (f a))); [apply IHl|].
  unfold emin. destruct m0 as [|m|]; cbn [eleb negb]; auto.
  destruct (Z.leb_spec (f a) m); destruct (Z.leb_spec m (f a)); cbn [negb]; auto; try lia.
  f_equal. lia.
Qed.

Lemma min_sq_ok : forall dim mm plus S a, S <> [] ->
  exists z, min_sq_dist dim mm plus S a = Fin z /\
    (exists s, In s S /\ z = sq_dist dim mm plus a s) /\
    forall s, In s S -> (z <= sq_dist dim mm plus a s)%Z.
Proof.
  intros. unfold min_sq_dist. rewrite min_sq_eq.
  set (F := fold_left _ _ _).
  assert (L : forall z, eleb Z.leb F (Fin z) = true <-> exists s, In s S /\ (sq_dist dim mm plus a s <= z)%Z).
  { intros z. unfold F. rewrite (fold_emin_le _ Zleb_total Zleb_trans). simpl.
    split. intros [C|(s & Hs & C)]; try discriminate. exists s. split; auto. now apply Z.leb_le.
    intros (s & Hs & C). right. exists s. split; auto. now apply Z.leb_le. }
  assert (G : forall z, eleb Z.leb (Fin z) F = true <-> forall s, In s S -> (z <= sq_dist dim mm plus a s)%Z).
  { intros z. unfold F. rewrite (fold_emin_ge _ Zleb_total Zleb_trans). simpl.
    split. intros [_ K] s Hs. apply Z.leb_le. auto.
    intros K. split; auto. intros s Hs. apply Z.leb_le. auto. }
  destruct S as [|s0 S]; try tauto.
  destruct F as [|z|] eqn:E.
  - exfalso. pose proof (proj2 (G 0%Z) ltac:(intros; apply sq_dist_nonneg)). discriminate.
  - exists z. split; auto.
    assert (K : forall s, In s (s0 :: S) -> (z <= sq_dist dim mm plus a s)%Z)
      by (apply G; simpl; apply Z.leb_refl).
    split; auto. destruct (proj1 (L z)) as (s & Hs & C). simpl. apply Z.leb_refl.
    exists s. split; auto. specialize (K s Hs). lia.
  - exfalso. pose proof (proj2 (L (sq_dist dim mm plus a s0)) ltac:(exists s0; split; [now left|lia])).
    discriminate.
Qed.

Lemma pow_ext_eq : forall x p, pow_ext (Fin x) p = Fin (x ^ p).
Proof.
  intros. unfold pow_ext. destruct (Nat.eqb_spec p 1); subst; auto. now rewrite pow_1.
Qed.

Lemma gd_sum_ok : forall dim mm plus p (dist : point -> point -> R) A S,
  S <> [] ->
  (forall a s, In s S -> dist a s = sqrt (IZR (sq_dist dim mm plus a s))) ->
  exists ms, nearest_dists dist A S ms /\
  forall acc,
    fold_left (fun gd a => add_ext gd (pow_ext (sqrt_ext (min_sq_dist dim mm plus S a)) p))
       A (Fin acc) = Fin (acc + rlist_sum (map (fun m => m ^ p) ms)).
Proof.
  intros dim mm plus p dist A S HS HD. induction A.
  - exists []. split. constructor. intros. simpl. f_equal. lra.
  - destruct IHA as (ms & H1 & H2).
    destruct (min_sq_ok dim mm plus S a HS) as (z & E & (s & Hs & Ez) & K).
    exists (sqrt (IZR z) :: ms). split.
    + constructor; auto. split.
      * exists s. split; auto. rewrite HD by auto. now subst z.
      * intros s' Hs'. rewrite HD by auto. apply sqrt_le_1_alt. apply IZR_le. auto.
    + intros. cbn [fold_left]. rewrite E. cbn [sqrt_ext]. rewrite pow_ext_eq.
      cbn [add_ext]. rewrite H2. f_equal. cbn [map rlist_sum fold_right].
      unfold rlist_sum. lra.
Qed.

Lemma powl_inv_ok : forall x p, 0 <= x -> (1 <= p)%nat ->
  0 <= powl_inv x p /\ powl_inv x p ^ p = x.
Proof.
  intros. unfold powl_inv. destruct (Req_EM_T x 0).
  - subst. split. lra. apply pow_ne_zero. lia.
  - assert (0 < x) by lra. split. left. apply exp_pos.
    rewrite <- Rpower_pow by apply exp_pos.
    rewrite Rpower_mult. replace (1 / INR p * INR p) with 1.
    now apply Rpower_1. field. apply not_0_INR. lia.
Qed.

Lemma nearest_dists_nonneg : forall dist A S ms, (forall a s, 0 <= dist a s) ->
  nearest_dists dist A S ms -> Forall (fun m => 0 <= m) ms.
Proof.
  intros. induction H0; constructor; auto. destruct H0 as [(s & _ & ->) _]. auto.
Qed.

Lemma nearest_dists_length : forall dist A S ms, nearest_dists dist A S ms -> length ms = length A.
Proof. intros. induction H; simpl; auto. Qed.

Lemma rlist_sum_nonneg : forall l, Forall (fun m => 0 <= m) l -> 0 <= rlist_sum l.
Proof. induction 1; simpl; lra. Qed.

Lemma pow_list_nonneg : forall p l, Forall (fun m => 0 <= m) l ->
  Forall (fun m => 0 <= m) (map (fun m => m ^ p) l).
Proof. induction 1; constructor; auto. now apply pow_le. Qed.

Lemma INR_len_pos : forall (A : list point), A <> [] -> 0 < INR (length A).
Proof. intros. apply lt_0_INR. destruct A; simpl; [tauto|lia]. Qed.

(** the p-mean of the nearest distances *)
Lemma gd_common_ok : forall dim mm plus psize p (dist : point -> point -> R) A S,
  A <> [] -> S <> [] -> (1 <= p)%nat -> (psize = true \/ p = 1%nat) ->
  (forall a s, In s S -> dist a s = sqrt (IZR (sq_dist dim mm plus a s))) ->
  exists v ms, gd_common dim mm A S plus psize p = Fin v /\
    nearest_dists dist A S ms /\ Forall (fun m => 0 <= m) ms /\ 0 <= v /\
    v ^ p = rlist_sum (map (fun m => m ^ p) ms) / INR (length A).
Proof.
  intros dim mm plus psize p dist A S HA HS Hp HX HD.
  destruct (gd_sum_ok dim mm plus p dist A S HS HD) as (ms & H1 & H2).
  pose proof (INR_len_pos A HA) as HN.
  assert (M : Forall (fun m => 0 <= m) ms).
  { clear -H1 HD. induction H1; constructor; auto. destruct H as [(s & Hs & ->) _].
    rewrite HD by auto. apply sqrt_pos. }
  assert (P : 0 <= rlist_sum (map (fun m => m ^ p) ms))
    by (apply rlist_sum_nonneg; apply pow_list_nonneg; auto).
  assert (P' : 0 <= rlist_sum (map (fun m => m ^ p) ms) / INR (length A)).
  { unfold Rdiv. apply Rmult_le_pos; auto. left. now apply Rinv_0_lt_compat. }
  unfold gd_common. destruct A as [|a A]; try tauto. rewrite H2.
  rewrite Rplus_0_l.
  destruct (Nat.eqb_spec p 1).
  - subst p. cbn [lift_ext]. eexists. exists ms. split. reflexivity.
    repeat (split; auto). now rewrite pow_1.
  - destruct HX as [->|]; try lia. cbn [lift_ext]. eexists. exists ms. split. reflexivity.
    destruct (powl_inv_ok _ p P' Hp). repeat (split; auto).
Qed.

Lemma rlist_sum_zero : forall p ms, Forall (fun m => 0 <= m) ms ->
  rlist_sum (map (fun m => m ^ p) ms) = 0 -> Forall (fun m => m ^ p = 0) ms.
Proof.
  induction 1; simpl; intros; constructor.
  - assert (0 <= rlist_sum (map (fun m => m ^ p) l)) by (apply rlist_sum_nonneg; apply pow_list_nonneg; auto).
    pose proof (pow_le x p H). lra.
  - apply IHForall. assert (0 <= rlist_sum (map (fun m => m ^ p) l)) by (apply rlist_sum_nonneg; apply pow_list_nonneg; auto).
    pose proof (pow_le x p H). lra.
Qed.

Lemma pow_zero_inv : forall x p, (1 <= p)%nat -> x ^ p = 0 -> x = 0.
Proof.
  intros. destruct (Req_dec x 0); auto. exfalso. now apply (pow_nonzero x p H1).
Qed.

(** the mean is 0 iff all nearest distances are 0 *)
Lemma mean_zero_iff : forall p ms v n, (1 <= p)%nat -> 0 < n ->
  Forall (fun m => 0 <= m) ms -> 0 <= v ->
  v ^ p = rlist_sum (map (fun m => m ^ p) ms) / n ->
  (v = 0 <-> Forall (fun m => m = 0) ms).
Proof.
  intros p ms v n Hp Hn HM Hv E. split; intro H.
  - subst v. rewrite pow_ne_zero in E by lia.
    assert (Z : rlist_sum (map (fun m => m ^ p) ms) = 0).
    { apply Rmult_eq_reg_r with (/ n). unfold Rdiv in E. lra. apply Rinv_neq_0_compat. lra. }
    apply rlist_sum_zero in Z; auto.
    rewrite Forall_forall in *. intros m Hm. apply (pow_zero_inv m p); auto.
  - assert (Z : rlist_sum (map (fun m => m ^ p) ms) = 0).
    { clear -H Hp. induction H; simpl; auto. subst. rewrite IHForall.
      rewrite pow_ne_zero by lia. lra. }
    rewrite Z in E. apply (pow_zero_inv v p); auto. rewrite E. unfold Rdiv. ring.
Qed.

Lemma nearest_dists_zero : forall dist A S ms,
  (forall a s, 0 <= dist a s) ->
  nearest_dists dist A S ms ->
  (Forall (fun m => m = 0) ms <-> forall a, In a A -> exists s, In s S /\ dist a s = 0).
Proof.
  intros dist A S ms HP H. induction H.
  - split; [intros _ a []|constructor].
  - split.
    + intros F a [->|Ha].
      * inversion F; subst. destruct H as [(s & Hs & E) _]. eauto.
      * inversion F; subst. apply IHForall2; auto.
    + intros K. constructor.
      * destruct (K x) as (s & Hs & E). now left. destruct H as [(s' & Hs' & E') L].
        specialize (L s Hs). rewrite E' in *. specialize (HP x s'). lra.
      * apply IHForall2. intros a Ha. apply K. now right.
Qed.

Lemma sqrt_zero : forall x, 0 <= x -> (sqrt x = 0 <-> x = 0).
Proof. intros. split; intro. now apply sqrt_eq_0. subst. apply sqrt_0. Qed.

Lemma euclid_nonneg : forall n p q, 0 <= euclid n p q.
Proof. intros. apply sqrt_pos. Qed.

Lemma euclid_zero : forall n p q,
  length p = n -> length q = n -> (euclid n p q = 0 <-> p = q).
Proof.
  intros n p q Hp Hq. unfold euclid.
  assert (N : forall d, (d < n)%nat -> 0 <= (IZR (coord p d) - IZR (coord q d)) ^ 2)
    by (intros; apply pow2_ge_0).
  rewrite sqrt_zero by (apply rsum_nonneg; auto). split; intros H.
  - apply (list_ext _ 0%Z); try lia. intros i Hi.
    pose proof (rsum_zero _ n N H i ltac:(lia)) as Z. cbv beta in Z.
    assert (IZR (coord p i) - IZR (coord q i) = 0) by (apply (pow_zero_inv _ 2); [lia|auto]).
    apply eq_IZR. unfold coord in *. lra.
  - rewrite <- H. clear.
    induction n; cbn [rsum]; auto. rewrite IHn. ring.
Qed.

Lemma dist_plus_nonneg : forall mx p q, 0 <= dist_plus mx p q.
Proof. intros. apply sqrt_pos. Qed.

Lemma excess_zero : forall mx a r d, excess mx a r d = 0 <-> as_good mx a r d.
Proof.
  intros. unfold excess, as_good, Rmax.
  destruct (nth d mx false); destruct (Rle_dec _ _) as [Q|Q].
  - split; auto. intros _. apply le_IZR. lra.
  - split. intro. apply le_IZR. lra. intro H. apply IZR_le in H. lra.
  - split; auto. intros _. apply le_IZR. lra.
  - split. intro. apply le_IZR. lra. intro H. apply IZR_le in H. lra.
Qed.

Lemma dist_plus_zero : forall mx a r, dist_plus mx a r = 0 <-> wdom mx a r.
Proof.
  intros. unfold dist_plus.
  assert (N : forall d, (d < length mx)%nat -> 0 <= excess mx a r d ^ 2) by (intros; apply pow2_ge_0).
  rewrite sqrt_zero by (apply rsum_nonneg; auto). split; intro H.
  - intros d Hd. apply excess_zero. apply (pow_zero_inv _ 2); [lia|].
    exact (rsum_zero _ _ N H d Hd).
  - unfold wdom in H.
    assert (K : forall n, (n <= length mx)%nat -> rsum (fun d => excess mx a r d ^ 2) n = 0).
    { induction n; intros; cbn [rsum]; auto. rewrite IHn by lia.
      rewrite (proj2 (excess_zero mx a r n)). lra. apply H. lia. }
    apply K. lia.
Qed.

Lemma excess_mono : forall mx a b r d, as_good mx a b d -> 0 <= excess mx a r d <= excess mx b r d.
Proof.
  intros mx a b r d H. unfold excess, as_good in *. split.
  - destruct (nth d mx false); apply Rmax_r.
  - destruct (nth d mx false); apply Rle_max_compat_r; apply IZR_le in H; lra.
Qed.

Lemma dist_plus_mono : forall mx a b r, wdom mx a b -> dist_plus mx a r <= dist_plus mx b r.
Proof.
  intros. unfold dist_plus. apply sqrt_le_1_alt. apply rsum_le. intros d Hd.
  apply pow_incr. apply excess_mono. apply H. auto.
Qed.

Lemma nearest_dists_compare : forall (dA dB : point -> point -> R) R0 A B ma mb,
  nearest_dists dA R0 A ma -> nearest_dists dB R0 B mb ->
  (forall r b, In b B -> exists a, In a A /\ dA r a <= dB r b) ->
  Forall2 Rle ma mb.
Proof.
  intros dA dB R0 A B ma mb H. revert mb. induction H; intros mb Hb K.
  - inversion Hb; subst. constructor.
  - inversion Hb; subst. constructor.
    + destruct H as [_ L]. destruct H3 as [(b & Hb' & ->) _].
      destruct (K x b Hb') as (a & Ha & Q). specialize (L a Ha). lra.
    + apply IHForall2; auto.
Qed.

Lemma Forall2_sum_le : forall ma mb, Forall2 Rle ma mb -> rlist_sum ma <= rlist_sum mb.
Proof. induction 1; simpl; lra. Qed.
