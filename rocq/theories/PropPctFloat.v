(** Property C23 for the doubles the program computes with.  Uses Flocq and
    therefore the axioms of the Coq Reals library. *)
From Coq Require Import List ZArith Lia Bool Arith Reals Lra.
From Flocq Require Import Core Relative Sterbenz.
From Verif Require Import Base PctFloatModel.
Import ListNotations.
Open Scope Z_scope.

#[local] Instance dexp_valid : Valid_exp dexp.
Proof. apply FLT_exp_valid. unfold Prec_gt_0. lia. Qed.

Lemma double_int : forall k, Z.abs k <= 2 ^ 53 -> is_double (IZR k).
Proof.
  intros k Hk. destruct (Z.eq_dec (Z.abs k) (2 ^ 53)) as [E|N].
  - assert (k = 2 ^ 53 \/ k = - 2 ^ 53) as [-> | ->] by lia.
    + change (2 ^ 53)%Z with (Zpower radix2 53). rewrite IZR_Zpower by lia.
      apply generic_format_bpow. unfold dexp, FLT_exp. lia.
    + apply (generic_format_opp radix2 dexp (IZR (2 ^ 53))) .
      change (2 ^ 53)%Z with (Zpower radix2 53). rewrite IZR_Zpower by lia.
      apply generic_format_bpow. unfold dexp, FLT_exp. lia.
  - apply generic_format_FLT. exists (Float radix2 k 0).
    + unfold F2R; simpl. lra.
    + simpl. change (2 ^ 53) with (Z.pow_pos 2 53) in *. lia.
    + simpl. lia.
Qed.

Lemma rnd_double : forall x, is_double x -> rnd x = x.
Proof. intros. apply round_generic; auto with typeclass_instances. Qed.
Lemma rnd_mono : forall x y, (x <= y)%R -> (rnd x <= rnd y)%R.
Proof. intros. apply round_le; auto with typeclass_instances. Qed.
Lemma rnd_int : forall k, Z.abs k <= 2 ^ 53 -> rnd (IZR k) = IZR k.
Proof. intros. apply rnd_double. now apply double_int. Qed.
Lemma rnd_format : forall x, is_double (rnd x).
Proof. intros. apply generic_format_round; auto with typeclass_instances. Qed.

Lemma tol_val : (tolerance_d = / 67108864)%R.
Proof. unfold tolerance_d. simpl. reflexivity. Qed.

(** the fraction of a non-negative double is computed exactly *)
Lemma fraction_exact : forall x, is_double x -> (0 <= x)%R -> (x < IZR (2 ^ 52))%R ->
  rnd (x - IZR (Zfloor x)) = (x - IZR (Zfloor x))%R.
Proof.
  intros x D P U. apply rnd_double.
  pose proof (Zfloor_lb x). pose proof (Zfloor_ub x).
  assert (0 <= Zfloor x). { apply Zfloor_lub. simpl. auto. }
  destruct (Z.eq_dec (Zfloor x) 0) as [E|N].
  - rewrite E, Rminus_0_r. auto.
  - assert (B : 1 <= Zfloor x) by lia. apply IZR_le in B.
    apply sterbenz; auto with typeclass_instances.
    + apply FLT_exp_monotone.
    + apply double_int. assert (Zfloor x <= 2 ^ 52). { apply le_IZR. lra. } lia.
    + lra.
Qed.

(** the level chosen for the computed value x *)
Definition level_of (x : R) : Z :=
  if Rle_bool (rnd (x - IZR (Zfloor x))) tolerance_d then Zfloor x else Zceil x.

(** it is the smallest integer that is at least x - 2^-26 *)
Lemma level_of_iff : forall x m, is_double x -> (0 <= x)%R -> (x < IZR (2 ^ 52))%R ->
  (level_of x <= m <-> (x <= IZR m + tolerance_d)%R).
Proof.
  intros x m D P U. unfold level_of. rewrite fraction_exact by auto. rewrite tol_val.
  pose proof (Zfloor_lb x). pose proof (Zfloor_ub x).
  destruct (Rle_bool_spec (x - IZR (Zfloor x)) (/ 67108864)) as [L|G].
  - split; intros Hm.
    + apply IZR_le in Hm. lra.
    + destruct (Z_le_gt_dec (Zfloor x) m) as [|Gt]; auto. exfalso.
      assert (B : m + 1 <= Zfloor x) by lia. apply IZR_le in B. rewrite plus_IZR in B. lra.
  - assert (C : Zceil x = Zfloor x + 1).
    { apply Zceil_imp. replace (Zfloor x + 1 - 1) with (Zfloor x) by lia. rewrite plus_IZR. lra. }
    rewrite C. split; intros Hm.
    + apply IZR_le in Hm. rewrite plus_IZR in Hm. lra.
    + destruct (Z_le_gt_dec (Zfloor x + 1) m) as [|Gt]; auto. exfalso.
      assert (B : m <= Zfloor x) by lia. apply IZR_le in B. lra.
Qed.

Lemma p2l_unfold : forall p n, percentile2level_d p n =
  (_ <- assert_ (level_of (rnd (rnd (IZR n * p) / 100)) <=? n) ;;
   _ <- assert_ (0 <=? level_of (rnd (rnd (IZR n * p) / 100))) ;;
   Ret (if level_of (rnd (rnd (IZR n * p) / 100)) <? 1 then 1 else level_of (rnd (rnd (IZR n * p) / 100)))).
Proof. reflexivity. Qed.

Lemma rnd_nonneg : forall x, (0 <= x)%R -> (0 <= rnd x)%R.
Proof.
  intros x H. replace 0%R with (rnd 0). now apply rnd_mono.
  apply rnd_double. apply generic_format_0.
Qed.

Lemma x_bounds : forall p n, 1 <= n < 2 ^ 31 -> (0 <= p <= 100)%R ->
  (0 <= rnd (rnd (IZR n * p) / 100) <= IZR n)%R.
Proof.
  intros p n Hn Hp. assert (P : (0 < IZR n)%R) by (apply IZR_lt; lia).
  assert (A : (0 <= IZR n * p)%R). { apply Rmult_le_pos; lra. }
  split.
  - apply rnd_nonneg. apply rnd_nonneg in A. lra.
  - rewrite <- (rnd_int n) at 2 by lia. apply rnd_mono.
    assert (B : (rnd (IZR n * p) <= IZR (n * 100))%R).
    { rewrite <- (rnd_int (n * 100)) by lia. apply rnd_mono. rewrite mult_IZR. apply Rmult_le_compat_l; lra. }
    rewrite mult_IZR in B. lra.
Qed.
Lemma n_small : forall n, n < 2 ^ 31 -> (IZR n < IZR (2 ^ 52))%R.
Proof. intros. apply IZR_lt. lia. Qed.

(** For every number of sets that fits an int and every double percentile, the
    assertions hold and the level is in range. *)
Theorem C23_double_level_in_range : forall p n, 1 <= n < 2 ^ 31 -> is_double p -> (0 <= p <= 100)%R ->
  exists l, percentile2level_d p n = Ret l /\ 1 <= l <= n.
Proof.
  intros p n Hn D Hp. pose proof (x_bounds p n Hn Hp) as [X0 X1].
  rewrite p2l_unfold. set (x := rnd (rnd (IZR n * p) / 100)) in *.
  assert (F : is_double x) by apply rnd_format.
  pose proof (n_small n ltac:(lia)).
  assert (L : level_of x <= n). { apply level_of_iff; auto. lra. rewrite tol_val. lra. }
  assert (L0 : 0 <= level_of x).
  { destruct (Z_le_gt_dec 0 (level_of x)) as [|G]; auto. exfalso.
    assert (G' : level_of x <= -1) by lia. apply level_of_iff in G'; auto; [|lra]. rewrite tol_val in G'. lra. }
  rewrite (proj2 (Z.leb_le _ _) L), (proj2 (Z.leb_le _ _) L0). cbn [assert_ bind].
  eexists. split; [reflexivity|]. destruct (Z.ltb_spec (level_of x) 1); lia.
Qed.
Print Assumptions C23_double_level_in_range.

(** A larger percentile never gives a smaller level. *)
Theorem C23_double_monotone : forall p q n l l', 1 <= n < 2 ^ 31 -> is_double p -> is_double q ->
  (0 <= p <= q)%R -> (q <= 100)%R ->
  percentile2level_d p n = Ret l -> percentile2level_d q n = Ret l' -> l <= l'.
Proof.
  intros p q n l l' Hn Dp Dq Hp Hq E E'. rewrite p2l_unfold in E, E'.
  pose proof (x_bounds p n Hn ltac:(lra)) as [X0 X1]. pose proof (x_bounds q n Hn ltac:(lra)) as [Y0 Y1].
  assert (M : (rnd (rnd (IZR n * p) / 100) <= rnd (rnd (IZR n * q) / 100))%R).
  { apply rnd_mono. assert (rnd (IZR n * p) <= rnd (IZR n * q))%R; [|lra].
    apply rnd_mono. apply Rmult_le_compat_l; [|lra]. apply IZR_le. lia. }
  set (x := rnd (rnd (IZR n * p) / 100)) in *. set (y := rnd (rnd (IZR n * q) / 100)) in *.
  pose proof (n_small n ltac:(lia)).
  assert (K : level_of x <= level_of y).
  { apply level_of_iff. apply rnd_format. lra. lra.
    assert (K : level_of y <= level_of y) by lia.
    apply level_of_iff in K; [lra|apply rnd_format|lra|lra]. }
  destruct (level_of x <=? n); [|discriminate]. destruct (0 <=? level_of x); [|discriminate].
  destruct (level_of y <=? n); [|discriminate]. destruct (0 <=? level_of y); [|discriminate].
  cbn [assert_ bind] in E, E'. inversion E. inversion E'.
  destruct (Z.ltb_spec (level_of x) 1); destruct (Z.ltb_spec (level_of y) 1); lia.
Qed.
Print Assumptions C23_double_monotone.

Lemma level_exact : forall x k n, is_double x -> (0 <= x)%R -> (x < IZR (2 ^ 52))%R -> 1 <= k <= n ->
  (IZR k - 1 + tolerance_d < x)%R -> (x <= IZR k + tolerance_d)%R ->
  (_ <- assert_ (level_of x <=? n) ;; _ <- assert_ (0 <=? level_of x) ;;
   Ret (if level_of x <? 1 then 1 else level_of x)) = Ret k.
Proof.
  intros x k n D P U Hk A B.
  assert (E : level_of x = k).
  { apply Z.le_antisymm. { now apply level_of_iff. }
    destruct (Z_le_gt_dec k (level_of x)) as [|G]; auto. exfalso.
    assert (G' : level_of x <= k - 1) by lia. apply level_of_iff in G'; auto. rewrite minus_IZR in G'. lra. }
  rewrite E, (proj2 (Z.leb_le k n)), (proj2 (Z.leb_le 0 k)) by lia. cbn [assert_ bind].
  destruct (Z.ltb_spec k 1); [lia|reflexivity].
Qed.

(** Integer percentiles: the level is exactly the smallest integer that is at least
    n * p / 100 (and at least 1). *)
Theorem C23_double_integer_percentile : forall p n, 1 <= n < 2 ^ 31 -> 0 <= p <= 100 ->
  exists l, percentile2level_d (IZR p) n = Ret l /\ 1 <= l <= n /\
    forall m, l <= m <-> 1 <= m /\ n * p <= 100 * m.
Proof.
  intros p n Hn Hp.
  assert (Hp' : (0 <= IZR p <= 100)%R). { split; apply IZR_le; lia. }
  destruct (C23_double_level_in_range (IZR p) n Hn) as (l & E & R). { apply double_int. lia. } { auto. }
  exists l. split; auto. split; auto.
  pose proof (x_bounds (IZR p) n Hn Hp') as [X0 X1]. rewrite p2l_unfold in E.
  assert (Hx : rnd (rnd (IZR n * IZR p) / 100) = rnd (IZR (n * p) / 100)).
  { rewrite <- mult_IZR, rnd_int; auto. assert (0 <= n * p <= 2 ^ 31 * 100) by nia. lia. }
  rewrite Hx in *. set (x := rnd (IZR (n * p) / 100)) in *.
  pose proof (n_small n ltac:(lia)).
  assert (Fx : is_double x) by apply rnd_format.
  assert (Key : forall m, 0 <= m < 2 ^ 31 -> ((x <= IZR m + tolerance_d)%R <-> n * p <= 100 * m)).
  { intros m Hm. split; intros H1.
    - destruct (Z_le_gt_dec (n * p) (100 * m)) as [|G]; auto. exfalso.
      (* then n p / 100 >= m + 1/100, and m + 1/128 is a double *)
      assert (G' : 100 * m + 1 <= n * p) by lia. apply IZR_le in G'. rewrite plus_IZR, !mult_IZR in G'.
      assert (B : (IZR m + / 128 <= x)%R).
      { unfold x. rewrite <- (rnd_double (IZR m + / 128)).
        - apply rnd_mono. rewrite mult_IZR. lra.
        - replace (IZR m + / 128)%R with (F2R (Float radix2 (m * 128 + 1) (-7))).
          2:{ unfold F2R. simpl. rewrite plus_IZR, mult_IZR. lra. }
          apply generic_format_FLT. eexists; [reflexivity| |]; simpl; lia. }
      rewrite tol_val in H1. lra.
    - assert (B : (x <= IZR m)%R).
      { unfold x. rewrite <- (rnd_int m) by lia. apply rnd_mono. apply IZR_le in H1.
        rewrite (mult_IZR 100) in H1. lra. }
      rewrite tol_val. lra. }
  destruct (level_of x <=? n) eqn:L1; [|discriminate]. destruct (0 <=? level_of x) eqn:L2; [|discriminate].
  cbn [assert_ bind] in E. inversion E as [E']. apply Z.leb_le in L1, L2.
  intros m. transitivity (1 <= m /\ level_of x <= m).
  { destruct (Z.ltb_spec (level_of x) 1); lia. }
  split; intros [H1 H2]; split; auto.
  - destruct (Z_lt_ge_dec m (2 ^ 31)) as [Lt|Ge].
    + apply Key; [lia|]. apply level_of_iff; auto. lra.
    + nia.
  - destruct (Z_lt_ge_dec m (2 ^ 31)) as [Lt|Ge].
    + apply level_of_iff; auto. lra. apply Key; auto. lia.
    + lia.
Qed.
Print Assumptions C23_double_integer_percentile.

(** The median used by default (percentile 50) is level ceil(n/2). *)
Corollary C23_double_median : forall n, 1 <= n < 2 ^ 31 -> percentile2level_d 50 n = Ret ((n + 1) / 2).
Proof.
  intros n Hn. destruct (C23_double_integer_percentile 50 n Hn ltac:(lia)) as (l & E & R & M).
  rewrite E. f_equal. apply Z.le_antisymm.
  - apply M. split; [apply Z.div_le_lower_bound; lia|]. pose proof (Z.mul_succ_div_gt (n + 1) 2). lia.
  - pose proof (proj1 (M l) ltac:(lia)). assert ((n + 1) / 2 < l + 1); [|lia].
    apply Z.div_lt_upper_bound; lia.
Qed.

(** relative error of one rounding *)
Lemma rnd_rel : forall x, (bpow radix2 (-1022) <= x)%R ->
  (x * (1 - bpow radix2 (-53)) <= rnd x <= x * (1 + bpow radix2 (-53)))%R.
Proof.
  intros x Hx. assert (P : (0 < x)%R). { pose proof (bpow_gt_0 radix2 (-1022)). lra. }
  pose proof (relative_error_N_FLT radix2 (-1074) 53 ltac:(unfold Prec_gt_0; lia) (fun z => negb (Z.even z)) x) as H.
  fold ZnearestE in H. fold dexp in H. fold (rnd x) in H.
  rewrite Rabs_pos_eq in H by lra. specialize (H Hx).
  apply Rabs_le_inv in H. change (- (53) + 1) with (-52) in H.
  replace (/ 2 * bpow radix2 (-52))%R with (bpow radix2 (-53)) in H.
  2:{ change (-52) with (1 + -53). rewrite bpow_plus. simpl (bpow radix2 1). lra. }
  set (e := bpow radix2 (-53)) in *. lra.
Qed.

Lemma small_bpow : forall x, (/ 4294967296 <= x)%R -> (bpow radix2 (-1022) <= x)%R.
Proof.
  intros x H. apply Rle_trans with (bpow radix2 (-32)).
  - apply bpow_le. lia.
  - simpl. exact H.
Qed.
Definition eps53 : R := bpow radix2 (-53).
Lemma eps53_val : (eps53 = / 9007199254740992)%R.
Proof. reflexivity. Qed.

(** the conversion adds two roundings to the error of the percentile *)
Lemma three_roundings : forall k n m a b c, 1 <= k <= n -> (1 <= m <= 3)%R ->
  (IZR n * ((m + 3) * eps53) <= / 67108864)%R ->
  (1 - m * eps53 <= a <= 1 + m * eps53)%R -> (1 - eps53 <= b <= 1 + eps53)%R -> (1 - eps53 <= c <= 1 + eps53)%R ->
  (IZR k - / 67108864 <= IZR k * (a * b * c) <= IZR k + / 67108864)%R.
Proof.
  intros k n m a b c Hk Hm Hn Ha Hb Hc. rewrite eps53_val in *.
  assert (K1 : (1 <= IZR k)%R) by (apply IZR_le; lia).
  assert (K2 : (IZR k <= IZR n)%R) by (apply IZR_le; lia).
  set (e := (/ 9007199254740992)%R) in *.
  assert (E0 : (0 < e < / 1000)%R). { unfold e. lra. }
  assert (M0 : (0 < m * e < / 300)%R).
  { split. apply Rmult_lt_0_compat; lra. apply Rle_lt_trans with (3 * e)%R; [|lra]. apply Rmult_le_compat_r; lra. }
  assert (L : (1 - (m + 2) * e <= a * b * c)%R).
  { assert ((1 - m * e) * (1 - e) <= a * b)%R by (apply Rmult_le_compat; lra).
    assert ((1 - m * e) * (1 - e) * (1 - e) <= a * b * c)%R.
    { apply Rmult_le_compat; try lra. apply Rmult_le_pos; lra. }
    assert (0 <= e * e + m * e * e * (2 - e))%R.
    { assert (0 <= e * e)%R by (apply Rmult_le_pos; lra).
      assert (0 <= m * e * e * (2 - e))%R. { apply Rmult_le_pos; [apply Rmult_le_pos|]; lra. } lra. }
    lra. }
  assert (U : (a * b * c <= 1 + (m + 3) * e)%R).
  { assert (a * b <= (1 + m * e) * (1 + e))%R by (apply Rmult_le_compat; lra).
    assert (a * b * c <= (1 + m * e) * (1 + e) * (1 + e))%R.
    { apply Rmult_le_compat; try lra. apply Rmult_le_pos; lra. }
    assert (e * (e + m * e * (2 + e)) <= e * 1)%R.
    { apply Rmult_le_compat_l; [lra|].
      assert (m * e * (2 + e) <= / 300 * 3)%R by (apply Rmult_le_compat; lra). lra. }
    lra. }
  assert (MP : (0 <= (m + 3) * e)%R) by lra.
  assert (KE : (IZR k * ((m + 3) * e) <= IZR n * ((m + 3) * e))%R) by (apply Rmult_le_compat_r; lra).
  assert (KE' : (0 <= IZR k * e)%R) by (apply Rmult_le_pos; lra).
  split.
  - apply Rle_trans with (IZR k * (1 - (m + 2) * e))%R; [lra|]. apply Rmult_le_compat_l; lra.
  - apply Rle_trans with (IZR k * (1 + (m + 3) * e))%R; [apply Rmult_le_compat_l; lra|]. lra.
Qed.

Lemma rnd_factor : forall x, (bpow radix2 (-1022) <= x)%R ->
  exists d, (1 - eps53 <= d <= 1 + eps53)%R /\ rnd x = (x * d)%R.
Proof.
  intros x Hx. assert (P : (0 < x)%R). { pose proof (bpow_gt_0 radix2 (-1022)). lra. }
  exists (rnd x / x)%R. split; [|field; lra].
  pose proof (rnd_rel x Hx) as [A B]. unfold eps53. split.
  - apply Rmult_le_reg_r with x; auto. unfold Rdiv. rewrite Rmult_assoc, Rinv_l by lra. lra.
  - apply Rmult_le_reg_r with x; auto. unfold Rdiv. rewrite Rmult_assoc, Rinv_l by lra. lra.
Qed.

(** a percentile within [m] relative rounding errors of 100 k / n *)
Lemma percentile_near : forall k n m d, 1 <= k <= n -> n <= 2 ^ 25 -> (1 <= m <= 3)%R ->
  (IZR n * ((m + 3) * eps53) <= / 67108864)%R ->
  (1 - m * eps53 <= d <= 1 + m * eps53)%R ->
  percentile2level_d (100 * IZR k / IZR n * d) n = Ret k.
Proof.
  intros k n m d Hk Hn Hm Hb Hd.
  assert (K1 : (1 <= IZR k)%R) by (apply IZR_le; lia).
  assert (N1 : (1 <= IZR n)%R) by (apply IZR_le; lia).
  assert (N2 : (IZR n <= 33554432)%R) by (apply IZR_le; lia).
  assert (K2 : (IZR k <= IZR n)%R) by (apply IZR_le; lia).
  pose proof eps53_val as E53. assert (E0 : (0 < eps53 < / 1000)%R) by lra.
  assert (M0 : (0 < m * eps53 < / 300)%R).
  { split. apply Rmult_lt_0_compat; lra. apply Rle_lt_trans with (3 * eps53)%R; [|lra]. apply Rmult_le_compat_r; lra. }
  rewrite p2l_unfold.
  assert (X1 : (IZR n * (100 * IZR k / IZR n * d))%R = (100 * IZR k * d)%R) by (field; lra).
  rewrite X1.
  assert (KD : (/ 2 <= IZR k * d)%R).
  { apply Rle_trans with (1 * / 2)%R; [lra|]. apply Rmult_le_compat; lra. }
  destruct (rnd_factor (100 * IZR k * d)) as (b & Hb' & Eb). { apply small_bpow. lra. }
  rewrite Eb.
  assert (KDB : (/ 4 <= IZR k * d * b)%R).
  { apply Rle_trans with (/ 2 * / 2)%R; [lra|]. apply Rmult_le_compat; lra. }
  destruct (rnd_factor (100 * IZR k * d * b / 100)) as (c & Hc & Ec). { apply small_bpow. lra. }
  pose proof (three_roundings k n m d b c Hk Hm Hb Hd Hb' Hc) as [T1 T2].
  assert (Ex : rnd (100 * IZR k * d * b / 100) = (IZR k * (d * b * c))%R). { rewrite Ec. field. }
  pose proof (rnd_format (100 * IZR k * d * b / 100)) as Fx. rewrite Ex in Fx |- *.
  apply level_exact; [exact Fx|lra|change (2 ^ 52) with 4503599627370496; lra|exact Hk| |]; rewrite tol_val; lra.
Qed.

(** The percentile that the program attaches to level k is converted back to level
    k (for up to 2^25 = 33554432 sets). *)
Theorem C23_double_roundtrip : forall k n, 1 <= k <= n -> n <= 2 ^ 25 ->
  percentile2level_d (level2percentile_d k n) n = Ret k.
Proof.
  intros k n Hk Hn.
  assert (K1 : (1 <= IZR k)%R) by (apply IZR_le; lia).
  assert (N1 : (1 <= IZR n)%R) by (apply IZR_le; lia).
  assert (N2 : (IZR n <= 33554432)%R) by (apply IZR_le; lia).
  pose proof eps53_val as E53.
  assert (NB : (IZR n * ((1 + 3) * eps53) <= / 67108864)%R) by (rewrite E53; lra).
  unfold level2percentile_d. destruct (Z.eqb_spec k n) as [E|N].
  - subst. replace 100%R with (100 * IZR n / IZR n * 1)%R by (field; lra).
    apply (percentile_near n n 1); auto; lra.
  - replace (IZR k * 100)%R with (IZR (k * 100)) by apply mult_IZR. rewrite rnd_int by lia.
    rewrite mult_IZR. destruct (rnd_factor (IZR k * 100 / IZR n)) as (d & Hd & Ed).
    { apply small_bpow.
      apply Rmult_le_reg_r with (IZR n); [lra|]. unfold Rdiv. rewrite Rmult_assoc, Rinv_l by lra. lra. }
    rewrite Ed. replace (IZR k * 100 / IZR n * d)%R with (100 * IZR k / IZR n * d)%R by (field; lra).
    apply (percentile_near k n 1); auto; lra.
Qed.
Print Assumptions C23_double_roundtrip.

(** all_percentiles computes i * (100/n) with two roundings; each percentile is
    converted to its level i (for up to 2^24 sets) *)
Theorem C23_double_all_percentiles : forall n, (1 <= n)%nat -> Z.of_nat n <= 2 ^ 24 ->
  length (all_percentiles_d n) = n /\
  forall i, (i < n)%nat ->
    percentile2level_d (nth i (all_percentiles_d n) 0%R) (Z.of_nat n) = Ret (Z.of_nat i + 1).
Proof.
  intros n H1 H2. unfold all_percentiles_d. rewrite map_length, seq_length. split; auto.
  intros i Hi. rewrite (nth_map_lt _ _ _ _ _ _ 0%nat) by (rewrite seq_length; auto).
  rewrite seq_nth by auto. replace (Z.of_nat (1 + i)) with (Z.of_nat i + 1) by lia.
  set (k := Z.of_nat i + 1). set (N := Z.of_nat n) in *.
  assert (Hk : 1 <= k <= N) by (unfold k, N; lia).
  assert (K1 : (1 <= IZR k)%R) by (apply IZR_le; lia).
  assert (N1 : (1 <= IZR N)%R) by (apply IZR_le; lia).
  assert (N2 : (IZR N <= 16777216)%R) by (apply IZR_le; lia).
  pose proof eps53_val as E53. assert (E0 : (0 < eps53 < / 1000)%R) by lra.
  destruct (rnd_factor (100 / IZR N)) as (d & Hd & Ed).
  { apply small_bpow. apply Rmult_le_reg_r with (IZR N); [lra|]. unfold Rdiv. rewrite Rmult_assoc, Rinv_l by lra. lra. }
  rewrite Ed.
  assert (Q : (/ 16777216 <= IZR k / IZR N)%R).
  { apply Rmult_le_reg_r with (IZR N); [lra|]. unfold Rdiv. rewrite Rmult_assoc, Rinv_l by lra. lra. }
  destruct (rnd_factor (IZR k * (100 / IZR N * d))) as (b & Hb & Eb).
  { apply small_bpow. replace (IZR k * (100 / IZR N * d))%R with (100 * (IZR k / IZR N * d))%R by (field; lra).
    assert (/ 16777216 * / 2 <= IZR k / IZR N * d)%R by (apply Rmult_le_compat; lra). lra. }
  rewrite Eb. replace (IZR k * (100 / IZR N * d) * b)%R with (100 * IZR k / IZR N * (d * b))%R by (field; lra).
  apply (percentile_near k N 3); [exact Hk|lia|lra|rewrite E53; lra|].
  assert (A : ((1 - eps53) * (1 - eps53) <= d * b)%R) by (apply Rmult_le_compat; lra).
  assert (B : (d * b <= (1 + eps53) * (1 + eps53))%R) by (apply Rmult_le_compat; lra).
  assert (0 <= eps53 * eps53 <= eps53 * 1)%R. { split. apply Rmult_le_pos; lra. apply Rmult_le_compat_l; lra. }
  lra.
Qed.
Print Assumptions C23_double_all_percentiles.

(** The hypotheses are met: 7 sets, and the percentile 100 * 3 / 7 (not a double
    before rounding) gives level 3. *)
Example C23_double_roundtrip_example : percentile2level_d (level2percentile_d 3 7) 7 = Ret 3.
Proof. apply C23_double_roundtrip; lia. Qed.
Example C23_double_median_example : percentile2level_d 50 7 = Ret 4.
Proof. apply (C23_double_median 7). lia. Qed.
