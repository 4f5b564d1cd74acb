(** Property C30 for IEEE 754 binary64 numbers: printf("%-22.15g") followed by
    scanf("%lf"), both rounding to nearest even as the GNU C library does.
    Overflow to infinity and the sign of zero are not modelled.

    This file uses Flocq and therefore the axioms of the Coq Reals library. *)
From Coq Require Import List ZArith Lia Bool Arith Reals Lra Ascii.
From Flocq Require Import Core Relative.
From Verif Require Import Base IoModel IoSpec IoProofs IoMain IoFmt PropIo.
Import ListNotations.
Open Scope Z_scope.

Definition dexp : Z -> Z := FLT_exp (-1074) 53.
#[global] Instance dexp_valid : Valid_exp dexp.
Proof. apply FLT_exp_valid. unfold Prec_gt_0. lia. Qed.
Definition radix10 : radix := Build_radix 10 eq_refl.
Definition d15 : Z -> Z := FLX_exp 15.
#[global] Instance d15_prec : Prec_gt_0 15.
Proof. unfold Prec_gt_0. lia. Qed.
#[global] Instance d15_valid : Valid_exp d15.
Proof. apply FLX_exp_valid. exact d15_prec. Qed.

(** the double nearest to m * 10^e: what scanf("%lf") stores *)
Definition dconv (m e : Z) : R := round radix2 dexp ZnearestE (IZR m * bpow radix10 e).

(** the 15 significant digits that printf("%.15g") shows *)
Definition dec15 (x : R) : R := round radix10 d15 ZnearestE x.
Definition dg15 (x : R) : bool * Z * Z :=
  if Req_bool x 0 then (false, 0, 0)
  else (Rlt_bool x 0, Z.abs (Ztrunc (scaled_mantissa radix10 d15 (dec15 x))), mag radix10 (dec15 x) - 1).

Lemma dconv_scale : forall m e k, 0 <= k -> dconv (m * 10 ^ k) e = dconv m (e + k).
Proof.
  intros m e k Hk. unfold dconv. f_equal. rewrite mult_IZR, bpow_plus.
  change (10 ^ k) with (Zpower radix10 k). rewrite IZR_Zpower by auto. ring.
Qed.

Lemma dec15_nz : forall x, x <> 0%R -> dec15 x <> 0%R.
Proof.
  intros x Hx H. unfold dec15 in H.
  assert (E : round radix10 d15 ZnearestE x = 0%R -> x = 0%R).
  { apply (eq_0_round_0_FLX radix10 15 ZnearestE). }
  auto.
Qed.

Lemma dec15_format : forall x, generic_format radix10 d15 (dec15 x).
Proof. intros. apply generic_format_round; auto with typeclass_instances. Qed.

Lemma dg15_shape : forall x, let '(neg, D, X) := dg15 x in D = 0 \/ 10 ^ 14 <= D < 10 ^ 15.
Proof.
  intros x. unfold dg15. destruct (Req_bool_spec x 0). now left. right.
  pose proof (dec15_nz x H) as N. pose proof (dec15_format x) as F.
  set (y := dec15 x) in *. pose proof (scaled_mantissa_generic radix10 d15 y F) as S.
  assert (B : (IZR (10 ^ 14) <= Rabs (scaled_mantissa radix10 d15 y) < IZR (10 ^ 15))%R).
  { unfold scaled_mantissa, cexp, d15, FLX_exp. rewrite Rabs_mult, (Rabs_pos_eq (bpow _ _)) by apply bpow_ge_0.
    change (10 ^ 14) with (Zpower radix10 14). change (10 ^ 15) with (Zpower radix10 15).
    rewrite !IZR_Zpower by lia. destruct (mag radix10 y) as [e He]. cbn [mag_val]. specialize (He N). split.
    - replace 14 with ((e - 1) + - (e - 15)) by lia. rewrite bpow_plus. apply Rmult_le_compat_r. apply bpow_ge_0. apply He.
    - replace (bpow radix10 15) with (bpow radix10 e * bpow radix10 (- (e - 15)))%R by (rewrite <- bpow_plus; f_equal; lia).
      apply Rmult_lt_compat_r. apply bpow_gt_0. apply He. }
  rewrite S, <- abs_IZR in B. destruct B as [B1 B2]. apply le_IZR in B1. apply lt_IZR in B2. auto.
Qed.

Lemma dec15_sign : forall x, x <> 0%R ->
  IZR (signed (Rlt_bool x 0) (Z.abs (Ztrunc (scaled_mantissa radix10 d15 (dec15 x))))) = scaled_mantissa radix10 d15 (dec15 x).
Proof.
  intros x Hx. pose proof (dec15_format x) as F. pose proof (scaled_mantissa_generic radix10 d15 _ F) as S. rewrite S at 2.
  f_equal. set (m := Ztrunc _) in *. unfold signed.
  assert (P : forall z, (0 < scaled_mantissa radix10 d15 z <-> 0 < z)%R).
  { intros z. unfold scaled_mantissa. assert (0 < bpow radix10 (- cexp radix10 d15 z))%R by apply bpow_gt_0. split; intros.
    - apply Rmult_lt_reg_r with (1 := H). lra.
    - now apply Rmult_lt_0_compat. }
  destruct (Rlt_bool_spec x 0).
  - assert (dec15 x <= 0)%R. { apply round_le_generic; auto with typeclass_instances. apply generic_format_0. lra. }
    assert (IZR m <= 0)%R. { rewrite <- S. apply Rnot_lt_le. intros K. apply (proj1 (P _)) in K. lra. }
    apply le_IZR in H1. lia.
  - assert (0 <= dec15 x)%R. { apply round_ge_generic; auto with typeclass_instances. apply generic_format_0. }
    assert (0 <= IZR m)%R. { rewrite <- S. unfold scaled_mantissa. apply Rmult_le_pos; auto. apply bpow_ge_0. }
    apply le_IZR in H1. lia.
Qed.

(** what is read back is the double nearest to the 15 digits *)
Lemma val15_double : forall x, val15 R dconv dg15 x = round radix2 dexp ZnearestE (dec15 x).
Proof.
  intros x. unfold val15, dg15. destruct (Req_bool_spec x 0).
  - subst x. unfold dec15. rewrite round_0 by auto with typeclass_instances. unfold dconv, signed. f_equal. simpl. ring.
  - unfold dconv. rewrite dec15_sign by auto. f_equal.
    replace (mag radix10 (dec15 x) - 1 - 14) with (cexp radix10 d15 (dec15 x)) by (unfold cexp, d15, FLX_exp; lia).
    apply scaled_mantissa_mult_bpow.
Qed.

(** two different numbers of 15 digits differ by a relative 9e-16 *)
Lemma cexp_lower : forall c, c <> 0%R -> (Rabs c < bpow radix10 (cexp radix10 d15 c) * IZR (10 ^ 15))%R.
Proof.
  intros c Hc. unfold cexp, d15, FLX_exp. destruct (mag radix10 c) as [e He]. cbn [mag_val]. specialize (He Hc).
  change (10 ^ 15) with (Zpower radix10 15). rewrite IZR_Zpower by lia. rewrite <- bpow_plus.
  replace (e - 15 + 15) with e by lia. apply He.
Qed.

Lemma multiple_of : forall c e, generic_format radix10 d15 c -> e <= cexp radix10 d15 c ->
  exists m, c = (IZR m * bpow radix10 e)%R.
Proof.
  intros c e H L. unfold generic_format, F2R in H. simpl in H.
  exists (Ztrunc (scaled_mantissa radix10 d15 c) * Zpower radix10 (cexp radix10 d15 c - e)).
  rewrite mult_IZR, IZR_Zpower by lia. rewrite Rmult_assoc, <- bpow_plus. replace (cexp radix10 d15 c - e + e) with (cexp radix10 d15 c) by lia.
  exact H.
Qed.

Lemma separated : forall c y, generic_format radix10 d15 c -> generic_format radix10 d15 y -> c <> 0%R ->
  (Rabs (y - c) <= Rabs c / 4000000000000000)%R -> y = c.
Proof.
  intros c y Fc Fy Nc H.
  assert (Ac : (0 < Rabs c)%R) by now apply Rabs_pos_lt.
  assert (Ly : (Rabs y >= Rabs c * 9 / 10)%R).
  { pose proof (Rabs_triang (c - y) y). replace (c - y + y)%R with c in H0 by ring. rewrite Rabs_minus_sym in H. lra. }
  assert (Ny : y <> 0%R). { intros ->. rewrite Rabs_R0 in Ly. lra. }
  pose proof (cexp_lower c Nc). pose proof (cexp_lower y Ny).
  set (e := Z.min (cexp radix10 d15 c) (cexp radix10 d15 y)).
  destruct (multiple_of c e Fc) as [m Em]. { unfold e; lia. }
  destruct (multiple_of y e Fy) as [n En]. { unfold e; lia. }
  destruct (Z.eq_dec n m) as [->|D]. { congruence. }
  exfalso.
  assert (G : (bpow radix10 e <= Rabs (y - c))%R).
  { rewrite En, Em, <- Rmult_minus_distr_r, <- minus_IZR, Rabs_mult, <- abs_IZR, (Rabs_pos_eq (bpow _ _)) by apply bpow_ge_0.
    rewrite <- (Rmult_1_l (bpow radix10 e)) at 1. apply Rmult_le_compat_r. apply bpow_ge_0. apply IZR_le. lia. }
  assert (L : (Rabs c * 9 / 10 < bpow radix10 e * IZR (10 ^ 15))%R).
  { unfold e. destruct (Z.min_spec (cexp radix10 d15 c) (cexp radix10 d15 y)) as [[_ ->]|[_ ->]]; lra. }
  replace (IZR (10 ^ 15)) with 1000000000000000%R in L by reflexivity. lra.
Qed.

(** the numbers that survive: zero and the doubles nearest to a decimal
    number of at most 15 digits in the normal range *)
Definition short_decimal (x : R) : Prop :=
  x = 0%R \/ exists n k, Z.abs n < 10 ^ 15 /\ (bpow radix2 (-1022) <= Rabs (IZR n * bpow radix10 k))%R /\
    x = round radix2 dexp ZnearestE (IZR n * bpow radix10 k).

Lemma decimal_format : forall n k, Z.abs n < 10 ^ 15 -> generic_format radix10 d15 (IZR n * bpow radix10 k).
Proof.
  intros n k H. apply generic_format_FLX. exists (Float radix10 n k). reflexivity. exact H.
Qed.

Lemma small_error : forall c, (bpow radix2 (-1022) <= Rabs c)%R ->
  (Rabs (round radix2 dexp ZnearestE c - c) <= Rabs c / 9000000000000000)%R.
Proof.
  intros c H. unfold dexp.
  assert (E : (Rabs (round radix2 (FLT_exp (-1074) 53) ZnearestE c - c) <= /2 * bpow radix2 (-53 + 1) * Rabs c)%R).
  { apply relative_error_N_FLT. unfold Prec_gt_0; lia. exact H. }
  simpl in E. assert (0 <= Rabs c)%R by apply Rabs_pos. lra.
Qed.

Theorem C30_double_exact : forall x, short_decimal x -> val15 R dconv dg15 x = x.
Proof.
  intros x [->|(n & k & Hn & Hr & ->)].
  - rewrite val15_double. unfold dec15. now rewrite !round_0 by auto with typeclass_instances.
  - rewrite val15_double. set (c := (IZR n * bpow radix10 k)%R) in *. set (x := round radix2 dexp ZnearestE c).
    assert (Fc : generic_format radix10 d15 c) by now apply decimal_format.
    assert (Nc : c <> 0%R). { intros ->. rewrite Rabs_R0 in Hr. pose proof (bpow_gt_0 radix2 (-1022)). lra. }
    replace (dec15 x) with c. reflexivity. symmetry.
    apply separated; auto. apply dec15_format.
    pose proof (small_error c Hr) as E. fold x in E.
    destruct (round_N_pt radix10 d15 (fun z => negb (Z.even z)) x) as [_ P]. specialize (P c Fc).
    change (round radix10 d15 (Znearest (fun z => negb (Z.even z))) x) with (dec15 x) in P.
    pose proof (Rabs_triang (dec15 x - x) (x - c)) as T. replace (dec15 x - x + (x - c))%R with (dec15 x - c)%R in T by ring.
    rewrite (Rabs_minus_sym c x) in P. pose proof (Rabs_pos c). lra.
Qed.
Print Assumptions C30_double_exact.

(** writing and reading doubles of at most 15 digits is lossless *)
Theorem C30_double_roundtrip : forall junk junk_int inc w (sets : list (list (list R))),
  (0 < inc)%nat -> sets <> [] -> w <> 0%nat ->
  (forall S, In S sets -> S <> []) -> (forall S r, In S sets -> In r S -> List.length r = w) ->
  (forall S r x, In S sets -> In r S -> In x r -> short_decimal x) ->
  exists t, write_sets R (fmt15 R dg15) (ds_data R (layout w sets)) w (ds_cumsizes R (layout w sets)) = Ret t /\
    read_objective_t_data R junk junk_int (scan_dec R dconv) inc t (mk_ds R 0 [] 0 []) = Ret (0, layout w sets) /\
    read_datasets R junk junk_int (scan_dec R dconv) inc t = Ret (inr (labelled_from 1 sets)).
Proof.
  intros junk junk_int inc w sets HI Ne Hw HN HW HV.
  apply C30_roundtrip with (val := val15 R dconv dg15); auto.
  - apply scan_dec_valid.
  - apply fmt15_valid. apply dconv_scale. apply dg15_shape.
  - intros S r x H1 H2 H3. apply C30_double_exact. eapply HV; eauto.
Qed.
Print Assumptions C30_double_roundtrip.

(** every other double of the normal range changes by a relative 6e-15 at
    most, and what was read is then stable: further round trips are lossless *)
Lemma dec15_error : forall x, (Rabs (dec15 x - x) <= Rabs x * 5 / 1000000000000000)%R.
Proof.
  intros x. unfold dec15, d15.
  assert (E : (Rabs (round radix10 (FLX_exp 15) ZnearestE x - x) <= /2 * bpow radix10 (-15 + 1) * Rabs x)%R).
  { apply relative_error_N_FLX. exact d15_prec. }
  simpl in E. assert (0 <= Rabs x)%R by apply Rabs_pos. lra.
Qed.

Theorem C30_double_stable : forall x, x = 0%R \/ (bpow radix2 (-1021) <= Rabs x)%R ->
  short_decimal (val15 R dconv dg15 x) /\
  (Rabs (val15 R dconv dg15 x - x) <= Rabs x * 6 / 1000000000000000)%R.
Proof.
  intros x [->|H].
  - rewrite C30_double_exact by now left. split. now left. rewrite Rminus_0_r, Rabs_R0. lra.
  - assert (Nx : x <> 0%R). { intros ->. rewrite Rabs_R0 in H. pose proof (bpow_gt_0 radix2 (-1021)). lra. }
    pose proof (dec15_error x) as E. pose proof (dec15_format x) as F.
    assert (P : (0 < Rabs x)%R) by now apply Rabs_pos_lt.
    assert (A : (Rabs x <= Rabs (dec15 x) + Rabs x * 5 / 1000000000000000)%R).
    { pose proof (Rabs_triang (dec15 x) (x - dec15 x)) as T. replace (dec15 x + (x - dec15 x))%R with x in T by ring.
      rewrite (Rabs_minus_sym x) in T. lra. }
    assert (A' : (Rabs (dec15 x) <= Rabs x + Rabs x * 5 / 1000000000000000)%R).
    { pose proof (Rabs_triang x (dec15 x - x)) as T. replace (x + (dec15 x - x))%R with (dec15 x) in T by ring. lra. }
    assert (R2 : (bpow radix2 (-1022) <= Rabs (dec15 x))%R).
    { replace (-1021) with (-1022 + 1) in H by lia. rewrite bpow_plus in H. change (bpow radix2 1) with 2%R in H. lra. }
    rewrite val15_double. split.
    + right. apply FLX_format_generic in F; [|exact d15_prec]. destruct F as [f Hf Hm].
      exists (Fnum f), (Fexp f). change (IZR (Fnum f) * bpow radix10 (Fexp f))%R with (F2R f). rewrite <- Hf.
      repeat split; auto.
    + pose proof (small_error _ R2) as E2.
      pose proof (Rabs_triang (round radix2 dexp ZnearestE (dec15 x) - dec15 x) (dec15 x - x)) as T.
      replace (round radix2 dexp ZnearestE (dec15 x) - dec15 x + (dec15 x - x))%R with (round radix2 dexp ZnearestE (dec15 x) - x)%R in T by ring.
      lra.
Qed.
Print Assumptions C30_double_stable.

(** ** Concrete cases *)
(** 0.1: the nearest double of a number of one digit *)
Example C30_double_nonvacuous : short_decimal (dconv 1 (-1)) /\ short_decimal (dconv 123456789012345 20).
Proof.
  assert (B : (bpow radix2 (-1022) <= bpow radix2 (-4))%R) by (apply bpow_le; lia).
  split; right.
  - exists 1, (-1). split. reflexivity. split; auto. simpl in *. rewrite Rabs_pos_eq; lra.
  - exists 123456789012345, 20. split. reflexivity. split; auto. apply Rle_trans with (1 := B).
    rewrite Rabs_pos_eq. simpl. lra. simpl. lra.
Qed.

(** 15 digits are not enough for every double: 1 + 2^-52 is written as "1" *)
Theorem C30_all_doubles_refuted :
  let x := (1 + bpow radix2 (-52))%R in
  generic_format radix2 dexp x /\ val15 R dconv dg15 x = 1%R /\ x <> 1%R.
Proof.
  intros x.
  assert (X : x = (1 + / IZR (2 ^ 52))%R) by reflexivity.
  split; [|split].
  - apply generic_format_FLT. exists (Float radix2 (2 ^ 52 + 1) (-52)).
    + rewrite X. unfold F2R. change (Fnum (Float radix2 (2^52+1) (-52))) with (2^52+1). change (Fexp (Float radix2 (2^52+1) (-52))) with (-52).
      change (bpow radix2 (-52)) with (/ IZR (2 ^ 52))%R. rewrite plus_IZR. field. apply (not_0_IZR (2^52)). discriminate.
    + reflexivity.
    + discriminate.
  - rewrite val15_double. replace (dec15 x) with 1%R.
    + apply round_generic; auto with typeclass_instances.
      change 1%R with (bpow radix2 0). apply generic_format_bpow. discriminate.
    + symmetry. unfold dec15, round, scaled_mantissa, cexp.
      assert (M : mag radix10 x = 1 :> Z). { apply mag_unique. rewrite X, Rabs_pos_eq; simpl; lra. }
      rewrite M. change (d15 1) with (-14). change (bpow radix10 (- -14)) with 100000000000000%R.
      rewrite (Znearest_imp _ _ 100000000000000).
      * unfold F2R. simpl. lra.
      * rewrite X. simpl. rewrite Rabs_pos_eq; lra.
  - rewrite X. simpl. lra.
Qed.
Print Assumptions C30_all_doubles_refuted.
