(** The inner loop of the sampler covers the tail of the bell curve. *)
From Coq Require Import List ZArith Reals Lra Lia Bool.
From Coquelicot Require Import Coquelicot.
From Verif Require Import Base ZigTables RngModel ProbSpec ProbFacts ZigFacts ZigSpec GaussInt ZigNum ZigLaw PropHypeDist ZigBody.
Import ListNotations.
Open Scope R_scope.

Definition lx (u : Z) : R := - iq * ln (1 - frac53 u).
Definition hit (u1 u2 : Z) : bool :=
  if Rlt_dec (lx u1 * lx u1) (- ln (1 - frac53 u2) + - ln (1 - frac53 u2)) then true else false.
Definition ac (u1 : Z) : R := chance (2 ^ 53) (hit u1).
Definition tl (A : R -> bool) (b : bool) : R :=
  mean_of (2 ^ 53) (fun u1 => indicator (A (if b then - (rr + lx u1) else rr + lx u1)) * ac u1).
Definition bit (k : Z) : bool := (Z.land (Z.shiftr k 8) 1 =? 1)%Z.

Lemma tacc_tl : forall A k, tacc A k = tl A (bit k).
Proof.
  intros A k. unfold tacc, tl, ac, chance. apply mean_ext. intros u1 _. rewrite <- mean_scal. apply mean_ext. intros u2 _.
  unfold zig_tail, hit, lx, bit. fold iq rr. cbv zeta.
  destruct (Rlt_dec _ _); cbn [indicator]; [ | ring ]. destruct (_ =? 1)%Z; ring.
Qed.

Lemma frac_range : forall u, (0 <= u < 2 ^ 53)%Z -> 0 <= frac53 u <= 1 - e53.
Proof.
  intros u Hu. pose proof (IZR_pow_pos 2 53 ltac:(lia) ltac:(lia)) as P. unfold frac53, e53.
  assert (U0 : 0 <= IZR u) by (apply IZR_le; lia). assert (U1 : IZR u <= IZR (2 ^ 53) - 1) by (rewrite <- minus_IZR; apply IZR_le; lia).
  set (p := IZR (2 ^ 53)) in *. set (v := IZR u) in *. clearbody p v. split.
  - apply Rmult_le_pos; [ exact U0 | left; now apply Rinv_0_lt_compat ].
  - apply Rmult_le_reg_r with p; [ exact P | ]. replace (v / p * p) with v by (field; lra). replace ((1 - / p) * p) with (p - 1) by (field; lra). exact U1.
Qed.

Lemma ln_below : forall v a, 0 < v -> (a < - ln v <-> v < exp (- a)).
Proof.
  intros v a Hv. split; intros H.
  - rewrite <- (exp_ln v Hv) at 1. apply exp_increasing. lra.
  - apply (ln_increasing _ _ Hv) in H. rewrite ln_exp in H. lra.
Qed.

Lemma chance_above : forall c P, 0 <= c <= 1 ->
  (forall i, (0 <= i < 2 ^ 53)%Z -> P i = true <-> c * IZR (2 ^ 53) < IZR i) ->
  Rabs (chance (2 ^ 53) P - (1 - c)) <= 2 * e53.
Proof.
  intros c P Hc H.
  pose proof (chance_upto (2 ^ 53) c (fun i => negb (P i) && negb (i =? 0)%Z) pos53z Hc) as Q. fold e53 in Q.
  assert (QP : Rabs (chance (2 ^ 53) (fun i => negb (P i) && negb (i =? 0)%Z) - c) <= e53).
  { apply Q. intros i Hi. rewrite andb_true_iff, !negb_true_iff, Z.eqb_neq. specialize (H i Hi). destruct (P i).
    - split; [ intros [X _]; discriminate | ]. intros [_ X]. assert (c * IZR (2 ^ 53) < IZR i) by now apply H. lra.
    - split.
      + intros [_ X]. split; [ apply IZR_lt; lia | ]. apply Rnot_lt_le. intros Y. apply H in Y. discriminate.
      + intros [X _]. split; [ reflexivity | ]. apply lt_IZR in X. lia. }
  assert (P0 : P 0%Z = false).
  { destruct (P 0%Z) eqn:E; [ | reflexivity ]. apply H in E; [ | lia ]. pose proof (IZR_pow_pos 2 53 ltac:(lia) ltac:(lia)).
    assert (0 <= c * IZR (2 ^ 53)) by (apply Rmult_le_pos; lra). lra. }
  assert (E : chance (2 ^ 53) P + chance (2 ^ 53) (fun i => negb (P i) && negb (i =? 0)%Z) + 1 / IZR (2 ^ 53) = 1).
  { unfold chance. rewrite <- (mean_first (2 ^ 53) 1) by exact pos53z. rewrite <- !mean_plus.
    transitivity (mean_of (2 ^ 53) (fun _ => 1)); [ | now apply mean_const ]. apply mean_ext. intros i _.
    destruct (Z.eqb_spec i 0) as [ -> | Hn ]; [ rewrite P0; cbn; ring | ]. destruct (P i); cbn; ring. }
  pose proof e53_pos as EP. assert (E' : 1 / IZR (2 ^ 53) = e53) by (unfold e53; apply Rmult_1_l).
  rewrite E' in E. apply Rabs_le_between in QP. apply Rabs_le. lra.
Qed.

Lemma ac_close : forall u1, Rabs (ac u1 - bell (lx u1)) <= 2 * e53.
Proof.
  intros u1. pose proof (bell_pos (lx u1)) as B0. pose proof (bell_le_1 (lx u1)) as B1.
  replace (bell (lx u1)) with (1 - (1 - bell (lx u1))) by ring. unfold ac. apply chance_above; [ lra | ].
  intros i Hi. pose proof (frac_range i Hi) as FR. pose proof e53_pos as EP. pose proof (IZR_pow_pos 2 53 ltac:(lia) ltac:(lia)) as P.
  unfold hit. set (x := lx u1) in *.
  pose proof (ln_below (1 - frac53 i) (x * x / 2) ltac:(lra)) as LB.
  replace (exp (- (x * x / 2))) with (bell x) in LB by (unfold bell; f_equal; field).
  assert (EQ : 1 - frac53 i < bell x <-> (1 - bell x) * IZR (2 ^ 53) < IZR i).
  { assert (F : IZR i = frac53 i * IZR (2 ^ 53)) by (unfold frac53; set (p := IZR (2 ^ 53)) in *; clearbody p; field; lra).
    rewrite F. split; intros H; [ apply Rmult_lt_compat_r; lra | ]. apply Rmult_lt_reg_r in H; lra. }
  destruct (Rlt_dec _ _) as [Y | Y].
  - split; [ | reflexivity ]. intros _. apply EQ, LB. lra.
  - split; [ discriminate | ]. intros H. exfalso. apply Y. apply EQ, LB in H. lra.
Qed.

(** ** The integral over the first draw *)
Definition gy (y : R) : R := bell (- iq * ln (1 - y)).
Definition up (s : R) : R := 1 - exp (- qq * s).

Lemma qq_pos : 0 < qq. Proof. unfold qq. apply Rinv_0_lt_compat, iq_pos. Qed.
Lemma iq_qq : iq * qq = 1. Proof. unfold qq. apply Rinv_r. pose proof iq_pos. lra. Qed.
Lemma up_range : forall s, 0 <= s -> 0 <= up s < 1.
Proof.
  intros s Hs. unfold up. pose proof (exp_pos (- qq * s)) as E. pose proof qq_pos as Q.
  assert (exp (- qq * s) <= 1); [ | lra ]. rewrite <- exp_0. assert (Z : - qq * s <= 0) by nra.
  destruct Z as [Z | ->]; [ left; now apply exp_increasing | right; reflexivity ].
Qed.
Lemma ln_neg : forall y, 0 <= y < 1 -> ln (1 - y) <= 0.
Proof. intros y Hy. rewrite <- ln_1. destruct (proj1 Hy) as [Z | <-]; [ left; apply ln_increasing; lra | rewrite Rminus_0_r; right; reflexivity ]. Qed.
Lemma gy_cont : forall y, y < 1 -> continuous gy y.
Proof.
  intros y Hy. unfold gy. apply (continuous_comp (fun y => - iq * ln (1 - y)) bell); [ | apply bell_cont ].
  apply (ex_derive_continuous (K := R_AbsRing) (V := R_NormedModule)). auto_derive. lra.
Qed.
Lemma gy_decr : forall x y, 0 <= x -> x <= y -> y < 1 -> gy y <= gy x.
Proof.
  intros x y Hx Hxy Hy. unfold gy. pose proof iq_pos as I. apply bell_decr.
  - pose proof (ln_neg x ltac:(lra)). nra.
  - destruct Hxy as [Hxy | ->]; [ | lra ]. pose proof (ln_increasing (1 - y) (1 - x) ltac:(lra) ltac:(lra)). nra.
Qed.
Lemma gy_range : forall y, 0 <= gy y <= 1.
Proof. intros y. split; [ left; apply bell_pos | apply bell_le_1 ]. Qed.
Lemma lx_nonneg : forall u, (0 <= u < 2 ^ 53)%Z -> 0 <= lx u.
Proof. intros u Hu. unfold lx. pose proof (frac_range u Hu). pose proof e53_pos. pose proof iq_pos. pose proof (ln_neg (frac53 u) ltac:(lra)). nra. Qed.
Lemma lx_upto : forall u s, (0 <= u < 2 ^ 53)%Z -> (lx u <= s <-> frac53 u <= up s).
Proof.
  intros u s Hu. unfold lx, up. pose proof (frac_range u Hu) as F. pose proof e53_pos as E. pose proof iq_pos as I. pose proof qq_pos as Q. pose proof iq_qq as IQ.
  split; intros H.
  - assert (L : - qq * s <= ln (1 - frac53 u)).
    { assert (qq * (- iq * ln (1 - frac53 u)) <= qq * s) by (apply Rmult_le_compat_l; lra).
      replace (qq * (- iq * ln (1 - frac53 u))) with (- (iq * qq) * ln (1 - frac53 u)) in * by ring. rewrite IQ in *. lra. }
    assert (X : exp (- qq * s) <= exp (ln (1 - frac53 u))) by (destruct L as [L | ->]; [ left; now apply exp_increasing | right; reflexivity ]).
    rewrite exp_ln in X by lra. lra.
  - assert (L : - qq * s <= ln (1 - frac53 u)).
    { rewrite <- (ln_exp (- qq * s)). assert (X : exp (- qq * s) <= 1 - frac53 u) by lra. pose proof (exp_pos (- qq * s)).
      destruct X as [X | ->]; [ left; now apply ln_increasing | right; reflexivity ]. }
    assert (iq * (- qq * s) <= iq * ln (1 - frac53 u)) by (apply Rmult_le_compat_l; lra).
    replace (iq * (- qq * s)) with (- (iq * qq) * s) in * by ring. rewrite IQ in *. lra.
Qed.
Lemma rr_pos : 0 < rr.
Proof.
  pose proof (zn_q numbers) as Q. pose proof iq_pos as I. pose proof rr_nonneg as R0.
  destruct R0 as [R0 | R0]; [ exact R0 | ]. exfalso. rewrite <- R0 in Q. rewrite Rmult_0_l, Rminus_0_l, Rabs_Ropp, Rabs_R1 in Q.
  assert (/ IZR (10 ^ 27) < 1); [ | lra ]. rewrite <- Rinv_1. apply Rinv_lt_contravar; [ rewrite Rmult_1_l; now apply IZR_pow_pos | ].
  apply IZR_lt. reflexivity.
Qed.

Definition eta : R := 4 * e53.

Lemma tl_pos : forall s, 0 <= s -> Rabs (tl (positive_upto (rr + s)) false - RInt gy 0 (up s)) <= eta.
Proof.
  intros s Hs. pose proof (up_range s Hs) as UR. pose proof e53_pos as EP. pose proof rr_pos as RP.
  assert (S1 : Rabs (tl (positive_upto (rr + s)) false - mean_of (2 ^ 53) (fun u => indicator (positive_upto (rr + s) (rr + lx u)) * gy (frac53 u))) <= 2 * e53).
  { unfold tl. apply mean_abs; [ exact pos53z | ]. intros u _. rewrite <- Rmult_minus_distr_l, Rabs_mult.
    pose proof (ac_close u) as AC. change (gy (frac53 u)) with (bell (lx u)). pose proof (Rabs_pos (ac u - bell (lx u))).
    destruct (positive_upto _ _); cbn [indicator]; [ rewrite Rabs_R1; lra | rewrite Rabs_R0; lra ]. }
  assert (S2 : mean_of (2 ^ 53) (fun u => indicator (positive_upto (rr + s) (rr + lx u)) * gy (frac53 u))
    = mean_of (2 ^ 53) (fun u => indicator (in_pos (up s) (IZR u * (1 / IZR (2 ^ 53)))) * gy (IZR u * (1 / IZR (2 ^ 53)))) + mean_of (2 ^ 53) (fun i => if (i =? 0)%Z then 1 else 0)).
  { rewrite <- mean_plus. apply mean_ext. intros u Hu.
    assert (F : IZR u * (1 / IZR (2 ^ 53)) = frac53 u) by (unfold frac53, Rdiv; ring). rewrite F.
    pose proof (lx_nonneg u Hu) as L0. pose proof (lx_upto u s Hu) as LU. pose proof (frac_range u Hu) as FR.
    destruct (Z.eqb_spec u 0) as [ -> | Hn ].
    - assert (F0 : frac53 0 = 0) by (unfold frac53; unfold Rdiv; apply Rmult_0_l).
      assert (L1 : lx 0 = 0) by (unfold lx; rewrite F0, Rminus_0_r, ln_1; ring).
      rewrite F0, L1. assert (G0 : gy 0 = 1) by (unfold gy; rewrite Rminus_0_r, ln_1, Rmult_0_r; apply bell_0). rewrite G0.
      assert (A1 : positive_upto (rr + s) (rr + 0) = true) by (apply in_pos_true; lra). rewrite A1.
      assert (A2 : in_pos (up s) 0 = false) by (apply pos_false; lra). rewrite A2. cbn. ring.
    - assert (EQ : positive_upto (rr + s) (rr + lx u) = in_pos (up s) (frac53 u)).
      { apply eq_true_iff_eq. change (positive_upto (rr + s) (rr + lx u)) with (in_pos (rr + s) (rr + lx u)). rewrite !in_pos_true.
        assert (FP : 0 < frac53 u). { unfold frac53. apply Rdiv_lt_0_compat; [ apply IZR_lt; lia | now apply IZR_pow_pos ]. }
        rewrite <- LU. split; intros; lra. }
      rewrite EQ. ring. }
  pose proof (riemann_mean gy (up s) ltac:(lra) ltac:(intros; apply gy_cont; lra) ltac:(intros; apply gy_decr; lra) ltac:(intros; apply gy_range) (2 ^ 53) 1 pos53z ltac:(lra)) as RM.
  fold e53 in RM. rewrite Rmin_left in RM by lra. rewrite S2 in S1.
  assert (E' : mean_of (2 ^ 53) (fun i => if (i =? 0)%Z then 1 else 0) = e53) by (rewrite mean_first by exact pos53z; unfold e53; apply Rmult_1_l).
  rewrite E' in S1. set (m := mean_of (2 ^ 53) (fun u : Z => indicator (in_pos (up s) (IZR u * (1 / IZR (2 ^ 53)))) * gy (IZR u * (1 / IZR (2 ^ 53))))) in *.
  set (T := tl _ false) in *. set (J := (RInt gy 0 (up s) : R)) in *. unfold eta. clearbody m T J.
  replace (J / 1) with J in RM by field. apply Rabs_le_between in S1. apply Rabs_le_between in RM. apply Rabs_le. lra.
Qed.

(** ** The substitution y = 1 - exp (- q x) *)
Lemma gy_up : forall x, gy (up x) = bell x.
Proof.
  intros x. unfold gy, up. replace (1 - (1 - exp (- qq * x))) with (exp (- qq * x)) by ring. rewrite ln_exp.
  replace (- iq * (- qq * x)) with (iq * qq * x) by ring. rewrite iq_qq, Rmult_1_l. reflexivity.
Qed.
Lemma up_0 : up 0 = 0. Proof. unfold up. rewrite Rmult_0_r, exp_0. ring. Qed.

Lemma bell_shift : forall x, qq * exp (- qq * x) * bell x = qq / bell qq * bell (x + qq).
Proof.
  intros x. unfold Rdiv. rewrite !Rmult_assoc. f_equal. apply Rmult_eq_reg_l with (bell qq); [ | pose proof (bell_pos qq); lra ].
  replace (bell qq * (/ bell qq * bell (x + qq))) with (bell (x + qq)) by (field; pose proof (bell_pos qq); lra).
  unfold bell. rewrite <- !exp_plus. f_equal. field.
Qed.

Lemma gy_subst : forall s, 0 <= s -> RInt gy 0 (up s) = qq / bell qq * RInt bell qq (qq + s).
Proof.
  intros s Hs.
  pose proof (RInt_comp (V := R_CompleteNormedModule) gy up (fun x => qq * exp (- qq * x)) 0 s) as RC.
  rewrite up_0 in RC. assert (E1 : RInt gy 0 (up s) = RInt (fun y => qq / bell qq * bell (1 * y + qq)) 0 s).
  { rewrite <- RC.
    - apply RInt_ext. intros x _. change (qq * exp (- qq * x) * gy (up x) = qq / bell qq * bell (1 * x + qq)). rewrite gy_up, Rmult_1_l. apply bell_shift.
    - intros x Hx. rewrite Rmin_left in Hx by exact Hs. apply gy_cont. apply up_range. lra.
    - intros x _. split.
      + unfold up. auto_derive; [ exact I | ]. match goal with |- @eq _ ?a ?b => change (@eq R a b) end. ring.
      + apply (ex_derive_continuous (K := R_AbsRing) (V := R_NormedModule)). auto_derive. exact I. }
  rewrite E1. pose proof (RInt_comp_lin (V := R_CompleteNormedModule) bell 1 qq 0 s (bell_int _ _)) as RL.
  replace (1 * 0 + qq) with qq in RL by ring. replace (1 * s + qq) with (qq + s) in RL by ring. rewrite <- RL.
  rewrite <- (RInt_scal (V := R_CompleteNormedModule)).
  - apply RInt_ext. intros x _. change (qq / bell qq * bell (1 * x + qq) = qq / bell qq * (1 * bell (1 * x + qq))). ring.
  - apply (ex_RInt_comp_lin (V := R_NormedModule)). apply bell_int.
Qed.

(** ** The chance that a turn of the inner loop returns *)
Definition smax : R := iq * ln (IZR (2 ^ 53)).

Lemma exp_nat : forall n, exp (INR n) = exp 1 ^ n.
Proof. induction n as [ | n IH ]; [ apply exp_0 | ]. rewrite S_INR, exp_plus, IH. cbn [pow]. ring. Qed.
Lemma ln_53 : 25 <= ln (IZR (2 ^ 53)).
Proof.
  rewrite <- (ln_exp 25). left. apply ln_increasing; [ apply exp_pos | ].
  replace 25 with (INR 25) by (rewrite INR_IZR_INZ; reflexivity). rewrite exp_nat.
  apply Rle_lt_trans with (3 ^ 25).
  - apply pow_incr. split; [ left; apply exp_pos | apply exp_le_3 ].
  - rewrite (pow_IZR 3 25). apply IZR_lt. reflexivity.
Qed.
Lemma smax_pos : 0 <= smax.
Proof. unfold smax. pose proof iq_pos. pose proof ln_53. apply Rmult_le_pos; lra. Qed.
Lemma smax_8 : 10 <= qq + smax.
Proof.
  pose proof ln_53 as L. pose proof iq_pos as I. pose proof qq_pos as Q. pose proof iq_qq as IQ. unfold smax.
  assert (A : iq * 25 <= iq * ln (IZR (2 ^ 53))) by (apply Rmult_le_compat_l; lra).
  assert (B : 0 <= iq * ((qq - 5) * (qq - 5))) by (apply Rmult_le_pos; [ lra | apply Rle_0_sqr ]).
  replace (iq * ((qq - 5) * (qq - 5))) with ((iq * qq) * qq - 10 * (iq * qq) + iq * 25) in B by ring. rewrite IQ in B. lra.
Qed.
Lemma up_smax : up smax = 1 - e53.
Proof.
  unfold up, smax. replace (- qq * (iq * ln (IZR (2 ^ 53)))) with (- ((iq * qq) * ln (IZR (2 ^ 53)))) by ring.
  rewrite iq_qq, Rmult_1_l, exp_Ropp, exp_ln by (now apply IZR_pow_pos). reflexivity.
Qed.

Lemma tl_any : forall b, tl any_number b = tl (positive_upto (rr + smax)) false.
Proof.
  intros b. unfold tl. apply mean_ext. intros u Hu. unfold any_number.
  assert (T : positive_upto (rr + smax) (rr + lx u) = true); [ | rewrite T; reflexivity ].
  apply in_pos_true. pose proof (lx_nonneg u Hu). pose proof rr_pos. split; [ lra | ].
  assert (lx u <= smax); [ | lra ]. apply lx_upto; [ exact Hu | ]. rewrite up_smax. apply frac_range. exact Hu.
Qed.

Lemma e53_small : e53 <= / IZR (10 ^ 15).
Proof. unfold e53. apply Rinv_le_contravar; [ now apply IZR_pow_pos | ]. apply IZR_le. apply (proj1 (Z.leb_le _ _)). reflexivity. Qed.
Lemma e15_small : 1000 * / IZR (10 ^ 15) = eb.
Proof.
  unfold eb. replace (IZR (10 ^ 15)) with (1000 * IZR (10 ^ 12)) by (rewrite <- mult_IZR; reflexivity).
  pose proof (IZR_pow_pos 10 12 ltac:(lia) ltac:(lia)) as P. set (p := IZR (10 ^ 12)) in *. clearbody p. field. lra.
Qed.
Lemma eb_pos : 0 < eb. Proof. unfold eb. apply Rinv_0_lt_compat. now apply IZR_pow_pos. Qed.
Lemma eb_small : eb <= 1 / 1000000.
Proof.
  unfold eb. replace (IZR (10 ^ 12)) with (1000000 * 1000000) by (rewrite <- mult_IZR; reflexivity). lra.
Qed.

Lemma e53_eb : 1000 * e53 <= eb.
Proof. pose proof e53_small as A. pose proof e15_small as B. set (q := / IZR (10 ^ 15)) in *. clearbody q. lra. Qed.

Lemma gy_total : 1 / 4 <= RInt gy 0 (up smax).
Proof.
  rewrite up_smax. pose proof e53_eb as E. pose proof eb_small as G. pose proof e53_pos as EP. pose proof iq_pos as IP.
  assert (IG : forall a b, a <= b -> b < 1 -> ex_RInt gy a b).
  { intros a b Hab Hb. apply (ex_RInt_continuous (V := R_CompleteNormedModule)). intros z Hz. rewrite Rmax_right in Hz by exact Hab. apply gy_cont. lra. }
  pose proof (RInt_Chasles (V := R_CompleteNormedModule) gy 0 (1 / 2) (1 - e53) (IG 0 (1 / 2) ltac:(lra) ltac:(lra)) (IG (1 / 2) (1 - e53) ltac:(lra) ltac:(lra))) as CH.
  change (RInt gy 0 (1 / 2) + RInt gy (1 / 2) (1 - e53) = RInt gy 0 (1 - e53)) in CH.
  assert (C : forall c a b : R, RInt (fun _ : R => c) a b = (b - a) * c) by (intros c a b; rewrite RInt_const; reflexivity).
  assert (A : (1 / 2 - 0) * (1 / 2) <= RInt gy 0 (1 / 2)).
  { rewrite <- C. apply RInt_le; [ lra | apply ex_RInt_const | apply IG; lra | ]. intros x Hx.
    apply Rle_trans with (gy (1 / 2)); [ | apply gy_decr; lra ]. unfold gy.
    assert (L : 0 <= - iq * ln (1 - 1 / 2) <= 1).
    { replace (1 - 1 / 2) with (/ 2) by field. rewrite ln_Rinv by lra. pose proof (zn_iq numbers).
      assert (L2 : 0 <= ln 2 <= 1).
      { split; [ rewrite <- ln_1; left; apply ln_increasing; lra | ]. rewrite <- (ln_exp 1). left. apply ln_increasing; [ lra | ].
        pose proof (exp_ineq1 1 ltac:(lra)). lra. }
      replace (- iq * - ln 2) with (iq * ln 2) by ring. split; [ apply Rmult_le_pos; lra | ].
      apply Rle_trans with (1 * 1); [ apply Rmult_le_compat; lra | lra ]. }
    apply Rle_trans with (bell 1); [ | apply bell_decr; lra ].
    unfold bell. pose proof (exp_ineq1 (- (1 * 1) / 2) ltac:(lra)). lra. }
  assert (B : 0 <= RInt gy (1 / 2) (1 - e53)).
  { rewrite <- (Rmult_0_r (1 - e53 - 1 / 2)), <- C. apply RInt_le; [ lra | apply ex_RInt_const | apply IG; lra | ]. intros; apply gy_range. }
  lra.
Qed.

Lemma ac_range : forall u, 0 <= ac u <= 1. Proof. intros u. unfold ac. apply chance_range. exact pos53z. Qed.
Lemma tl_range : forall A b, 0 <= tl A b <= 1.
Proof.
  intros A b. unfold tl. split.
  - rewrite <- (mean_const (2 ^ 53) 0) by exact pos53z. apply mean_le; [ exact pos53z | ]. intros u _. pose proof (ac_range u).
    destruct (A _); cbn [indicator]; lra.
  - rewrite <- (mean_const (2 ^ 53) 1) by exact pos53z. apply mean_le; [ exact pos53z | ]. intros u _. pose proof (ac_range u).
    destruct (A _); cbn [indicator]; lra.
Qed.
Lemma eta_small : 0 < eta <= eb / 200.
Proof. unfold eta. pose proof e53_eb. pose proof e53_pos. lra. Qed.
Lemma tl_any_range : forall b, 1 / 5 <= tl any_number b <= 1.
Proof.
  intros b. split; [ | apply tl_range ]. rewrite tl_any. pose proof (tl_pos smax smax_pos) as T. pose proof gy_total as G. pose proof eta_small as E. pose proof eb_small.
  set (J := (RInt gy 0 (up smax) : R)) in *. apply Rabs_le_between in T. lra.
Qed.
Lemma tacc_range : forall k, 0 < tacc any_number k <= 1.
Proof. intros k. rewrite tacc_tl. pose proof (tl_any_range (bit k)). lra. Qed.

(** ** The share of the numbers of the tail *)
Definition jj (s : R) : R := RInt bell qq (qq + s).
Lemma jj_mono : forall a b, 0 <= a -> a <= b -> 0 <= jj a <= jj b.
Proof.
  intros a b Ha Hab. unfold jj. pose proof qq_pos as Q. pose proof (bell_chasles qq (qq + a) (qq + b)) as C.
  pose proof (bell_int_bounds qq (qq + a) ltac:(lra) ltac:(lra)). pose proof (bell_int_bounds (qq + a) (qq + b) ltac:(lra) ltac:(lra)). lra.
Qed.

Lemma ratio_close : forall s b, 0 <= s <= smax ->
  Rabs (tl (positive_upto (rr + s)) false / tl any_number b - jj s / jj smax) <= 10 * eta.
Proof.
  intros s b Hs. pose proof (tl_pos s ltac:(lra)) as T. pose proof (tl_pos smax smax_pos) as TM. pose proof (tl_any_range b) as AR.
  pose proof gy_total as GT. rewrite gy_subst in T by lra. rewrite gy_subst in TM, GT by apply smax_pos. rewrite tl_any in *. fold (jj s) in T. fold (jj smax) in TM, GT.
  pose proof (jj_mono s smax ltac:(lra) ltac:(lra)) as JM. pose proof eta_small as ES. pose proof qq_pos as Q. pose proof (bell_pos qq) as BQ.
  set (a := tl (positive_upto (rr + s)) false) in *. set (d := tl (positive_upto (rr + smax)) false) in *. set (c := qq / bell qq) in *.
  assert (CP : 0 < c) by (unfold c; apply Rdiv_lt_0_compat; lra).
  set (j := jj s) in *. set (m := jj smax) in *. assert (MP : 0 < m) by (destruct (Rle_or_lt m 0); nra).
  clearbody a d c j m. assert (DP : 0 < d) by lra.
  assert (E : a / d - j / m = ((a - c * j) * m - (d - c * m) * j) / (d * m)) by (field; lra).
  assert (N : Rabs ((a - c * j) * m - (d - c * m) * j) <= 2 * eta * m).
  { replace ((a - c * j) * m - (d - c * m) * j) with ((a - c * j) * m + (- (d - c * m)) * j) by ring.
    eapply Rle_trans; [ apply Rabs_triang | ]. rewrite !Rabs_mult, Rabs_Ropp, (Rabs_right m), (Rabs_right j) by lra.
    pose proof (Rabs_pos (d - c * m)). assert (Rabs (a - c * j) * m <= eta * m) by (apply Rmult_le_compat_r; lra).
    assert (Rabs (d - c * m) * j <= eta * m) by (apply Rmult_le_compat; lra). lra. }
  rewrite E. unfold Rdiv. rewrite Rabs_mult, (Rabs_right (/ (d * m))) by (apply Rle_ge; left; apply Rinv_0_lt_compat; now apply Rmult_lt_0_compat).
  apply Rmult_le_reg_r with (d * m); [ now apply Rmult_lt_0_compat | ]. rewrite Rmult_assoc, Rinv_l, Rmult_1_r by (apply Rgt_not_eq; now apply Rmult_lt_0_compat).
  eapply Rle_trans; [ exact N | ]. replace (10 * eta * (d * m)) with (10 * d * (eta * m)) by ring.
  assert (0 <= eta * m) by (apply Rmult_le_pos; lra). assert (2 * (eta * m) <= 10 * d * (eta * m)) by (apply Rmult_le_compat_r; lra). lra.
Qed.

Lemma qr_close : Rabs (qq - rr) <= eb / 1000.
Proof.
  pose proof (zn_q numbers) as Q. pose proof iq_qq as IQ. pose proof qq_pos as QP. pose proof (zn_iq numbers) as I4.
  assert (Q4 : qq <= 4). { apply Rmult_le_reg_l with iq; [ lra | ]. lra. }
  replace (qq - rr) with (- (qq * (rr * iq - 1))) by (replace (qq * (rr * iq - 1)) with (iq * qq * rr - qq) by ring; rewrite IQ; ring).
  rewrite Rabs_Ropp, Rabs_mult, (Rabs_right qq) by lra.
  assert (E : / IZR (10 ^ 27) <= / IZR (10 ^ 16)).
  { apply Rinv_le_contravar; [ now apply IZR_pow_pos | ]. apply IZR_le. apply (proj1 (Z.leb_le _ _)). reflexivity. }
  assert (F : 10000 * / IZR (10 ^ 16) = eb).
  { unfold eb. replace (IZR (10 ^ 16)) with (10000 * IZR (10 ^ 12)) by (rewrite <- mult_IZR; reflexivity).
    pose proof (IZR_pow_pos 10 12 ltac:(lia) ltac:(lia)) as P. set (p := IZR (10 ^ 12)) in *. clearbody p. field. lra. }
  apply Rle_trans with (4 * / IZR (10 ^ 16)); [ apply Rmult_le_compat; [ lra | apply Rabs_pos | lra | lra ] | ]. lra.
Qed.

Lemma bell_int_lip : forall a b, 0 <= a -> 0 <= b -> Rabs (RInt bell a b) <= Rabs (b - a).
Proof.
  intros a b Ha Hb. destruct (Rle_or_lt a b) as [L | L].
  - pose proof (bell_int_bounds a b Ha L) as B. pose proof (bell_le_1 a). rewrite (Rabs_right (b - a)) by lra. apply Rabs_le.
    assert ((b - a) * bell a <= (b - a) * 1) by (apply Rmult_le_compat_l; lra). lra.
  - pose proof (bell_int_bounds b a Hb ltac:(lra)) as B. pose proof (bell_le_1 b). rewrite (Rabs_left (b - a)) by lra.
    assert (S : RInt bell a b = - RInt bell b a).
    { pose proof (bell_chasles a b a) as C. assert (P : RInt bell a a = 0) by (rewrite RInt_point; reflexivity). lra. }
    rewrite S. apply Rabs_le. assert ((a - b) * bell b <= (a - b) * 1) by (apply Rmult_le_compat_l; lra). lra.
Qed.

Lemma jj_close : forall s, 0 <= s -> Rabs (jj s - RInt bell rr (rr + s)) <= eb / 500.
Proof.
  intros s Hs. unfold jj. pose proof qr_close as QR. pose proof qq_pos as Q. pose proof rr_pos as R0.
  pose proof (bell_int_lip qq rr ltac:(lra) ltac:(lra)) as A. pose proof (bell_int_lip (rr + s) (qq + s) ltac:(lra) ltac:(lra)) as B.
  pose proof (bell_chasles qq rr (qq + s)) as C1. pose proof (bell_chasles rr (rr + s) (qq + s)) as C2.
  replace (qq + s - (rr + s)) with (qq - rr) in B by ring. rewrite Rabs_minus_sym in A.
  set (x := (RInt bell qq (qq + s) : R)) in *. set (y := (RInt bell rr (rr + s) : R)) in *. set (z := (RInt bell qq rr : R)) in *.
  set (w := (RInt bell (rr + s) (qq + s) : R)) in *. set (v := (RInt bell rr (qq + s) : R)) in *.
  replace (x - y) with (z + w) by lra. eapply Rle_trans; [ apply Rabs_triang | ]. lra.
Qed.

Lemma jj_total : Rabs (jj smax - tail_area) <= eb * 3 / 10.
Proof.
  pose proof (jj_close smax smax_pos) as J. pose proof (zn_tail numbers) as Z. pose proof (zn_b8 numbers) as B8. pose proof smax_8 as S8. pose proof qr_close as QR.
  assert (D : 10 * / IZR (10 ^ 13) = eb).
  { unfold eb. replace (IZR (10 ^ 13)) with (10 * IZR (10 ^ 12)) by (rewrite <- mult_IZR; reflexivity).
    pose proof (IZR_pow_pos 10 12 ltac:(lia) ltac:(lia)) as P. set (p := IZR (10 ^ 12)) in *. clearbody p. field. lra. }
  pose proof qq_pos as Q. pose proof (zn_iq numbers) as I4. pose proof iq_qq as IQ.
  assert (Q4 : qq <= 4) by (apply Rmult_le_reg_l with iq; lra). pose proof (zn_r4 numbers) as R4. pose proof eb_pos as EP. pose proof eb_small as ES.
  unfold jj in *. pose proof (bell_chasles qq rr (qq + smax)) as C1. pose proof (bell_chasles rr 8 (qq + smax)) as C2.
  pose proof (bell_int_lip qq rr ltac:(lra) rr_nonneg) as A. rewrite Rabs_minus_sym in A.
  pose proof (bell_tail 8 (qq + smax) ltac:(lra) ltac:(lra)) as BT. pose proof (bell_int_bounds 8 (qq + smax) ltac:(lra) ltac:(lra)) as BP.
  apply Rabs_le_between in Z. apply Rabs_le_between in A. clear J.
  set (x := (RInt bell qq (qq + smax) : R)) in *. set (y := (RInt bell rr 8 : R)) in *. set (z := (RInt bell qq rr : R)) in *.
  set (w := (RInt bell 8 (qq + smax) : R)) in *. set (v := (RInt bell rr (qq + smax) : R)) in *.
  set (d := / IZR (10 ^ 13)) in *. clearbody d. apply Rabs_le_between in QR.
  assert (Rabs (qq - rr) <= eb / 1000) by (apply Rabs_le; lra). apply Rabs_le. lra.
Qed.

Lemma tail_ratio : forall t b, rr <= t ->
  Rabs (tail_area * (tl (positive_upto t) false / tl any_number b) - RInt bell rr t) <= eb / 2.
Proof.
  assert (G : forall s b, 0 <= s <= smax -> Rabs (tail_area * (tl (positive_upto (rr + s)) false / tl any_number b) - RInt bell rr (rr + s)) <= eb * 4 / 10).
  { intros s b Hs. pose proof (ratio_close s b Hs) as RC. pose proof (jj_total) as JT. pose proof (jj_close s ltac:(lra)) as JC.
    pose proof (jj_mono s smax ltac:(lra) ltac:(lra)) as JM. pose proof (zn_ta numbers) as TA. pose proof eta_small as ES. pose proof eb_small as EB.
    set (q := tl _ false / tl any_number b) in *. set (j := jj s) in *. set (m := jj smax) in *. set (I := (RInt bell rr (rr + s) : R)) in *. clearbody q j m I.
    assert (MP : 0 < m) by (apply Rabs_le_between in JT; lra).
    assert (TA1 : tail_area <= 1).
    { unfold tail_area. pose proof (zn_area numbers) as AR. pose proof (zn_k0 numbers) as K. pose proof (IZR_pow_pos 2 52 ltac:(lia) ltac:(lia)) as P.
      assert (K1 : 0 <= IZR (kv 0) / IZR (2 ^ 52)). { apply Rmult_le_pos; [ apply IZR_le; lia | left; now apply Rinv_0_lt_compat ]. }
      set (k := IZR (kv 0) / IZR (2 ^ 52)) in *. clearbody k. assert ((1 - k) * area <= 1 * area) by (apply Rmult_le_compat_r; lra). lra. }
    assert (X1 : Rabs (tail_area * q - tail_area * (j / m)) <= 10 * eta).
    { rewrite <- Rmult_minus_distr_l, Rabs_mult, (Rabs_right tail_area) by lra. rewrite <- (Rmult_1_l (10 * eta)).
      apply Rmult_le_compat; try lra. apply Rabs_pos. }
    assert (JR : 0 <= j / m <= 1).
    { split; [ apply Rmult_le_pos; [ lra | left; now apply Rinv_0_lt_compat ] | ]. apply Rmult_le_reg_r with m; [ exact MP | ].
      unfold Rdiv. rewrite Rmult_assoc, Rinv_l by lra. lra. }
    assert (X2 : Rabs (tail_area * (j / m) - j) <= eb * 3 / 10).
    { replace (tail_area * (j / m) - j) with ((tail_area - m) * (j / m)) by (field; lra). rewrite Rabs_mult, (Rabs_right (j / m)) by lra.
      rewrite Rabs_minus_sym in JT. rewrite <- (Rmult_1_r (eb * 3 / 10)). apply Rmult_le_compat; try lra. apply Rabs_pos. }
    pose proof (tri _ _ _ _ _ (tri _ _ _ _ _ X1 X2) JC). lra. }
  intros t b Ht. pose proof eb_pos as EP. destruct (Rle_or_lt (t - rr) smax) as [L | L].
  - replace t with (rr + (t - rr)) by ring. pose proof (G (t - rr) b ltac:(lra)). lra.
  - pose proof (G smax b ltac:(pose proof smax_pos; lra)) as GM.
    assert (E : tl (positive_upto t) false = tl (positive_upto (rr + smax)) false).
    { unfold tl. apply mean_ext. intros u Hu. pose proof (lx_nonneg u Hu). pose proof rr_pos. pose proof (frac_range u Hu) as FR.
      assert (lx u <= smax) by (apply lx_upto; [ exact Hu | rewrite up_smax; lra ]).
      assert (T1 : positive_upto t (rr + lx u) = true) by (apply in_pos_true; lra).
      assert (T2 : positive_upto (rr + smax) (rr + lx u) = true) by (apply in_pos_true; lra). rewrite T1, T2. reflexivity. }
    rewrite E. pose proof (bell_chasles rr (rr + smax) t) as C. pose proof smax_8 as S8. pose proof qr_close as QR. apply Rabs_le_between in QR.
    pose proof eb_small as ES. pose proof (bell_tail (rr + smax) t ltac:(lra) ltac:(lra)) as BT. pose proof (bell_int_bounds (rr + smax) t ltac:(pose proof rr_pos; pose proof smax_pos; lra) ltac:(lra)) as BB.
    assert (D : 10 * / IZR (10 ^ 13) = eb).
    { unfold eb. replace (IZR (10 ^ 13)) with (10 * IZR (10 ^ 12)) by (rewrite <- mult_IZR; reflexivity).
      pose proof (IZR_pow_pos 10 12 ltac:(lia) ltac:(lia)) as P. set (p := IZR (10 ^ 12)) in *. clearbody p. field. lra. }
    pose proof (zn_b8 numbers) as B8. pose proof (bell_decr 8 (rr + smax) ltac:(lra) ltac:(lra)) as BD.
    set (d := / IZR (10 ^ 13)) in *. clearbody d.
    apply Rabs_le_between in GM. set (x := (RInt bell rr t : R)) in *. set (y := (RInt bell rr (rr + smax) : R)) in *. set (w := (RInt bell (rr + smax) t : R)) in *.
    apply Rabs_le. lra.
Qed.

(** ** The sign of a number of the tail *)
Definition w_sign (b : bool) : R := mean_of (2 ^ 52) (fun k => if (k <? kv 0)%Z then 0 else if Bool.eqb (bit k) b then 1 else 0).
Definition pk : R := IZR (kv 0) / IZR (2 ^ 52).
Definition e43 : R := / IZR (2 ^ 43).

Lemma split52 : (2 ^ 52 = 256 * (2 * 2 ^ 43))%Z. Proof. reflexivity. Qed.
Lemma pos43 : (0 < 2 ^ 43)%Z. Proof. reflexivity. Qed.
Lemma pos44 : (0 < 2 * 2 ^ 43)%Z. Proof. reflexivity. Qed.
Lemma r52_43 : IZR (2 ^ 52) = 512 * IZR (2 ^ 43). Proof. rewrite <- mult_IZR. reflexivity. Qed.

Lemma bit_eq : forall lo c hi, (0 <= lo < 256)%Z -> (0 <= c < 2)%Z -> (0 <= hi)%Z -> bit (lo + 256 * (c + 2 * hi)) = (c =? 1)%Z.
Proof.
  intros lo c hi Hl Hc Hh. unfold bit. rewrite Z.shiftr_div_pow2 by lia. change (2 ^ 8)%Z with 256%Z.
  rewrite (Z.mul_comm 256), Z.div_add by lia. rewrite Z.div_small by lia. rewrite Z.add_0_l.
  change (Z.land (c + 2 * hi) 1) with (Z.land (c + 2 * hi) (Z.ones 1)). rewrite Z.land_ones by lia. change (2 ^ 1)%Z with 2%Z.
  rewrite (Z.mul_comm 2), Z.mod_add by lia. rewrite Z.mod_small by lia. reflexivity.
Qed.

Lemma high_part : forall lo c, (0 <= lo < 256)%Z -> (0 <= c < 2)%Z ->
  Rabs (mean_of (2 ^ 43) (fun hi => if (lo + 256 * (c + 2 * hi) <? kv 0)%Z then 0 else 1) - (1 - pk)) <= 2 * e43.
Proof.
  intros lo c Hl Hc. pose proof (IZR_pow_pos 2 43 ltac:(lia) ltac:(lia)) as P. pose proof (zn_k0 numbers) as K0.
  set (x := (IZR (kv 0) - IZR (lo + 256 * c)) / (512 * IZR (2 ^ 43))).
  pose proof (chance_below (2 ^ 43) x (fun hi => (lo + 256 * (c + 2 * hi) <? kv 0)%Z) pos43) as CB. fold e43 in CB.
  assert (X : x * IZR (2 ^ 43) = (IZR (kv 0) - IZR (lo + 256 * c)) / 512) by (unfold x; set (p := IZR (2 ^ 43)) in *; clearbody p; field; lra).
  assert (CB' : Rabs (chance (2 ^ 43) (fun hi => (lo + 256 * (c + 2 * hi) <? kv 0)%Z) - clamp x) <= e43).
  { apply CB. intros i Hi. rewrite Z.ltb_lt, X. split; intros H.
    - apply IZR_lt in H. replace (lo + 256 * (c + 2 * i))%Z with ((lo + 256 * c) + 512 * i)%Z in H by lia. rewrite plus_IZR, (mult_IZR 512) in H. lra.
    - apply lt_IZR. replace (lo + 256 * (c + 2 * i))%Z with ((lo + 256 * c) + 512 * i)%Z by lia. rewrite plus_IZR, (mult_IZR 512). lra. }
  assert (E : mean_of (2 ^ 43) (fun hi => if (lo + 256 * (c + 2 * hi) <? kv 0)%Z then 0 else 1) + chance (2 ^ 43) (fun hi => (lo + 256 * (c + 2 * hi) <? kv 0)%Z) = 1).
  { unfold chance. rewrite <- mean_plus. transitivity (mean_of (2 ^ 43) (fun _ => 1)); [ | now apply mean_const ]. apply mean_ext. intros i _.
    destruct (_ <? kv 0)%Z; cbn [indicator]; ring. }
  assert (PK : pk = IZR (kv 0) / (512 * IZR (2 ^ 43))) by (unfold pk; rewrite r52_43; reflexivity).
  assert (PR : 0 <= pk <= 1).
  { unfold pk. pose proof (IZR_pow_pos 2 52 ltac:(lia) ltac:(lia)) as P2. assert (0 <= IZR (kv 0) <= IZR (2 ^ 52)) by (split; apply IZR_le; lia).
    set (p := IZR (2 ^ 52)) in *. clearbody p. split; [ apply Rmult_le_pos; [ lra | left; now apply Rinv_0_lt_compat ] | ].
    apply Rmult_le_reg_r with p; [ lra | ]. unfold Rdiv. rewrite Rmult_assoc, Rinv_l by lra. lra. }
  assert (CX : Rabs (clamp x - pk) <= e43).
  { rewrite <- (clamp_id pk PR). eapply Rle_trans; [ apply clamp_lip | ]. rewrite PK.
    assert (L : 0 <= IZR (lo + 256 * c) <= 512) by (split; apply IZR_le; lia).
    unfold x, e43. set (l := IZR (lo + 256 * c)) in *. set (p := IZR (2 ^ 43)) in *. set (k := IZR (kv 0)) in *. clearbody l p k.
    replace ((k - l) / (512 * p) - k / (512 * p)) with (- (l / 512 * / p)) by (field; lra).
    assert (0 < / p) by now apply Rinv_0_lt_compat. rewrite Rabs_Ropp, Rabs_right by (apply Rle_ge, Rmult_le_pos; lra).
    rewrite <- (Rmult_1_l (/ p)) at 2. apply Rmult_le_compat_r; lra. }
  pose proof (tri _ _ _ _ _ CB' CX) as T. set (ch := chance _ _) in *. set (m := mean_of _ _) in *.
  apply Rabs_le_between in T. apply Rabs_le. lra.
Qed.

Lemma w_sign_close : forall b, Rabs (w_sign b - (1 - pk) / 2) <= 2 * e43.
Proof.
  intros b. unfold w_sign. rewrite split52, mean_prod by (reflexivity || exact pos44).
  rewrite mean_prod by (reflexivity || exact pos43).
  rewrite mean_swap. rewrite (mean_ext 2 _ (fun c => if Bool.eqb (c =? 1)%Z b then mean_of (2 ^ 43) (fun hi => mean_of 256 (fun lo => if (lo + 256 * (c + 2 * hi) <? kv 0)%Z then 0 else 1)) else 0)).
  2: { intros c Hc. destruct (Bool.eqb (c =? 1)%Z b) eqn:E.
       - apply mean_ext. intros hi Hh. apply mean_ext. intros lo Hl. rewrite bit_eq by lia. rewrite E. reflexivity.
       - transitivity (mean_of (2 ^ 43) (fun _ => 0)); [ | apply mean_const; exact pos43 ]. apply mean_ext. intros hi Hh.
         transitivity (mean_of 256 (fun _ => 0)); [ | apply mean_const; lia ]. apply mean_ext. intros lo Hl. rewrite bit_eq by lia. rewrite E.
         destruct (_ <? _)%Z; reflexivity. }
  assert (H : forall c, (0 <= c < 2)%Z -> Rabs (mean_of (2 ^ 43) (fun hi => mean_of 256 (fun lo => if (lo + 256 * (c + 2 * hi) <? kv 0)%Z then 0 else 1)) - (1 - pk)) <= 2 * e43).
  { intros c Hc. rewrite mean_swap. rewrite <- (mean_const 256 (1 - pk)) by lia. apply mean_abs; [ lia | ]. intros lo Hl. now apply high_part. }
  assert (EP : 0 < e43) by (unfold e43; apply Rinv_0_lt_compat; now apply IZR_pow_pos).
  unfold mean_of at 1. change (Z.to_nat 2) with 2%nat. cbn [sum_to Z.of_nat Pos.of_succ_nat Z.eqb Pos.eqb].
  pose proof (H 0%Z ltac:(lia)) as H0. pose proof (H 1%Z ltac:(lia)) as H1.
  apply Rabs_le_between in H0. apply Rabs_le_between in H1. apply Rabs_le. destruct b; cbn [Bool.eqb]; lra.
Qed.

Lemma tail_mass_sum : forall A, tail_mass A = w_sign false * (tl A false / tl any_number false) + w_sign true * (tl A true / tl any_number true).
Proof.
  intros A. unfold tail_mass, w_sign. rewrite !(Rmult_comm (mean_of _ _)), <- !mean_scal, <- mean_plus. apply mean_ext. intros k _.
  rewrite !tacc_tl. destruct (k <? kv 0)%Z; [ ring | ]. destruct (bit k); cbn [Bool.eqb]; ring.
Qed.

Lemma tl_pos_minus : forall t, tl (positive_upto t) true = 0.
Proof.
  intros t. unfold tl. rewrite <- (mean_const (2 ^ 53) 0) by exact pos53z. apply mean_ext. intros u Hu.
  rewrite pos_false; [ cbn; ring | ]. pose proof (lx_nonneg u Hu). pose proof rr_pos. lra.
Qed.
Lemma tl_neg_plus : forall t, tl (negative_upto t) false = 0.
Proof.
  intros t. unfold tl. rewrite <- (mean_const (2 ^ 53) 0) by exact pos53z. apply mean_ext. intros u Hu. unfold negative_upto.
  rewrite pos_false; [ cbn; ring | ]. pose proof (lx_nonneg u Hu). pose proof rr_pos. lra.
Qed.
Lemma tl_neg_minus : forall t, tl (negative_upto t) true = tl (positive_upto t) false.
Proof. intros t. unfold tl, negative_upto. apply mean_ext. intros u _. now rewrite Ropp_involutive. Qed.
Lemma tl_pos_small : forall t, t < rr -> tl (positive_upto t) false = 0.
Proof.
  intros t Ht. unfold tl. rewrite <- (mean_const (2 ^ 53) 0) by exact pos53z. apply mean_ext. intros u Hu.
  destruct (positive_upto t (rr + lx u)) eqn:E; [ | cbn; ring ]. apply in_pos_true in E. pose proof (lx_nonneg u Hu). lra.
Qed.

Lemma w_area : forall b, Rabs (2 * area * w_sign b - tail_area) <= eb / 100.
Proof.
  intros b. pose proof (w_sign_close b) as W. pose proof (zn_area numbers) as A. unfold tail_area. fold pk.
  assert (E : e43 <= / IZR (10 ^ 12)).
  { unfold e43. apply Rinv_le_contravar; [ now apply IZR_pow_pos | ]. apply IZR_le. apply (proj1 (Z.leb_le _ _)). reflexivity. }
  fold eb in E. assert (EP : 0 < e43) by (unfold e43; apply Rinv_0_lt_compat; now apply IZR_pow_pos).
  replace (2 * area * w_sign b - (1 - pk) * area) with (2 * area * (w_sign b - (1 - pk) / 2)) by field.
  rewrite Rabs_mult, (Rabs_right (2 * area)) by lra.
  apply Rle_trans with (2 * (1 / 200) * (2 * e43)); [ apply Rmult_le_compat; try lra; apply Rabs_pos | ].
  assert (E2 : 2 * e43 <= eb).
  { unfold e43, eb. replace (2 * / IZR (2 ^ 43)) with (/ IZR (2 ^ 42)).
    - apply Rinv_le_contravar; [ now apply IZR_pow_pos | ]. apply IZR_le. apply (proj1 (Z.leb_le _ _)). reflexivity.
    - replace (IZR (2 ^ 43)) with (2 * IZR (2 ^ 42)) by (rewrite <- mult_IZR; reflexivity).
      pose proof (IZR_pow_pos 2 42 ltac:(lia) ltac:(lia)) as P. set (p := IZR (2 ^ 42)) in *. clearbody p. field. lra. }
  lra.
Qed.

Lemma share_close : forall b t, 0 <= t ->
  Rabs (2 * area * (w_sign b * (tl (positive_upto t) false / tl any_number b)) - RInt bell (Rmin t rr) t) <= eb.
Proof.
  intros b t Ht. pose proof eb_pos as EP. destruct (Rlt_or_le t rr) as [L | L].
  - rewrite tl_pos_small by exact L. rewrite Rmin_left by lra. assert (P : RInt bell t t = 0) by (rewrite RInt_point; reflexivity). rewrite P.
    unfold Rdiv. rewrite Rmult_0_l, !Rmult_0_r, Rminus_0_r, Rabs_R0. lra.
  - rewrite Rmin_right by exact L. pose proof (tail_ratio t b L) as T. pose proof (w_area b) as W.
    pose proof (tl_any_range b) as AR. pose proof (tl_range (positive_upto t) false) as TR.
    assert (Q : 0 <= tl (positive_upto t) false / tl any_number b <= 5).
    { split; [ apply Rmult_le_pos; [ lra | left; apply Rinv_0_lt_compat; lra ] | ].
      apply Rmult_le_reg_r with (tl any_number b); [ lra | ]. unfold Rdiv. rewrite Rmult_assoc, Rinv_l by lra. lra. }
    set (q := tl (positive_upto t) false / tl any_number b) in *. set (w := w_sign b) in *. set (I := (RInt bell rr t : R)) in *. clearbody q w I.
    assert (D : Rabs (2 * area * (w * q) - tail_area * q) <= eb / 100 * 5).
    { replace (2 * area * (w * q) - tail_area * q) with ((2 * area * w - tail_area) * q) by ring. rewrite Rabs_mult, (Rabs_right q) by lra.
      apply Rmult_le_compat; try lra. apply Rabs_pos. }
    pose proof (tri _ _ _ _ _ D T). lra.
Qed.

Theorem tail_pos : forall t, 0 <= t -> Rabs (2 * area * tail_mass (positive_upto t) - RInt bell (Rmin t rr) t) <= eb.
Proof.
  intros t Ht. rewrite tail_mass_sum, tl_pos_minus. unfold Rdiv at 2. rewrite Rmult_0_l, Rmult_0_r, Rplus_0_r. now apply share_close.
Qed.
Theorem tail_neg : forall t, 0 <= t -> Rabs (2 * area * tail_mass (negative_upto t) - RInt bell (Rmin t rr) t) <= eb.
Proof.
  intros t Ht. rewrite tail_mass_sum, tl_neg_plus, tl_neg_minus. unfold Rdiv at 1. rewrite Rmult_0_l, Rmult_0_r, Rplus_0_l. now apply share_close.
Qed.
Theorem tail_any : Rabs (2 * area * tail_mass any_number - 2 * tail_area) <= eb.
Proof.
  rewrite tail_mass_sum. pose proof (tl_any_range false) as A. pose proof (tl_any_range true) as B. unfold Rdiv. rewrite !Rinv_r by lra. rewrite !Rmult_1_r.
  pose proof (w_area false) as W0. pose proof (w_area true) as W1. pose proof eb_pos. apply Rabs_le_between in W0. apply Rabs_le_between in W1. apply Rabs_le. lra.
Qed.

(** ** The whole sampler *)
Lemma total_pos : forall t, 0 <= t -> Rabs (512 * area * total (positive_upto t) - RInt bell 0 t) <= 2 * eb.
Proof.
  intros t Ht. pose proof (body_pos t Ht) as B. pose proof (tail_pos t Ht) as T. pose proof (bell_chasles 0 (Rmin t rr) t) as C. unfold total.
  set (x := (RInt bell 0 t : R)) in *. set (y := (RInt bell 0 (Rmin t rr) : R)) in *. set (z := (RInt bell (Rmin t rr) t : R)) in *.
  apply Rabs_le_between in B. apply Rabs_le_between in T. apply Rabs_le. lra.
Qed.
Lemma total_neg : forall t, 0 <= t -> Rabs (512 * area * total (negative_upto t) - RInt bell 0 t) <= 2 * eb.
Proof.
  intros t Ht. pose proof (body_pos t Ht) as B. pose proof (tail_neg t Ht) as T. pose proof (bell_chasles 0 (Rmin t rr) t) as C. unfold total. rewrite body_neg.
  set (x := (RInt bell 0 t : R)) in *. set (y := (RInt bell 0 (Rmin t rr) : R)) in *. set (z := (RInt bell (Rmin t rr) t : R)) in *.
  apply Rabs_le_between in B. apply Rabs_le_between in T. apply Rabs_le. lra.
Qed.
Lemma total_any : forall T, 8 <= T -> Rabs (512 * area * total any_number - 2 * RInt bell 0 T) <= 6 * eb.
Proof.
  intros T HT. pose proof body_any as B. pose proof tail_any as TA. pose proof (zn_tail numbers) as Z. pose proof (zn_b8 numbers) as B8.
  pose proof (bell_chasles 0 rr 8) as C1. pose proof (bell_chasles 0 8 T) as C2. pose proof (bell_tail 8 T ltac:(lra) HT) as BT.
  pose proof (bell_int_bounds 8 T ltac:(lra) HT) as BB. unfold total.
  assert (D : 10 * / IZR (10 ^ 13) = eb).
  { unfold eb. replace (IZR (10 ^ 13)) with (10 * IZR (10 ^ 12)) by (rewrite <- mult_IZR; reflexivity).
    pose proof (IZR_pow_pos 10 12 ltac:(lia) ltac:(lia)) as P. set (p := IZR (10 ^ 12)) in *. clearbody p. field. lra. }
  set (d := / IZR (10 ^ 13)) in *. clearbody d. pose proof eb_pos.
  set (a := (RInt bell 0 T : R)) in *. set (b := (RInt bell 0 8 : R)) in *. set (c := (RInt bell 0 rr : R)) in *. set (e := (RInt bell rr 8 : R)) in *. set (f := (RInt bell 8 T : R)) in *.
  apply Rabs_le_between in B. apply Rabs_le_between in TA. apply Rabs_le_between in Z. apply Rabs_le. lra.
Qed.
