(** C77: rng_standard_normal has the standard normal distribution. *)
From Coq Require Import List ZArith Reals Lra Lia Bool.
From Coquelicot Require Import Coquelicot.
From Verif Require Import Base MtModel ZigTables RngModel ProbSpec ProbFacts ZigFacts ZigSpec GaussInt GaussPi ZigNum ZigLaw PropHypeDist ZigBody ZigTail NormalSpec.
Import ListNotations.
Open Scope R_scope.

(** ** The sampler as a tree *)
(** c/rng.c:87-94 as a tree of draws *)
Fixpoint tail_tree (fuel : nat) (rabs : Z) : sampler :=
  match fuel with
  | O => Result OutOfFuel
  | S fuel => Fraction (fun u1 => Fraction (fun u2 =>
      match zig_tail rabs u1 u2 with
      | Some x => Result (Ret x)
      | None => tail_tree fuel rabs
      end))
  end.
(** c/rng.c:71-99 as a tree of draws *)
Fixpoint normal_tree (fuel : nat) : sampler :=
  match fuel with
  | O => Result OutOfFuel
  | S fuel => Word (fun r =>
      match zig_first r with
      | Ret (FValue x) => Result (Ret x)
      | Ret (FTail rabs) => tail_tree fuel rabs
      | Ret (FWedge x idx) => Fraction (fun u =>
          match zig_wedge x idx u with
          | Ret (Some y) => Result (Ret y)
          | Ret None => normal_tree fuel
          | AssertFailed => Result AssertFailed
          | OutOfBounds => Result OutOfBounds
          | OutOfFuel => Result OutOfFuel
          end)
      | AssertFailed => Result AssertFailed
      | OutOfBounds => Result OutOfBounds
      | OutOfFuel => Result OutOfFuel
      end)
  end.

Lemma tail_tree_run : forall lf fuel rabs st, run lf (tail_tree fuel rabs) st = zig_tail_loop fuel rabs st.
Proof.
  intros lf. induction fuel as [ | fuel IH ]; intros rabs st; cbn [tail_tree run zig_tail_loop]; [ reflexivity | ].
  destruct (mt_next_double53 st) as [u1 | | | ]; cbn [bind]; try reflexivity.
  destruct (mt_next_double53 (snd u1)) as [u2 | | | ]; cbn [bind]; try reflexivity.
  destruct (zig_tail rabs (fst u1) (fst u2)); [ reflexivity | apply IH ].
Qed.
Lemma normal_tree_run : forall lf fuel st, run lf (normal_tree fuel) st = rng_standard_normal lf fuel st.
Proof.
  intros lf. induction fuel as [ | fuel IH ]; intros st; cbn [normal_tree run rng_standard_normal]; [ reflexivity | ].
  destruct (mt_next64 lf st) as [r | | | ]; cbn [bind]; try reflexivity.
  destruct (zig_first (fst r)) as [[x | rabs | x idx] | | | ]; cbn [bind run]; try reflexivity; [ apply tail_tree_run | ].
  destruct (mt_next_double53 (snd r)) as [u | | | ]; cbn [bind]; try reflexivity.
  destruct (zig_wedge x idx (fst u)) as [[y | ] | | | ]; cbn [bind run]; try reflexivity. apply IH.
Qed.

Lemma tail_tree_chance : forall A fuel rabs, tree_chance A (tail_tree fuel rabs) = prob_tail A rabs fuel.
Proof.
  intros A. induction fuel as [ | fuel IH ]; intros rabs; [ reflexivity | ]. cbn [tail_tree tree_chance prob_tail].
  apply mean_ext. intros u1 _. apply mean_ext. intros u2 _. destruct (zig_tail rabs u1 u2); [ reflexivity | apply IH ].
Qed.
Lemma normal_tree_chance : forall A fuel, tree_chance A (normal_tree fuel) = prob_normal A fuel.
Proof.
  intros A. induction fuel as [ | fuel IH ]; [ reflexivity | ]. cbn [normal_tree tree_chance prob_normal].
  apply mean_ext. intros r _. destruct (zig_first r) as [[x | rabs | x idx] | | | ]; try reflexivity; [ apply tail_tree_chance | ].
  cbn [tree_chance]. apply mean_ext. intros u _. destruct (zig_wedge x idx u) as [[y | ] | | | ]; try reflexivity. apply IH.
Qed.

(** ** Events *)
Definition reach : R := rr + smax + xv 0.
Lemma xv0_pos : 0 < xv 0. Proof. unfold xv. apply Rmult_lt_0_compat; [ apply (zn_w0 numbers) | now apply IZR_pow_pos ]. Qed.
Lemma reach_8 : 8 <= reach.
Proof. unfold reach. pose proof xv0_pos. pose proof smax_8. pose proof qr_close as Q. pose proof eb_small. apply Rabs_le_between in Q. lra. Qed.

Lemma total_mono : forall A B C D,
  (forall x, - reach <= x <= reach -> indicator (A x) + indicator (B x) <= indicator (C x) + indicator (D x)) ->
  total A + total B <= total C + total D.
Proof.
  intros A B C D H. pose proof xv0_pos as X0. pose proof smax_pos as S0. pose proof rr_pos as R0.
  assert (M : mass A + mass B <= mass C + mass D).
  { unfold mass. rewrite <- !mean_plus. apply mean_le; [ lia | ]. intros i Hi. rewrite <- !mean_plus. apply mean_le; [ lia | ]. intros s Hs.
    unfold layer. rewrite <- !mean_plus. apply mean_le; [ exact pos52 | ]. intros k Hk. rewrite <- !Rmult_plus_distr_l.
    apply Rmult_le_compat_l; [ apply accl_range | ]. apply H. set (j := Z.to_nat i).
    assert (B1 : 0 <= IZR k * wv j <= reach).
    { split; [ apply kw_nonneg; unfold j; lia | ]. assert (X : xv j <= reach).
      { unfold reach. destruct j as [ | j' ] eqn:E; [ lra | ]. destruct (layer_order (S j') ltac:(unfold j in E; lia)) as (_ & _ & _ & X & _). fold rr in X. lra. }
      eapply Rle_trans; [ | exact X ]. unfold xv. rewrite Rmult_comm. apply Rmult_le_compat_l; [ left; apply wv_pos; unfold j; lia | ]. apply IZR_le. lia. }
    unfold sgn. destruct (s =? 1)%Z; lra. }
  assert (TL : forall b, tl A b + tl B b <= tl C b + tl D b).
  { intros b. unfold tl. rewrite <- !mean_plus. apply mean_le; [ exact pos53z | ]. intros u Hu. rewrite <- !Rmult_plus_distr_r.
    apply Rmult_le_compat_r; [ apply ac_range | ]. apply H. pose proof (lx_nonneg u Hu) as L0. pose proof (frac_range u Hu) as FR.
    assert (lx u <= smax) by (apply lx_upto; [ exact Hu | rewrite up_smax; lra ]). unfold reach. destruct b; lra. }
  assert (T : tail_mass A + tail_mass B <= tail_mass C + tail_mass D).
  { unfold tail_mass. rewrite <- !mean_plus. apply mean_le; [ exact pos52 | ]. intros k _. destruct (k <? kv 0)%Z; [ lra | ].
    rewrite !tacc_tl. unfold Rdiv. rewrite <- !Rmult_plus_distr_r. apply Rmult_le_compat_r; [ | apply TL ].
    left. apply Rinv_0_lt_compat. pose proof (tl_any_range (bit k)). lra. }
  unfold total. lra.
Qed.
Lemma total_eq : forall A B C D,
  (forall x, - reach <= x <= reach -> indicator (A x) + indicator (B x) = indicator (C x) + indicator (D x)) ->
  total A + total B = total C + total D.
Proof. intros A B C D H. apply Rle_antisym; apply total_mono; intros x Hx; rewrite (H x Hx); lra. Qed.

Lemma total_false : total (fun _ => false) = 0.
Proof.
  assert (M : mass (fun _ => false) = 0).
  { apply Rmult_eq_reg_l with 512; [ | lra ]. rewrite mass_sum. rewrite (sum_to_ext 256 _ (fun _ => 0)); [ rewrite sum_to_const; ring | ].
    intros i _. rewrite !layer_zero by (intros; reflexivity). ring. }
  assert (T : forall b, tl (fun _ => false) b = 0).
  { intros b. unfold tl. rewrite <- (mean_const (2 ^ 53) 0) by exact pos53z. apply mean_ext. intros u _. cbn. ring. }
  unfold total. rewrite M, tail_mass_sum, !T. unfold Rdiv. ring.
Qed.

(** ** The constant *)
Definition hp : R := sqrt (PI / 2).
Lemma hp_range : 1 <= hp.
Proof.
  unfold hp. rewrite <- sqrt_1. apply sqrt_le_1_alt. pose proof PI2_1. lra.
Qed.
Lemma hp_2 : sqrt (2 * PI) = 2 * hp.
Proof.
  unfold hp. replace (2 * PI) with (4 * (PI / 2)) by field. pose proof PI_RGT_0. rewrite sqrt_mult by lra.
  replace 4 with (2 * 2) by ring. rewrite sqrt_square by lra. reflexivity.
Qed.
Lemma bell_upto : forall x, 0 <= x -> hp - 2 * bell x <= RInt bell 0 x <= hp.
Proof.
  intros x Hx. pose proof (bell_square x Hx) as S. pose proof (bell_int_bounds 0 x ltac:(lra) Hx) as B. pose proof hp_range as H1.
  assert (HH : hp * hp = PI / 2) by (apply sqrt_sqrt; pose proof PI_RGT_0; lra). pose proof (bell_pos x) as BP.
  set (I := (RInt bell 0 x : R)) in *. clearbody I. split.
  - apply Rnot_lt_le. intros L. nra.
  - apply Rnot_lt_le. intros L. nra.
Qed.
Lemma bell_b8 : forall x, 8 <= x -> bell x <= eb / 10.
Proof.
  intros x Hx. pose proof (zn_b8 numbers) as B8. pose proof (bell_decr 8 x ltac:(lra) Hx) as BD.
  assert (D : 10 * / IZR (10 ^ 13) = eb).
  { unfold eb. replace (IZR (10 ^ 13)) with (10 * IZR (10 ^ 12)) by (rewrite <- mult_IZR; reflexivity).
    pose proof (IZR_pow_pos 10 12 ltac:(lia) ltac:(lia)) as P. set (p := IZR (10 ^ 12)) in *. clearbody p. field. lra. }
  set (d := / IZR (10 ^ 13)) in *. clearbody d. lra.
Qed.
Lemma total_any_hp : Rabs (512 * area * total any_number - 2 * hp) <= 7 * eb.
Proof.
  pose proof (total_any 8 ltac:(lra)) as T. pose proof (bell_upto 8 ltac:(lra)) as U. pose proof (bell_b8 8 ltac:(lra)) as B. pose proof eb_pos.
  set (I := (RInt bell 0 8 : R)) in *. clearbody I. apply Rabs_le_between in T. apply Rabs_le. lra.
Qed.

Lemma at_most_true : forall z x, at_most z x = true <-> x <= z.
Proof. intros z x. unfold at_most. destruct (Rle_dec x z); split; intros; try reflexivity; try discriminate; try assumption. contradiction. Qed.
Lemma at_most_ind : forall z x, indicator (at_most z x) = if Rle_dec x z then 1 else 0.
Proof. intros. unfold at_most. destruct (Rle_dec x z); reflexivity. Qed.
Lemma pos_ind : forall t x, indicator (positive_upto t x) = if Rlt_dec 0 x then if Rle_dec x t then 1 else 0 else 0.
Proof. intros. unfold positive_upto. destruct (Rlt_dec 0 x), (Rle_dec x t); reflexivity. Qed.

Lemma bell_reflect : forall z : R, RInt bell 0 (- z) = - RInt bell 0 z.
Proof.
  intros z. pose proof (RInt_comp_lin (V := R_CompleteNormedModule) bell (- 1) 0 0 z (bell_int _ _)) as RL.
  replace (- 1 * 0 + 0) with 0 in RL by ring. replace (- 1 * z + 0) with (- z) in RL by ring. rewrite <- RL.
  assert (E : RInt (fun y => - 1 * bell y) 0 z = - 1 * RInt bell 0 z) by (apply (RInt_scal (V := R_CompleteNormedModule)); apply bell_int).
  transitivity (RInt (fun y => - 1 * bell y) 0 z).
  - apply RInt_ext. intros y _. change (- 1 * bell (- 1 * y + 0) = - 1 * bell y). replace (- 1 * y + 0) with (- y) by ring. now rewrite bell_even.
  - rewrite E. change (- 1 * RInt bell 0 z = - RInt bell 0 z). ring.
Qed.

Lemma total_at_most : forall z, Rabs (512 * area * total (at_most z) - (hp + RInt bell 0 z)) <= 12 * eb.
Proof.
  intros z. pose proof reach_8 as R8. pose proof eb_pos as EP. pose proof area_pos as AP.
  pose proof (bell_upto reach ltac:(lra)) as U. pose proof (bell_b8 reach R8) as B8.
  destruct (Rle_or_lt 0 z) as [Hz | Hz].
  - assert (E : total (at_most z) + total (positive_upto reach) = total any_number + total (positive_upto z)).
    { apply total_eq. intros x Hx. rewrite at_most_ind, !pos_ind. unfold any_number. cbn [indicator].
      destruct (Rle_dec x z), (Rlt_dec 0 x), (Rle_dec x reach); lra. }
    pose proof total_any_hp as TA. pose proof (total_pos reach ltac:(lra)) as TR. pose proof (total_pos z Hz) as TZ.
    set (I := (RInt bell 0 reach : R)) in *. set (J := (RInt bell 0 z : R)) in *. clearbody I J.
    assert (E2 : 512 * area * total (at_most z) = 512 * area * total any_number + 512 * area * total (positive_upto z) - 512 * area * total (positive_upto reach)).
    { replace (total (at_most z)) with (total any_number + total (positive_upto z) - total (positive_upto reach)) by lra. ring. }
    rewrite E2. apply Rabs_le_between in TA. apply Rabs_le_between in TR. apply Rabs_le_between in TZ. apply Rabs_le. lra.
  - assert (LO : total (negative_upto reach) <= total (at_most z) + total (negative_upto (- z))).
    { rewrite <- (Rplus_0_r (total (negative_upto reach))), <- total_false.
      apply total_mono. intros x Hx. unfold negative_upto. rewrite at_most_ind, !pos_ind. cbn [indicator].
      destruct (Rle_dec x z), (Rlt_dec 0 (- x)), (Rle_dec (- x) reach), (Rle_dec (- x) (- z)); lra. }
    set (e := Rmin (- z) eb). assert (Ee : 0 < e <= eb /\ e <= - z) by (unfold e, Rmin; destruct (Rle_dec (- z) eb); lra).
    assert (HI : total (at_most z) + total (negative_upto (- z - e)) <= total (negative_upto reach)).
    { rewrite <- (Rplus_0_r (total (negative_upto reach))), <- total_false.
      apply total_mono. intros x Hx. unfold negative_upto. rewrite at_most_ind, !pos_ind. cbn [indicator].
      destruct (Rle_dec x z), (Rlt_dec 0 (- x)), (Rle_dec (- x) reach), (Rle_dec (- x) (- z - e)); lra. }
    pose proof (total_neg reach ltac:(lra)) as TR. pose proof (total_neg (- z) ltac:(lra)) as TZ. pose proof (total_neg (- z - e) ltac:(lra)) as TE.
    pose proof (bell_chasles 0 (- z - e) (- z)) as C. pose proof (bell_int_bounds (- z - e) (- z) ltac:(lra) ltac:(lra)) as BB. pose proof (bell_le_1 (- z - e)) as B1.
    rewrite bell_reflect in TZ, C.
    replace (- z - (- z - e)) with e in BB by ring.
    assert (BE : e * bell (- z - e) <= e * 1) by (apply Rmult_le_compat_l; lra).
    assert (F : 0 < 512 * area) by lra.
    apply (Rmult_le_compat_l (512 * area)) in LO; [ | lra ]. apply (Rmult_le_compat_l (512 * area)) in HI; [ | lra ]. rewrite Rmult_plus_distr_l in LO, HI.
    set (I := (RInt bell 0 reach : R)) in *. set (J := (RInt bell 0 z : R)) in *. set (K := (RInt bell 0 (- z - e) : R)) in *. set (L := (RInt bell (- z - e) (- z) : R)) in *.
    apply Rabs_le_between in TR. apply Rabs_le_between in TZ. apply Rabs_le_between in TE. apply Rabs_le. lra.
Qed.

Lemma some_returns : 0 <= rejected < 1.
Proof.
  pose proof (rejected_eq tacc_range) as RE. pose proof total_any_hp as T. pose proof hp_range as H1. pose proof eb_small as EB. pose proof area_pos as AP.
  assert (TP : 0 < total any_number). { apply Rabs_le_between in T. destruct (Rle_or_lt (total any_number) 0) as [L | L]; [ nra | exact L ]. }
  split; [ | lra ]. unfold rejected. apply Rle_trans with (mean_of 256 (fun _ => 0)); [ right; symmetry; apply mean_const; lia | ]. apply mean_le; [ lia | ]. intros i Hi.
  apply Rle_trans with (mean_of 2 (fun _ => 0)); [ right; symmetry; apply mean_const; lia | ]. apply mean_le; [ lia | ]. intros s Hs. destruct (i =? 0)%Z; [ lra | ].
  assert (layer any_number (Z.to_nat i) s <= 1); [ | lra ]. unfold layer. apply Rle_trans with (mean_of (2 ^ 52) (fun _ => 1)); [ | right; apply mean_const; exact pos52 ].
  apply mean_le; [ exact pos52 | ]. intros k Hk. cbn [any_number indicator]. pose proof (accl_range (Z.to_nat i) k). unfold any_number. cbn [indicator]. lra.
Qed.

Lemma cdf_close : forall A J c, - hp <= J <= hp -> 0 <= c -> Rabs (512 * area * total A - (hp + J)) <= c * eb ->
  Rabs (total A / total any_number - (1 / 2 + J / (2 * hp))) <= (c + 7) / (19 / 10) * eb.
Proof.
  intros A J c JR C0 N. pose proof total_any_hp as D. pose proof hp_range as H1. pose proof eb_small as EB. pose proof eb_pos as EP. pose proof area_pos as AP.
  set (n := 512 * area * total A) in *. set (d := 512 * area * total any_number) in *.
  assert (TP : 0 < total any_number). { pose proof some_returns. rewrite <- (rejected_eq tacc_range). lra. }
  assert (Q : total A / total any_number = n / d) by (unfold n, d; field; lra). rewrite Q. clearbody n d.
  apply Rabs_le_between in D. assert (DP : 19 / 10 <= d) by lra.
  assert (Dd : Rabs (d - 2 * hp) <= 7 * eb) by (apply Rabs_le; lra).
  replace (n / d - (1 / 2 + J / (2 * hp))) with (((n - (hp + J)) - (d - 2 * hp) * ((hp + J) / (2 * hp))) / d) by (field; lra).
  assert (R01 : 0 <= (hp + J) / (2 * hp) <= 1).
  { split; [ apply Rmult_le_pos; [ lra | left; apply Rinv_0_lt_compat; lra ] | ].
    apply Rmult_le_reg_r with (2 * hp); [ lra | ]. unfold Rdiv. rewrite Rmult_assoc, Rinv_l by lra. lra. }
  set (x := (hp + J) / (2 * hp)) in *. clearbody x.
  assert (M : Rabs ((n - (hp + J)) - (d - 2 * hp) * x) <= (c + 7) * eb).
  { eapply Rle_trans; [ apply Rabs_triang | ]. rewrite Rabs_Ropp, Rabs_mult, (Rabs_right x) by lra.
    assert (Rabs (d - 2 * hp) * x <= 7 * eb * 1) by (apply Rmult_le_compat; try lra; apply Rabs_pos). lra. }
  unfold Rdiv at 1. rewrite Rabs_mult, (Rabs_right (/ d)) by (apply Rle_ge; left; apply Rinv_0_lt_compat; lra).
  apply Rmult_le_reg_r with d; [ lra | ]. rewrite Rmult_assoc, Rinv_l, Rmult_1_r by lra.
  replace ((c + 7) / (19 / 10) * eb * d) with ((c + 7) * eb * (d / (19 / 10))) by field.
  eapply Rle_trans; [ exact M | ]. rewrite <- (Rmult_1_r ((c + 7) * eb)) at 1. apply Rmult_le_compat_l; [ apply Rmult_le_pos; lra | lra ].
Qed.
Lemma bell_bounded : forall z, - hp <= RInt bell 0 z <= hp.
Proof.
  intros z. pose proof hp_range as H1. destruct (Rle_or_lt 0 z) as [Hz | Hz].
  - pose proof (bell_upto z Hz). pose proof (bell_int_bounds 0 z ltac:(lra) Hz). lra.
  - pose proof (bell_upto (- z) ltac:(lra)) as X. pose proof (bell_int_bounds 0 (- z) ltac:(lra) ltac:(lra)) as Y. rewrite bell_reflect in X, Y. lra.
Qed.
Lemma eb_11 : / IZR (10 ^ 11) = 10 * eb.
Proof.
  unfold eb. replace (IZR (10 ^ 12)) with (10 * IZR (10 ^ 11)) by (rewrite <- mult_IZR; reflexivity).
  pose proof (IZR_pow_pos 10 11 ltac:(lia) ltac:(lia)) as P. set (p := IZR (10 ^ 11)) in *. clearbody p. field. lra.
Qed.

(** ** The theorems *)

(** The tree is the program: answered by the generator it is rng_standard_normal. *)
Theorem C77_same_program : forall lf fuel st, run lf (normal_tree fuel) st = rng_standard_normal lf fuel st.
Proof. exact normal_tree_run. Qed.

(** With equally likely and independent draws the sampler returns with probability one. *)
Theorem C77_returns : is_lim_seq (fun fuel => tree_chance (fun _ => true) (normal_tree fuel)) 1.
Proof.
  apply (is_lim_seq_ext (prob_normal any_number)); [ intros; symmetry; apply normal_tree_chance | ].
  pose proof (normal_limit any_number tacc_range some_returns) as L.
  assert (TP : total any_number <> 0). { pose proof some_returns. rewrite <- (rejected_eq tacc_range). lra. }
  replace (total any_number / total any_number) with 1 in L by (field; exact TP). exact L.
Qed.

(** The number returned is at most [z] with the probability of the standard normal
    distribution, up to 1e-11, for every [z]. *)
Theorem C77_distribution : forall z : R, exists p : R,
  is_lim_seq (fun fuel => tree_chance (at_most z) (normal_tree fuel)) p /\
  Rabs (p - normal_cdf z) <= / IZR (10 ^ 11).
Proof.
  intros z. exists (total (at_most z) / total any_number). split.
  - apply (is_lim_seq_ext (prob_normal (at_most z))); [ intros; symmetry; apply normal_tree_chance | ].
    apply normal_limit; [ exact tacc_range | exact some_returns ].
  - rewrite eb_11. unfold normal_cdf. rewrite hp_2. pose proof eb_pos as EP.
    eapply Rle_trans; [ apply (cdf_close (at_most z) (RInt bell 0 z) 12); [ apply bell_bounded | lra | apply total_at_most ] | lra ].
Qed.

(** The sample of whv_hype with dist = "point" for the number [z] is [mu + z / 4] in both
    objectives, relative to the box (C76_point_on_diagonal).  It counts for a point with
    relative coordinates [(a, b)] with the probability that a normal number reaches the
    larger of the two distances in units of 1/4. *)
Definition counts_for (mu1 mu2 a b z : R) : bool :=
  if Rle_dec a (mu1 + z * (1 / 4)) then if Rle_dec b (mu2 + z * (1 / 4)) then true else false else false.
Theorem C77_point_weight : forall mu1 mu2 a b : R, exists p : R,
  is_lim_seq (fun fuel => tree_chance (counts_for mu1 mu2 a b) (normal_tree fuel)) p /\
  Rabs (p - (1 - normal_cdf (4 * Rmax (a - mu1) (b - mu2)))) <= 2 * / IZR (10 ^ 11).
Proof.
  intros mu1 mu2 a b. set (A := counts_for mu1 mu2 a b). set (w := 4 * Rmax (a - mu1) (b - mu2)).
  assert (AI : forall z, indicator (A z) = if Rle_dec w z then 1 else 0).
  { intros z. unfold A, counts_for, w. pose proof (Rmax_l (a - mu1) (b - mu2)). pose proof (Rmax_r (a - mu1) (b - mu2)).
    destruct (Rle_dec a (mu1 + z * (1 / 4))), (Rle_dec b (mu2 + z * (1 / 4))), (Rle_dec (4 * Rmax (a - mu1) (b - mu2)) z) as [Y | Y]; try reflexivity; try lra.
    exfalso. apply Y. assert (Rmax (a - mu1) (b - mu2) <= z / 4) by (apply Rmax_lub; lra). lra. }
  exists (total A / total any_number). split.
  - apply (is_lim_seq_ext (prob_normal A)); [ intros; symmetry; apply normal_tree_chance | ].
    apply normal_limit; [ exact tacc_range | exact some_returns ].
  - rewrite eb_11. unfold normal_cdf. rewrite hp_2. pose proof eb_pos as EP. pose proof area_pos as AP. pose proof hp_range as H1. pose proof eb_small as EB.
    pose proof (bell_bounded w) as BW.
    assert (LO : total any_number <= total A + total (at_most w)).
    { rewrite <- (Rplus_0_r (total any_number)), <- total_false. apply total_mono. intros x Hx. rewrite AI, at_most_ind. unfold any_number. cbn [indicator].
      destruct (Rle_dec w x), (Rle_dec x w); lra. }
    assert (HI : total A + total (at_most (w - eb)) <= total any_number).
    { rewrite <- (Rplus_0_r (total any_number)), <- total_false. apply total_mono. intros x Hx. rewrite AI, at_most_ind. unfold any_number. cbn [indicator].
      destruct (Rle_dec w x), (Rle_dec x (w - eb)); lra. }
    assert (N : Rabs (512 * area * total A - (hp + - RInt bell 0 w)) <= 20 * eb).
    { pose proof (total_at_most w) as T1. pose proof (total_at_most (w - eb)) as T2. pose proof total_any_hp as TA.
      pose proof (bell_chasles 0 (w - eb) w) as C.
      assert (G : RInt bell (w - eb) w <= eb).
      { assert (K : forall c : R, RInt (fun _ : R => c) (w - eb) w = eb * c) by (intros c; rewrite RInt_const; change ((w - (w - eb)) * c = eb * c); ring).
        rewrite <- (Rmult_1_r eb) at 2. rewrite <- K. apply RInt_le; [ lra | apply bell_int | apply ex_RInt_const | ]. intros; apply bell_le_1. }
      assert (F : 0 < 512 * area) by lra.
      apply (Rmult_le_compat_l (512 * area)) in LO; [ | lra ]. apply (Rmult_le_compat_l (512 * area)) in HI; [ | lra ]. rewrite Rmult_plus_distr_l in LO, HI.
      set (I := (RInt bell 0 w : R)) in *. set (K := (RInt bell 0 (w - eb) : R)) in *. set (L := (RInt bell (w - eb) w : R)) in *.
      apply Rabs_le_between in T1. apply Rabs_le_between in T2. apply Rabs_le_between in TA. apply Rabs_le. lra. }
    pose proof (cdf_close A (- RInt bell 0 w) 20 ltac:(lra) ltac:(lra) N) as CC.
    replace (1 - (1 / 2 + RInt bell 0 w / (2 * hp))) with (1 / 2 + - RInt bell 0 w / (2 * hp)) by (field; lra). lra.
Qed.

(** [normal_cdf] is a distribution function with density [bell] and total mass one. *)
Theorem C77_cdf : (forall z : R, is_derive normal_cdf z (bell z / sqrt (2 * PI))) /\
  is_lim normal_cdf p_infty 1 /\ is_lim normal_cdf m_infty 0 /\ normal_cdf 0 = 1 / 2.
Proof.
  pose proof hp_range as H1. unfold normal_cdf. rewrite hp_2.
  assert (LP : is_lim (fun z => RInt bell 0 z) p_infty hp).
  { apply is_lim_spec. intros eps. pose proof (cond_pos eps) as E0. exists (Rmax 1 (4 / eps)). intros x Hx.
    pose proof (Rmax_l 1 (4 / eps)) as M1. pose proof (Rmax_r 1 (4 / eps)) as M2. pose proof (bell_upto x ltac:(lra)) as U.
    assert (B : 2 * bell x < eps).
    { pose proof (bell_pos x) as BP. assert (XB : bell x * (1 + x * x / 2) <= 1).
      { pose proof (exp_ineq1_le (x * x / 2)) as I1. unfold bell in *. apply Rle_trans with (exp (- (x * x) / 2) * exp (x * x / 2)); [ apply Rmult_le_compat_l; lra | ].
        rewrite <- exp_plus. replace (- (x * x) / 2 + x * x / 2) with 0 by field. rewrite exp_0. lra. }
      assert (EX : 4 < eps * x). { apply Rmult_lt_reg_r with (/ eps); [ now apply Rinv_0_lt_compat | ]. replace (eps * x * / eps) with x by (field; lra). unfold Rdiv in *. lra. }
      assert (XX : x <= x * x) by nra. assert (bell x * x <= 2) by nra. apply Rnot_le_lt. intros L. nra. }
    set (I := (RInt bell 0 x : R)) in *. apply Rabs_lt_between. lra. }
  assert (LM : is_lim (fun z => RInt bell 0 z) m_infty (- hp)).
  { apply is_lim_spec. apply is_lim_spec in LP. intros eps. destruct (LP eps) as [M HM]. exists (- M). intros x Hx. specialize (HM (- x) ltac:(lra)).
    rewrite bell_reflect in HM. cbn in *. set (I := (RInt bell 0 x : R)) in *. apply Rabs_lt_between in HM. apply Rabs_lt_between. lra. }
  split; [ | split; [ | split ] ].
  - intros z. assert (D1 : is_derive (fun z => RInt bell 0 z) z (bell z)).
    { apply (is_derive_RInt (V := R_NormedModule) bell (fun z => RInt bell 0 z) 0 z); [ | apply bell_cont ].
      exists (mkposreal 1 Rlt_0_1). intros y _. apply (RInt_correct (V := R_CompleteNormedModule)). apply bell_int. }
    set (F := fun z : R => (RInt bell 0 z : R)) in *. change (is_derive (fun z => 1 / 2 + F z * / (2 * hp)) z (bell z * / (2 * hp))).
    auto_derive; [ now exists (bell z) | ]. assert (DU : Derive (fun x : R => F x) z = bell z) by exact (is_derive_unique _ _ _ D1). rewrite DU. match goal with |- @eq _ ?a ?b => change (@eq R a b) end. ring.
  - pose proof (is_lim_scal_r (fun z => RInt bell 0 z) (/ (2 * hp)) p_infty hp LP) as LS.
    pose proof (is_lim_plus' (fun _ => 1 / 2) _ p_infty (1 / 2) (hp * / (2 * hp)) (is_lim_const _ _) LS) as LL.
    assert (E : 1 / 2 + hp * / (2 * hp) = 1) by (field; lra). rewrite E in LL. exact LL.
  - pose proof (is_lim_scal_r (fun z => RInt bell 0 z) (/ (2 * hp)) m_infty (- hp) LM) as LS.
    pose proof (is_lim_plus' (fun _ => 1 / 2) _ m_infty (1 / 2) ((- hp) * / (2 * hp)) (is_lim_const _ _) LS) as LL.
    assert (E : 1 / 2 + (- hp) * / (2 * hp) = 0) by (field; lra). rewrite E in LL. exact LL.
  - assert (P : RInt bell 0 0 = 0) by (rewrite RInt_point; reflexivity). rewrite P. unfold Rdiv. ring.
Qed.

(** a number drawn is positive with probability 1/2 up to 1e-11 *)
Example C77_example : exists p : R,
  is_lim_seq (fun fuel => tree_chance (at_most 0) (normal_tree fuel)) p /\ Rabs (p - 1 / 2) <= / IZR (10 ^ 11).
Proof. destruct (C77_distribution 0) as (p & L & B). exists p. split; [ exact L | ]. now rewrite (proj2 (proj2 (proj2 C77_cdf))) in B. Qed.

Print Assumptions C77_same_program.
Print Assumptions C77_returns.
Print Assumptions C77_distribution.
Print Assumptions C77_cdf.
Print Assumptions C77_point_weight.
