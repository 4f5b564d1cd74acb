(** Property C80: GD, IGD and IGD+ computed with doubles.

    Specification: weak dominance of sets of real points and the mean of the exact
    Euclidean (IGD+: one-sided) distances to the nearest point.  Model:
    IgdFloatModel.v.  Uses Flocq and therefore the axioms of the Coq Reals library. *)
From Coq Require Import List ZArith Lia Bool Arith Reals Lra.
From Flocq Require Import Core Relative.
From Verif Require Import Base EpsModel PctFloatModel EpsFloatModel PropPctFloat PropEpsFloat
  HvFloatModel PropHvFloat IgdSpec IgdFloatModel.
Import ListNotations.
Open Scope R_scope.
#[local] Existing Instance dexp_valid.

(** ** Specification *)
(** the order of the doubles, with infinities *)
Definition dle (x y : ext R) : Prop :=
  match x, y with
  | NegInf, _ => True
  | _, PosInf => True
  | Fin a, Fin b => a <= b
  | _, _ => False
  end.
(** a long double format with at least the precision and the range of double *)
Definition long_double (prec emin : Z) : Prop := (53 <= prec /\ emin + prec <= -1021)%Z.
(** exact Euclidean distance in [n] objectives *)
Definition reuclid (n : nat) (p q : rpoint) : R :=
  sqrt (rsum (fun d => (rcoord p d - rcoord q d) ^ 2) n).
(** by how much [a] is worse than [r] in objective [d] (0 if it is not) *)
Definition rexcess (mx : list bool) (a r : rpoint) (d : nat) : R :=
  if nth d mx false then Rmax (rcoord r d - rcoord a d) 0 else Rmax (rcoord a d - rcoord r d) 0.
(** exact distance of IGD+ *)
Definition rdist_plus (mx : list bool) (a r : rpoint) : R :=
  sqrt (rsum (fun d => rexcess mx a r d ^ 2) (length mx)).
Definition rnearest (dist : rpoint -> R) (S : list rpoint) (m : R) : Prop :=
  (exists s, In s S /\ m = dist s) /\ forall s, In s S -> m <= dist s.
(** [v] is the mean over the rows of [A] of the exact distance to the nearest row of [S] *)
Definition rmean_nearest (dist : rpoint -> rpoint -> R) (A S : list rpoint) (v : R) : Prop :=
  exists ms, Forall2 (fun a m => rnearest (dist a) S m) A ms /\ v = rlist_sum ms / INR (length A).
(** the computed value [v] and the exact value [V]: a relative error of (dim / 2 + n + 5)
    roundings, and an absolute one of sqrt (dim * 2^-1074) from squares that underflow *)
Definition gd_accurate (dim n : nat) (v V : R) : Prop :=
  let w := sqrt (INR dim * eta) in
  (V - w) * (1 - u) ^ (dim / 2 + n + 5) - eta <= v <= (V + w) * (1 + u) ^ (dim / 2 + n + 5) + eta.

(** ** Order of the operations *)
Lemma dle_refl : forall x, dle x x.
Proof. destruct x; cbn; auto. lra. Qed.
Lemma dle_trans : forall x y z, dle x y -> dle y z -> dle x z.
Proof. destruct x, y, z; cbn; auto; try tauto. lra. Qed.
Lemma dle_total : forall x y, dle x y \/ dle y x.
Proof. destruct x, y; cbn; auto. lra. Qed.
Lemma eleb_dle : forall x y, eleb Rle_bool x y = true <-> dle x y.
Proof.
  intros [|x|] [|y|]; cbn; try (split; intros; auto; try discriminate; tauto).
  destruct (Rle_bool_spec x y); split; intros; auto; try discriminate; lra.
Qed.
Lemma dle_PosInf : forall x, dle x PosInf.
Proof. destruct x; exact I. Qed.
Lemma omega_pos : 1 < omega_d.
Proof. unfold omega_d. change 1 with (bpow radix2 0). apply bpow_lt. lia. Qed.
Lemma fl_mono : forall x y, x <= y -> dle (fl x) (fl y).
Proof.
  intros x y H. apply rnd_mono in H. pose proof omega_pos. unfold fl.
  destruct (Rle_bool_spec omega_d (rnd x)), (Rle_bool_spec omega_d (rnd y)),
    (Rle_bool_spec (rnd x) (- omega_d)), (Rle_bool_spec (rnd y) (- omega_d)); cbn; auto; lra.
Qed.
Lemma rnd_0 : rnd 0 = 0.
Proof. apply rnd_double. apply generic_format_0. Qed.
Lemma fl_0 : fl 0 = Fin 0.
Proof.
  unfold fl. rewrite rnd_0. pose proof omega_pos.
  destruct (Rle_bool_spec omega_d 0), (Rle_bool_spec 0 (- omega_d)); auto; lra.
Qed.
Definition nn (x : ext R) : Prop := dle (Fin 0) x.
Lemma fl_nn : forall x, 0 <= x -> nn (fl x).
Proof. intros x H. unfold nn. rewrite <- fl_0. now apply fl_mono. Qed.
Lemma sq_nn : forall x, nn (sq_d x).
Proof. destruct x; cbn; unfold nn; cbn; auto. apply fl_nn. nra. Qed.
Lemma sq_mono : forall x y, nn x -> dle x y -> dle (sq_d x) (sq_d y).
Proof.
  intros [|x|] [|y|]; unfold nn; cbn -[fl]; auto; try tauto; intros; try apply dle_PosInf.
  apply fl_mono. nra.
Qed.
Lemma plus_nn : forall x y, nn x -> nn y -> nn (plus_d x y).
Proof. destruct x, y; unfold nn; cbn; auto. intros. apply fl_nn. lra. Qed.
Lemma plus_mono : forall x y x' y', nn x -> nn y -> dle x x' -> dle y y' -> dle (plus_d x y) (plus_d x' y').
Proof.
  destruct x, y, x', y'; unfold nn; cbn -[fl]; auto; try tauto; intros; try apply dle_PosInf.
  apply fl_mono. lra.
Qed.
Lemma max0_nn : forall x, nn (max0_d x).
Proof. destruct x; unfold nn; cbn; auto; try lra. destruct (Rle_bool_spec x 0); cbn; lra. Qed.
Lemma max0_mono : forall x y, dle x y -> dle (max0_d x) (max0_d y).
Proof.
  intros [|x|] [|y|]; cbn -[Rle_bool]; auto; try tauto; try lra; intros; try apply dle_PosInf.
  destruct (Rle_bool_spec y 0); cbn; lra.
  destruct (Rle_bool_spec x 0), (Rle_bool_spec y 0); cbn; lra.
Qed.
Lemma lrnd_mono : forall prec emin x y, long_double prec emin -> x <= y -> lrnd prec emin x <= lrnd prec emin y.
Proof.
  intros prec emin x y [H _] L. unfold lrnd. apply round_le; auto.
  apply FLT_exp_valid. unfold Prec_gt_0. lia. apply valid_rnd_N.
Qed.
Lemma lrnd_0 : forall prec emin, lrnd prec emin 0 = 0.
Proof. intros. apply round_0. apply valid_rnd_N. Qed.
Lemma lrnd_nn : forall prec emin x, long_double prec emin -> 0 <= x -> 0 <= lrnd prec emin x.
Proof. intros. rewrite <- (lrnd_0 prec emin). now apply lrnd_mono. Qed.
Lemma sqrt_nn : forall prec emin x, long_double prec emin -> nn x -> nn (sqrt_d prec emin x).
Proof.
  destruct x; unfold nn; cbn -[fl]; auto. intros. apply fl_nn. apply lrnd_nn; auto. apply sqrt_pos.
Qed.
Lemma sqrt_d_mono : forall prec emin x y, long_double prec emin -> nn x -> dle x y ->
  dle (sqrt_d prec emin x) (sqrt_d prec emin y).
Proof.
  destruct x, y; unfold nn; cbn -[fl]; auto; try tauto; intros; try apply dle_PosInf.
  apply fl_mono. apply lrnd_mono; auto. apply sqrt_le_1; lra.
Qed.
Lemma div_mono : forall x y n, (0 < n)%nat -> nn x -> dle x y -> dle (div_d x n) (div_d y n).
Proof.
  destruct x, y; unfold nn; cbn -[fl]; auto; try tauto; intros; try apply dle_PosInf.
  apply fl_mono. apply Rmult_le_compat_r; auto. apply Rlt_le, Rinv_0_lt_compat, lt_0_INR. auto.
Qed.

(** ** The loops *)
Lemma sq_dist_nn : forall mx plus a r, nn (sq_dist_d mx plus a r).
Proof.
  intros. unfold sq_dist_d. generalize (seq 0 (length mx)). intros l.
  assert (G : forall acc, nn acc -> nn (fold_left (fun dist d => plus_d dist (sq_d (diff_d mx plus a r d))) l acc)).
  { induction l as [|d l IH]; intros acc H; cbn [fold_left]; auto. apply IH. apply plus_nn; auto. apply sq_nn. }
  apply G. unfold nn; cbn; lra.
Qed.

(** [dle (min_sq_dist_d ...)] is the least of the distances *)
Lemma min_step_spec : forall (f : rpoint -> ext R) l m,
  let r := fold_left (fun m r => let dist := f r in if negb (eleb Rle_bool m dist) then dist else m) l m in
  dle r m /\ (forall s, In s l -> dle r (f s)) /\ (r = m \/ exists s, In s l /\ r = f s).
Proof.
  intros f l. induction l as [|s l IH]; intros m; cbn [fold_left].
  - split; [apply dle_refl|]. split; [intros ? []|now left].
  - set (m' := if negb (eleb Rle_bool m (f s)) then f s else m).
    destruct (IH m') as (H1 & H2 & H3). cbv zeta in *.
    assert (L : dle m' m /\ dle m' (f s) /\ (m' = m \/ m' = f s)).
    { unfold m'. destruct (eleb Rle_bool m (f s)) eqn:E; cbn [negb].
      - apply eleb_dle in E. split; [apply dle_refl|auto].
      - destruct (dle_total (f s) m) as [D|D]. split; auto using dle_refl.
        apply eleb_dle in D. congruence. }
    destruct L as (L1 & L2 & L3). split; [|split].
    + eapply dle_trans; eauto.
    + intros s' [->|I]; auto. eapply dle_trans; eauto.
    + destruct H3 as [E|(s' & I & E)].
      * fold m' in E. rewrite E. destruct L3 as [->| ->]; auto. right. exists s. cbn. auto.
      * right. exists s'. cbn. auto.
Qed.
Lemma min_sq_dist_spec : forall mx plus S a,
  (forall s, In s S -> dle (min_sq_dist_d mx plus S a) (sq_dist_d mx plus a s)) /\
  (min_sq_dist_d mx plus S a = PosInf \/ exists s, In s S /\ min_sq_dist_d mx plus S a = sq_dist_d mx plus a s).
Proof.
  intros. unfold min_sq_dist_d.
  destruct (min_step_spec (sq_dist_d mx plus a) S PosInf) as (_ & H2 & H3). split; auto.
Qed.
Lemma min_nn : forall mx plus S a, nn (min_sq_dist_d mx plus S a).
Proof.
  intros. destruct (min_sq_dist_spec mx plus S a) as [_ [->|(s & _ & ->)]]. exact I. apply sq_dist_nn.
Qed.
Lemma sum_nn : forall (f : rpoint -> ext R) l acc, (forall a, nn (f a)) -> nn acc ->
  nn (fold_left (fun gd a => plus_d gd (f a)) l acc).
Proof. induction l; intros acc H H0; cbn [fold_left]; auto. apply IHl; auto. now apply plus_nn. Qed.
Lemma sum_mono : forall (f g : rpoint -> ext R) l acc acc', (forall a, nn (f a)) -> (forall a, nn (g a)) ->
  (forall a, In a l -> dle (f a) (g a)) -> nn acc -> dle acc acc' ->
  dle (fold_left (fun gd a => plus_d gd (f a)) l acc) (fold_left (fun gd a => plus_d gd (g a)) l acc').
Proof.
  induction l as [|a l IH]; intros acc acc' F G H H0 H1; cbn [fold_left]; auto.
  apply IH; auto. intros; apply H; cbn; auto. now apply plus_nn. apply plus_mono; auto. apply H; cbn; auto.
Qed.

(** ** IGD+ and dominance *)
Lemma sq_dist_plus_mono : forall mx r a b, rwdom mx a b ->
  dle (sq_dist_d mx true r a) (sq_dist_d mx true r b).
Proof.
  intros mx r a b W. unfold sq_dist_d.
  assert (G : forall l acc acc', (forall d, In d l -> (d < length mx)%nat) -> nn acc -> dle acc acc' ->
    dle (fold_left (fun dist d => plus_d dist (sq_d (diff_d mx true r a d))) l acc)
        (fold_left (fun dist d => plus_d dist (sq_d (diff_d mx true r b d))) l acc')).
  { induction l as [|d l IH]; intros acc acc' H N L; cbn [fold_left]; auto.
    apply IH; auto. intros; apply H; cbn; auto. apply plus_nn; auto. apply sq_nn.
    apply plus_mono; auto. apply sq_nn. apply sq_mono. unfold diff_d. cbn [negb]. apply max0_nn.
    unfold diff_d. cbn [negb]. apply max0_mono. specialize (W d (H d (or_introl eq_refl))).
    destruct (nth d mx false); cbn [negb]; apply fl_mono; lra. }
  apply G. intros d I. apply in_seq in I. lia. unfold nn; cbn; lra. cbn; lra.
Qed.

(** the computed IGD+ never prefers a set to one that weakly dominates it *)
Theorem C80_igd_plus_weakly_compliant : forall prec emin mx (A B Rf : list rpoint), long_double prec emin ->
  rset_wdom mx A B ->
  dle (IGD_plus_d prec emin A Rf mx) (IGD_plus_d prec emin B Rf mx).
Proof.
  intros prec emin mx A B Rf HL W. unfold IGD_plus_d, gd_common_d. destruct Rf as [|r0 Rf]; [exact I|].
  set (Rf' := r0 :: Rf).
  assert (N : forall S a, nn (sqrt_d prec emin (min_sq_dist_d mx true S a))).
  { intros. apply sqrt_nn; auto. apply min_nn. }
  apply div_mono. cbn; lia. apply sum_nn; auto. unfold nn; cbn; lra.
  apply sum_mono; auto. 2: unfold nn; cbn; lra. 2: cbn; lra.
  intros r _. apply sqrt_d_mono; auto. apply min_nn.
  destruct (min_sq_dist_spec mx true B r) as [_ [->|(b & I & ->)]]. apply dle_PosInf.
  destruct (W b I) as (a & Ia & Wab).
  destruct (min_sq_dist_spec mx true A r) as [L _]. eapply dle_trans. apply L; eauto. now apply sq_dist_plus_mono.
Qed.
Print Assumptions C80_igd_plus_weakly_compliant.

(** ** Zero *)
Lemma sq_dist_zero : forall mx plus a r, (forall d, (d < length mx)%nat -> diff_d mx plus a r d = Fin 0) ->
  sq_dist_d mx plus a r = Fin 0.
Proof.
  intros mx plus a r H. unfold sq_dist_d.
  assert (G : forall l, (forall d, In d l -> (d < length mx)%nat) ->
    fold_left (fun dist d => plus_d dist (sq_d (diff_d mx plus a r d))) l (Fin 0) = Fin 0).
  { induction l as [|d l IH]; intros K; cbn [fold_left]; auto.
    rewrite (H d) by (apply K; cbn; auto). cbn [sq_d]. rewrite Rmult_0_l, fl_0. cbn [plus_d].
    rewrite Rplus_0_l, fl_0. apply IH. intros; apply K; cbn; auto. }
  apply G. intros d I. apply in_seq in I. lia.
Qed.
Lemma gd_zero : forall prec emin mx A S plus, long_double prec emin -> A <> [] ->
  (forall a, In a A -> exists s, In s S /\ sq_dist_d mx plus a s = Fin 0) ->
  gd_common_d prec emin mx A S plus = Fin 0.
Proof.
  intros prec emin mx A S plus HL HA H.
  assert (E : gd_common_d prec emin mx A S plus =
    div_d (fold_left (fun gd a => plus_d gd (sqrt_d prec emin (min_sq_dist_d mx plus S a))) A (Fin 0)) (length A)).
  { destruct A; [contradiction|reflexivity]. }
  rewrite E.
  assert (G : forall l, incl l A ->
    fold_left (fun gd a => plus_d gd (sqrt_d prec emin (min_sq_dist_d mx plus S a))) l (Fin 0) = Fin 0).
  { induction l as [|a l IH]; intros K; cbn [fold_left]; auto.
    assert (Z : min_sq_dist_d mx plus S a = Fin 0).
    { destruct (H a (K a (or_introl eq_refl))) as (s & Is & Es).
      destruct (min_sq_dist_spec mx plus S a) as [L _]. specialize (L s Is). rewrite Es in L.
      pose proof (min_nn mx plus S a) as N. destruct (min_sq_dist_d mx plus S a); unfold nn in N; cbn in *; try tauto.
      f_equal; lra. }
    rewrite Z. cbn [sqrt_d]. rewrite sqrt_0, lrnd_0, fl_0. cbn [plus_d]. rewrite Rplus_0_l, fl_0.
    apply IH. intros x Hx. apply K. now right. }
  rewrite G by apply incl_refl. cbn [div_d]. unfold Rdiv. rewrite Rmult_0_l. apply fl_0.
Qed.

(** IGD+ is exactly 0 if the reference set is weakly dominated, IGD if it is included *)
Theorem C80_exact_zero : forall prec emin mx (A Rf : list rpoint), long_double prec emin -> Rf <> [] ->
  (rset_wdom mx A Rf -> IGD_plus_d prec emin A Rf mx = Fin 0) /\
  (incl Rf A -> IGD_d prec emin A Rf mx = Fin 0) /\
  (incl Rf A -> GD_d prec emin Rf A mx = Fin 0).
Proof.
  intros prec emin mx A Rf HL HR.
  assert (K : incl Rf A -> gd_common_d prec emin mx Rf A false = Fin 0).
  { intros I. apply gd_zero; auto. intros r Hr. exists r. split; auto. apply sq_dist_zero. intros d _.
    unfold diff_d. cbn [negb]. rewrite Rminus_diag_eq by auto. apply fl_0. }
  split; [|split]; auto. intros W. unfold IGD_plus_d. apply gd_zero; auto.
  intros r Hr. destruct (W r Hr) as (a & Ia & Wa). exists a. split; auto. apply sq_dist_zero. intros d Hd.
  unfold diff_d. cbn [negb]. specialize (Wa d Hd).
  assert (L : dle (if negb (nth d mx false) then fl (rcoord a d - rcoord r d) else fl (rcoord r d - rcoord a d)) (Fin 0)).
  { rewrite <- fl_0. destruct (nth d mx false); cbn [negb]; apply fl_mono; lra. }
  destruct (if negb (nth d mx false) then fl (rcoord a d - rcoord r d) else fl (rcoord r d - rcoord a d)); cbn in *; auto.
  - destruct (Rle_bool_spec x 0); auto. lra.
  - tauto.
Qed.
Print Assumptions C80_exact_zero.

(** ** Accuracy *)
(** overflow as a last step: values with an unbounded exponent *)
Definition clamp (x : R) : ext R := if Rle_bool omega_d x then PosInf else Fin x.
Lemma fl_clamp : forall x, 0 <= x -> fl x = clamp (rnd x).
Proof.
  intros x H. apply rnd_nonneg in H. pose proof omega_pos. unfold fl, clamp.
  destruct (Rle_bool_spec omega_d (rnd x)); auto.
  destruct (Rle_bool_spec (rnd x) (- omega_d)); auto. lra.
Qed.
Lemma plus_clamp : forall x y, is_double x -> is_double y -> 0 <= x -> 0 <= y ->
  plus_d (clamp x) (clamp y) = clamp (rnd (x + y)).
Proof.
  intros x y Dx Dy Hx Hy.
  assert (X : x <= rnd (x + y)). { rewrite <- (rnd_double x Dx) at 1. apply rnd_mono. lra. }
  assert (Y : y <= rnd (x + y)). { rewrite <- (rnd_double y Dy) at 1. apply rnd_mono. lra. }
  unfold clamp at 1 2. destruct (Rle_bool_spec omega_d x), (Rle_bool_spec omega_d y); cbn [plus_d].
  4: now apply fl_clamp; lra.
  all: unfold clamp; destruct (Rle_bool_spec omega_d (rnd (x + y))); auto; lra.
Qed.
Lemma rnd_opp : forall x, rnd (- x) = - rnd x.
Proof. intros. unfold rnd. apply round_NE_opp. Qed.
Lemma double_1 : is_double 1.
Proof. apply (double_int 1). lia. Qed.
Lemma double_omega : is_double omega_d.
Proof. apply generic_format_bpow. unfold dexp, FLT_exp. lia. Qed.

(** the squared difference with an unbounded exponent *)
Definition squ (x y : R) : R := rnd (rnd (x - y) * rnd (x - y)).
Lemma squ_big : forall x, omega_d <= rnd x \/ rnd x <= - omega_d -> omega_d <= rnd (rnd x * rnd x).
Proof.
  intros x H. pose proof omega_pos. rewrite <- (rnd_double _ double_omega). apply rnd_mono.
  destruct H; nra.
Qed.
Lemma sq_fl : forall x, sq_d (fl x) = clamp (rnd (rnd x * rnd x)).
Proof.
  intros x. pose proof (squ_big x). unfold fl.
  destruct (Rle_bool_spec omega_d (rnd x)); [|destruct (Rle_bool_spec (rnd x) (- omega_d))]; cbn [sq_d].
  3: apply fl_clamp; nra.
  all: unfold clamp; destruct (Rle_bool_spec omega_d (rnd (rnd x * rnd x))); auto; exfalso; lra.
Qed.
(** the exact difference that counts in objective [d] *)
Definition ediff (mx : list bool) (plus : bool) (a r : rpoint) (d : nat) : R :=
  if plus then rexcess mx r a d else Rabs (rcoord a d - rcoord r d).
Lemma clamp_0 : clamp 0 = Fin 0.
Proof. unfold clamp. pose proof omega_pos. destruct (Rle_bool_spec omega_d 0); auto. lra. Qed.
Lemma eta_u : 0 <= eta * (1 + u) ^ 3.
Proof. apply Rmult_le_pos. pose proof eta_pos; lra. apply pow_le. pose proof u_pos; lra. Qed.

Lemma sq_term : forall mx plus a r d, (forall x, x = a \/ x = r -> is_double (rcoord x d)) ->
  exists t, sq_d (diff_d mx plus a r d) = clamp t /\ is_double t /\ 0 <= t /\
    t <= (ediff mx plus a r d ^ 2 + eta) * (1 + u) ^ 3 /\ (ediff mx plus a r d ^ 2 - eta) * (1 - u) ^ 3 <= t.
Proof.
  intros mx plus a r d D. assert (Da := D a (or_introl eq_refl)). assert (Dr := D r (or_intror eq_refl)). clear D.
  set (x := rcoord r d) in *. set (y := rcoord a d) in *.
  assert (K : forall p q, is_double p -> is_double q -> 0 <= p - q ->
    let t := rnd (rnd (p - q) * rnd (p - q)) in
    is_double t /\ 0 <= t /\ t <= ((p - q) ^ 2 + eta) * (1 + u) ^ 3 /\ ((p - q) ^ 2 - eta) * (1 - u) ^ 3 <= t).
  { intros p q Hp Hq P t. destruct (term_bound p q p q Hp Hq Hp Hq P P) as (T0 & T1 & T2). fold t in T0, T1, T2.
    replace ((p - q) ^ 2) with ((p - q) * (p - q)) by ring. split; auto. apply rnd_format. }
  assert (Z0 : is_double 0 /\ 0 <= 0 /\ 0 <= (0 ^ 2 + eta) * (1 + u) ^ 3 /\ (0 ^ 2 - eta) * (1 - u) ^ 3 <= 0).
  { replace (0 ^ 2 + eta) with eta by ring. replace (0 ^ 2 - eta) with (- eta) by ring.
    split; [apply generic_format_0|]. split; [lra|]. split; [apply eta_u|].
    assert (0 <= eta * (1 - u) ^ 3). { apply Rmult_le_pos. pose proof eta_pos; lra. pose proof (pow_lower 3); lra. } lra. }
  unfold diff_d, ediff. destruct plus; cbn [negb].
  - (* IGD+ *)
    assert (G : forall p q, is_double p -> is_double q ->
      exists t, sq_d (max0_d (fl (p - q))) = clamp t /\ is_double t /\ 0 <= t /\
        t <= (Rmax (p - q) 0 ^ 2 + eta) * (1 + u) ^ 3 /\ (Rmax (p - q) 0 ^ 2 - eta) * (1 - u) ^ 3 <= t).
    { intros p q Hp Hq. destruct (Rle_lt_dec (p - q) 0) as [L|L].
      - exists 0. rewrite Rmax_right by lra. split; auto.
        assert (M : dle (fl (p - q)) (Fin 0)) by (rewrite <- fl_0; now apply fl_mono).
        assert (E : max0_d (fl (p - q)) = Fin 0).
        { destruct (fl (p - q)); cbn in *; auto; try tauto. destruct (Rle_bool_spec x0 0); auto. lra. }
        rewrite E. cbn [sq_d]. now rewrite Rmult_0_l, fl_0, clamp_0.
      - rewrite Rmax_left by lra. exists (rnd (rnd (p - q) * rnd (p - q))). split; [|apply K; auto; lra].
        rewrite <- sq_fl. f_equal. assert (N : nn (fl (p - q))) by (apply fl_nn; lra).
        destruct (fl (p - q)); unfold nn in N; cbn in *; auto; try tauto.
        destruct (Rle_bool_spec x0 0); auto. f_equal; lra. }
    unfold rexcess. fold x y. destruct (nth d mx false); cbn [negb]; apply G; auto.
  - fold x y. rewrite sq_fl. exists (rnd (rnd (x - y) * rnd (x - y))). split; auto.
    destruct (Rle_lt_dec 0 (x - y)) as [L|L].
    + rewrite Rabs_minus_sym, Rabs_pos_eq by auto. apply K; auto.
    + rewrite Rabs_pos_eq by lra. replace (x - y) with (- (y - x)) by ring. rewrite rnd_opp.
      replace (- rnd (y - x) * - rnd (y - x)) with (rnd (y - x) * rnd (y - x)) by ring. apply K; auto. lra.
Qed.

(** squared distance of a pair of points *)
Lemma sq_dist_close : forall mx plus a r,
  (forall x d, x = a \/ x = r -> (d < length mx)%nat -> is_double (rcoord x d)) ->
  exists t, sq_dist_d mx plus a r = clamp t /\ is_double t /\
    close t (rsum (fun d => ediff mx plus a r d ^ 2) (length mx)) (length mx).
Proof.
  intros mx plus a r D. unfold sq_dist_d.
  assert (G : forall n, (n <= length mx)%nat ->
    exists t, fold_left (fun dist d => plus_d dist (sq_d (diff_d mx plus a r d))) (seq 0 n) (Fin 0) = clamp t /\ is_double t /\
      close t (rsum (fun d => ediff mx plus a r d ^ 2) n) n /\ 0 <= rsum (fun d => ediff mx plus a r d ^ 2) n).
  { induction n as [|n IH]; intros Hn.
    - exists 0. cbn. rewrite clamp_0. split; auto. split; [apply generic_format_0|]. unfold close. cbn.
      split; lra.
    - destruct IH as (t & E & Dt & C & P); [lia|]. rewrite seq_S, fold_left_app, E. cbn [fold_left Nat.add rsum].
      destruct (sq_term mx plus a r n) as (t' & E' & D' & P' & U' & L'). { intros; apply D; auto. }
      rewrite E'. exists (rnd (t + t')). split; [|split; [|split]].
      + apply plus_clamp; auto. apply C.
      + apply rnd_format.
      + apply close_step; auto. apply pow2_ge_0.
      + pose proof (pow2_ge_0 (ediff mx plus a r n)). lra. }
  destruct (G (length mx) (le_n _)) as (t & E & Dt & C & _). eauto.
Qed.

(** square root and rounding *)
Lemma bpow_u : / 2 * bpow radix2 (- (53) + 1) = u.
Proof. unfold u. simpl. lra. Qed.
Lemma lrnd_rel : forall prec emin x, long_double prec emin -> bpow radix2 (-1022) <= x ->
  x * (1 - u) <= lrnd prec emin x <= x * (1 + u).
Proof.
  intros prec emin x [H1 H2] Hx. assert (P : 0 < x). { pose proof (bpow_gt_0 radix2 (-1022)). lra. }
  pose proof (relative_error_N_FLT radix2 emin prec ltac:(unfold Prec_gt_0; lia) (fun z => negb (Z.even z)) x) as H.
  fold ZnearestE in H. fold (lrnd prec emin x) in H. rewrite Rabs_pos_eq in H by lra.
  assert (B : bpow radix2 (emin + prec - 1) <= x). { eapply Rle_trans; [|exact Hx]. apply bpow_le. lia. }
  specialize (H B).
  assert (U : / 2 * bpow radix2 (- prec + 1) <= u).
  { rewrite <- bpow_u. apply Rmult_le_compat_l; [lra|]. apply bpow_le. lia. }
  assert (W : / 2 * bpow radix2 (- prec + 1) * x <= u * x) by (apply Rmult_le_compat_r; lra).
  apply Rabs_le_inv in H. lra.
Qed.
Lemma double_min : forall x, is_double x -> 0 < x -> eta <= x.
Proof.
  intros x D P. destruct (double_multiple x D) as (m & ->). fold eta in *. pose proof eta_pos as He.
  assert (M : (0 < m)%Z). { apply lt_IZR. apply Rmult_lt_reg_r with eta; auto. lra. }
  assert (L : 1 <= IZR m) by (apply IZR_le; lia).
  apply Rmult_le_compat_r with (r := eta) in L; lra.
Qed.
Lemma sqrt_big : forall v, eta <= v -> bpow radix2 (-1000) <= sqrt v.
Proof.
  intros v H. apply Rle_trans with (sqrt eta).
  - unfold eta. replace (bpow radix2 (-1074)) with (bpow radix2 (-537) * bpow radix2 (-537)).
    rewrite sqrt_square. apply bpow_le. lia. apply bpow_ge_0. rewrite <- bpow_plus. reflexivity.
  - apply sqrt_le_1; auto. pose proof eta_pos; lra. pose proof eta_pos; lra.
Qed.
Lemma sqrt_round : forall prec emin v, long_double prec emin -> is_double v -> 0 <= v ->
  sqrt v * (1 - u) ^ 2 <= rnd (lrnd prec emin (sqrt v)) <= sqrt v * (1 + u) ^ 2.
Proof.
  intros prec emin v HL D P. destruct (Req_dec v 0) as [->|N].
  { rewrite sqrt_0, lrnd_0, rnd_0. lra. }
  pose proof (sqrt_big v (double_min v D ltac:(lra))) as B.
  pose proof u_pos as Hu.
  assert (B2 : bpow radix2 (-1022) <= bpow radix2 (-1000)) by (apply bpow_le; lia).
  destruct (lrnd_rel prec emin (sqrt v) HL ltac:(lra)) as [L U]. set (x := lrnd prec emin (sqrt v)) in *.
  assert (X : bpow radix2 (-1022) <= x).
  { apply Rle_trans with (bpow radix2 (-1000) * / 2).
    - replace (bpow radix2 (-1000) * / 2) with (bpow radix2 (-1000) * bpow radix2 (-1)) by (simpl (bpow radix2 (-1)); lra).
      rewrite <- bpow_plus. apply bpow_le. lia.
    - eapply Rle_trans; [|exact L]. apply Rmult_le_compat; try lra. apply bpow_ge_0. }
  pose proof (rnd_rel x X) as [L2 U2]. fold u in L2, U2. 
  split.
  - eapply Rle_trans; [|exact L2]. apply Rmult_le_compat_r with (r := 1 - u) in L; lra.
  - eapply Rle_trans; [exact U2|]. apply Rmult_le_compat_r with (r := 1 + u) in U; lra.
Qed.

(** lower bounds stay valid with more roundings *)
Lemma low_more : forall L t a b, 0 <= t -> (a <= b)%nat -> L * (1 - u) ^ a <= t -> L * (1 - u) ^ b <= t.
Proof.
  intros L t a b T Hab H. pose proof (pow_lower a). pose proof (pow_lower b). pose proof (pow_lower (b - a)).
  destruct (Rle_lt_dec 0 L) as [P|P].
  - eapply Rle_trans; [|exact H]. apply Rmult_le_compat_l; auto. replace b with (a + (b - a))%nat by lia.
    rewrite pow_add. rewrite <- (Rmult_1_r ((1 - u) ^ a)) at 2. apply Rmult_le_compat_l; lra.
  - assert (L * (1 - u) ^ b <= 0 * (1 - u) ^ b); [apply Rmult_le_compat_r; lra|lra].
Qed.
Lemma up_more : forall U t a b, 0 <= U -> (a <= b)%nat -> t <= U * (1 + u) ^ a -> t <= U * (1 + u) ^ b.
Proof.
  intros U t a b P Hab H. eapply Rle_trans; [exact H|]. apply Rmult_le_compat_l; auto. apply Rle_pow; auto.
  pose proof u_pos; lra.
Qed.

(** from squares to distances: [m] exact, [t] the computed square *)
Lemma sqrt_close : forall K t m, 0 <= m -> 0 <= t ->
  t <= (m ^ 2 + INR K * eta) * (1 + u) ^ (3 + K) -> (m ^ 2 - INR K * eta) * (1 - u) ^ (3 + K) <= t ->
  let w := sqrt (INR K * eta) in
  (m - w) * (1 - u) ^ (K / 2 + 2) <= sqrt t <= (m + w) * (1 + u) ^ (K / 2 + 2).
Proof.
  intros K t m Hm Ht U L w. pose proof u_pos as Hu. pose proof eta_pos as He. pose proof (pos_INR K) as HK.
  assert (W0 : 0 <= INR K * eta) by (apply Rmult_le_pos; lra).
  assert (W : w * w = INR K * eta) by (unfold w; apply sqrt_sqrt; auto).
  assert (Wp : 0 <= w) by apply sqrt_pos. rewrite <- W in U, L.
  assert (E : (3 + K <= (K / 2 + 2) + (K / 2 + 2))%nat).
  { pose proof (Nat.div_mod K 2 ltac:(lia)). pose proof (Nat.mod_upper_bound K 2 ltac:(lia)). lia. }
  set (e := (K / 2 + 2)%nat) in *.
  split.
  - destruct (Rle_lt_dec m w) as [G|G].
    { pose proof (sqrt_pos t). pose proof (pow_lower e).
      assert ((m - w) * (1 - u) ^ e <= 0 * (1 - u) ^ e); [apply Rmult_le_compat_r; lra|lra]. }
    apply (low_more _ _ _ (e + e)) in L; auto. pose proof (pow_lower e) as PE.
    rewrite <- (sqrt_square ((m - w) * (1 - u) ^ e)) by (apply Rmult_le_pos; lra).
    apply sqrt_le_1; auto. { apply Rmult_le_pos; apply Rmult_le_pos; lra. }
    eapply Rle_trans; [|exact L]. rewrite pow_add. set (p := (1 - u) ^ e) in *.
    replace ((m - w) * p * ((m - w) * p)) with ((m - w) * (m - w) * (p * p)) by ring.
    apply Rmult_le_compat_r; nra.
  - apply (up_more _ _ _ (e + e)) in U; auto; [|nra]. pose proof (pow_upper e) as PE.
    rewrite <- (sqrt_square ((m + w) * (1 + u) ^ e)) by (apply Rmult_le_pos; lra).
    apply sqrt_le_1; auto. { apply Rmult_le_pos; apply Rmult_le_pos; lra. }
    eapply Rle_trans; [exact U|]. rewrite pow_add. set (p := (1 + u) ^ e) in *.
    replace ((m + w) * p * ((m + w) * p)) with ((m + w) * (m + w) * (p * p)) by ring.
    apply Rmult_le_compat_r; nra.
Qed.

Lemma clamp_fin : forall x v, clamp x = Fin v -> v = x.
Proof. intros x v. unfold clamp. destruct (Rle_bool_spec omega_d x); congruence. Qed.
Lemma dle_clamp : forall x v, dle (Fin v) (clamp x) -> v < omega_d -> v <= x.
Proof. intros x v. unfold clamp. destruct (Rle_bool_spec omega_d x); cbn [dle]; intros; lra. Qed.
Lemma clamp_small : forall x v, clamp x = Fin v -> v < omega_d.
Proof. intros x v. unfold clamp. destruct (Rle_bool_spec omega_d x); [discriminate|]. intros H1. injection H1 as <-. auto. Qed.

Lemma rsum_sq : forall f n, 0 <= rsum (fun d => f d ^ 2) n.
Proof. induction n; cbn [rsum]; [lra|]. pose proof (pow2_ge_0 (f n)). lra. Qed.
(** one row of the first set *)
Lemma row_close : forall prec emin mx plus S a m s, long_double prec emin ->
  (forall x d, x = a \/ In x S -> (d < length mx)%nat -> is_double (rcoord x d)) ->
  rnearest (fun r => sqrt (rsum (fun d => ediff mx plus a r d ^ 2) (length mx))) S m ->
  sqrt_d prec emin (min_sq_dist_d mx plus S a) = Fin s ->
  let w := sqrt (INR (length mx) * eta) in
  is_double s /\ 0 <= s /\ 0 <= m /\ (m - w) * (1 - u) ^ (length mx / 2 + 4) <= s <= (m + w) * (1 + u) ^ (length mx / 2 + 4).
Proof.
  intros prec emin mx plus S a m s HL D ((s0 & I0 & E0) & Lm) Hs w. set (K := length mx) in *.
  set (T := fun r => rsum (fun d => ediff mx plus a r d ^ 2) K) in *.
  assert (T0 : forall r, 0 <= T r).
  { intros r. apply rsum_sq. }
  assert (C : forall r, In r S -> exists t, sq_dist_d mx plus a r = clamp t /\ is_double t /\ close t (T r) K).
  { intros r Hr. apply sq_dist_close. intros x d [->| ->] Hd; apply D; auto. }
  destruct (min_sq_dist_spec mx plus S a) as [Lo At].
  destruct (min_sq_dist_d mx plus S a) as [|v|] eqn:EM; cbn [sqrt_d] in Hs; try discriminate.
  destruct At as [At|(r0 & Ir0 & At)]; [discriminate|].
  destruct (C r0 Ir0) as (t0 & Et0 & Dt0 & (P0 & _ & Q0)). rewrite Et0 in At. symmetry in At.
  pose proof (clamp_fin _ _ At) as ->. pose proof (clamp_small _ _ At) as Sm.
  destruct (C s0 I0) as (t1 & Et1 & Dt1 & (P1 & Q1 & _)).
  assert (L1 : t0 <= t1). { apply dle_clamp; auto. rewrite <- Et1. now apply Lo. }
  assert (M0 : 0 <= m). { rewrite E0. apply sqrt_pos. }
  assert (M1 : m ^ 2 = T s0). { rewrite E0. cbn [pow]. rewrite Rmult_1_r. now apply sqrt_sqrt. }
  assert (M2 : m ^ 2 <= T r0).
  { specialize (Lm r0 Ir0). fold (T r0) in Lm. pose proof (sqrt_sqrt (T r0) (T0 r0)). pose proof (sqrt_pos (T r0)). nra. }
  destruct (sqrt_close K t0 m M0 P0) as [B1 B2].
  { rewrite M1. lra. }
  { eapply Rle_trans; [|exact Q0]. pose proof (pow_lower (3 + K)). apply Rmult_le_compat_r; lra. }
  fold w in B1, B2. destruct (sqrt_round prec emin t0 HL Dt0 P0) as [R1 R2].
  assert (N0 : 0 <= lrnd prec emin (sqrt t0)) by (apply lrnd_nn; auto; apply sqrt_pos).
  rewrite fl_clamp in Hs by auto. apply clamp_fin in Hs. subst s.
  set (s := rnd (lrnd prec emin (sqrt t0))) in *.
  assert (S0 : 0 <= s) by (apply rnd_nonneg; auto).
  split; [apply rnd_format|]. split; [auto|]. split; [auto|].
  replace (K / 2 + 4)%nat with ((K / 2 + 2) + 2)%nat by lia. set (e := (K / 2 + 2)%nat) in *. rewrite !pow_add. pose proof u_pos as Hu.
  assert (0 <= (1 - u) ^ 2) by apply pow2_ge_0. assert (0 <= (1 + u) ^ 2) by apply pow2_ge_0.
  apply Rmult_le_compat_r with (r := (1 - u) ^ 2) in B1; auto.
  apply Rmult_le_compat_r with (r := (1 + u) ^ 2) in B2; auto. lra.
Qed.

Lemma sum_PosInf : forall (f : rpoint -> ext R) l, (forall a, nn (f a)) ->
  fold_left (fun gd a => plus_d gd (f a)) l PosInf = PosInf.
Proof.
  induction l as [|a l IH]; intros F; cbn [fold_left]; auto.
  pose proof (F a) as N. destruct (f a); unfold nn in N; cbn in N; try tauto; cbn [plus_d]; auto.
Qed.

(** the sum over the rows *)
Lemma sum_close : forall prec emin mx plus S l ms k s V v, long_double prec emin ->
  (forall x d, In x l \/ In x S -> (d < length mx)%nat -> is_double (rcoord x d)) ->
  Forall2 (fun a m => rnearest (fun r => sqrt (rsum (fun d => ediff mx plus a r d ^ 2) (length mx))) S m) l ms ->
  let w := sqrt (INR (length mx) * eta) in let e := (length mx / 2 + 4)%nat in
  is_double s -> 0 <= s -> 0 <= V -> (V - INR k * w) * (1 - u) ^ (e + k) <= s <= (V + INR k * w) * (1 + u) ^ (e + k) ->
  fold_left (fun gd a => plus_d gd (sqrt_d prec emin (min_sq_dist_d mx plus S a))) l (Fin s) = Fin v ->
  0 <= v /\ 0 <= V + rlist_sum ms /\ (V + rlist_sum ms - INR (k + length l) * w) * (1 - u) ^ (e + (k + length l)) <= v <=
  (V + rlist_sum ms + INR (k + length l) * w) * (1 + u) ^ (e + (k + length l)).
Proof.
  intros prec emin mx plus S l ms k s V v HL D F w e. revert k s V D.
  induction F as [|a m l ms H F IH]; intros k s V D Ds S0 V0 B E; cbn [fold_left rlist_sum fold_right length] in *.
  - injection E as <-. rewrite Nat.add_0_r, Rplus_0_r. auto.
  - fold (rlist_sum ms) in *.
    assert (N : forall b, nn (sqrt_d prec emin (min_sq_dist_d mx plus S b))).
    { intros. apply sqrt_nn; auto. apply min_nn. }
    destruct (sqrt_d prec emin (min_sq_dist_d mx plus S a)) as [|t|] eqn:Et.
    { specialize (N a). rewrite Et in N. destruct N. }
    2:{ cbn [plus_d] in E. rewrite sum_PosInf in E by auto. discriminate. }
    destruct (row_close prec emin mx plus S a m t HL) as (Dt & T0 & M0 & T1 & T2); auto.
    { intros x d [->|I] Hd; apply D; auto. left; cbn; auto. }
    fold w e in T1, T2. cbn [plus_d] in E. rewrite fl_clamp in E by lra.
    destruct (clamp (rnd (s + t))) as [|s'|] eqn:Ec.
    { unfold clamp in Ec. destruct (Rle_bool_spec omega_d (rnd (s + t))); discriminate. }
    2:{ rewrite sum_PosInf in E by auto. discriminate. }
    apply clamp_fin in Ec. subst s'. pose proof (rnd_plus s t Ds Dt ltac:(lra)) as [A1 A2].
    assert (W0 : 0 <= w) by apply sqrt_pos. pose proof (pos_INR k) as Hk. pose proof u_pos as Hu.
    specialize (IH (Datatypes.S k) (rnd (s + t)) (V + m)).
    replace (k + Datatypes.S (length l))%nat with (Datatypes.S k + length l)%nat by lia.
    replace (V + (m + rlist_sum ms)) with (V + m + rlist_sum ms) by ring.
    apply IH; auto.
    + intros x d [I|I] Hd; apply D; auto. left; cbn; auto.
    + apply rnd_format.
    + apply rnd_nonneg. lra.
    + lra.
    + rewrite S_INR. replace (e + Datatypes.S k)%nat with (Datatypes.S (e + k)) by lia. cbn [pow].
      apply (low_more _ _ _ (e + k)) in T1; auto; [|lia].
      apply (up_more _ _ _ (e + k)) in T2; [|lra|lia]. destruct B as [B1 B2].
      set (p := (1 - u) ^ (e + k)) in *. set (q := (1 + u) ^ (e + k)) in *.
      split.
      * eapply Rle_trans; [|exact A1].
        assert (((V - INR k * w) * p + (m - w) * p) * (1 - u) <= (s + t) * (1 - u)) by (apply Rmult_le_compat_r; lra). lra.
      * eapply Rle_trans; [exact A2|].
        assert ((s + t) * (1 + u) <= ((V + INR k * w) * q + (m + w) * q) * (1 + u)) by (apply Rmult_le_compat_r; lra). lra.
Qed.

Lemma gd_close : forall prec emin mx plus A S v V, long_double prec emin -> A <> [] ->
  doubles (length mx) A -> doubles (length mx) S ->
  rmean_nearest (fun a r => sqrt (rsum (fun d => ediff mx plus a r d ^ 2) (length mx))) A S V ->
  gd_common_d prec emin mx A S plus = Fin v -> gd_accurate (length mx) (length A) v V.
Proof.
  intros prec emin mx plus A S v V HL HA DA DS (ms & F & EV) E.
  assert (E' : gd_common_d prec emin mx A S plus =
    div_d (fold_left (fun gd a => plus_d gd (sqrt_d prec emin (min_sq_dist_d mx plus S a))) A (Fin 0)) (length A)).
  { destruct A; [contradiction|reflexivity]. }
  rewrite E' in E. clear E'.
  destruct (fold_left _ A (Fin 0)) as [|x|] eqn:Ex in E; cbn [div_d] in E; try discriminate.
  pose proof (sqrt_pos (INR (length mx) * eta)) as W0.
  destruct (sum_close prec emin mx plus S A ms 0 0 0 x) as (X0 & M0 & L & U); auto; try lra.
  { intros y d [I|I] Hd; [now apply DA|now apply DS]. }
  { apply generic_format_0. }
  { cbn [INR]. rewrite Nat.add_0_r. lra. }
  unfold gd_accurate. set (w := sqrt (INR (length mx) * eta)) in *. cbn [Nat.add] in L, U.
  rewrite Rplus_0_l in *.
  set (n := length A) in *. assert (N : 0 < INR n). { apply lt_0_INR. unfold n. destruct A; [contradiction|cbn; lia]. }
  assert (Q0 : 0 <= x / INR n). { apply Rmult_le_pos; auto. apply Rlt_le, Rinv_0_lt_compat; auto. }
  rewrite fl_clamp in E by auto. apply clamp_fin in E. subst v.
  pose proof (rnd_mult _ Q0) as [R1 R2]. pose proof u_pos as Hu. pose proof eta_pos as He.
  replace (length mx / 2 + n + 5)%nat with (Datatypes.S (length mx / 2 + 4 + n)) by lia. cbn [pow].
  set (p := (1 - u) ^ (length mx / 2 + 4 + n)) in *. set (q := (1 + u) ^ (length mx / 2 + 4 + n)) in *.
  assert (IN : 0 < / INR n) by now apply Rinv_0_lt_compat.
  assert (V1 : rlist_sum ms = V * INR n). { rewrite EV. field. lra. }
  rewrite V1 in L, U.
  assert (L' : (V - w) * p <= x / INR n).
  { apply Rmult_le_compat_r with (r := / INR n) in L; [|lra]. unfold Rdiv.
    replace ((V * INR n - INR n * w) * p * / INR n) with ((V - w) * p) in L by (field; lra). exact L. }
  assert (U' : x / INR n <= (V + w) * q).
  { apply Rmult_le_compat_r with (r := / INR n) in U; [|lra]. unfold Rdiv.
    replace ((V * INR n + INR n * w) * q * / INR n) with ((V + w) * q) in U by (field; lra). exact U. }
  apply Rmult_le_compat_r with (r := 1 - u) in L'; [|lra]. apply Rmult_le_compat_r with (r := 1 + u) in U'; [|lra]. lra.
Qed.

Lemma nearest_ex : forall (f : rpoint -> R) S, S <> [] -> exists m, rnearest f S m.
Proof.
  intros f S H. induction S as [|s S IH]; [contradiction|].
  destruct S as [|s' S].
  - exists (f s). split. exists s; cbn; auto. intros x [->|[]]; lra.
  - destruct IH as (m & (x & I & E) & L); [discriminate|].
    destruct (Rle_lt_dec (f s) m) as [G|G].
    + exists (f s). split. exists s; cbn; auto. intros y [->|Iy]; [lra|]. specialize (L y Iy). lra.
    + exists m. split. exists x; split; auto; now right. intros y [->|Iy]; [lra|auto].
Qed.
Lemma mean_ex : forall dist A S, S <> [] -> exists V, rmean_nearest dist A S V.
Proof.
  intros dist A S H.
  assert (G : exists ms, Forall2 (fun a m => rnearest (dist a) S m) A ms).
  { induction A as [|a A IH]; [exists []; auto|]. destruct IH as (ms & F). destruct (nearest_ex (dist a) S H) as (m & Hm).
    exists (m :: ms). auto. }
  destruct G as (ms & F). exists (rlist_sum ms / INR (length A)), ms. auto.
Qed.
Lemma rsum_ext : forall f g n, (forall d, f d = g d) -> rsum f n = rsum g n.
Proof. intros f g n H. induction n; cbn [rsum]; congruence. Qed.
Lemma mean_ext : forall f g A S V, (forall a r, f a r = g a r) -> rmean_nearest f A S V -> rmean_nearest g A S V.
Proof.
  intros f g A S V H (ms & F & E). exists ms. split; auto. clear E. induction F as [|a m A ms N F IH]; constructor; auto.
  destruct N as ((s & I & Es) & L). split. exists s. rewrite <- H. auto. intros. rewrite <- H. auto.
Qed.

(** If the result is finite it has a small relative error, apart from underflow. *)
Theorem C80_accuracy : forall prec emin mx (A S : list rpoint) v, long_double prec emin -> A <> [] -> S <> [] ->
  doubles (length mx) A -> doubles (length mx) S ->
  (GD_d prec emin A S mx = Fin v -> exists V,
     rmean_nearest (reuclid (length mx)) A S V /\ gd_accurate (length mx) (length A) v V) /\
  (IGD_d prec emin A S mx = Fin v -> exists V,
     rmean_nearest (reuclid (length mx)) S A V /\ gd_accurate (length mx) (length S) v V) /\
  (IGD_plus_d prec emin A S mx = Fin v -> exists V,
     rmean_nearest (fun r a => rdist_plus mx a r) S A V /\ gd_accurate (length mx) (length S) v V).
Proof.
  intros prec emin mx A S v HL HA HS DA DS.
  assert (K : forall A S, A <> [] -> S <> [] -> doubles (length mx) A -> doubles (length mx) S ->
    GD_d prec emin A S mx = Fin v -> exists V,
     rmean_nearest (reuclid (length mx)) A S V /\ gd_accurate (length mx) (length A) v V).
  { clear -HL. intros A S HA HS DA DS E. destruct (mean_ex (reuclid (length mx)) A S HS) as (V & HV).
    exists V. split; auto. eapply (gd_close _ _ mx false A S); eauto.
    eapply mean_ext; [|exact HV]. intros a r. unfold reuclid. f_equal. apply rsum_ext. intros d. unfold ediff.
    now rewrite pow2_abs. }
  split; [|split].
  - intros E. apply K; auto.
  - intros E. apply (K S A); auto.
  - intros E. destruct (mean_ex (fun r a => rdist_plus mx a r) S A HA) as (V & HV).
    exists V. split; auto. eapply (gd_close _ _ mx true S A); eauto.
Qed.
Print Assumptions C80_accuracy.

(** ** The bound as one number *)
Lemma pow_up_lin : forall k, INR k * u <= / 2 -> (1 + u) ^ k <= 1 + 2 * INR k * u.
Proof.
  induction k as [|k IH]; intros H; [cbn; lra|]. rewrite S_INR in *. pose proof u_pos as Hu. pose proof (pos_INR k) as Hk.
  cbn [pow]. specialize (IH ltac:(nra)).
  apply Rle_trans with ((1 + u) * (1 + 2 * INR k * u)). apply Rmult_le_compat_l; lra. nra.
Qed.
Lemma pow_low_lin : forall k, 1 - INR k * u <= (1 - u) ^ k.
Proof.
  induction k as [|k IH]; [cbn; lra|]. rewrite S_INR. pose proof u_pos as Hu. pose proof (pos_INR k) as Hk. cbn [pow].
  apply Rle_trans with ((1 - u) * (1 - INR k * u)). nra. apply Rmult_le_compat_l; lra.
Qed.
(** error at most (2 * roundings * 2^-53) relative, plus the underflow term, while there are
    at most 2^52 roundings *)
Theorem C80_error_bound : forall dim n v V, 0 <= V -> INR (dim / 2 + n + 5) * u <= / 2 ->
  gd_accurate dim n v V ->
  Rabs (v - V) <= 2 * INR (dim / 2 + n + 5) * u * V + (2 * sqrt (INR dim * eta) + eta).
Proof.
  intros dim n v V HV HK H. unfold gd_accurate in H. set (k := (dim / 2 + n + 5)%nat) in *.
  set (w := sqrt (INR dim * eta)) in *. assert (W : 0 <= w) by apply sqrt_pos.
  pose proof (pow_up_lin k HK) as U. pose proof (pow_low_lin k) as L. pose proof (pow_upper k) as U1.
  pose proof (pow_lower k) as L1.
  set (p := (1 - u) ^ k) in *. set (q := (1 + u) ^ k) in *. set (c := INR k * u) in *.
  replace (2 * INR k * u) with (2 * c) in * by (unfold c; ring).
  assert (C : 0 <= c) by (unfold c; apply Rmult_le_pos; [apply pos_INR|pose proof u_pos; lra]).
  pose proof eta_pos as He.
  apply Rabs_le. split; nra.
Qed.
Print Assumptions C80_error_bound.

(** ** What fails *)
Lemma double_bpow : forall e, (-1074 <= e)%Z -> is_double (bpow radix2 e).
Proof. intros e H. apply generic_format_bpow. unfold dexp, FLT_exp. lia. Qed.
Lemma fl_bpow : forall e, (-1074 <= e < 1024)%Z -> fl (bpow radix2 e) = Fin (bpow radix2 e).
Proof.
  intros e H. rewrite fl_clamp by apply bpow_ge_0. rewrite rnd_double by (apply double_bpow; lia).
  unfold clamp. destruct (Rle_bool_spec omega_d (bpow radix2 e)) as [L|L]; auto.
  assert (bpow radix2 e < omega_d) by (apply bpow_lt; lia). lra.
Qed.
Lemma rnd_tiny : forall e, (e < -1075)%Z -> rnd (bpow radix2 e) = 0.
Proof.
  intros e H. unfold rnd. apply round_N_small with (ex := (e + 1)%Z).
  - rewrite Rabs_pos_eq by apply bpow_ge_0. replace (e + 1 - 1)%Z with e by lia. split; [lra|apply bpow_lt; lia].
  - unfold dexp, FLT_exp. lia.
Qed.
Lemma one_pair : forall prec emin plus e,
  gd_common_d prec emin [false] [[0]] [[bpow radix2 e]] plus =
  div_d (plus_d (Fin 0) (sqrt_d prec emin (plus_d (Fin 0)
    (sq_d (if plus then max0_d (fl (bpow radix2 e)) else fl (bpow radix2 e)))))) 1.
Proof.
  intros. unfold gd_common_d, min_sq_dist_d, sq_dist_d, diff_d. cbn [fold_left length seq nth rcoord negb].
  unfold rcoord. cbn [nth]. rewrite Rminus_0_r.
  replace (if negb plus then fl (bpow radix2 e) else max0_d (fl (bpow radix2 e)))
    with (if plus then max0_d (fl (bpow radix2 e)) else fl (bpow radix2 e)) by (destruct plus; auto).
  set (x := plus_d (Fin 0) (sq_d _)). destruct x eqn:Ex; auto.
Qed.
Lemma max0_bpow : forall e, max0_d (Fin (bpow radix2 e)) = Fin (bpow radix2 e).
Proof. intros. cbn [max0_d]. pose proof (bpow_gt_0 radix2 e). destruct (Rle_bool_spec (bpow radix2 e) 0); auto. lra. Qed.

(** The converse of [C80_exact_zero] is false for doubles: the squares can underflow,
    so IGD = 0 and IGD+ = 0 do not mean that the reference set is reached. *)
Theorem C80_zero_sufficient_refuted : forall prec emin, long_double prec emin ->
  exists mx (A Rf : list rpoint), doubles (length mx) A /\ doubles (length mx) Rf /\
    ~ rset_wdom mx A Rf /\ (forall r, In r Rf -> ~ In r A) /\
    IGD_d prec emin A Rf mx = Fin 0 /\ IGD_plus_d prec emin A Rf mx = Fin 0.
Proof.
  intros prec emin HL. exists [false], [[bpow radix2 (-600)]], [[0]].
  assert (P : 0 < bpow radix2 (-600)) by apply bpow_gt_0.
  assert (Z : forall plus, gd_common_d prec emin [false] [[0]] [[bpow radix2 (-600)]] plus = Fin 0).
  { intros plus. rewrite one_pair, fl_bpow, max0_bpow by lia.
    replace (if plus then Fin (bpow radix2 (-600)) else Fin (bpow radix2 (-600))) with (Fin (bpow radix2 (-600)))
      by (destruct plus; auto).
    cbn [sq_d]. rewrite <- bpow_plus. rewrite fl_clamp by apply bpow_ge_0. rewrite rnd_tiny by lia. rewrite clamp_0.
    cbn [plus_d]. rewrite Rplus_0_l, fl_0. cbn [sqrt_d]. rewrite sqrt_0, lrnd_0, fl_0. cbn [plus_d].
    rewrite Rplus_0_l, fl_0. cbn [div_d]. unfold Rdiv. rewrite Rmult_0_l. apply fl_0. }
  split; [|split; [|split; [|split; [|split]]]].
  - intros p d [<-|[]] Hd. destruct d; [|cbn in Hd; lia]. apply double_bpow. lia.
  - intros p d [<-|[]] Hd. destruct d; [|cbn in Hd; lia]. apply generic_format_0.
  - intros W. destruct (W [0]) as (a & [<-|[]] & Wa). now left. specialize (Wa 0%nat ltac:(cbn; lia)). cbn [nth rcoord] in Wa.
    unfold rcoord in Wa. cbn [nth] in Wa. lra.
  - intros r [<-|[]] [E|[]]. injection E as E. lra.
  - apply Z.
  - apply Z.
Qed.
Print Assumptions C80_zero_sufficient_refuted.

(** The result can be infinite although the exact distance is a double. *)
Theorem C80_finite_refuted : forall prec emin, long_double prec emin ->
  exists mx (A Rf : list rpoint) V, doubles (length mx) A /\ doubles (length mx) Rf /\
    rmean_nearest (reuclid (length mx)) Rf A V /\ is_double V /\ V < omega_d /\
    IGD_d prec emin A Rf mx = PosInf /\ IGD_plus_d prec emin A Rf mx = PosInf.
Proof.
  intros prec emin HL. exists [false], [[bpow radix2 600]], [[0]], (bpow radix2 600).
  assert (Z : forall plus, gd_common_d prec emin [false] [[0]] [[bpow radix2 600]] plus = PosInf).
  { intros plus. rewrite one_pair, fl_bpow, max0_bpow by lia.
    replace (if plus then Fin (bpow radix2 600) else Fin (bpow radix2 600)) with (Fin (bpow radix2 600))
      by (destruct plus; auto).
    cbn [sq_d]. rewrite <- bpow_plus. rewrite fl_clamp by apply bpow_ge_0. rewrite rnd_double by (apply double_bpow; lia).
    unfold clamp. assert (omega_d <= bpow radix2 (600 + 600)) by (apply bpow_le; lia).
    destruct (Rle_bool_spec omega_d (bpow radix2 (600 + 600))); [reflexivity|lra]. }
  split; [|split; [|split; [|split; [|split; [|split]]]]].
  - intros p d [<-|[]] Hd. destruct d; [|cbn in Hd; lia]. apply double_bpow. lia.
  - intros p d [<-|[]] Hd. destruct d; [|cbn in Hd; lia]. apply generic_format_0.
  - exists [bpow radix2 600].
    assert (E : bpow radix2 600 = reuclid (length [false]) [0] [bpow radix2 600]).
    { unfold reuclid. cbn [length rsum]. unfold rcoord. cbn [nth].
      set (b := bpow radix2 600). assert (0 <= b) by apply bpow_ge_0.
      replace (0 + (0 - b) ^ 2) with (b * b) by ring. now rewrite sqrt_square. }
    split.
    + constructor; [|constructor]. split. exists [bpow radix2 600]. split; auto. now left.
      intros s [<-|[]]. rewrite <- E. lra.
    + unfold rlist_sum. cbn [fold_right length INR]. lra.
  - apply double_bpow. lia.
  - apply bpow_lt. lia.
  - apply Z.
  - apply Z.
Qed.
Print Assumptions C80_finite_refuted.

(** ** The hypotheses can be met: one reference point, x87 long double *)
Example C80_example : long_double 64 (-16445) /\ long_double 53 (-1074) /\
  rset_wdom [false] [[1]] [[2]] /\ doubles 1 [[2]] /\
  IGD_d 64 (-16445) [[2]] [[0]] [false] = Fin 2 /\
  gd_accurate 1 1 2 2.
Proof.
  split; [split; lia|]. split; [split; lia|]. split; [|split; [|split]].
  - intros b [<-|[]]. exists [1]. split; [now left|]. intros d Hd. destruct d; [|cbn in Hd; lia].
    unfold rcoord. cbn [nth]. lra.
  - intros p d [<-|[]] Hd. destruct d; [|lia]. change (rcoord [2] 0) with 2. apply (double_int 2). lia.
  - change 2 with (bpow radix2 1). unfold IGD_d. rewrite one_pair, fl_bpow by lia. cbn [sq_d].
    rewrite <- bpow_plus, fl_bpow by lia. cbn [plus_d]. rewrite Rplus_0_l, fl_bpow by lia. cbn [sqrt_d].
    rewrite bpow_plus, sqrt_square by apply bpow_ge_0.
    assert (L : lrnd 64 (-16445) (bpow radix2 1) = bpow radix2 1).
    { unfold lrnd. apply round_generic. apply valid_rnd_N. apply generic_format_bpow. unfold FLT_exp. lia. }
    rewrite L, fl_bpow by lia. cbn [plus_d]. rewrite Rplus_0_l, fl_bpow by lia. cbn [div_d INR].
    unfold Rdiv. rewrite Rinv_1, Rmult_1_r. now apply fl_bpow.
  - unfold gd_accurate. pose proof (sqrt_pos (INR 1 * eta)) as W. pose proof eta_pos as He.
    set (w := sqrt (INR 1 * eta)) in *. set (k := (1 / 2 + 1 + 5)%nat).
    pose proof (pow_lower k) as L. pose proof (pow_upper k) as U.
    assert (w <= 1).
    { unfold w. apply Rle_trans with (sqrt 1); [|rewrite sqrt_1; lra]. apply sqrt_le_1; try lra. cbn [INR]. lra.
      cbn [INR]. unfold eta. rewrite Rmult_1_l. change 1 with (bpow radix2 0). apply bpow_le. lia. }
    split; nra.
Qed.
