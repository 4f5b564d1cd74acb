(** Property C55, continued: hv_approx is an unbiased estimator of the hypervolume in
    every dimension.

    The direction of independent standard normal numbers, taken absolutely, is uniform
    on the part of the unit sphere with positive coordinates.  In spherical coordinates
    ([into]) a direction with one more objective is (sin t, cos t * w), where w is such
    a direction with one objective less and the angle t between 0 and pi/2 has a density
    proportional to the power (number of coordinates of w - 1) of cos t;
    [mean_direction] is the mean over that distribution, an iterated Riemann integral
    (that normal numbers give this distribution is a fact about the random number
    generator and is not proved here; [moments] shows that every coordinate has the mean
    square of the uniform distribution). *)
From Coq Require Import List ZArith Lia Bool Arith Reals Lra.
From Coquelicot Require Import Coquelicot.
From Flocq Require Import Core.
From Verif Require Import Base EpsModel EpsFloatModel HvApproxModel PropEpsFloat PropHvApprox PropHvApproxMean PropHvApprox2d.
From Verif Require HvSpec.
Import ListNotations.
Open Scope R_scope.

(** ** Directions *)
Definition into (t : R) (w : rpoint) : rpoint := sin t :: map (Rmult (cos t)) w.
Definition weight (k : nat) : R := RInt (fun t => cos t ^ k) 0 (PI / 2).
(** a direction with [n] positive coordinates *)
Definition inner (n : nat) (w : rpoint) : Prop := length w = n /\ forall d, (d < n)%nat -> 0 < rcoord w d.

(** [k] + 1 coordinates: the mean, and the class of functions for which all the
    integrals of the mean exist *)
Fixpoint mean_direction (k : nat) (f : rpoint -> R) : R :=
  match k with
  | O => f [1]
  | S k' => mean_direction k' (fun w => RInt (fun t => f (into t w) * cos t ^ k') 0 (PI / 2) / weight k')
  end.
Fixpoint integrable (k : nat) (f : rpoint -> R) : Prop :=
  match k with
  | O => True
  | S k' =>
      (forall w, inner (S k') w -> ex_RInt (fun t => f (into t w) * cos t ^ k') 0 (PI / 2)) /\
      integrable k' (fun w => RInt (fun t => f (into t w) * cos t ^ k') 0 (PI / 2) / weight k')
  end.

(** *** Means *)
Lemma into_inner : forall k w t, inner (S k) w -> 0 < t < PI / 2 -> inner (S (S k)) (into t w).
Proof.
  intros k w t [L P] Ht. destruct (angle_pos t Ht) as [C S]. unfold into. split.
  - cbn [length]. now rewrite map_length, L.
  - intros d Hd. unfold rcoord. destruct d as [|d]; cbn [nth]. exact S.
    rewrite nth_indep with (d' := cos t * 0) by (rewrite map_length; lia). rewrite map_nth.
    apply Rmult_lt_0_compat; auto. apply P. lia.
Qed.
Lemma inner_direction : forall k w, inner (S k) w -> direction_of (S k) w.
Proof.
  intros k w [L P]. split.
  - intros d. destruct (Nat.lt_ge_cases d (S k)). left; now apply P. right. unfold rcoord. rewrite nth_overflow; auto. lia.
  - exists 0%nat. split; [lia|]. apply P. lia.
Qed.

Lemma mean_ext : forall k f g, integrable k f -> (forall w, inner (S k) w -> f w = g w) ->
  integrable k g /\ mean_direction k g = mean_direction k f.
Proof.
  pose proof half_pi as HP.
  induction k as [|k IH]; intros f g If E; cbn [integrable mean_direction] in *.
  - split; auto. symmetry. apply E. split; auto. intros d Hd. replace d with 0%nat by lia. unfold rcoord; cbn. lra.
  - destruct If as [I1 I2].
    assert (K : forall w, inner (S k) w -> forall t, Rmin 0 (PI / 2) < t < Rmax 0 (PI / 2) ->
      f (into t w) * cos t ^ k = g (into t w) * cos t ^ k).
    { intros w Hw t Ht. rewrite Rmin_left, Rmax_right in Ht by lra. rewrite E; auto. now apply into_inner. }
    destruct (IH _ (fun w => RInt (fun t => g (into t w) * cos t ^ k) 0 (PI / 2) / weight k) I2) as [I3 E3].
    { intros w Hw. rewrite (RInt_ext _ _ _ _ (K w Hw)). reflexivity. }
    split; [split|]; auto. intros w Hw. exact (ex_RInt_ext _ _ _ _ (K w Hw) (I1 w Hw)).
Qed.

Lemma mean_linear : forall k f g a b, integrable k f -> integrable k g ->
  integrable k (fun w => a * f w + b * g w) /\
  mean_direction k (fun w => a * f w + b * g w) = a * mean_direction k f + b * mean_direction k g.
Proof.
  pose proof half_pi as HP.
  induction k as [|k IH]; intros f g a b If Ig; cbn [integrable mean_direction] in *; auto.
  destruct If as [F1 F2]. destruct Ig as [G1 G2].
  assert (L : forall w, inner (S k) w ->
    is_RInt (fun t => (a * f (into t w) + b * g (into t w)) * cos t ^ k) 0 (PI / 2)
      (a * RInt (fun t => f (into t w) * cos t ^ k) 0 (PI / 2) + b * RInt (fun t => g (into t w) * cos t ^ k) 0 (PI / 2))).
  { intros w Hw. apply (is_RInt_ext (fun t => plus (scal a (f (into t w) * cos t ^ k)) (scal b (g (into t w) * cos t ^ k)))).
    { intros t _. unfold plus, scal; cbn. unfold mult; cbn. ring. }
    apply (is_RInt_plus (V := R_NormedModule)); apply (is_RInt_scal (V := R_NormedModule));
    [exact (RInt_correct _ _ _ (F1 w Hw))|exact (RInt_correct _ _ _ (G1 w Hw))]. }
  destruct (IH _ _ a b F2 G2) as [I3 E3]. rewrite <- E3.
  destruct (mean_ext k _ (fun w => RInt (fun t => (a * f (into t w) + b * g (into t w)) * cos t ^ k) 0 (PI / 2) / weight k) I3) as [I4 E4].
  { intros w Hw. rewrite (is_RInt_unique _ _ _ _ (L w Hw)). unfold Rdiv. ring. }
  split; [split|]; auto. intros w Hw. eexists. now apply L.
Qed.

Lemma mean_direction_value : forall k, mean_value (S k) (integrable k) (mean_direction k).
Proof.
  intros k. split; [|split].
  - intros f g If E. apply mean_ext; auto. intros w Hw. apply E. now apply inner_direction.
  - intros f g If Ig. destruct (mean_linear k f g 1 1 If Ig) as [I E].
    destruct (mean_ext k _ (fun w => f w + g w) I) as [I' E']. intros; ring. split; auto. rewrite E', E. ring.
  - intros f g If Ig. destruct (mean_linear k f g 1 (-1) If Ig) as [I E].
    destruct (mean_ext k _ (fun w => f w - g w) I) as [I' E']. intros; ring. split; auto. rewrite E', E. ring.
Qed.

(** *** The integrals of the powers of the cosine *)
Lemma ftc : forall (F f : R -> R) a b v, a <= b -> (forall x, a <= x <= b -> is_derive F x (f x)) ->
  (forall x, a <= x <= b -> ex_derive f x) -> F b - F a = v -> is_RInt f a b v.
Proof.
  intros F f a b v Hab HF Hf <-. change (F b - F a) with (minus (F b) (F a)).
  apply (is_RInt_derive F f); rewrite Rmin_left, Rmax_right by auto; intros x Hx; auto.
  now apply (ex_derive_continuous f), Hf.
Qed.
Lemma cos_power_int : forall k, ex_RInt (fun t => cos t ^ k) 0 (PI / 2).
Proof.
  intros k. apply (ex_RInt_continuous (V := R_CompleteNormedModule)). intros x _.
  apply (ex_derive_continuous (fun t => cos t ^ k)). auto_derive. auto.
Qed.
Lemma weight_0 : weight 0 = PI / 2.
Proof.
  unfold weight. rewrite (RInt_ext _ (fun _ => 1)) by (intros; reflexivity).
  rewrite RInt_const. unfold scal; cbn; unfold mult; cbn. ring.
Qed.
Lemma weight_1 : weight 1 = 1.
Proof.
  pose proof half_pi. unfold weight. apply is_RInt_unique. apply (ftc sin); try lra; intros.
  - auto_derive; auto. ring.
  - auto_derive. auto.
  - rewrite sin_PI2, sin_0. ring.
Qed.
Lemma weight_SS : forall k, INR (S (S k)) * weight (S (S k)) = INR (S k) * weight k.
Proof.
  intros k. pose proof half_pi.
  assert (I : is_RInt (fun t => INR (S (S k)) * cos t ^ (S (S k)) - INR (S k) * cos t ^ k) 0 (PI / 2) 0).
  { apply (ftc (fun t => sin t * cos t ^ S k)); try lra; intros.
    - auto_derive; auto. change (Init.Nat.pred (S k)) with k.
      assert (SC : sin x * sin x = 1 - cos x * cos x) by (pose proof (sin2_cos2 x) as Q; unfold Rsqr in Q; lra).
      change (match k with O => 1 | S _ => INR k + 1 end) with (INR (S k)).
      match goal with |- ?a = _ => replace a with (cos x * cos x ^ S k - INR (S k) * (sin x * sin x) * cos x ^ k) by (cbn [pow]; ring) end.
      rewrite SC, (S_INR (S k)). cbn [pow]. ring.
    - auto_derive. auto.
    - rewrite cos_PI2, sin_0, pow_i by lia. ring. }
  assert (J : is_RInt (fun t => INR (S (S k)) * cos t ^ (S (S k)) - INR (S k) * cos t ^ k) 0 (PI / 2)
                (INR (S (S k)) * weight (S (S k)) - INR (S k) * weight k)).
  { apply (is_RInt_minus (V := R_NormedModule) (fun t => scal (INR (S (S k))) (cos t ^ S (S k))) (fun t => scal (INR (S k)) (cos t ^ k)));
    apply (is_RInt_scal (V := R_NormedModule)); exact (RInt_correct _ _ _ (cos_power_int _)). }
  pose proof (is_RInt_unique _ _ _ _ I) as EI. pose proof (is_RInt_unique _ _ _ _ J) as EJ. rewrite EI in EJ. lra.
Qed.

Lemma weight_pos : forall k, 0 < weight k.
Proof.
  assert (H : forall k, 0 < weight k /\ 0 < weight (S k)).
  { induction k as [|k [IH1 IH2]].
    - rewrite weight_0, weight_1. pose proof half_pi. lra.
    - split; auto. pose proof (weight_SS k) as E.
      assert (P1 : 0 < INR (S k)) by (apply lt_0_INR; lia). assert (P2 : 0 < INR (S (S k))) by (apply lt_0_INR; lia).
      apply Rmult_lt_reg_l with (INR (S (S k))); auto. rewrite E, Rmult_0_r. now apply Rmult_lt_0_compat. }
  intros k. exact (proj1 (H k)).
Qed.

(** *** The constant *)
Lemma gamma_half_SS : forall k, gamma_half (S (S (S k))) = INR (S k) / 2 * gamma_half (S k).
Proof. reflexivity. Qed.
Lemma gamma_half_pos : forall k, 0 < gamma_half (S k).
Proof.
  assert (H : forall k, 0 < gamma_half (S k) /\ 0 < gamma_half (S (S k))).
  { induction k as [|k [IH1 IH2]].
    - cbn. split; [|lra]. apply sqrt_lt_R0, PI_RGT_0.
    - split; auto. rewrite gamma_half_SS. apply Rmult_lt_0_compat; auto.
      assert (0 < INR (S k)) by (apply lt_0_INR; lia). lra. }
  intros k. exact (proj1 (H k)).
Qed.
Lemma constant_0 : constant 0 = 1.
Proof.
  unfold constant. cbn [INR Nat.add gamma_half pow]. replace (0 / 2) with 0 by lra.
  rewrite Rpower_O by apply PI_RGT_0. field.
Qed.
Lemma constant_1 : constant 1 = 1.
Proof.
  unfold constant. cbn [INR Nat.add gamma_half pow]. replace (1 / 2) with (/ 2) by lra.
  rewrite Rpower_sqrt by apply PI_RGT_0. assert (0 < sqrt PI) by (apply sqrt_lt_R0, PI_RGT_0). field. lra.
Qed.
Lemma constant_SS : forall n, constant (S (S n)) = constant n * PI / (2 * INR (S (S n))).
Proof.
  intros n. unfold constant. replace (S (S n) + 2)%nat with (S (S (n + 2))) by lia.
  replace (n + 2)%nat with (S (S n)) by lia. rewrite (gamma_half_SS (S n)).
  replace (INR (S (S n)) / 2) with (INR n / 2 + 1) at 1 by (rewrite !S_INR; lra).
  rewrite Rpower_plus, Rpower_1 by apply PI_RGT_0.
  assert (P1 : 0 < INR (S (S n))) by (apply lt_0_INR; lia). pose proof (gamma_half_pos (S n)) as P2.
  assert (P3 : 0 < 2 ^ n) by (apply pow_lt; lra). cbn [pow]. field. lra.
Qed.
Lemma constant_step : forall n, constant (S n) = constant n * weight (S n).
Proof.
  assert (H : forall n, constant (S n) = constant n * weight (S n) /\ constant (S (S n)) = constant (S n) * weight (S (S n))).
  { induction n as [|n [IH1 IH2]].
    - split. rewrite constant_0, constant_1, weight_1. lra.
      rewrite constant_SS, constant_0, constant_1. pose proof (weight_SS 0) as E. rewrite weight_0 in E. cbn [INR] in *. lra.
    - split; auto. rewrite (constant_SS (S n)), (constant_SS n), IH1.
      pose proof (weight_SS (S n)) as E.
      assert (P1 : 0 < INR (S (S n))) by (apply lt_0_INR; lia). assert (P2 : 0 < INR (S (S (S n)))) by (apply lt_0_INR; lia).
      apply Rmult_eq_reg_r with (INR (S (S (S n))) * 2 * INR (S (S n))); [|nra].
      replace (constant n * PI / (2 * INR (S (S n))) * weight (S (S (S n))) * (INR (S (S (S n))) * 2 * INR (S (S n))))
        with (constant n * PI * (INR (S (S (S n))) * weight (S (S (S n))))) by (field; lra).
      rewrite E. field. lra. }
  intros n. exact (proj1 (H n)).
Qed.

(** *** One box *)
(** the least quotient a / x *)
Fixpoint least (a w : list R) : R :=
  match a, w with
  | [], _ => 0
  | _, [] => 0
  | [y], x :: _ => y / x
  | y :: a', x :: w' => Rmin (y / x) (least a' w')
  end.
Lemma least_cons : forall y a x w, a <> [] -> w <> [] -> least (y :: a) (x :: w) = Rmin (y / x) (least a w).
Proof. intros y [|z a] x [|v w] Ha Hw; try congruence. reflexivity. Qed.
Lemma least_ge : forall k a w t, length a = S k -> inner (S k) w ->
  (t <= least a w <-> forall d, (d < S k)%nat -> t * rcoord w d <= rcoord a d).
Proof.
  induction k as [|k IH]; intros a w t La [Lw P].
  - destruct a as [|y [|]]; try discriminate. destruct w as [|x [|]]; try discriminate. cbn [least].
    pose proof (P 0%nat ltac:(lia)) as P0. unfold rcoord in P0. cbn [nth] in P0. rewrite div_ge by auto. split.
    + intros H d Hd. replace d with 0%nat by lia. exact H.
    + intros H. apply (H 0%nat). lia.
  - destruct a as [|y a]; try discriminate. destruct w as [|x w]; try discriminate. cbn [length] in *.
    rewrite least_cons by (destruct a, w; cbn in *; try lia; discriminate).
    pose proof (P 0%nat ltac:(lia)) as P0. unfold rcoord in P0. cbn [nth] in P0.
    assert (IW : inner (S k) w). { split. lia. intros d Hd. apply (P (S d)). lia. }
    assert (M : t <= Rmin (y / x) (least a w) <-> t <= y / x /\ t <= least a w).
    { split. intros H. split. eapply Rle_trans; [exact H|apply Rmin_l]. eapply Rle_trans; [exact H|apply Rmin_r].
      intros [H1 H2]. now apply Rmin_glb. }
    rewrite M, div_ge, (IH a w t) by (auto; lia). split.
    + intros [H1 H2] d Hd. destruct d as [|d]; [exact H1|]. apply H2. lia.
    + intros H. split. apply (H 0%nat). lia. intros d Hd. apply (H (S d)). lia.
Qed.
Lemma same_bound : forall x y : R, (forall t, t <= x <-> t <= y) -> x = y.
Proof. intros x y H. pose proof (proj1 (H x) ltac:(lra)). pose proof (proj2 (H y) ltac:(lra)). lra. Qed.
Lemma least_pos : forall k a w, inner (S k) a -> inner (S k) w -> 0 < least a w.
Proof.
  induction k as [|k IH]; intros a w [La Pa] [Lw Pw].
  - destruct a as [|y [|]]; try discriminate. destruct w as [|x [|]]; try discriminate. cbn [least].
    apply Rdiv_lt_0_compat. apply (Pa 0%nat); lia. apply (Pw 0%nat); lia.
  - destruct a as [|y a]; try discriminate. destruct w as [|x w]; try discriminate. cbn [length] in *.
    rewrite least_cons by (destruct a, w; cbn in *; try lia; discriminate).
    apply Rmin_glb_lt.
    + apply Rdiv_lt_0_compat. apply (Pa 0%nat); lia. apply (Pw 0%nat); lia.
    + apply IH; split; try lia; intros d Hd; [apply (Pa (S d))|apply (Pw (S d))]; lia.
Qed.
Lemma least_into : forall k y a w t, length a = S k -> inner (S k) w -> 0 < t < PI / 2 ->
  least (y :: a) (into t w) = Rmin (least a w / cos t) (y / sin t).
Proof.
  intros k y a w t La Iw Ht. destruct (angle_pos t Ht) as [C S].
  pose proof (into_inner k w t Iw Ht) as II.
  apply same_bound. intros x. rewrite (least_ge (Datatypes.S k) (y :: a) (into t w)) by (cbn; auto; lia).
  assert (M : x <= Rmin (least a w / cos t) (y / sin t) <-> x <= least a w / cos t /\ x <= y / sin t).
  { split. intros H. split. eapply Rle_trans; [exact H|apply Rmin_l]. eapply Rle_trans; [exact H|apply Rmin_r].
    intros [H1 H2]. now apply Rmin_glb. }
  rewrite M, !div_ge, (least_ge k a w) by auto.
  assert (N : forall d, (d < Datatypes.S k)%nat -> rcoord (into t w) (Datatypes.S d) = cos t * rcoord w d).
  { intros d Hd. unfold into, rcoord. cbn [nth]. destruct Iw as [Lw _].
    rewrite nth_indep with (d' := cos t * 0) by (rewrite map_length; lia). now rewrite map_nth. }
  split.
  - intros H. split.
    + intros d Hd. pose proof (H (Datatypes.S d) ltac:(lia)) as Q. rewrite N in Q by auto.
      change (rcoord (y :: a) (Datatypes.S d)) with (rcoord a d) in Q. lra.
    + apply (H 0%nat). lia.
  - intros [H1 H2] d Hd. destruct d as [|d]; [exact H2|]. rewrite N by lia.
    change (rcoord (y :: a) (Datatypes.S d)) with (rcoord a d). pose proof (H1 d ltac:(lia)). lra.
Qed.

(** the integral over the angle *)
Lemma int_angle : forall k m y, 0 < m -> 0 < y ->
  is_RInt (fun t => Rmin (m / cos t) (y / sin t) ^ S (S k) * cos t ^ k) 0 (PI / 2)
    (y * m ^ S k * (INR (S (S k)) / INR (S k))).
Proof.
  intros k m y Hm Hy. set (u := atan (y / m)).
  assert (Q : 0 < y / m) by now apply Rdiv_lt_0_compat.
  assert (Hu : 0 < u < PI / 2).
  { unfold u. split. rewrite <- atan_0. now apply atan_increasing. apply atan_bound. }
  assert (T : tan u = y / m) by apply tan_atan.
  pose proof PI_RGT_0 as PI0.
  assert (TI : forall x, 0 < x < PI / 2 -> (x < u -> m / cos x <= y / sin x) /\ (u < x -> y / sin x <= m / cos x)).
  { intros x Hx. destruct (angle_pos x Hx) as [C S].
    assert (EQ : m / cos x = (m / (sin x)) * tan x) by (unfold tan; field; lra).
    assert (EQ2 : y / sin x = (m / sin x) * (y / m)) by (field; lra).
    assert (PM : 0 < m / sin x) by now apply Rdiv_lt_0_compat.
    rewrite EQ, EQ2. split; intros L; apply Rmult_le_compat_l; try lra; rewrite <- T; left; apply tan_increasing; lra. }
  destruct (angle_pos u Hu) as [CU SU].
  assert (PK : 0 < INR (S k)) by (apply lt_0_INR; lia).
  replace (y * m ^ S k * (INR (S (S k)) / INR (S k))) with (plus (m ^ S (S k) * tan u) (y ^ S (S k) * ((cos u / sin u) ^ S k / INR (S k)))).
  2:{ unfold plus; cbn [AbelianGroup.plus]. change (m ^ S (S k) * tan u + y ^ S (S k) * ((cos u / sin u) ^ S k / INR (S k)) = y * m ^ S k * (INR (S (S k)) / INR (S k))).
      replace (cos u / sin u) with (m / y). 2:{ replace (cos u / sin u) with (/ tan u) by (unfold tan; field; lra). rewrite T. field. lra. }
      rewrite T, (S_INR (S k)). unfold Rdiv at 3. rewrite Rpow_mult_distr, pow_inv.
      change (y ^ S (S k)) with (y * y ^ S k). change (m ^ S (S k)) with (m * m ^ S k).
      assert (0 < y ^ S k) by now apply pow_lt. field. lra. }
  apply (is_RInt_Chasles (V := R_NormedModule) _ 0 u (PI / 2)).
  - apply (is_RInt_ext (fun t => m ^ S (S k) / cos t ^ 2)).
    { rewrite Rmin_left, Rmax_right by lra. intros x Hx. destruct (angle_pos x ltac:(lra)) as [C _].
      rewrite Rmin_left by (apply TI; lra). unfold Rdiv. rewrite Rpow_mult_distr, pow_inv.
      assert (0 < cos x ^ k) by now apply pow_lt. cbn [pow]. match goal with |- ?a = ?b => change (@eq R a b) end. field. lra. }
    assert (CP : forall x, 0 <= x <= u -> 0 < cos x) by (intros; apply cos_gt_0; lra).
    apply (ftc (fun t => m ^ S (S k) * tan t)); try lra.
    + intros x Hx. pose proof (CP x Hx) as C. unfold tan. auto_derive. lra.
      assert (SC : sin x * sin x + cos x * cos x = 1) by (pose proof (sin2_cos2 x) as E; unfold Rsqr in E; lra).
      replace (m ^ S (S k) / cos x ^ 2) with (m ^ S (S k) * (sin x * sin x + cos x * cos x) / cos x ^ 2) by (rewrite SC; f_equal; ring).
      cbn [pow]. field. lra.
    + intros x Hx. pose proof (CP x Hx). auto_derive. assert (0 < cos x ^ 2) by now apply pow_lt. cbn [pow] in *. lra.
    + rewrite tan_0. ring.
  - apply (is_RInt_ext (fun t => y ^ S (S k) * ((cos t / sin t) ^ k / sin t ^ 2))).
    { rewrite Rmin_left, Rmax_right by lra. intros x Hx. destruct (angle_pos x ltac:(lra)) as [_ P].
      rewrite Rmin_right by (apply TI; lra). unfold Rdiv. rewrite !Rpow_mult_distr, !pow_inv.
      assert (0 < sin x ^ k) by now apply pow_lt. cbn [pow]. match goal with |- ?a = ?b => change (@eq R a b) end. field. lra. }
    assert (SP : forall x, u <= x <= PI / 2 -> 0 < sin x) by (intros; apply sin_gt_0; lra).
    apply (ftc (fun t => - y ^ S (S k) * ((cos t / sin t) ^ S k / INR (S k)))); try lra.
    + intros x Hx. pose proof (SP x Hx) as P.
      auto_derive. lra. change (match k with O => 1 | S _ => INR k + 1 end) with (INR (S k)).
      assert (SC : sin x * sin x + cos x * cos x = 1) by (pose proof (sin2_cos2 x) as E; unfold Rsqr in E; lra).
      change ((cos x * / sin x) ^ k) with ((cos x / sin x) ^ k). set (Y := (cos x / sin x) ^ k).
      replace (Y / sin x ^ 2) with (Y * (sin x * sin x + cos x * cos x) / sin x ^ 2) by (rewrite SC; f_equal; ring).
      set (K := INR (S k)) in *. cbn [pow]. field. lra.
    + intros x Hx. pose proof (SP x Hx). auto_derive. assert (0 < sin x ^ 2) by now apply pow_lt. cbn [pow] in *. lra.
    + rewrite cos_PI2. unfold Rdiv at 2. rewrite Rmult_0_l, pow_i by lia. field. lra.
Qed.

Definition product (a : list R) : R := fold_right Rmult 1 a.
Lemma mean_scale : forall k f c, integrable k f ->
  integrable k (fun w => c * f w) /\ mean_direction k (fun w => c * f w) = c * mean_direction k f.
Proof.
  intros k f c If. destruct (mean_linear k f f c 0 If If) as [I E].
  destruct (mean_ext k _ (fun w => c * f w) I) as [I' E']. intros; ring. split; auto. rewrite E', E. ring.
Qed.

Lemma box_mean : forall k a, inner (S k) a ->
  integrable k (fun w => least a w ^ S k) /\
  constant (S k) * mean_direction k (fun w => least a w ^ S k) = product a.
Proof.
  induction k as [|k IH]; intros a Ia.
  - destruct Ia as [L _]. destruct a as [|y [|]]; try discriminate. cbn [integrable mean_direction least product fold_right].
    split; auto. rewrite constant_1. field.
  - destruct a as [|y a]; [destruct Ia; discriminate|].
    assert (Py : 0 < y) by (apply (proj2 Ia 0%nat); lia).
    assert (Ib : inner (S k) a).
    { destruct Ia as [L P]. split; [cbn in L; lia|]. intros d Hd. apply (P (S d)). lia. }
    destruct (IH a Ib) as [I1 E1].
    assert (K : forall w, inner (S k) w ->
      is_RInt (fun t => least (y :: a) (into t w) ^ S (S k) * cos t ^ k) 0 (PI / 2)
        (y * least a w ^ S k * (INR (S (S k)) / INR (S k)))).
    { intros w Hw. pose proof half_pi as HP.
      apply (is_RInt_ext (fun t => Rmin (least a w / cos t) (y / sin t) ^ S (S k) * cos t ^ k)).
      - rewrite Rmin_left, Rmax_right by lra. intros t Ht. rewrite (least_into k); auto. apply Ib.
      - apply int_angle; auto. now apply (least_pos k). }
    set (c := y * (INR (S (S k)) / INR (S k)) / weight k).
    destruct (mean_scale k _ c I1) as [I2 E2].
    destruct (mean_ext k _ (fun w => RInt (fun t => least (y :: a) (into t w) ^ S (S k) * cos t ^ k) 0 (PI / 2) / weight k) I2) as [I3 E3].
    { intros w Hw. rewrite (is_RInt_unique _ _ _ _ (K w Hw)). unfold c, Rdiv. ring. }
    cbn [integrable mean_direction]. split; [split|]; auto.
    + intros w Hw. eexists. now apply K.
    + rewrite E3, E2. cbn [product fold_right]. change (fold_right Rmult 1 a) with (product a). rewrite <- E1.
      rewrite (constant_step (S k)). pose proof (weight_SS k) as W. pose proof (weight_pos k) as WP.
      assert (P1 : 0 < INR (S k)) by (apply lt_0_INR; lia).
      replace (constant (S k) * weight (S (S k)) * (c * mean_direction k (fun w => least a w ^ S k)))
        with (y * (constant (S k) * mean_direction k (fun w => least a w ^ S k)) *
              (INR (S (S k)) * weight (S (S k)) / (INR (S k) * weight k))) by (unfold c; field; lra).
      rewrite W. field. lra.
Qed.

Definition edges (ref p : point) : list R := map (fun d => IZR (coord ref d - coord p d)) (seq 0 (length ref)).
Lemma edges_coord : forall ref p d, (d < length ref)%nat -> rcoord (edges ref p) d = IZR (coord ref d - coord p d).
Proof.
  intros. unfold edges, rcoord. rewrite nth_map_lt with (d0 := 0%nat) by (rewrite seq_length; auto). now rewrite seq_nth by auto.
Qed.
Lemma edges_product : forall ref p, product (edges ref p) = IZR (zbox ref p (length ref)).
Proof.
  intros ref p. unfold edges. generalize (length ref). 
  assert (A : forall l x, product (l ++ [x]) = product l * x).
  { induction l as [|a l IH]; intros x; cbn. ring. change (fold_right Rmult 1 (l ++ [x])) with (product (l ++ [x])).
    rewrite IH. unfold product. ring. }
  induction n as [|n IH]. reflexivity. rewrite seq_S, map_app. cbn [map]. rewrite A, IH. cbn [zbox Nat.add]. now rewrite mult_IZR.
Qed.
Lemma zvalue_box : forall k ref p w, length ref = S k -> zbelow ref p -> inner (S k) w ->
  zvalue ref [p] w = least (edges ref p) w ^ S k.
Proof.
  intros k ref p w L B Iw. destruct (zsample ref [p] w) as (s & E & P & K).
  - rewrite L. now apply inner_direction.
  - exists p. simpl; auto.
  - rewrite E, L. f_equal. apply same_bound. intros t. rewrite K.
    rewrite (least_ge k) by (auto; unfold edges; now rewrite map_length, seq_length).
    unfold zge. split.
    + intros (q & [<-|[]] & _ & H) d Hd. rewrite edges_coord, minus_IZR by lia. pose proof (H d ltac:(lia)). lra.
    + intros H. exists p. split; [simpl; auto|]. split; auto. intros d Hd. pose proof (H d ltac:(lia)) as Q.
      rewrite edges_coord, minus_IZR in Q by lia. lra.
Qed.

(** ** C55: for any number of objectives the mean of one term of the estimate is the
    hypervolume *)
Theorem C55_unbiased : forall ref data v, ref <> [] -> (exists p, In p data /\ zbelow ref p) ->
  HvSpec.hypervolume data ref v ->
  integrable (length ref - 1) (zvalue ref data) /\
  constant (length ref) * mean_direction (length ref - 1) (zvalue ref data) = IZR v.
Proof.
  intros ref data v HR HP HV. destruct (length ref) as [|k] eqn:L. destruct ref; [congruence|discriminate].
  replace (S k - 1)%nat with k by lia.
  apply (C55_unbiased_from_boxes ref (integrable k) (mean_direction k) (constant (S k))) with (data := data) (v := v); auto.
  { rewrite L. apply mean_direction_value. }
  intros p B. destruct (box_mean k (edges ref p)) as [I E].
  { split. unfold edges. now rewrite map_length, seq_length. intros d Hd. rewrite edges_coord by lia.
    apply IZR_lt. specialize (B d ltac:(lia)). lia. }
  destruct (mean_ext k _ (zvalue ref [p]) I) as [I' E'].
  { intros w Hw. symmetry. now apply zvalue_box. }
  split; auto. rewrite E', E. apply edges_product.
Qed.
Print Assumptions C55_unbiased.

(** ** C55: the mean of the returned number is the hypervolume *)
(** the square of the length of a vector *)
Definition square_length (w : rpoint) : R := rsum (map (fun x => x * x) w).
Lemma into_unit : forall t w, square_length w = 1 -> square_length (into t w) = 1.
Proof.
  intros t w H. unfold square_length, into in *. cbn [map]. rewrite map_map. unfold rsum in *. cbn [fold_right].
  assert (E : fold_right Rplus 0 (map (fun x => cos t * x * (cos t * x)) w) = cos t * cos t * fold_right Rplus 0 (map (fun x => x * x) w)).
  { clear. induction w as [|x w IH]; cbn. ring. rewrite IH. ring. }
  rewrite E, H. pose proof (sin2_cos2 t) as S. unfold Rsqr in S. lra.
Qed.
Definition euclid (w : rpoint) : R := sqrt (square_length w).
(** the mean over [n] independent directions of a function of all of them *)
Fixpoint mean_directions (n k : nat) (f : list rpoint -> R) : R :=
  match n with
  | O => f []
  | S n' => mean_direction k (fun w => mean_directions n' k (fun l => f (w :: l)))
  end.
(** the number returned if the random vectors are [l] *)
Definition returned (ref : point) (data : list point) (l : list rpoint) : R :=
  match hv_approx exact euclid (power (length ref)) average (constant (length ref)) l (map rp data) (rp ref)
          (repeat false (length ref)) with Ret r => r | _ => 0 end.
(** the vector [g] has the direction [w], up to the signs of the coordinates *)
Definition along (w g : rpoint) : Prop := exists r, 0 < r /\ map Rabs g = map (Rmult r) w.

Lemma mean_same : forall k f g, (forall w, inner (S k) w -> square_length w = 1 -> f w = g w) -> mean_direction k f = mean_direction k g.
Proof.
  pose proof half_pi as HP.
  induction k as [|k IH]; intros f g E; cbn [mean_direction].
  - apply E. split; auto. intros d Hd. replace d with 0%nat by lia. unfold rcoord; cbn. lra.
    unfold square_length, rsum; cbn. ring.
  - apply IH. intros w Hw Uw. apply (f_equal (fun r => r / weight k)). apply RInt_ext. intros t Ht.
    rewrite Rmin_left, Rmax_right in Ht by lra. rewrite E; auto. now apply into_inner. now apply into_unit.
Qed.
Lemma mean_const : forall k c, integrable k (fun _ => c) /\ mean_direction k (fun _ => c) = c.
Proof.
  induction k as [|k IH]; intros c; cbn [integrable mean_direction]; auto.
  assert (I : is_RInt (fun t => c * cos t ^ k) 0 (PI / 2) (c * weight k)).
  { apply (is_RInt_scal (V := R_NormedModule) (fun t => cos t ^ k)). exact (RInt_correct _ _ _ (cos_power_int k)). }
  pose proof (weight_pos k) as W.
  assert (E : forall w : rpoint, c = RInt (fun t => c * cos t ^ k) 0 (PI / 2) / weight k).
  { intros _. rewrite (is_RInt_unique _ _ _ _ I). field. lra. }
  destruct (IH c) as [I1 E1].
  destruct (mean_ext k _ (fun _ => RInt (fun t => c * cos t ^ k) 0 (PI / 2) / weight k) I1) as [I2 E2]; auto.
  split; [split|]; auto. intros; eexists; exact I. now rewrite E2.
Qed.

Lemma means_same : forall n k f g,
  (forall l, length l = n -> List.Forall (fun w => inner (S k) w /\ square_length w = 1) l -> f l = g l) ->
  mean_directions n k f = mean_directions n k g.
Proof.
  induction n as [|n IH]; intros k f g E; cbn [mean_directions]. apply E; auto.
  apply mean_same. intros w Hw Uw. apply IH. intros l L Hl. apply E. cbn; lia. constructor; auto.
Qed.
Lemma means_sum : forall n k f a b, integrable k f ->
  mean_directions n k (fun l => a + b * rsum (map f l)) = a + b * (INR n * mean_direction k f).
Proof.
  induction n as [|n IH]; intros k f a b If; cbn [mean_directions]. cbn. ring.
  rewrite (mean_same k _ (fun w => b * f w + (a + b * (INR n * mean_direction k f)))).
  2:{ intros w _ _. rewrite (means_same n k _ (fun l => (a + b * f w) + b * rsum (map f l))).
      2:{ intros l _ _. cbn [map]. unfold rsum. cbn [fold_right]. ring. }
      rewrite IH by auto. ring. }
  set (c := a + b * (INR n * mean_direction k f)).
  destruct (mean_const k 1) as [I1 E1]. destruct (mean_linear k f (fun _ => 1) b c If I1) as [_ E].
  rewrite (mean_same k _ (fun w => b * f w + c * 1)) by (intros; ring). rewrite E, E1, S_INR. unfold c. ring.
Qed.

Lemma scaled_back : forall w g, square_length w = 1 -> along w g -> direction exact euclid g = w.
Proof.
  intros w g U (r & Hr & E). unfold direction, exact, euclid. rewrite E.
  assert (SQ : square_length (map (Rmult r) w) = r * r * square_length w).
  { clear. unfold square_length, rsum. induction w as [|x w IH]; cbn. ring. rewrite IH. ring. }
  rewrite SQ, U, Rmult_1_r, sqrt_square by lra. rewrite map_map. rewrite <- (map_id w) at 2. apply map_ext.
  intros x. field. lra.
Qed.

Theorem C55_mean_of_result : forall n ref data v (raw : list rpoint -> list rpoint),
  (forall l, (forall w, In w l -> inner (length ref) w) -> Forall2 along l (raw l)) ->
  (0 < n)%nat -> ref <> [] -> (exists p, In p data /\ zbelow ref p) ->
  HvSpec.hypervolume data ref v ->
  mean_directions n (length ref - 1) (fun l => returned ref data (raw l)) = IZR v.
Proof.
  intros n ref data v raw HW Hn HR HP HV. destruct (C55_unbiased ref data v HR HP HV) as [I E].
  assert (L : length ref = S (length ref - 1)) by (destruct ref; [congruence|cbn; lia]).
  set (k := (length ref - 1)%nat) in *. set (c := constant (length ref)) in *.
  rewrite (means_same n k _ (fun l => 0 + c / INR n * rsum (map (zvalue ref data) l))).
  - rewrite means_sum by auto. assert (0 < INR n) by (apply lt_0_INR; lia). rewrite <- E. field. lra.
  - intros l Hl Fl.
    assert (ED : map (direction exact euclid) (raw l) = l).
    { assert (HV' : forall w, In w l -> inner (length ref) w).
      { intros w Hw. rewrite L. rewrite List.Forall_forall in Fl. now apply Fl. }
      specialize (HW l HV'). clear Hl HV'. induction HW as [|w g l' gs A _ IH]; auto. inversion Fl; subst. cbn [map].
      rewrite IH by auto. f_equal. apply scaled_back; tauto. }
    rewrite List.Forall_forall in Fl. unfold returned. fold c.
    pose proof (C55_estimate_is_average euclid c (raw l) (map rp data) (rp ref) (repeat false (length ref))) as EA.
    rewrite repeat_length in EA. rewrite EA.
    + rewrite <- (map_map (direction exact euclid) (value (repeat false (length ref)) (rp ref) (map rp data))), ED.
      unfold average. rewrite map_length, Hl. change (value (repeat false (length ref)) (rp ref) (map rp data)) with (zvalue ref data).
      unfold Rdiv. ring.
    + unfold rp. now rewrite map_length.
    + intros g Hg. rewrite L. apply inner_direction. apply Fl. rewrite <- ED. now apply in_map.
    + destruct HP as (p & Hp & B). exists (rp p). split. now apply in_map. now apply zbelow_iff.
Qed.
Print Assumptions C55_mean_of_result.

(** ** The distribution of the directions: the mean square of every coordinate is
    1 / dimension *)
Lemma moments : forall k d, (d <= k)%nat ->
  integrable k (fun w => rcoord w d ^ 2) /\ mean_direction k (fun w => rcoord w d ^ 2) = 1 / INR (S k).
Proof.
  pose proof half_pi as HP.
  induction k as [|k IH]; intros d Hd.
  - replace d with 0%nat by lia. cbn. split; auto. field.
  - pose proof (weight_pos k) as W. pose proof (weight_SS k) as WS.
    assert (P1 : 0 < INR (S k)) by (apply lt_0_INR; lia). assert (P2 : 0 < INR (S (S k))) by (apply lt_0_INR; lia).
    assert (RT : weight (S (S k)) / weight k = INR (S k) / INR (S (S k))).
    { apply Rmult_eq_reg_r with (INR (S (S k)) * weight k); [|apply Rgt_not_eq; now apply Rmult_lt_0_compat].
      replace (weight (S (S k)) / weight k * (INR (S (S k)) * weight k)) with (INR (S (S k)) * weight (S (S k))) by (field; lra).
      rewrite WS. field. lra. }
    cbn [integrable mean_direction]. destruct d as [|d].
    + assert (J : is_RInt (fun t => sin t ^ 2 * cos t ^ k) 0 (PI / 2) (weight k - weight (S (S k)))).
      { apply (is_RInt_ext (fun t => minus (cos t ^ k) (cos t ^ S (S k)))).
        - intros t _. unfold minus, plus, opp; cbn. pose proof (sin2_cos2 t) as S. unfold Rsqr in S.
          match goal with |- ?a = ?b => change (@eq R a b) end.
          replace (sin t * (sin t * 1)) with (1 - cos t * cos t) by lra. ring.
        - apply (is_RInt_minus (V := R_NormedModule)); exact (RInt_correct _ _ _ (cos_power_int _)). }
      assert (E : forall w, 1 / INR (S (S k)) = RInt (fun t => rcoord (into t w) 0 ^ 2 * cos t ^ k) 0 (PI / 2) / weight k).
      { intros w. change (fun t => rcoord (into t w) 0 ^ 2 * cos t ^ k) with (fun t => sin t ^ 2 * cos t ^ k).
        rewrite (is_RInt_unique _ _ _ _ J). replace ((weight k - weight (S (S k))) / weight k) with (1 - weight (S (S k)) / weight k) by (field; lra).
        rewrite RT, (S_INR (S k)). field. rewrite S_INR in P2. lra. }
      destruct (mean_const k (1 / INR (S (S k)))) as [I1 E1].
      destruct (mean_ext k _ (fun w => RInt (fun t => rcoord (into t w) 0 ^ 2 * cos t ^ k) 0 (PI / 2) / weight k) I1) as [I2 E2]; auto.
      split; [split|]; auto. intros; eexists; exact J. now rewrite E2.
    + destruct (IH d ltac:(lia)) as [I1 E1].
      assert (N : forall w t, inner (S k) w -> rcoord (into t w) (S d) = cos t * rcoord w d).
      { intros w t [Lw _]. unfold into, rcoord. cbn [nth].
        rewrite nth_indep with (d' := cos t * 0) by (rewrite map_length; lia). now rewrite map_nth. }
      assert (J : forall w, inner (S k) w -> is_RInt (fun t => rcoord (into t w) (S d) ^ 2 * cos t ^ k) 0 (PI / 2) (rcoord w d ^ 2 * weight (S (S k)))).
      { intros w Hw. apply (is_RInt_ext (fun t => scal (rcoord w d ^ 2) (cos t ^ S (S k)))).
        - intros t _. rewrite N by auto. unfold scal; cbn; unfold mult; cbn.
          match goal with |- ?a = ?b => change (@eq R a b) end. ring.
        - apply (is_RInt_scal (V := R_NormedModule)); exact (RInt_correct _ _ _ (cos_power_int _)). }
      destruct (mean_scale k _ (INR (S k) / INR (S (S k))) I1) as [I2 E2].
      destruct (mean_ext k _ (fun w => RInt (fun t => rcoord (into t w) (S d) ^ 2 * cos t ^ k) 0 (PI / 2) / weight k) I2) as [I3 E3].
      { intros w Hw. rewrite (is_RInt_unique _ _ _ _ (J w Hw)), <- RT. field. lra. }
      split; [split|]; auto. intros w Hw; eexists; now apply J. rewrite E3, E2, E1. field. lra.
Qed.

(** ** A case with three objectives: two points, the reference (4, 4, 4), volume 10 *)
Definition data3 : list point := [[2; 2; 2]; [1; 3; 2]]%Z.
Example C55_three_objectives :
  HvSpec.hypervolume data3 [4; 4; 4]%Z 10 /\ constant 3 = PI / 6 /\
  PI / 6 * mean_direction 2 (zvalue [4; 4; 4]%Z data3) = 10 /\
  mean_directions 5 2 (fun l => returned [4; 4; 4]%Z data3 (map (map (Rmult (-3))) l)) = 10.
Proof.
  assert (H : HvSpec.hypervolume data3 [4; 4; 4]%Z 10).
  { change 10%Z with (HvSpec.V 0 [4; 4; 4]%Z 3 data3). apply HvSpec.V_hypervolume.
    intros p i H Hi. cbn [length] in Hi. unfold data3 in H. cbn [In] in H.
    repeat destruct H as [<-|H]; destruct i as [|[|[|i]]]; unfold coord; cbn [nth]; try lia; destruct H. }
  assert (P : exists p, In p data3 /\ zbelow [4; 4; 4]%Z p).
  { exists [2; 2; 2]%Z. split; [simpl; auto|]. intros d Hd. cbn [length] in Hd.
    destruct d as [|[|[|d]]]; unfold coord; cbn [nth]; lia. }
  assert (C : constant 3 = PI / 6). { rewrite constant_SS, constant_1. cbn [INR]. field. }
  split; auto. split; auto. split.
  - rewrite <- C. apply (C55_unbiased [4; 4; 4]%Z data3 10); auto. discriminate.
  - apply (C55_mean_of_result 5 [4; 4; 4]%Z data3 10 (map (map (Rmult (-3))))); auto; [|lia|discriminate].
    intros l Hl. induction l as [|w l IH]; cbn [map]; constructor.
    + exists 3. split; [lra|]. rewrite map_map. apply map_ext_in. intros x Hx.
      destruct (Hl w (or_introl eq_refl)) as [Lw Pw]. apply In_nth with (d := 0) in Hx. destruct Hx as (d & Hd & <-).
      specialize (Pw d ltac:(cbn in *; lia)). unfold rcoord in Pw. rewrite Rabs_left; lra.
    + apply IH. intros v Hv. apply Hl. now right.
Qed.
