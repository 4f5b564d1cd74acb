(** Property C55, continued: with two objectives hv_approx is an unbiased estimator of
    the hypervolume.

    The direction of a pair of independent standard normal numbers, taken absolutely,
    is (cos t, sin t) with t uniform on [0, pi/2] (this fact about the random number
    generator is not proved here); [mean_angle] is the mean over that distribution.
    The constant of _moocore.py:642 for two objectives is pi^1 / (2^2 * gamma(2)) =
    pi / 4. *)
From Coq Require Import List ZArith Lia Bool Arith Reals Lra.
From Coquelicot Require Import Coquelicot.
From Flocq Require Import Core.
From Verif Require Import Base EpsModel EpsFloatModel HvApproxModel PropEpsFloat PropHvApprox PropHvApproxMean.
From Verif Require HvSpec.
Import ListNotations.
Open Scope R_scope.

Definition angle (t : R) : rpoint := [cos t; sin t].
(** the function of the angle is Riemann integrable *)
Definition integrable_angle (f : rpoint -> R) : Prop := ex_RInt (fun t => f (angle t)) 0 (PI / 2).
Definition mean_angle (f : rpoint -> R) : R := RInt (fun t => f (angle t)) 0 (PI / 2) / (PI / 2).

Lemma half_pi : 0 < PI / 2.
Proof. pose proof PI_RGT_0. lra. Qed.
Lemma angle_pos : forall t, 0 < t < PI / 2 -> 0 < cos t /\ 0 < sin t.
Proof.
  intros t Ht. pose proof PI_RGT_0. split.
  - apply cos_gt_0; lra.
  - apply sin_gt_0; lra.
Qed.
Lemma angle_direction : forall t, 0 < t < PI / 2 -> direction_of 2 (angle t).
Proof.
  intros t Ht. destruct (angle_pos t Ht) as [C S]. split.
  - intros d. destruct d as [|[|d]]; unfold rcoord, angle; cbn; try lra. destruct d; lra.
  - exists 0%nat. split; [lia|]. exact C.
Qed.

Lemma mean_angle_value : mean_value 2 integrable_angle mean_angle.
Proof.
  pose proof half_pi as HP. unfold integrable_angle, mean_angle. split; [|split].
  - intros f g Hf Hfg.
    assert (K : forall t, Rmin 0 (PI / 2) < t < Rmax 0 (PI / 2) -> f (angle t) = g (angle t)).
    { intros t Ht. rewrite Rmin_left, Rmax_right in Ht by lra. apply Hfg. now apply angle_direction. }
    split.
    + now apply (ex_RInt_ext (fun t => f (angle t))).
    + f_equal. symmetry. now apply RInt_ext.
  - intros f g Hf Hg. split.
    + now apply (ex_RInt_plus (fun t => f (angle t)) (fun t => g (angle t))).
    + rewrite (RInt_plus (fun t => f (angle t)) (fun t => g (angle t))) by auto.
      unfold plus; cbn. field. lra.
  - intros f g Hf Hg. split.
    + now apply (ex_RInt_minus (fun t => f (angle t)) (fun t => g (angle t))).
    + rewrite (RInt_minus (fun t => f (angle t)) (fun t => g (angle t))) by auto.
      unfold minus, plus, opp; cbn. field. lra.
Qed.

(** the sample of one point *)
Lemma one_box : forall r0 r1 p t, zbelow [r0; r1] p -> 0 < t < PI / 2 ->
  zvalue [r0; r1] [p] (angle t) =
  (Rmin (IZR (r0 - coord p 0) / cos t) (IZR (r1 - coord p 1) / sin t)) ^ 2.
Proof.
  intros r0 r1 p t B Ht. destruct (angle_pos t Ht) as [C S].
  destruct (zsample [r0; r1] [p] (angle t)) as (s & E & P & K).
  - now apply angle_direction.
  - exists p. simpl; auto.
  - rewrite E. cbn [length]. f_equal.
    assert (L : forall x, x <= s <-> x <= IZR (r0 - coord p 0) / cos t /\ x <= IZR (r1 - coord p 1) / sin t).
    { intros x. rewrite K, !div_ge by auto. rewrite !minus_IZR. unfold zge. split.
      - intros (q & [<-|[]] & _ & H). pose proof (H 0%nat ltac:(simpl; lia)) as H0. pose proof (H 1%nat ltac:(simpl; lia)) as H1.
        unfold rcoord, angle in H0, H1. unfold coord at 2 in H0. unfold coord at 2 in H1. cbn [nth] in H0, H1. lra.
      - intros [H0 H1]. exists p. split; [simpl; auto|]. split; auto. intros d Hd. cbn [length] in Hd.
        destruct d as [|[|d]]; [| |lia]; unfold rcoord, angle; unfold coord at 2; cbn [nth]; lra. }
    pose proof (proj1 (L s) ltac:(lra)) as [L1 L2].
    pose proof (proj2 (L (Rmin (IZR (r0 - coord p 0) / cos t) (IZR (r1 - coord p 1) / sin t)))) as L3.
    specialize (L3 (conj (Rmin_l _ _) (Rmin_r _ _))). pose proof (Rmin_glb _ _ _ L1 L2). lra.
Qed.

Lemma int_cos : forall a u, 0 < u < PI / 2 -> is_RInt (fun t => (a / cos t) ^ 2) 0 u (a ^ 2 * tan u).
Proof.
  intros a u Hu.
  assert (CP : forall x, 0 <= x <= u -> 0 < cos x) by (intros; apply cos_gt_0; lra).
  replace (a ^ 2 * tan u) with (minus (a ^ 2 * tan u) (a ^ 2 * tan 0)).
  2:{ unfold minus, plus, opp; cbn. rewrite tan_0. ring. }
  apply (is_RInt_derive (fun t => a ^ 2 * tan t)); rewrite Rmin_left, Rmax_right by lra; intros x Hx.
  - pose proof (CP x Hx) as C. unfold tan.
    auto_derive. lra.
    replace (a / cos x) with (a * / cos x) by reflexivity.
    assert (SC : sin x * sin x + cos x * cos x = 1) by (pose proof (sin2_cos2 x) as S; unfold Rsqr in S; lra).
    replace ((a * / cos x) ^ 2) with (a ^ 2 * (sin x * sin x + cos x * cos x) * (/ cos x) ^ 2) by (rewrite SC; ring).
    field. lra.
  - apply (ex_derive_continuous (fun t => (a / cos t) ^ 2)). pose proof (CP x Hx). auto_derive. lra.
Qed.
Lemma int_sin : forall b u, 0 < u < PI / 2 -> is_RInt (fun t => (b / sin t) ^ 2) u (PI / 2) (b ^ 2 * (cos u / sin u)).
Proof.
  intros b u Hu. pose proof PI_RGT_0.
  assert (SP : forall x, u <= x <= PI / 2 -> 0 < sin x) by (intros; apply sin_gt_0; lra).
  replace (b ^ 2 * (cos u / sin u)) with (minus (- b ^ 2 * (cos (PI / 2) / sin (PI / 2))) (- b ^ 2 * (cos u / sin u))).
  2:{ unfold minus, plus, opp; cbn [AbelianGroup.plus]. cbn. rewrite cos_PI2. field. split. pose proof (SP u); lra. pose proof (SP (PI/2)); lra. }
  apply (is_RInt_derive (fun t => - b ^ 2 * (cos t / sin t))); rewrite Rmin_left, Rmax_right by lra; intros x Hx.
  - pose proof (SP x Hx) as C.
    auto_derive. lra.
    replace (b / sin x) with (b * / sin x) by reflexivity.
    assert (SC : sin x * sin x + cos x * cos x = 1) by (pose proof (sin2_cos2 x) as S; unfold Rsqr in S; lra).
    replace ((b * / sin x) ^ 2) with (b ^ 2 * (sin x * sin x + cos x * cos x) * (/ sin x) ^ 2) by (rewrite SC; ring).
    field. lra.
  - apply (ex_derive_continuous (fun t => (b / sin t) ^ 2)). pose proof (SP x Hx). auto_derive. lra.
Qed.

Lemma int_box : forall a b, 0 < a -> 0 < b ->
  is_RInt (fun t => (Rmin (a / cos t) (b / sin t)) ^ 2) 0 (PI / 2) (2 * a * b).
Proof.
  intros a b Ha Hb. set (u := atan (b / a)).
  assert (Q : 0 < b / a) by now apply Rdiv_lt_0_compat.
  assert (Hu : 0 < u < PI / 2).
  { unfold u. split. rewrite <- atan_0. now apply atan_increasing. apply atan_bound. }
  assert (T : tan u = b / a) by apply tan_atan.
  assert (TI : forall x, 0 < x < PI / 2 -> (x < u -> a / cos x <= b / sin x) /\ (u < x -> b / sin x <= a / cos x)).
  { intros x Hx. destruct (angle_pos x Hx) as [C S].
    split; intros L.
    - assert (tan x < b / a). { rewrite <- T. apply tan_increasing; lra. }
      apply Rmult_le_reg_r with (sin x * cos x). now apply Rmult_lt_0_compat.
      replace (b / sin x * (sin x * cos x)) with (b * cos x) by (field; lra).
      replace (a / cos x * (sin x * cos x)) with (a * sin x) by (field; lra).
      unfold tan in H. apply Rmult_lt_compat_r with (r := a * cos x) in H; [|now apply Rmult_lt_0_compat].
      replace (sin x / cos x * (a * cos x)) with (a * sin x) in H by (field; lra).
      replace (b / a * (a * cos x)) with (b * cos x) in H by (field; lra). lra.
    - assert (b / a < tan x). { rewrite <- T. apply tan_increasing; lra. }
      apply Rmult_le_reg_r with (sin x * cos x). now apply Rmult_lt_0_compat.
      replace (b / sin x * (sin x * cos x)) with (b * cos x) by (field; lra).
      replace (a / cos x * (sin x * cos x)) with (a * sin x) by (field; lra).
      unfold tan in H. apply Rmult_lt_compat_r with (r := a * cos x) in H; [|now apply Rmult_lt_0_compat].
      replace (sin x / cos x * (a * cos x)) with (a * sin x) in H by (field; lra).
      replace (b / a * (a * cos x)) with (b * cos x) in H by (field; lra). lra. }
  destruct (angle_pos u Hu) as [CU SU].
  replace (2 * a * b) with (plus (a ^ 2 * tan u) (b ^ 2 * (cos u / sin u))).
  2:{ unfold plus; cbn [AbelianGroup.plus]. cbn. replace (cos u / sin u) with (/ tan u) by (unfold tan; field; lra).
      rewrite T. field. lra. }
  apply (is_RInt_Chasles (V := R_NormedModule) _ 0 u (PI / 2)).
  - apply (is_RInt_ext (fun t => (a / cos t) ^ 2)); [|now apply int_cos].
    rewrite Rmin_left, Rmax_right by lra. intros x Hx. rewrite Rmin_left; auto. apply TI; lra.
  - apply (is_RInt_ext (fun t => (b / sin t) ^ 2)); [|now apply int_sin].
    rewrite Rmin_left, Rmax_right by lra. intros x Hx. rewrite Rmin_right; auto. apply TI; lra.
Qed.

(** ** C55: the mean of one term of the estimate is the hypervolume *)
Theorem C55_unbiased_2d : forall r0 r1 data v, (exists p, In p data /\ zbelow [r0; r1] p) ->
  HvSpec.hypervolume data [r0; r1] v ->
  integrable_angle (zvalue [r0; r1] data) /\ PI / 4 * mean_angle (zvalue [r0; r1] data) = IZR v.
Proof.
  intros r0 r1 data v HP HV.
  apply (C55_unbiased_from_boxes [r0; r1] integrable_angle mean_angle (PI / 4)) with (data := data) (v := v); auto.
  { apply mean_angle_value. }
  intros p B. pose proof half_pi as HPI.
  pose proof (B 0%nat ltac:(simpl; lia)) as B0. pose proof (B 1%nat ltac:(simpl; lia)) as B1.
  unfold coord at 2 in B0. unfold coord at 2 in B1. cbn [nth] in B0, B1.
  assert (I : is_RInt (fun t => zvalue [r0; r1] [p] (angle t)) 0 (PI / 2) (2 * IZR (r0 - coord p 0) * IZR (r1 - coord p 1))).
  { apply (is_RInt_ext (fun t => (Rmin (IZR (r0 - coord p 0) / cos t) (IZR (r1 - coord p 1) / sin t)) ^ 2)).
    - rewrite Rmin_left, Rmax_right by lra. intros x Hx. symmetry. now apply one_box.
    - apply int_box; apply IZR_lt; lia. }
  split.
  - eexists. exact I.
  - unfold mean_angle. rewrite (is_RInt_unique _ _ _ _ I). cbn [length zbox].
    change (coord [r0; r1] 0) with r0. change (coord [r0; r1] 1) with r1.
    rewrite Z.mul_1_l, mult_IZR. field. lra.
Qed.
Print Assumptions C55_unbiased_2d.

(** ** A case: the points (5,5), (4,6), (2,7), (7,4) of the docstring, reference
    (10,10), volume 38 *)
Definition docdata : list point := [[5; 5]; [4; 6]; [2; 7]; [7; 4]]%Z.
Example C55_docstring_mean :
  HvSpec.hypervolume docdata [10; 10]%Z 38 /\ PI / 4 * mean_angle (zvalue [10; 10]%Z docdata) = 38.
Proof.
  assert (H : HvSpec.hypervolume docdata [10; 10]%Z 38).
  { change 38%Z with (HvSpec.V 0 [10; 10]%Z 2 docdata). apply HvSpec.V_hypervolume.
    intros p i H Hi. cbn [length] in Hi. unfold docdata in H. cbn [In] in H.
    repeat destruct H as [<-|H]; destruct i as [|[|i]]; unfold coord; cbn [nth]; try lia; destruct H. }
  split; auto. apply (C55_unbiased_2d 10 10 docdata 38); auto.
  exists [5; 5]%Z. split; [simpl; auto|]. intros d Hd. cbn [length] in Hd.
  destruct d as [|[|d]]; unfold coord; cbn [nth]; lia.
Qed.
(** one sample of it in direction (3/5, 4/5): the ray leaves the region dominated by
    (5,5) at distance 25/4 *)
Example C55_docstring_sample :
  direction exact (fun _ => 5) [-3; 4] = [3 / 5; 4 / 5] /\
  sample exact [3 / 5; 4 / 5] (gains exact [false; false] [10; 10] (map rp docdata)) = Ret (Fin (25 / 4)).
Proof.
  split.
  - unfold direction, exact. cbn [map]. rewrite Rabs_left, Rabs_pos_eq by lra. f_equal. lra.
  - destruct (C55_sample_is_ray_length [false; false] [10; 10] (map rp docdata) [3 / 5; 4 / 5]) as (s & E & P & K).
    + split. intros d. destruct d as [|[|d]]; unfold rcoord; cbn; try lra. destruct d; lra.
      exists 0%nat. cbn. split; [lia|]. unfold rcoord; cbn; lra.
    + exists (rp [5; 5]%Z). split; [cbn; auto|]. intros d Hd. cbn [length] in Hd.
      destruct d as [|[|d]]; [| |lia]; unfold rcoord, rp; cbn [nth map]; lra.
    + rewrite E. do 2 f_equal.
      assert (L : forall t, t <= s <-> t <= 25 / 4).
      { intros t. rewrite K. split.
        - intros (q & Hq & _ & W). pose proof (W 0%nat ltac:(simpl; lia)) as W0. pose proof (W 1%nat ltac:(simpl; lia)) as W1.
          cbn [nth] in W0, W1. rewrite on_ray_coord in W0, W1 by (simpl; lia).
          unfold docdata, rp in Hq. cbn [map In] in Hq. unfold rcoord in W0, W1. cbn [nth] in W0, W1.
          repeat destruct Hq as [<-|Hq]; cbn [nth] in W0, W1; try lra; destruct Hq.
        - intros Ht. exists (rp [5; 5]%Z). split; [cbn; auto|]. split.
          + intros d Hd. cbn [length] in Hd. destruct d as [|[|d]]; [| |lia]; unfold rcoord, rp; cbn [nth map]; lra.
          + intros d Hd. rewrite on_ray_coord by auto. cbn [length] in Hd.
            destruct d as [|[|d]]; [| |lia]; unfold rcoord, rp; cbn [nth map]; lra. }
      pose proof (proj1 (L s) ltac:(lra)). pose proof (proj2 (L (25/4)) ltac:(lra)). lra.
Qed.
