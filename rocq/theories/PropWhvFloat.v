(** Property C84: accuracy of the rectangle-weighted hypervolume computed with
    doubles.  Uses Flocq and therefore the axioms of the Coq Reals library. *)
From Coq Require Import List ZArith Lia Bool Arith Reals Lra Permutation.
From Flocq Require Import Core.
From Verif Require Import Base Spec HvSpec RectSpec WhvSpec WhvModel WhvProofs PropWhv
  PctFloatModel PropPctFloat HvFloatModel PropHvFloat PropHvContribFloat WhvFloatModel.
Import ListNotations.
Open Scope Z_scope.

(** the coordinates and the weight of a rectangle are doubles, an upper side may
    be infinite *)
Definition double_bound (b : bound) : Prop := match b with At x => double_coord x | Infty => True end.
Definition double_rect (r : rect Z) : Prop :=
  double_coord (r_lx r) /\ double_coord (r_ly r) /\ double_bound (r_ux r) /\ double_bound (r_uy r) /\
  double_coord (r_col r).
(** the real value of [v] units, a unit being an area of 2^-1074 by 2^-1074 with
    weight 2^-1074 *)
Definition weight_of (v : Z) : R :=
  (IZR v * (bpow radix2 (-1074) * bpow radix2 (-1074) * bpow radix2 (-1074)))%R.

Section Bound.
Open Scope R_scope.
Lemma weighted_term_bound : forall a b c d w C,
  is_double a -> is_double b -> is_double c -> is_double d ->
  0 <= a - b -> 0 <= c - d -> 0 <= w <= C ->
  let t := rnd (rnd (rnd (a - b) * rnd (c - d)) * w) in let T := (a - b) * (c - d) * w in
  0 <= t /\ t <= (T + (1 + C) * eta) * (1 + u) ^ 4 /\ (T - (1 + C) * eta) * (1 - u) ^ 4 <= t.
Proof.
  intros a b c d w C Ha Hb Hc Hd P Q [W0 WC] t T.
  pose proof (term_bound a b c d Ha Hb Hc Hd P Q) as (X0 & XU & XL).
  set (x := rnd (rnd (a - b) * rnd (c - d))) in *. cbv zeta in XU, XL, X0.
  unfold t, T. clear t T. set (A := (a - b) * (c - d)) in *.
  assert (A0 : 0 <= A) by now apply Rmult_le_pos.
  pose proof u_pos as Hu. pose proof eta_pos as He.
  assert (XW : 0 <= x * w) by now apply Rmult_le_pos.
  pose proof (rnd_mult (x * w) XW) as [L U].
  assert (EC : eta * w <= eta * C) by (apply Rmult_le_compat_l; lra).
  split; [now apply rnd_nonneg|split].
  - eapply Rle_trans; [exact U|].
    apply Rmult_le_compat_r with (r := w) in XU; auto. apply Rmult_le_compat_r with (r := 1 + u) in XU; [|lra].
    pose proof (pow_upper 4) as PU.
    replace ((A + eta) * (1 + u) ^ 3 * w * (1 + u)) with ((A * w + eta * w) * (1 + u) ^ 4) in XU by ring.
    assert ((A * w + eta * w) * (1 + u) ^ 4 <= (A * w + eta * C) * (1 + u) ^ 4) by (apply Rmult_le_compat_r; lra).
    assert (eta * 1 <= eta * (1 + u) ^ 4) by (apply Rmult_le_compat_l; lra).
    replace ((A * w + (1 + C) * eta) * (1 + u) ^ 4) with ((A * w + eta * C) * (1 + u) ^ 4 + eta * (1 + u) ^ 4) by ring.
    lra.
  - eapply Rle_trans; [|exact L].
    apply Rmult_le_compat_r with (r := w) in XL; auto. apply Rmult_le_compat_r with (r := 1 - u) in XL; [|lra].
    replace ((A - eta) * (1 - u) ^ 3 * w * (1 - u)) with ((A * w - eta * w) * (1 - u) ^ 4) in XL by ring.
    pose proof (pow_lower 4) as PL.
    assert ((A * w - eta * C) * (1 - u) ^ 4 <= (A * w - eta * w) * (1 - u) ^ 4) by (apply Rmult_le_compat_r; lra).
    assert (PH : / 2 <= (1 - u) ^ 4).
    { assert (E : 998 / 1000 <= (1 - u) * (1 - u)).
      { apply Rle_trans with ((999 / 1000) * (999 / 1000)); [lra|]. apply Rmult_le_compat; lra. }
      assert (F : (998 / 1000) * (998 / 1000) <= ((1 - u) * (1 - u)) * ((1 - u) * (1 - u))) by (apply Rmult_le_compat; lra).
      cbn [pow]. lra. }
    assert (eta * / 2 <= eta * (1 - u) ^ 4) by (apply Rmult_le_compat_l; lra).
    replace ((A * w - (1 + C) * eta) * (1 - u) ^ 4) with ((A * w - eta * C) * (1 - u) ^ 4 - eta * (1 - u) ^ 4) by ring.
    lra.
Qed.

(** [near e s v k]: the computed sum [s] after at most [k] additions and the exact
    sum [v]; [e] is the absolute error of one term *)
Definition near (e s v : R) (k : nat) : Prop :=
  0 <= s /\ s <= (v + INR k * e) * (1 + u) ^ (4 + k) /\ (v - INR k * e) * (1 - u) ^ (4 + k) <= s.

Lemma near_step : forall e s v k t T, 0 <= e -> is_double s -> is_double t -> 0 <= v -> 0 <= T -> near e s v k -> 0 <= t ->
  t <= (T + e) * (1 + u) ^ 4 -> (T - e) * (1 - u) ^ 4 <= t ->
  near e (rnd (s + t)) (v + T) (Datatypes.S k).
Proof.
  intros e s v k t T He Ds Dt Hv HT (S0 & SU & SL) T0 TU TL.
  pose proof u_pos as Hu. pose proof (pos_INR k) as Hk.
  pose proof (rnd_plus s t Ds Dt ltac:(lra)) as [L U].
  unfold near. rewrite S_INR. replace (4 + Datatypes.S k)%nat with (Datatypes.S (4 + k)) by lia.
  split; [|split].
  - apply rnd_nonneg. lra.
  - eapply Rle_trans; [exact U|].
    assert (TU' : t <= (T + e) * (1 + u) ^ (4 + k)).
    { eapply Rle_trans; [exact TU|]. apply Rmult_le_compat_l; [lra|]. apply Rle_pow; [lra|lia]. }
    rewrite <- tech_pow_Rmult. set (P := (1 + u) ^ (4 + k)) in *.
    assert ((s + t) * (1 + u) <= ((v + INR k * e) * P + (T + e) * P) * (1 + u)) by (apply Rmult_le_compat_r; lra).
    lra.
  - eapply Rle_trans; [|exact L].
    assert (TL' : (T - e) * (1 - u) ^ (4 + k) <= t).
    { destruct (Rle_lt_dec 0 (T - e)) as [G|G].
      - eapply Rle_trans; [|exact TL]. apply Rmult_le_compat_l; auto. rewrite pow_add.
        rewrite <- (Rmult_1_r ((1 - u) ^ 4)) at 2. apply Rmult_le_compat_l. apply Rlt_le, (pow_lower 4). apply (pow_lower k).
      - pose proof (pow_lower (4 + k)) as [P _].
        assert ((T - e) * (1 - u) ^ (4 + k) <= 0 * (1 - u) ^ (4 + k)); [apply Rmult_le_compat_r; lra|lra]. }
    rewrite <- tech_pow_Rmult. set (P := (1 - u) ^ (4 + k)) in *.
    assert (((v - INR k * e) * P + (T - e) * P) * (1 - u) <= (s + t) * (1 - u)) by (apply Rmult_le_compat_r; lra).
    lra.
Qed.

Lemma near_weaken : forall e s v k n, 0 <= e -> 0 <= v -> (k <= n)%nat -> near e s v k -> near e s v n.
Proof.
  intros e s v k n He Hv Hk (S0 & SU & SL). pose proof u_pos as Hu.
  assert (Hn : INR k <= INR n) by now apply le_INR. pose proof (pos_INR k).
  assert (KE : INR k * e <= INR n * e) by (apply Rmult_le_compat_r; lra).
  assert (KP : 0 <= INR k * e) by (apply Rmult_le_pos; lra).
  split; auto. split.
  - eapply Rle_trans; [exact SU|]. apply Rmult_le_compat; try lra.
    + pose proof (pow_upper (4 + k)). lra.
    + apply Rle_pow; [lra|lia].
  - destruct (Rle_lt_dec 0 (v - INR n * e)) as [G|G].
    + eapply Rle_trans; [|exact SL]. apply Rmult_le_compat; try lra.
      * apply Rlt_le, pow_lower.
      * replace (4 + n)%nat with ((4 + k) + (n - k))%nat by lia. rewrite pow_add.
        rewrite <- (Rmult_1_r ((1 - u) ^ (4 + k))) at 2. apply Rmult_le_compat_l. apply Rlt_le, pow_lower. apply (pow_lower (n - k)).
    + pose proof (pow_lower (4 + n)) as [P _].
      assert ((v - INR n * e) * (1 - u) ^ (4 + n) <= 0 * (1 - u) ^ (4 + n)); [apply Rmult_le_compat_r; lra|lra].
Qed.
End Bound.

Lemma weight_nonneg : forall v, 0 <= v -> (0 <= weight_of v)%R.
Proof.
  intros. unfold weight_of. apply Rmult_le_pos; [now apply IZR_le|].
  repeat apply Rmult_le_pos; apply bpow_ge_0.
Qed.
Lemma weight_plus : forall a b, weight_of (a + b) = (weight_of a + weight_of b)%R.
Proof. intros. unfold weight_of. rewrite plus_IZR. ring. Qed.
Lemma dval_mult3 : forall a b c, (dval a * dval b * dval c = weight_of (a * b * c))%R.
Proof. intros. unfold dval, weight_of. rewrite !mult_IZR. ring. Qed.
Lemma double_min : forall a b, double_coord a -> double_coord b -> double_coord (Z.min a b).
Proof. intros a b Ha Hb. destruct (Z.min_spec a b) as [[_ ->]|[_ ->]]; auto. Qed.
Lemma double_max : forall a b, double_coord a -> double_coord b -> double_coord (Z.max a b).
Proof. intros a b Ha Hb. destruct (Z.max_spec a b) as [[_ ->]|[_ ->]]; auto. Qed.
Lemma rd_in : forall A (l : list A) i x, rd l i = Ret x -> In x l /\ (i < length l)%nat.
Proof.
  intros A l i x H. unfold rd in H. destruct (nth_error l i) eqn:E; [|discriminate]. inversion H; subst.
  split. now apply nth_error_In in E. apply nth_error_Some. congruence.
Qed.
Lemma assert_ret : forall (b : bool) A (k : outcome A) v, bind (assert_ b) (fun _ => k) = Ret v -> b = true /\ k = Ret v.
Proof. intros [|] A k v H; [split; auto|discriminate]. Qed.

(** clipped rectangles *)
Section Run.
Variable C : R.
Let e := ((1 + C) * eta)%R.
Definition good_c (c : crect) : Prop :=
  double_coord (c_l0 c) /\ double_coord (c_l1 c) /\ double_coord (c_u0 c) /\ double_coord (c_u1 c) /\
  (dval (c_col c) <= C)%R.

Lemma get_good : forall rects r c, Forall good_c rects -> get_rectangle rects r = Ret c ->
  good_c c /\ c_l0 c < c_u0 c /\ c_l1 c < c_u1 c /\ 0 <= c_col c.
Proof.
  intros rects r c F H. unfold get_rectangle in H. destruct (rd rects r) as [x| | |] eqn:E; try discriminate.
  cbn [bind] in H. apply assert_ret in H as [A1 H]. apply assert_ret in H as [A2 H]. apply assert_ret in H as [A3 H].
  inversion H; subst. apply rd_in in E as [I _]. rewrite Forall_forall in F.
  split; [auto|]. lia.
Qed.

Lemma rect_lockstep : forall fuel r c rects p top acc s k v, (0 <= C)%R ->
  Forall good_c rects -> good_c c -> c_l0 c < c_u0 c -> c_l1 c < c_u1 c -> 0 <= c_col c ->
  double_coord (coord p 0) -> double_coord (coord p 1) -> double_coord top -> is_double s ->
  0 <= acc -> near e s (weight_of acc) k ->
  rect_do fuel r c rects p top acc = Ret v ->
  exists w, rect_do_d fuel r c rects p top s = Ret w /\ is_double w /\ 0 <= v /\ near e w (weight_of v) (k + fuel).
Proof.
  intros fuel. induction fuel as [|fuel IH]; intros r c rects p top acc s k v HC F G G1 G2 G3 D0 D1 DT DS A0 N H;
    cbn [rect_do] in H; [discriminate|]. cbn [rect_do_d].
  assert (E0 : (0 <= e)%R). { unfold e. pose proof eta_pos. apply Rmult_le_pos; lra. }
  set (bz := if (coord p 0 <? c_u0 c) && (c_l1 c <? top) then _ else Ret acc) in H.
  set (br := if (coord p 0 <? c_u0 c) && (c_l1 c <? top) then _ else Ret s).
  destruct bz as [acc'| | |] eqn:EZ; try discriminate. cbn [bind] in H.
  assert (B : exists s', br = Ret s' /\ is_double s' /\ 0 <= acc' /\ near e s' (weight_of acc') (S k)).
  { unfold bz, br in *. destruct ((coord p 0 <? c_u0 c) && (c_l1 c <? top)) eqn:T.
    - apply assert_ret in EZ as [A1 EZ]. apply assert_ret in EZ as [A2 EZ]. apply assert_ret in EZ as [A3 EZ].
      rewrite A1, A2, A3. cbn [assert_ bind]. eexists. split; [reflexivity|]. split; [apply rnd_format|].
      inversion EZ; subst acc'. clear EZ.
      destruct G as (g1 & g2 & g3 & g4 & g5).
      assert (P1 : 0 <= c_u0 c - Z.max (coord p 0) (c_l0 c)) by lia.
      assert (P2 : 0 <= Z.min top (c_u1 c) - Z.max (coord p 1) (c_l1 c)) by lia.
      assert (P3 : 0 <= (c_u0 c - Z.max (coord p 0) (c_l0 c)) *
                        (Z.min top (c_u1 c) - Z.max (coord p 1) (c_l1 c)) * c_col c).
      { apply Z.mul_nonneg_nonneg; auto. now apply Z.mul_nonneg_nonneg. }
      split; [lia|]. rewrite weight_plus.
      pose proof (weighted_term_bound (dval (c_u0 c)) (dval (Z.max (coord p 0) (c_l0 c)))
        (dval (Z.min top (c_u1 c))) (dval (Z.max (coord p 1) (c_l1 c))) (dval (c_col c)) C
        g3 (double_max _ _ D0 g1) (double_min _ _ DT g4) (double_max _ _ D1 g2)) as TB.
      rewrite !dval_minus in TB. specialize (TB (dval_nonneg _ P1) (dval_nonneg _ P2) (conj (dval_nonneg _ G3) g5)).
      cbv zeta in TB. rewrite dval_mult3 in TB. rewrite <- !dval_minus in TB. fold (whv_term_d c p top) in TB.
      destruct TB as (T0 & TU & TL). fold e in TU, TL.
      apply near_step; auto. apply rnd_format. now apply weight_nonneg. now apply weight_nonneg.
    - inversion EZ; subst acc'. exists s. split; auto. split; auto. split; auto.
      apply (near_weaken e s (weight_of acc) k (S k)); auto. now apply weight_nonneg. }
  destruct B as (s' & -> & DS' & A0' & N'). cbn [bind].
  assert (W : forall x y, 0 <= y -> near e x (weight_of y) (S k) -> near e x (weight_of y) (k + S fuel)).
  { intros x y Hy HN. apply near_weaken with (S k); auto. now apply weight_nonneg. lia. }
  destruct (length rects <=? S r)%nat.
  { inversion H; subst. exists s'. auto. }
  destruct (get_rectangle rects (S r)) as [c'| | |] eqn:EG; try discriminate. cbn [bind] in H |- *.
  destruct (get_good _ _ _ F EG) as (g0 & g1 & g2 & g3).
  destruct (coord p 1 <? c_u1 c').
  - replace (k + S fuel)%nat with (S k + fuel)%nat by lia. apply (IH (S r) c' rects p top acc' s' (S k) v); auto.
  - inversion H; subst. exists s'. auto.
Qed.

Lemma next_point_more : forall data lt lr pk pk' top, next_point data lt lr pk = Ret (Some (pk', top)) ->
  (pk < pk')%nat /\ exists p, In p data /\ top = coord p 1.
Proof.
  intros data lt lr pk pk' top H. unfold next_point in H. destruct (rd data pk) as [p| | |] eqn:E; try discriminate.
  cbn [bind] in H. destruct (_ || _) in H; [discriminate|]. inversion H; subst. apply rd_in in E as [I _].
  split; [lia|]. eauto.
Qed.
Lemma next_useful_more : forall fuel data lt lr u1 pk pk' top, next_useful fuel data lt lr u1 pk = Ret (Some (pk', top)) ->
  (pk < pk')%nat /\ exists p, In p data /\ top = coord p 1.
Proof.
  induction fuel as [|fuel IH]; intros data lt lr u1 pk pk' top H; cbn [next_useful] in H; [discriminate|].
  destruct (next_point data lt lr pk) as [[[q t]|]| | |] eqn:E; try discriminate. cbn [bind] in H.
  apply next_point_more in E. destruct (rd data q) as [p| | |]; try discriminate. cbn [bind] in H.
  destruct (_ && _) in H.
  - apply IH in H. split; [lia|tauto].
  - inversion H; subst. auto.
Qed.
Lemma find_first_top : forall fuel data lt lr u1 pk top pk' top', find_first fuel data lt lr u1 pk top = Ret (Some (pk', top')) ->
  top' = top \/ exists p, In p data /\ top' = coord p 1.
Proof.
  induction fuel as [|fuel IH]; intros data lt lr u1 pk top pk' top' H; cbn [find_first] in H; [discriminate|].
  destruct (rd data pk) as [p| | |]; try discriminate. cbn [bind] in H.
  destruct (u1 <=? coord p 1).
  - destruct (next_point data lt lr pk) as [[[q t]|]| | |] eqn:E; try discriminate. cbn [bind] in H.
    apply next_point_more in E as [_ E]. apply IH in H as [->|H]; auto.
  - inversion H; subst. auto.
Qed.

Lemma loop_lockstep : forall fuel data rects lt lr pk top acc s k v, (0 <= C)%R ->
  Forall good_c rects -> double_points data -> double_coord top -> is_double s ->
  0 <= acc -> near e s (weight_of acc) k -> (k + (length data - pk) * length rects <= length data * length rects)%nat ->
  whv_loop fuel data rects lt lr pk top acc = Ret v ->
  exists w, whv_loop_d fuel data rects lt lr pk top s = Ret w /\ is_double w /\ 0 <= v /\
    near e w (weight_of v) (length data * length rects).
Proof.
  intros fuel. induction fuel as [|fuel IH]; intros data rects lt lr pk top acc s k v HC F DP DT DS A0 N K H;
    cbn [whv_loop] in H; [discriminate|]. cbn [whv_loop_d].
  assert (E0 : (0 <= e)%R). { unfold e. pose proof eta_pos. apply Rmult_le_pos; lra. }
  destruct (rd data pk) as [p| | |] eqn:EP; try discriminate. cbn [bind] in H |- *. apply rd_in in EP as [Ip Lp].
  destruct (get_rectangle rects 0) as [c| | |] eqn:EG; try discriminate. cbn [bind] in H |- *.
  destruct (get_good _ _ _ F EG) as (g0 & g1 & g2 & g3).
  apply assert_ret in H as [A1 H]. rewrite A1. cbn [assert_ bind].
  destruct (rect_do (length rects) 0 c rects p top acc) as [acc'| | |] eqn:ER; try discriminate. cbn [bind] in H.
  destruct (rect_lockstep _ _ _ _ _ _ _ s k _ HC F g0 g1 g2 g3 (DP p 0%nat Ip ltac:(lia)) (DP p 1%nat Ip ltac:(lia)) DT DS A0 N ER)
    as (s' & -> & DS' & A0' & N'). cbn [bind].
  destruct (next_useful (S (length data)) data lt lr (c_u1 c) pk) as [[[q t]|]| | |] eqn:EN; try discriminate;
    cbn [bind] in H |- *.
  - apply next_useful_more in EN as (Q & p' & Ip' & ->).
    eapply IH; [exact HC|exact F|exact DP|apply (DP p' 1%nat Ip'); lia|exact DS'|exact A0'|exact N'| |exact H].
    replace (length data - pk)%nat with (S (length data - S pk)) in K by lia. cbn [Nat.mul] in K.
    assert ((length data - q) * length rects <= (length data - S pk) * length rects)%nat by (apply Nat.mul_le_mono_r; lia).
    lia.
  - inversion H; subst. exists s'. split; auto. split; auto. split; auto.
    apply (near_weaken e s' (weight_of v) (k + length rects)); auto; try now apply weight_nonneg.
    replace (length data - pk)%nat with (S (length data - S pk)) in K by lia. cbn [Nat.mul] in K. lia.
Qed.
End Run.

Lemma filter_le : forall A (f : A -> bool) l, (length (filter f l) <= length l)%nat.
Proof. induction l as [|a l IH]; cbn; auto. destruct (f a); cbn; lia. Qed.

Lemma whv_lockstep : forall sortd sortr junk data rs ref C v data',
  valid_sortd sortd -> valid_sortr sortr -> (0 <= C)%R ->
  double_points data -> double_points [ref] -> (forall r, In r rs -> double_rect r) ->
  (forall r, In r rs -> (dval (r_col r) <= C)%R) ->
  rect_weighted_hv2d sortd sortr junk data rs ref = Ret (v, data') -> 0 <= v ->
  exists w, rect_weighted_hv2d_d sortd sortr junk data rs ref = Ret (w, data') /\ is_double w /\
    near ((1 + C) * eta) w (weight_of v) (length data * length rs).
Proof.
  intros sortd sortr junk data rs ref C v data' Hsd Hsr HC DP DR DB HB H V0.
  assert (E0 : (0 <= (1 + C) * eta)%R). { pose proof eta_pos. apply Rmult_le_pos; lra. }
  assert (N0 : forall k, near ((1 + C) * eta) 0 (weight_of 0) k).
  { intros k. apply near_weaken with 0%nat; auto. now apply weight_nonneg. lia.
    unfold near, weight_of. cbn [INR]. repeat split; lra. }
  assert (Z0 : is_double 0) by apply generic_format_0.
  unfold rect_weighted_hv2d in H. unfold rect_weighted_hv2d_d.
  destruct ((length rs =? 0)%nat || (length data =? 0)%nat).
  { inversion H; subst. exists 0%R. auto. }
  rewrite preprocess_ok in H |- *. cbn [bind] in H |- *.
  set (rects := kept (map (clip_rect ref) rs)) in *.
  destruct (length rects =? 0)%nat. { inversion H; subst. exists 0%R. auto. }
  cbv zeta in H |- *.
  assert (LR : (length rects <= length rs)%nat).
  { unfold rects, kept. rewrite <- (map_length (clip_rect ref) rs). apply filter_le. }
  assert (F : Forall (good_c C) (sortr rects)).
  { apply Forall_forall. intros c Hc. destruct (Hsr rects) as [HP _].
    apply Permutation_in with (2 := Hc) in HP || apply (Permutation_in _ (Permutation_sym HP)) in Hc.
    unfold rects, kept in Hc. apply filter_In in Hc as [Hc _]. apply in_map_iff in Hc as (r & <- & Hr).
    destruct (DB r Hr) as (a1 & a2 & a3 & a4 & a5).
    assert (R0 : double_coord (coord ref 0)) by (apply (DR ref 0%nat); [now left|lia]).
    assert (R1 : double_coord (coord ref 1)) by (apply (DR ref 1%nat); [now left|lia]).
    unfold good_c, clip_rect. cbn [c_l0 c_l1 c_u0 c_u1 c_col].
    repeat split; try now apply double_min.
    - destruct (r_ux r); cbn [clip double_bound] in *; auto. now apply double_min.
    - destruct (r_uy r); cbn [clip double_bound] in *; auto. now apply double_min.
    - auto. }
  assert (LS : length (sortr rects) = length rects).
  { destruct (Hsr rects) as [HP _]. symmetry. now apply Permutation_length. }
  assert (PD : Permutation data (sortd data)) by now destruct (Hsd data).
  assert (DP' : double_points (sortd data)).
  { intros p c Hp Hc. apply DP; auto. now apply (Permutation_in _ (Permutation_sym PD)). }
  destruct (get_rectangle (sortr rects) 0) as [c| | |] eqn:EG; try discriminate. cbn [bind] in H |- *.
  destruct (rd (sortr rects) (length (sortr rects) - 1)) as [l| | |]; try discriminate. cbn [bind] in H |- *.
  destruct (get_good _ _ _ _ F EG) as (g0 & _).
  destruct (find_first (S (length (sortd data))) (sortd data) (c_u1 l) (max_right (sortr rects)) (c_u1 c) 0 (c_u1 c))
    as [[[pk top]|]| | |] eqn:EF; try discriminate; cbn [bind] in H |- *.
  2: { inversion H; subst. exists 0%R. auto. }
  assert (DT : double_coord top).
  { apply find_first_top in EF as [->|(p & Ip & ->)]. apply g0. apply (DP' p 1%nat Ip). lia. }
  destruct (whv_loop (S (length (sortd data))) (sortd data) (sortr rects) (c_u1 l) (max_right (sortr rects)) pk top 0)
    as [v'| | |] eqn:EL; try discriminate. cbn [bind] in H. inversion H; subst v' data'.
  eapply (loop_lockstep C _ _ _ _ _ _ _ _ 0%R 0%nat) in EL; auto; try lia.
  - destruct EL as (w & -> & DW & _ & NW). cbn [bind]. exists w. split; auto. split; auto.
    apply near_weaken with (length (sortd data) * length (sortr rects))%nat; auto. now apply weight_nonneg.
    rewrite LS, <- (Permutation_length PD). now apply Nat.mul_le_mono_l.
Qed.

(** ** C84 *)
(** Rectangles and points with double coordinates, weights at most [C], any
    results of qsort.  When no point has exactly the height of the lowest upper
    side of the rectangles, the computed value [w] is a non-negative double and,
    with V the exact weighted area, k the number of points times the number of
    rectangles, u = 2^-53 and eta = 2^-1074,
      (V - k (1 + C) eta) (1 - u)^(k+4)  <=  w  <=  (V + k (1 + C) eta) (1 + u)^(k+4). *)
Theorem C84_whv_accuracy : forall sortd sortr junk data rs ref C,
  valid_sortd sortd -> valid_sortr sortr ->
  length ref = 2%nat -> wf_points 2 data -> antichain data -> (forall r, In r rs -> valid_rect r) ->
  double_points data -> double_points [ref] -> (forall r, In r rs -> double_rect r) ->
  (0 <= C)%R -> (forall r, In r rs -> (dval (r_col r) <= C)%R) ->
  (forall p y, In p data -> lowest_top ref rs y -> coord p 1 <> y) ->
  let k := (length data * length rs)%nat in
  exists v w data', weighted_area data ref rs v /\
    rect_weighted_hv2d_d sortd sortr junk data rs ref = Ret (w, data') /\ is_double w /\ (0 <= w)%R /\
    ((weight_of v - INR k * ((1 + C) * eta)) * (1 - u) ^ (k + 4) <= w)%R /\
    (w <= (weight_of v + INR k * ((1 + C) * eta)) * (1 + u) ^ (k + 4))%R.
Proof.
  intros sortd sortr junk data rs ref C Hsd Hsr HL HW HA HV DP DR DB HC HB HN k.
  destruct (C25_weighted_area_partial sortd sortr junk data rs ref Hsd Hsr HL HW HA HV HN) as (v & data' & E & _ & WA).
  destruct (C25_never_overestimates sortd sortr junk data rs ref v data' v Hsd Hsr HL HW HA HV E WA) as [V0 _].
  destruct (whv_lockstep _ _ _ _ _ _ C _ _ Hsd Hsr HC DP DR DB HB E V0) as (w & ED & DW & W0 & WU & WL).
  exists v, w, data'. fold k in WU, WL. rewrite (Nat.add_comm k 4). tauto.
Qed.
Print Assumptions C84_whv_accuracy.

(** Without the condition on the heights, the computed value may be too small, but
    it exceeds the exact weighted area by no more than the rounding errors. *)
Theorem C84_never_overestimates : forall sortd sortr junk data rs ref C v,
  valid_sortd sortd -> valid_sortr sortr ->
  length ref = 2%nat -> wf_points 2 data -> antichain data -> (forall r, In r rs -> valid_rect r) ->
  double_points data -> double_points [ref] -> (forall r, In r rs -> double_rect r) ->
  (0 <= C)%R -> (forall r, In r rs -> (dval (r_col r) <= C)%R) ->
  weighted_area data ref rs v ->
  let k := (length data * length rs)%nat in
  exists w data', rect_weighted_hv2d_d sortd sortr junk data rs ref = Ret (w, data') /\ is_double w /\
    (0 <= w <= (weight_of v + INR k * ((1 + C) * eta)) * (1 + u) ^ (k + 4))%R.
Proof.
  intros sortd sortr junk data rs ref C v Hsd Hsr HL HW HA HV DP DR DB HC HB WA k.
  destruct (C25_value_exactly sortd sortr junk data rs ref Hsd Hsr HL HW HA HV) as (v' & data' & E & _ & _).
  destruct (C25_never_overestimates sortd sortr junk data rs ref v' data' v Hsd Hsr HL HW HA HV E WA) as [V0 V1].
  destruct (whv_lockstep _ _ _ _ _ _ C _ _ Hsd Hsr HC DP DR DB HB E V0) as (w & ED & DW & W0 & WU & WL).
  exists w, data'. fold k in WU. rewrite (Nat.add_comm k 4). repeat split; auto.
  eapply Rle_trans; [exact WU|]. apply Rmult_le_compat_r.
  - pose proof (pow_upper (4 + k)). lra.
  - apply Rplus_le_compat_r. unfold weight_of. apply Rmult_le_compat_r.
    + repeat apply Rmult_le_pos; apply bpow_ge_0.
    + now apply IZR_le.
Qed.
Print Assumptions C84_never_overestimates.

(** a case that meets the hypotheses: three points and two weighted rectangles,
    each unbounded on one side *)
Definition ex_rects : list (rect Z) :=
  [mkRect (dint 1) (dint 3) (At (dint 2)) Infty (dint 1); mkRect (dint 2) (dint 1) Infty (At (dint 9)) (dint 3)].
Definition ex_points : list point := map (map dint) [[1; 7]; [3; 4]; [5; 2]].
Example C84_example :
  wf_points 2 ex_points /\ antichain ex_points /\ (forall r, In r ex_rects -> valid_rect r) /\
  double_points ex_points /\ double_points [map dint [10; 10]] /\ (forall r, In r ex_rects -> double_rect r) /\
  (forall r, In r ex_rects -> (dval (r_col r) <= 3)%R) /\
  (forall p y, In p ex_points -> lowest_top (map dint [10; 10]) ex_rects y -> coord p 1 <> y).
Proof.
  assert (D : forall k, Z.abs k <= 2 ^ 53 -> double_coord (dint k)).
  { intros. unfold double_coord. rewrite dval_dint. now apply double_int. }
  assert (M : forall a b, Z.min (dint a) (dint b) = dint (Z.min a b)).
  { intros. destruct (Z.min_spec a b) as [[G ->]|[G ->]].
    - apply Z.min_l. apply dint_lt in G. lia.
    - apply Z.min_r. apply Z.lt_eq_cases in G as [G| ->]; [apply dint_lt in G; lia|lia]. }
  assert (NN : forall a, 0 <= a -> 0 <= dint a).
  { intros. unfold dint. apply Z.mul_nonneg_nonneg; auto. apply Z.pow_nonneg. lia. }
  split; [repeat constructor|]. split.
  { intros i j Hi Hj Hn H. change (length ex_points) with 3%nat in Hi, Hj.
    pose proof (dint_lt 1 3 ltac:(lia)). pose proof (dint_lt 3 5 ltac:(lia)).
    pose proof (dint_lt 4 7 ltac:(lia)). pose proof (dint_lt 2 4 ltac:(lia)).
    specialize (H 0%nat ltac:(cbn; lia)) as K0. specialize (H 1%nat ltac:(cbn; lia)) as K1.
    destruct i as [|[|[|i]]], j as [|[|[|j]]]; try lia;
      unfold as_good, row, ex_points, coord in K0, K1; cbn [map nth] in K0, K1; lia. }
  split.
  { intros r [<-|[<-|[]]]; unfold valid_rect; cbn [r_lx r_ux r_ly r_uy r_col below];
      (split; [left|split; [left|apply NN; lia]]); try exact I; now apply dint_lt. }
  split.
  { intros p c Hp Hc. unfold ex_points in Hp. cbn [map In] in Hp. repeat destruct Hp as [<-|Hp]; try tauto;
      destruct c as [|[|c]]; try lia; unfold coord; cbn [nth]; apply D; lia. }
  split.
  { intros p c Hp Hc. cbn [map In] in Hp. repeat destruct Hp as [<-|Hp]; try tauto;
      destruct c as [|[|c]]; try lia; unfold coord; cbn [nth]; apply D; lia. }
  split.
  { intros r [<-|[<-|[]]]; unfold double_rect; cbn [r_lx r_ux r_ly r_uy r_col double_bound];
      repeat split; auto; apply D; lia. }
  split.
  { intros r [<-|[<-|[]]]; cbn [r_col]; rewrite dval_dint; lra. }
  intros p y Hp [(r & Hr & _ & E) _] E'.
  pose proof (dint_lt 7 9 ltac:(lia)). pose proof (dint_lt 9 10 ltac:(lia)).
  pose proof (dint_lt 4 7 ltac:(lia)). pose proof (dint_lt 2 4 ltac:(lia)).
  unfold coord in E, E'. cbn [map nth] in E.
  unfold ex_points in Hp. cbn [map In] in Hp.
  destruct Hr as [<-|[<-|[]]]; cbn [r_uy clip] in E; rewrite ?M in E; change (Z.min 9 10) with 9 in E;
    repeat destruct Hp as [<-|Hp]; try tauto; cbn [nth] in E'; lia.
Qed.

(** ** Rounding breaks monotonicity *)
Definition wit_rect : rect Z := mkRect (dint (-268435456)) (dint (-268435456)) (At (dint 0)) (At (dint 0)) (dint 1).
Definition wit_c : crect := mkC (dint (-268435456)) (dint (-268435456)) (dint 0) (dint 0) (dint 1).
Lemma sorted_two : forall sortd, valid_sortd sortd -> sortd [wit_a; wit_b] = [wit_a; wit_b].
Proof.
  intros sortd Hs. destruct (Hs [wit_a; wit_b]) as [HP HS].
  apply Permutation_length_2_inv in HP as [->|E]; auto. rewrite E in HS. exfalso.
  apply Sorted.StronglySorted_inv in HS as [_ HS] || idtac.
  rewrite Forall_forall in HS. specialize (HS wit_a (or_introl eq_refl)). revert HS. vm_compute. congruence.
Qed.
Lemma sorted_one : forall A (P : A -> A -> Prop) (s : list A -> list A) x,
  (forall l, is_qsort_of P l (s l)) -> s [x] = [x].
Proof. intros A P s x Hs. destruct (Hs [x]) as [HP _]. now apply Permutation_length_1_inv. Qed.

Lemma wit_run_two : forall sortd sortr junk, valid_sortd sortd -> valid_sortr sortr ->
  rect_weighted_hv2d_d sortd sortr junk [wit_a; wit_b] [wit_rect] wit_ref =
  Ret (rnd (rnd (0 + whv_term_d wit_c wit_a (dint 0)) + whv_term_d wit_c wit_b (dint (-1))), [wit_a; wit_b]).
Proof.
  intros sortd sortr junk Hd Hr. unfold rect_weighted_hv2d_d. rewrite preprocess_ok. cbn [length Nat.eqb orb bind].
  replace (kept (map (clip_rect wit_ref) [wit_rect])) with [wit_c] by (vm_compute; reflexivity).
  rewrite sorted_two by auto. rewrite (sorted_one _ _ sortr wit_c Hr).
  cbv -[whv_term_d rnd Rplus IZR]. reflexivity.
Qed.
Lemma wit_run_one : forall sortd sortr junk, valid_sortd sortd -> valid_sortr sortr ->
  rect_weighted_hv2d_d sortd sortr junk [wit_b] [wit_rect] wit_ref =
  Ret (rnd (0 + whv_term_d wit_c wit_b (dint 0)), [wit_b]).
Proof.
  intros sortd sortr junk Hd Hr. unfold rect_weighted_hv2d_d. rewrite preprocess_ok. cbn [length Nat.eqb orb bind].
  replace (kept (map (clip_rect wit_ref) [wit_rect])) with [wit_c] by (vm_compute; reflexivity).
  rewrite (sorted_one _ _ sortd wit_b Hd). rewrite (sorted_one _ _ sortr wit_c Hr).
  cbv -[whv_term_d rnd Rplus IZR]. reflexivity.
Qed.
Lemma wit_term : forall x y top, -268435456 < x -> -268435456 < y -> top <= 0 ->
  whv_term_d wit_c (map dint [x; y]) (dint top) = rnd (rnd (rnd (IZR (0 - x)) * rnd (IZR (top - y))) * 1).
Proof.
  intros x y top Hx Hy Ht. unfold whv_term_d, wit_c, coord. cbn [c_u0 c_l0 c_u1 c_l1 c_col map nth].
  apply dint_lt in Hx, Hy.
  rewrite !Z.max_l by lia.
  replace (Z.min (dint top) (dint 0)) with (dint top).
  2: { symmetry. apply Z.min_l. apply Z.lt_eq_cases in Ht as [G| ->]; [apply dint_lt in G; lia|lia]. }
  rewrite !dval_dint, <- !minus_IZR. reflexivity.
Qed.

(** Adding a nondominated point can lower the computed weighted area: here by 4,
    although the exact value grows by 1. *)
Theorem C84_monotone_refuted : exists p data rs ref w w' v v',
  wf_points 2 (p :: data) /\ antichain (p :: data) /\ (forall r, In r rs -> valid_rect r) /\
  double_points (p :: data) /\ double_points [ref] /\ (forall r, In r rs -> double_rect r) /\
  weighted_area data ref rs v /\ weighted_area (p :: data) ref rs v' /\ weight_of (v' - v) = 1%R /\
  (forall sortd sortr junk, valid_sortd sortd -> valid_sortr sortr ->
     (exists d, rect_weighted_hv2d_d sortd sortr junk data rs ref = Ret (w, d)) /\
     (exists d, rect_weighted_hv2d_d sortd sortr junk (p :: data) rs ref = Ret (w', d))) /\
  (w' < w)%R.
Proof.
  assert (VR : forall r, In r [wit_rect] -> valid_rect r).
  { intros r [<-|[]]. unfold valid_rect, wit_rect. cbn [r_lx r_ux r_ly r_uy r_col below].
    pose proof (dint_lt (-268435456) 0 ltac:(lia)). pose proof (dint_lt 0 1 ltac:(lia)).
    replace (dint 0) with 0 in * by reflexivity. lia. }
  assert (AC : antichain [wit_a; wit_b]).
  { intros i j Hi Hj Hn H. cbn [length] in Hi, Hj.
    pose proof (dint_lt (-134217730) (-134217729) ltac:(lia)). pose proof (dint_lt (-134217731) (-1) ltac:(lia)).
    specialize (H 0%nat ltac:(cbn [length]; lia)) as K0. specialize (H 1%nat ltac:(cbn [length]; lia)) as K1.
    destruct i as [|[|i]], j as [|[|j]]; try lia;
      unfold as_good, row, wit_a, wit_b, coord in K0, K1; cbn [map nth] in K0, K1; lia. }
  assert (AC1 : antichain [wit_b]). { intros i j Hi Hj Hn. cbn [length] in Hi, Hj. lia. }
  assert (NT : forall p y, In p [wit_a; wit_b] -> lowest_top wit_ref [wit_rect] y -> coord p 1 <> y).
  { intros p y Hp [(r & [<-|[]] & _ & E) _] E'.
    pose proof (dint_lt (-134217731) 0 ltac:(lia)). pose proof (dint_lt (-1) 0 ltac:(lia)).
    unfold wit_rect, wit_ref, coord in E. cbn [r_uy clip map nth] in E. rewrite Z.min_id in E.
    destruct Hp as [<-|[<-|[]]]; unfold wit_a, wit_b, coord in E'; cbn [map nth] in E'; lia. }
  destruct (C25_weighted_area_partial sortd_exec sortr_exec (fun _ => c_zero) [wit_b] [wit_rect] wit_ref
    sortd_exec_ok sortr_exec_ok eq_refl ltac:(repeat constructor) AC1 VR ltac:(intros; apply NT; auto; now right))
    as (v & d & E & _ & W).
  destruct (C25_weighted_area_partial sortd_exec sortr_exec (fun _ => c_zero) [wit_a; wit_b] [wit_rect] wit_ref
    sortd_exec_ok sortr_exec_ok eq_refl ltac:(repeat constructor) AC VR NT) as (v' & d' & E' & _ & W').
  exists wit_a, [wit_b], [wit_rect], wit_ref, (IZR 18014399046352900), (IZR 18014399046352896), v, v'.
  destruct wit_doubles as [W1 W2].
  split; [repeat constructor|]. do 4 (split; auto). split.
  { intros r [<-|[]]. unfold double_rect, wit_rect. cbn [r_lx r_ux r_ly r_uy r_col double_bound].
    repeat split; apply double_dint; lia. }
  split; auto. split; auto. split.
  { assert (X : v' - v = 1 * 2 ^ 1074 * 2 ^ 1074 * 2 ^ 1074).
    { assert (F : rect_weighted_hv2d sortd_exec sortr_exec (fun _ => c_zero) [wit_b] [wit_rect] wit_ref =
        Ret (18014399046352899 * 2 ^ 1074 * 2 ^ 1074 * 2 ^ 1074, [wit_b])) by (vm_compute; reflexivity).
      assert (F' : rect_weighted_hv2d sortd_exec sortr_exec (fun _ => c_zero) [wit_a; wit_b] [wit_rect] wit_ref =
        Ret (18014399046352900 * 2 ^ 1074 * 2 ^ 1074 * 2 ^ 1074, [wit_a; wit_b])) by (vm_compute; reflexivity).
      rewrite F in E. rewrite F' in E'. set (m := 2 ^ 1074) in *. clearbody m.
      assert (V : v = 18014399046352899 * m * m * m) by congruence.
      assert (V' : v' = 18014399046352900 * m * m * m) by congruence. rewrite V, V'. ring. }
    rewrite X. unfold weight_of. rewrite !mult_IZR. change (2 ^ 1074) with (Zpower radix2 1074).
    rewrite IZR_Zpower by lia. set (a := bpow radix2 1074). set (b := bpow radix2 (-1074)).
    assert (EAB : (a * b = 1)%R). { unfold a, b. rewrite <- bpow_plus. reflexivity. }
    replace (1 * a * a * a * (b * b * b))%R with ((a * b) * (a * b) * (a * b))%R by ring. rewrite EAB. ring. }
  split; [|apply IZR_lt; lia].
  intros sortd sortr junk Hd Hr. rewrite wit_run_one, wit_run_two by auto.
  split; [exists [wit_b]|exists [wit_a; wit_b]]; apply f_equal, f_equal2; auto.
  - unfold wit_b. rewrite wit_term by lia.
    change (0 - -134217729) with 134217729. change (0 - -134217731) with 134217731.
    rewrite (rnd_int 134217729), (rnd_int 134217731) by lia. rewrite <- mult_IZR, Rplus_0_l, Rmult_1_r.
    replace (134217729 * 134217731) with (4 * 4503599761588224 + 3) by reflexivity.
    rewrite !(rnd_double (rnd _)) by apply rnd_format. rewrite rnd_quarter by lia. reflexivity.
  - unfold wit_a, wit_b. rewrite !wit_term by lia.
    change (0 - -134217730) with 134217730. change (0 - -1) with 1. change (0 - -134217729) with 134217729.
    change (-1 - -134217731) with 134217730.
    rewrite !(rnd_int 134217730), !(rnd_int 1), (rnd_int 134217729) by lia.
    rewrite !Rmult_1_r, !(rnd_int 134217730), Rplus_0_l, !(rnd_int 134217730) by lia.
    rewrite !(rnd_double (rnd _)) by apply rnd_format.
    rewrite <- mult_IZR. replace (134217729 * 134217730) with (4 * 4503599728033792 + 2) by reflexivity.
    rewrite rnd_quarter by lia.
    replace (if 2 <? 2 then 0 else if 2 =? 2 then (if Z.even 4503599728033792 then 0 else 1) else 1) with 0 by reflexivity.
    rewrite <- plus_IZR.
    replace (134217730 + 4 * (4503599728033792 + 0)) with (4 * 4503599761588224 + 2) by reflexivity.
    rewrite rnd_quarter by lia. reflexivity.
Qed.
Print Assumptions C84_monotone_refuted.
