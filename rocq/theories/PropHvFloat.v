(** Property C53: accuracy of the two-objective hypervolume computed with doubles.
    Uses Flocq and therefore the axioms of the Coq Reals library. *)
From Coq Require Import List ZArith Lia Bool Arith Reals Lra.
From Flocq Require Import Core Relative Plus_error.
From Verif Require Import Base Spec NondomModel HvSpec Hv2dModel PctFloatModel PropPctFloat HvFloatModel PropHv.
Import ListNotations.
Open Scope Z_scope.
#[local] Existing Instance dexp_valid.
Lemma p53 : Prec_gt_0 53.
Proof. unfold Prec_gt_0. lia. Qed.

(** all coordinates are doubles *)
Definition double_coord (m : Z) : Prop := is_double (dval m).
Definition double_points (S : list point) : Prop :=
  forall p c, In p S -> (c < 2)%nat -> double_coord (coord p c).

Section Bound.
Open Scope R_scope.
(** u = 2^-53: half the distance between 1 and the next double *)
Definition u : R := bpow radix2 (-53).
(** eta = 2^-1074: the smallest positive double *)
Definition eta : R := bpow radix2 (-1074).

Lemma u_pos : 0 < u < / 1000.
Proof. unfold u. split. apply bpow_gt_0. simpl. lra. Qed.
Lemma eta_pos : 0 < eta.
Proof. apply bpow_gt_0. Qed.

Lemma uro : u_ro radix2 53 / (1 + u_ro radix2 53) <= u.
Proof.
  assert (E : u_ro radix2 53 = u).
  { unfold u_ro, u. simpl. lra. }
  rewrite E. pose proof u_pos. apply Rmult_le_reg_r with (1 + u); [lra|].
  unfold Rdiv. rewrite Rmult_assoc, Rinv_l by lra.
  assert (0 <= u * u) by (apply Rmult_le_pos; lra). lra.
Qed.

(** sums and differences of doubles have a relative error of at most u *)
Lemma rnd_plus : forall x y, is_double x -> is_double y -> 0 <= x + y ->
  (x + y) * (1 - u) <= rnd (x + y) <= (x + y) * (1 + u).
Proof.
  intros x y Hx Hy P.
  destruct (@FLT_plus_error_N_ex radix2 (-1074) 53 p53 (fun z => negb (Z.even z)) x y Hx Hy)
    as (e & He & E).
  replace (rnd (x + y)) with ((x + y) * (1 + e)) by (symmetry; exact E). pose proof uro. apply Rabs_le_inv in He.
  split; apply Rmult_le_compat_l; lra.
Qed.
Lemma rnd_minus : forall x y, is_double x -> is_double y -> 0 <= x - y ->
  (x - y) * (1 - u) <= rnd (x - y) <= (x - y) * (1 + u).
Proof.
  intros x y Hx Hy P. apply (rnd_plus x (- y)); auto. now apply generic_format_opp.
Qed.
(** products: relative error u or absolute error eta / 2 *)
Lemma rnd_mult : forall x, 0 <= x -> x * (1 - u) - eta / 2 <= rnd x <= x * (1 + u) + eta / 2.
Proof.
  intros x P. destruct (error_N_FLT radix2 (-1074) 53 ltac:(lia) (fun z => negb (Z.even z)) x) as (e & h & He & Hh & _ & E).
  replace (rnd x) with (x * (1 + e) + h) by (symmetry; exact E).
  assert (U : / 2 * bpow radix2 (- (53) + 1) = u).
  { unfold u. simpl. lra. }
  rewrite U in He. apply Rabs_le_inv in He. apply Rabs_le_inv in Hh. fold eta in Hh.
  assert (- (x * u) <= x * e <= x * u).
  { split. replace (- (x * u)) with (x * - u) by ring. apply Rmult_le_compat_l; lra. apply Rmult_le_compat_l; lra. }
  lra.
Qed.

Lemma pow_lower : forall k, 0 < (1 - u) ^ k <= 1.
Proof.
  induction k as [|k IH]; cbn [pow]; [lra|]. pose proof u_pos. split.
  - apply Rmult_lt_0_compat; lra.
  - apply Rle_trans with (1 * 1); [apply Rmult_le_compat; lra|lra].
Qed.
Lemma pow_upper : forall k, 1 <= (1 + u) ^ k.
Proof.
  induction k as [|k IH]; cbn [pow]; [lra|]. pose proof u_pos.
  apply Rle_trans with (1 * 1); [lra|apply Rmult_le_compat; lra].
Qed.

(** the term added for one point *)
Lemma term_bound : forall a b c d, is_double a -> is_double b -> is_double c -> is_double d ->
  0 <= a - b -> 0 <= c - d ->
  let t := rnd (rnd (a - b) * rnd (c - d)) in let T := (a - b) * (c - d) in
  0 <= t /\ t <= (T + eta) * (1 + u) ^ 3 /\ (T - eta) * (1 - u) ^ 3 <= t.
Proof.
  intros a b c d Ha Hb Hc Hd P Q t T.
  pose proof (rnd_minus a b Ha Hb P) as [L1 U1]. pose proof (rnd_minus c d Hc Hd Q) as [L2 U2].
  pose proof u_pos as Hu. pose proof eta_pos as He.
  set (x := rnd (a - b)) in *. set (y := rnd (c - d)) in *.
  assert (X0 : 0 <= x). { eapply Rle_trans; [|exact L1]. apply Rmult_le_pos; lra. }
  assert (Y0 : 0 <= y). { eapply Rle_trans; [|exact L2]. apply Rmult_le_pos; lra. }
  assert (XY : 0 <= x * y) by now apply Rmult_le_pos.
  pose proof (rnd_mult (x * y) XY) as [L3 U3]. fold t in L3, U3.
  assert (XU : x * y <= T * ((1 + u) * (1 + u))).
  { replace (T * ((1 + u) * (1 + u))) with (((a - b) * (1 + u)) * ((c - d) * (1 + u))) by (unfold T; ring).
    apply Rmult_le_compat; auto. }
  assert (XL : T * ((1 - u) * (1 - u)) <= x * y).
  { replace (T * ((1 - u) * (1 - u))) with (((a - b) * (1 - u)) * ((c - d) * (1 - u))) by (unfold T; ring).
    apply Rmult_le_compat; auto; apply Rmult_le_pos; lra. }
  split; [|split].
  - apply rnd_nonneg. auto.
  - apply Rmult_le_compat_r with (r := 1 + u) in XU; [|lra].
    pose proof (pow_upper 3) as PU. cbn [pow] in *.
    assert (eta * 1 <= eta * ((1 + u) * ((1 + u) * ((1 + u) * 1)))) by (apply Rmult_le_compat_l; lra). lra.
  - apply Rmult_le_compat_r with (r := 1 - u) in XL; [|lra]. cbn [pow].
    assert (PL : / 2 <= (1 - u) * ((1 - u) * ((1 - u) * 1))).
    { assert (A : 998 / 1000 <= (1 - u) * (1 - u)).
      { apply Rle_trans with ((999 / 1000) * (999 / 1000)); [lra|]. apply Rmult_le_compat; lra. }
      assert (B : (998 / 1000) * (999 / 1000) <= ((1 - u) * (1 - u)) * (1 - u)) by (apply Rmult_le_compat; lra).
      lra. }
    assert (eta * / 2 <= eta * ((1 - u) * ((1 - u) * ((1 - u) * 1)))) by (apply Rmult_le_compat_l; lra). lra.
Qed.

(** [close s v k]: the computed sum [s] after [k] additions and the exact sum [v] *)
Definition close (s v : R) (k : nat) : Prop :=
  0 <= s /\ s <= (v + INR k * eta) * (1 + u) ^ (3 + k) /\ (v - INR k * eta) * (1 - u) ^ (3 + k) <= s.

Lemma close_step : forall s v k t T, is_double s -> is_double t -> 0 <= v -> 0 <= T -> close s v k -> 0 <= t ->
  t <= (T + eta) * (1 + u) ^ 3 -> (T - eta) * (1 - u) ^ 3 <= t ->
  close (rnd (s + t)) (v + T) (Datatypes.S k).
Proof.
  intros s v k t T Ds Dt Hv HT (S0 & SU & SL) T0 TU TL.
  pose proof u_pos as Hu. pose proof eta_pos as He. pose proof (pos_INR k) as Hk.
  pose proof (rnd_plus s t Ds Dt ltac:(lra)) as [L U].
  unfold close. rewrite S_INR. replace (3 + Datatypes.S k)%nat with (Datatypes.S (3 + k)) by lia.
  split; [|split].
  - apply rnd_nonneg. lra.
  - eapply Rle_trans; [exact U|].
    assert (TU' : t <= (T + eta) * (1 + u) ^ (3 + k)).
    { eapply Rle_trans; [exact TU|]. apply Rmult_le_compat_l; [lra|]. apply Rle_pow; [lra|lia]. }
    cbn [pow Nat.add]. cbn [pow Nat.add] in SU, TU'. set (P := (1 + u) * ((1 + u) * ((1 + u) * (1 + u) ^ k))) in *.
    assert ((s + t) * (1 + u) <= ((v + INR k * eta) * P + (T + eta) * P) * (1 + u)).
    { apply Rmult_le_compat_r; lra. }
    lra.
  - eapply Rle_trans; [|exact L].
    assert (TL' : (T - eta) * (1 - u) ^ (3 + k) <= t).
    { destruct (Rle_lt_dec 0 (T - eta)) as [G|G].
      - eapply Rle_trans; [|exact TL]. apply Rmult_le_compat_l; auto. rewrite pow_add.
        rewrite <- (Rmult_1_r ((1 - u) ^ 3)) at 2. apply Rmult_le_compat_l. apply Rlt_le, (pow_lower 3). apply (pow_lower k).
      - pose proof (pow_lower (3 + k)) as [P _].
        assert ((T - eta) * (1 - u) ^ (3 + k) <= 0 * (1 - u) ^ (3 + k)); [apply Rmult_le_compat_r; lra|lra]. }
    cbn [pow Nat.add]. cbn [pow Nat.add] in SL, TL'. set (P := (1 - u) * ((1 - u) * ((1 - u) * (1 - u) ^ k))) in *.
    assert (((v - INR k * eta) * P + (T - eta) * P) * (1 - u) <= (s + t) * (1 - u)).
    { apply Rmult_le_compat_r; lra. }
    lra.
Qed.

Lemma close_weaken : forall s v k n, 0 <= v -> (k <= n)%nat -> close s v k -> close s v n.
Proof.
  intros s v k n Hv Hk (S0 & SU & SL). pose proof u_pos as Hu. pose proof eta_pos as He.
  assert (Hn : INR k <= INR n) by now apply le_INR. pose proof (pos_INR k).
  assert (KE : INR k * eta <= INR n * eta) by (apply Rmult_le_compat_r; lra).
  assert (KP : 0 <= INR k * eta) by (apply Rmult_le_pos; lra).
  split; auto. split.
  - eapply Rle_trans; [exact SU|]. apply Rmult_le_compat; try lra.
    + pose proof (pow_upper (3 + k)). lra.
    + apply Rle_pow; [lra|lia].
  - destruct (Rle_lt_dec 0 (v - INR n * eta)) as [G|G].
    + eapply Rle_trans; [|exact SL]. apply Rmult_le_compat; try lra.
      * apply Rlt_le, pow_lower.
      * replace (3 + n)%nat with ((3 + k) + (n - k))%nat by lia. rewrite pow_add.
        rewrite <- (Rmult_1_r ((1 - u) ^ (3 + k))) at 2. apply Rmult_le_compat_l. apply Rlt_le, pow_lower. apply (pow_lower (n - k)).
    + pose proof (pow_lower (3 + n)) as [P _].
      assert ((v - INR n * eta) * (1 - u) ^ (3 + n) <= 0 * (1 - u) ^ (3 + n)); [apply Rmult_le_compat_r; lra|lra].
Qed.
End Bound.

(** the real area of [v] cells of side 2^-1074 *)
Definition area_of (v : Z) : R := (IZR v * (bpow radix2 (-1074) * bpow radix2 (-1074)))%R.

Lemma skip_result : forall fuel pts pp prev j j', hv2d_skip fuel pts pp prev j = Ret j' ->
  (j <= j')%nat /\ ((j' =? length pts)%nat = false -> (j' < length pts)%nat ->
     exists p, deref pts pp j' = Ret p /\ coord p 1 < prev).
Proof.
  induction fuel as [|fuel IH]; intros pts pp prev j j' H; cbn [hv2d_skip] in H; [discriminate|].
  destruct (Nat.ltb_spec j (length pts)) as [L|L].
  - destruct (deref pts pp j) as [p| | |] eqn:D; try discriminate. cbn [bind] in H.
    destruct (Z.leb_spec prev (coord p 1)) as [G|G].
    + apply IH in H. destruct H as [A B]. split; auto. lia.
    + inversion H; subst. split; auto. eauto.
  - inversion H; subst. split; auto. intros; lia.
Qed.

Lemma deref_in : forall pts pp j p, deref pts pp j = Ret p -> In p pts.
Proof.
  intros pts pp j p H. unfold deref, rd in H. destruct (nth_error pp j); [|discriminate]. cbn [bind] in H.
  destruct (nth_error pts n) eqn:E; [|discriminate]. inversion H; subst. now apply nth_error_In in E.
Qed.

Lemma dval_minus : forall a b, (dval a - dval b = dval (a - b))%R.
Proof. intros. unfold dval. rewrite minus_IZR. ring. Qed.
Lemma dval_nonneg : forall a, 0 <= a -> (0 <= dval a)%R.
Proof. intros. unfold dval. apply Rmult_le_pos. now apply IZR_le. apply bpow_ge_0. Qed.
Lemma dval_mult : forall a b, (dval a * dval b = area_of (a * b))%R.
Proof. intros. unfold dval, area_of. rewrite mult_IZR. ring. Qed.
Lemma area_nonneg : forall a, 0 <= a -> (0 <= area_of a)%R.
Proof.
  intros. unfold area_of. apply Rmult_le_pos. now apply IZR_le. apply Rmult_le_pos; apply bpow_ge_0.
Qed.
Lemma area_plus : forall a b, area_of (a + b) = (area_of a + area_of b)%R.
Proof. intros. unfold area_of. rewrite plus_IZR. ring. Qed.

Lemma skip_le : forall pts pp prev f j0 j1, hv2d_skip f pts pp prev j0 = Ret j1 ->
  (j0 <= length pts)%nat -> (j1 <= length pts)%nat.
Proof.
  intros pts pp prev. induction f as [|f IH]; intros j0 j1 H L; cbn [hv2d_skip] in H; [discriminate|].
  destruct (Nat.ltb_spec j0 (length pts)).
  - destruct (deref pts pp j0) as [a| | |]; try discriminate. cbn [bind] in H. destruct (prev <=? coord a 1).
    + apply IH in H; lia.
    + inversion H; subst. lia.
  - inversion H; subst. lia.
Qed.

(** both versions of the loop take the same steps *)
Lemma lockstep : forall fuel pts pp ref acc s prev j k v,
  double_points pts -> double_coord (coord ref 0) -> double_coord prev -> is_double s ->
  0 <= acc -> (k <= j)%nat -> (j <= length pts)%nat -> close s (area_of acc) k ->
  hv2d_do fuel pts pp ref acc prev j = Ret v ->
  exists w, hv2d_do_d fuel pts pp ref s prev j = Ret w /\ is_double w /\ 0 <= v /\ close w (area_of v) (length pts).
Proof.
  induction fuel as [|fuel IH]; intros pts pp ref acc s prev j k v DP DR DV DS A0 Kj Kn C H;
    cbn [hv2d_do] in H; [discriminate|]. cbn [hv2d_do_d].
  destruct (hv2d_skip (S (length pts)) pts pp prev j) as [j'| | |] eqn:SK; try discriminate. cbn [bind] in H |- *.
  destruct (skip_result _ _ _ _ _ _ SK) as [J1 J2]. pose proof (skip_le _ _ _ _ _ _ SK Kn) as J4.
  assert (Done : forall s0 acc0 k0, is_double s0 -> 0 <= acc0 -> (k0 <= length pts)%nat -> close s0 (area_of acc0) k0 ->
            is_double s0 /\ 0 <= acc0 /\ close s0 (area_of acc0) (length pts)).
  { intros s0 acc0 k0 H1 H2 H3 H4. split; auto. split; auto. apply close_weaken with k0; auto. now apply area_nonneg. }
  destruct (j' =? length pts)%nat eqn:Ej.
  { inversion H; subst. exists s. split; auto. apply (Done s v k); auto; lia. }
  destruct (deref pts pp j') as [pj| | |] eqn:D; try discriminate. cbn [bind] in H |- *.
  destruct (Z.leb_spec (coord ref 0) (coord pj 0)) as [G|G].
  { inversion H; subst. exists s. split; auto. apply (Done s v k); auto; lia. }
  pose proof (deref_in _ _ _ _ D) as Hin.
  assert (J3 : (j' < length pts)%nat) by (apply Nat.eqb_neq in Ej; lia).
  destruct (J2 eq_refl J3) as (p & Dp & Lt). assert (p = pj) by congruence. subst p. clear Dp.
  assert (P1 : (0 <= dval (coord ref 0) - dval (coord pj 0))%R). { rewrite dval_minus. apply dval_nonneg. lia. }
  assert (P2 : (0 <= dval prev - dval (coord pj 1))%R). { rewrite dval_minus. apply dval_nonneg. lia. }
  pose proof (term_bound (dval (coord ref 0)) (dval (coord pj 0)) (dval prev) (dval (coord pj 1))
     DR (DP pj 0%nat Hin ltac:(lia)) DV (DP pj 1%nat Hin ltac:(lia)) P1 P2) as (T0 & TU & TL).
  set (t := rnd (rnd (dval (coord ref 0) - dval (coord pj 0)) * rnd (dval prev - dval (coord pj 1)))) in *.
  rewrite !dval_minus, dval_mult in TU, TL.
  set (q := (coord ref 0 - coord pj 0) * (prev - coord pj 1)) in *.
  assert (Q0 : 0 <= q) by (unfold q; nia).
  assert (C' : close (rnd (s + t)) (area_of (acc + q)) (S k)).
  { rewrite area_plus. apply close_step; auto; try now apply area_nonneg. apply rnd_format. }
  destruct (Nat.ltb_spec (S j') (length pts)) as [L|L].
  - destruct (deref pts pp (S j')) as [pj'| | |] eqn:D'; try discriminate. cbn [bind] in H |- *.
    destruct (Z.ltb_spec (coord pj' 0) (coord ref 0)) as [M|M].
    + eapply IH; [exact DP|exact DR| | | |  | |exact C'|exact H].
      * apply (DP pj 1%nat Hin). lia.
      * apply rnd_format.
      * lia.
      * lia.
      * lia.
    + inversion H; subst v. eexists. split; [reflexivity|]. apply (Done _ _ (S k)); auto; try lia. apply rnd_format.
  - inversion H; subst v. eexists. split; [reflexivity|]. apply (Done _ _ (S k)); auto; try lia. apply rnd_format.
Qed.

(** ** C53 *)
(** For every set of n points whose coordinates are doubles, and every result of
    qsort, the computed value [w] is a non-negative double and, with V the exact
    area, u = 2^-53 and eta = 2^-1074,
       (V - n eta) (1 - u)^(n+3)  <=  w  <=  (V + n eta) (1 + u)^(n+3). *)
Theorem C53_hv2d_accuracy : forall sort2d pts ref,
  valid_sort2d sort2d -> length ref = 2%nat ->
  double_points pts -> double_points [ref] ->
  exists v w, hypervolume pts ref v /\ hv2d_d sort2d pts ref = Ret w /\ is_double w /\ (0 <= w)%R /\
    ((area_of v - INR (length pts) * eta) * (1 - u) ^ (length pts + 3) <= w)%R /\
    (w <= (area_of v + INR (length pts) * eta) * (1 + u) ^ (length pts + 3))%R.
Proof.
  intros sort2d pts ref Hs Hr DP DR.
  destruct (C08_hv2d_exact sort2d pts ref Hs Hr) as (v & E & HV).
  unfold hv2d in E. eapply (lockstep _ _ _ _ _ 0%R _ _ 0%nat) in E; auto.
  - destruct E as (w & E & DW & V0 & (W0 & WU & WL)). exists v, w. rewrite (Nat.add_comm (length pts) 3).
    tauto.
  - apply (DR ref 0%nat); [now left|lia].
  - apply (DR ref 1%nat); [now left|lia].
  - apply generic_format_0.
  - lia.
  - lia.
  - unfold close, area_of. cbn [INR]. split; [lra|]. split; lra.
Qed.
Print Assumptions C53_hv2d_accuracy.

(** an integer as a number of units of 2^-1074 *)
Definition dint (k : Z) : Z := k * 2 ^ 1074.
Lemma dval_dint : forall k, dval (dint k) = IZR k.
Proof.
  intros. unfold dval, dint. rewrite mult_IZR. change (2 ^ 1074) with (Zpower radix2 1074).
  rewrite IZR_Zpower by lia. rewrite Rmult_assoc, <- bpow_plus. simpl (1074 + -1074). simpl. ring.
Qed.
Example C53_example : double_points (map (map dint) [[1; 3]; [3; 1]; [2; 2]]) /\ double_points [map dint [5; 5]].
Proof.
  assert (D : forall k, Z.abs k <= 2 ^ 53 -> double_coord (dint k)).
  { intros. unfold double_coord. rewrite dval_dint. now apply double_int. }
  split; intros p c Hp Hc; cbn [map In] in Hp; repeat destruct Hp as [<-|Hp]; try tauto;
    destruct c as [|[|c]]; try lia; unfold coord; cbn [nth]; apply D; lia.
Qed.
