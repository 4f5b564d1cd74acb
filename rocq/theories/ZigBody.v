(** The layers of the ziggurat cover the bell curve up to the last layer's end. *)
From Coq Require Import List ZArith Reals Lra Lia Bool.
From Coquelicot Require Import Coquelicot.
From Verif Require Import Base ZigTables RngModel ProbSpec ProbFacts ZigFacts ZigSpec GaussInt ZigNum ZigLaw PropHypeDist.
Import ListNotations.
Open Scope R_scope.

Definition hh (i : nat) : R := fv (i - 1) - fv i.
Definition astar (i : nat) (x : R) : R := clamp ((bell x - fv i) / hh i).
Definition e52 : R := / IZR (2 ^ 52).
Definition e53 : R := / IZR (2 ^ 53).

Lemma e52_pos : 0 < e52. Proof. unfold e52. apply Rinv_0_lt_compat. now apply IZR_pow_pos. Qed.
Lemma e53_pos : 0 < e53. Proof. unfold e53. apply Rinv_0_lt_compat. now apply IZR_pow_pos. Qed.

Lemma clamp_cont : forall x, continuous clamp x.
Proof.
  intros x. apply continuity_pt_filterlim. intros eps Heps. exists eps. split; [ exact Heps | ].
  intros y [_ Hy]. cbn in *. unfold R_dist in *. eapply Rle_lt_trans; [ apply clamp_lip | exact Hy ].
Qed.
Lemma astar_cont : forall i x, continuous (astar i) x.
Proof.
  intros i x. unfold astar. apply (continuous_comp (fun x => (bell x - fv i) / hh i) clamp); [ | apply clamp_cont ].
  apply (continuous_mult (fun x => bell x - fv i) (fun _ => / hh i)); [ | apply continuous_const ].
  apply (continuous_minus bell (fun _ => fv i)); [ apply bell_cont | apply continuous_const ].
Qed.
Lemma astar_range : forall i x, 0 <= astar i x <= 1.
Proof. intros. apply clamp_bounds. Qed.
Lemma astar_decr : forall i x y, 0 < hh i -> 0 <= x -> x <= y -> astar i y <= astar i x.
Proof.
  intros i x y Hh Hx Hxy. apply clamp_mono. apply Rmult_le_compat_r; [ left; now apply Rinv_0_lt_compat | ].
  pose proof (bell_decr x y Hx Hxy). lra.
Qed.
Lemma astar_int : forall i a b, ex_RInt (astar i) a b.
Proof. intros i a b. apply (ex_RInt_continuous (V := R_CompleteNormedModule)). intros. apply astar_cont. Qed.

Lemma accl_close : forall i k, (1 <= i <= 255)%nat -> (0 <= k < 2 ^ 52)%Z ->
  Rabs (accl i k - astar i (IZR k * wv i)) <= delta + e53.
Proof.
  intros i k Hi Hk. destruct (layer_order i Hi) as (F & FO & W & X & K).
  assert (Hh : 0 < hh i) by (unfold hh; lra). pose proof delta_pos as D. pose proof e53_pos as E.
  unfold accl. destruct (Z.ltb_spec k (kv i)) as [L | L].
  - pose proof (layer_fast i k Hi ltac:(lia)) as LF. fold (hh i) in LF.
    assert (C : 1 - delta <= (bell (IZR k * wv i) - fv i) / hh i).
    { apply Rmult_le_reg_r with (hh i); [ exact Hh | ]. unfold Rdiv. rewrite Rmult_assoc, Rinv_l, Rmult_1_r by lra. unfold hh in *. lra. }
    assert (D1 : delta <= 1).
    { unfold delta. rewrite <- Rinv_1. apply Rinv_le_contravar; [ lra | ]. apply IZR_le. apply (proj1 (Z.leb_le 1 (10 ^ 13))). reflexivity. }
    assert (C' : 1 - delta <= astar i (IZR k * wv i)) by (rewrite <- (clamp_id (1 - delta)) by lra; now apply clamp_mono).
    pose proof (astar_range i (IZR k * wv i)). apply Rabs_le. lra.
  - destruct (Nat.eqb_spec i 0) as [ | _ ]; [ lia | ].
    unfold acc, astar. eapply Rle_trans; [ apply chance_below; [ exact pos53z | ] | fold e53; lra ].
    intros u Hu. unfold accepts. pose proof (IZR_pow_pos 2 53 ltac:(lia) ltac:(lia)) as P53.
    unfold frac53. fold (hh i). set (p := IZR (2 ^ 53)) in *. set (b := bell _). clearbody p b.
    assert (EQ : hh i * (IZR u / p) + fv i < b <-> IZR u < (b - fv i) / hh i * p).
    { assert (Z1 : IZR u = (hh i * (IZR u / p)) * (p / hh i)) by (field; lra).
      assert (Z2 : (b - fv i) / hh i * p = (b - fv i) * (p / hh i)) by (field; lra).
      assert (PH : 0 < p / hh i) by (apply Rdiv_lt_0_compat; lra).
      rewrite Z2. split; intros H.
      - rewrite Z1. apply Rmult_lt_compat_r; lra.
      - rewrite Z1 in H. apply Rmult_lt_reg_r in H; lra. }
    destruct (Rlt_dec _ _) as [Y | Y]; split; intros H; try reflexivity; try discriminate; [ now apply EQ | ]. exfalso. now apply Y, EQ.
Qed.

Lemma wv_step : forall i k, IZR k * (xv i / IZR (2 ^ 52)) = IZR k * wv i.
Proof. intros i k. unfold xv. pose proof (IZR_pow_pos 2 52 ltac:(lia) ltac:(lia)) as P. set (p := IZR (2 ^ 52)) in *. clearbody p. field. lra. Qed.

Lemma indicator_range : forall b, 0 <= indicator b <= 1. Proof. intros []; cbn; lra. Qed.
Lemma accl_range : forall i k, 0 <= accl i k <= 1.
Proof.
  intros i k. unfold accl. destruct (k <? kv i)%Z; [ lra | ]. destruct (i =? 0)%nat; [ lra | ]. unfold acc, chance. split.
  - rewrite <- (mean_const (2 ^ 53) 0) by exact pos53z. apply mean_le; [ exact pos53z | ]. intros; apply indicator_range.
  - rewrite <- (mean_const (2 ^ 53) 1) by exact pos53z. apply mean_le; [ exact pos53z | ]. intros; apply indicator_range.
Qed.

Lemma tri : forall a b c d e : R, Rabs (a - b) <= d -> Rabs (b - c) <= e -> Rabs (a - c) <= d + e.
Proof. intros a b c d e H1 H2. replace (a - c) with ((a - b) + (b - c)) by ring. eapply Rle_trans; [ apply Rabs_triang | ]. lra. Qed.

Lemma layer_int : forall i t, (1 <= i <= 255)%nat -> 0 <= t ->
  Rabs (layer (positive_upto t) i 0 - RInt (astar i) 0 (Rmin t (xv i)) / xv i) <= delta + e53 + e52.
Proof.
  intros i t Hi Ht. destruct (layer_order i Hi) as (F & FO & W & X & K). assert (Hh : 0 < hh i) by (unfold hh; lra).
  pose proof (riemann_mean (astar i) t Ht (fun x _ => astar_cont i x) (fun x y Hx Hxy _ => astar_decr i x y Hh Hx Hxy) (fun x _ => astar_range i x) (2 ^ 52) (xv i) pos52 ltac:(lra)) as RM.
  fold e52 in RM.
  assert (M : Rabs (layer (positive_upto t) i 0 - mean_of (2 ^ 52) (fun k => indicator (in_pos t (IZR k * (xv i / IZR (2 ^ 52)))) * astar i (IZR k * (xv i / IZR (2 ^ 52))))) <= delta + e53).
  { unfold layer. apply mean_abs; [ exact pos52 | ]. intros k Hk. rewrite wv_step. unfold sgn. cbn [Z.eqb Pos.eqb].
    change (positive_upto t (IZR k * wv i)) with (in_pos t (IZR k * wv i)). pose proof (accl_close i k Hi Hk) as AC.
    pose proof delta_pos as D. pose proof e53_pos as E.
    destruct (in_pos t (IZR k * wv i)); cbn [indicator].
    - rewrite Rmult_1_r, Rmult_1_l. exact AC.
    - rewrite Rmult_0_r, Rmult_0_l, Rminus_0_r, Rabs_R0. lra. }
  pose proof (tri _ _ _ _ _ M RM). lra.
Qed.

Lemma astar_int_range : forall i a b, a <= b -> 0 <= RInt (astar i) a b <= b - a.
Proof.
  intros i a b Hab. assert (C : forall c, RInt (fun _ : R => c) a b = (b - a) * c) by (intros c; rewrite RInt_const; reflexivity).
  split.
  - rewrite <- (Rmult_0_r (b - a)), <- C. apply RInt_le; [ exact Hab | apply ex_RInt_const | apply astar_int | ]. intros; apply astar_range.
  - rewrite <- (Rmult_1_r (b - a)), <- C. apply RInt_le; [ exact Hab | apply astar_int | apply ex_RInt_const | ]. intros; apply astar_range.
Qed.

(** the part beyond the end of the layer is negligible *)
Lemma astar_end : forall i t, (1 <= i <= 255)%nat -> 0 <= t ->
  0 <= RInt (astar i) 0 (Rmin t rr) - RInt (astar i) 0 (Rmin t (xv i)) <= 4 * delta.
Proof.
  intros i t Hi Ht. destruct (layer_order i Hi) as (F & FO & W & X & K). assert (Hh : 0 < hh i) by (unfold hh; lra).
  fold rr in X. pose proof delta_pos as D. pose proof (zn_r4 numbers) as R4.
  set (a := Rmin t (xv i)). set (b := Rmin t rr).
  assert (A0 : 0 <= a) by (unfold a, Rmin; destruct (Rle_dec t (xv i)); lra).
  assert (AB : a <= b) by (unfold a, b, Rmin; destruct (Rle_dec t (xv i)), (Rle_dec t rr); lra).
  assert (B4 : b <= 4) by (unfold b, Rmin; destruct (Rle_dec t rr); lra).
  assert (Y : a = b \/ xv i <= a) by (unfold a, b, Rmin; destruct (Rle_dec t (xv i)), (Rle_dec t rr); lra).
  replace (RInt (astar i) 0 b - RInt (astar i) 0 a) with (RInt (astar i) a b).
  2: { pose proof (RInt_Chasles (V := R_CompleteNormedModule) (astar i) 0 a b (astar_int _ _ _) (astar_int _ _ _)) as CH.
       change (RInt (astar i) 0 a + RInt (astar i) a b = RInt (astar i) 0 b) in CH. lra. }
  split; [ now apply astar_int_range | ]. destruct Y as [ -> | Y ].
  - assert (P : RInt (astar i) b b = 0) by (rewrite RInt_point; reflexivity). rewrite P. lra.
  - assert (C : forall c, RInt (fun _ : R => c) a b = (b - a) * c) by (intros c; rewrite RInt_const; reflexivity).
    apply Rle_trans with ((b - a) * delta).
    + rewrite <- C. apply RInt_le; [ exact AB | apply astar_int | apply ex_RInt_const | ]. intros x Hx.
      apply Rle_trans with (astar i (xv i)); [ apply astar_decr; lra | ]. unfold astar.
      assert (Q : (bell (xv i) - fv i) / hh i <= delta).
      { apply Rmult_le_reg_r with (hh i); [ exact Hh | ]. unfold Rdiv. rewrite Rmult_assoc, Rinv_l, Rmult_1_r by lra. apply (layer_end i Hi). }
      unfold clamp, Rmax, Rmin. destruct (Rle_dec _ 1); destruct (Rle_dec 0 _); lra.
    + apply Rmult_le_compat_r; lra.
Qed.

Lemma area_pos : 0 < area. Proof. pose proof (zn_area numbers). lra. Qed.

Lemma layer_term : forall i t, (1 <= i <= 255)%nat -> 0 <= t ->
  Rabs (area * layer (positive_upto t) i 0 - hh i * RInt (astar i) 0 (Rmin t rr)) <= area * (2 * delta + e53 + e52) + hh i * (4 * delta).
Proof.
  intros i t Hi Ht. destruct (layer_order i Hi) as (F & FO & W & X & K). assert (Hh : 0 < hh i) by (unfold hh; lra).
  pose proof (layer_int i t Hi Ht) as L. pose proof (astar_end i t Hi Ht) as E. pose proof (layer_area i Hi) as A. fold (hh i) in A.
  pose proof area_pos as AP.
  set (I := RInt (astar i) 0 (Rmin t (xv i))) in *. set (J := RInt (astar i) 0 (Rmin t rr)) in *. set (l := layer (positive_upto t) i 0) in *.
  assert (IR : 0 <= I <= xv i).
  { unfold I. assert (M0 : 0 <= Rmin t (xv i) <= xv i) by (unfold Rmin; destruct (Rle_dec t (xv i)); lra).
    pose proof (astar_int_range i 0 (Rmin t (xv i)) ltac:(lra)). lra. }
  assert (IX : 0 <= I / xv i <= 1).
  { split; [ apply Rmult_le_pos; [ lra | left; apply Rinv_0_lt_compat; lra ] | ].
    apply Rmult_le_reg_r with (xv i); [ lra | ]. unfold Rdiv. rewrite Rmult_assoc, Rinv_l by lra. lra. }
  assert (T1 : Rabs (area * (l - I / xv i)) <= area * (delta + e53 + e52)) by (rewrite Rabs_mult, (Rabs_right area) by lra; apply Rmult_le_compat_l; lra).
  assert (T2 : Rabs ((area - xv i * hh i) * (I / xv i)) <= delta * area).
  { rewrite Rabs_mult, (Rabs_right (I / xv i)) by lra. rewrite Rabs_minus_sym in A.
    rewrite <- (Rmult_1_r (delta * area)). apply Rmult_le_compat; try lra. apply Rabs_pos. }
  assert (T3 : Rabs (hh i * (I - J)) <= hh i * (4 * delta)) by (rewrite Rabs_mult, (Rabs_right (hh i)) by lra; apply Rmult_le_compat_l; [ lra | apply Rabs_le; lra ]).
  replace (area * l - hh i * J) with (area * (l - I / xv i) + ((area - xv i * hh i) * (I / xv i) + hh i * (I - J))) by (field; lra).
  eapply Rle_trans; [ apply Rabs_triang | ]. eapply Rle_trans; [ apply Rplus_le_compat_l, Rabs_triang | ]. lra.
Qed.

(** ** Adding the layers *)
Lemma astar_sum : forall x m, (m <= 255)%nat -> bell x <= fv 0 ->
  sum_to m (fun i => hh (S i) * astar (S i) x) = Rmax (bell x - fv m) 0.
Proof.
  intros x. induction m as [ | m IH ]; intros Hm Hb; cbn [sum_to].
  - rewrite Rmax_right; lra.
  - rewrite IH by (try exact Hb; lia). destruct (layer_order (S m) ltac:(lia)) as (_ & FO & _).
    unfold astar, hh. replace (S m - 1)%nat with m in * by lia.
    set (f0 := fv m) in *. set (f1 := fv (S m)) in *. set (b := bell x). clearbody f0 f1 b.
    assert (E : (f0 - f1) * clamp ((b - f1) / (f0 - f1)) = Rmax 0 (Rmin (b - f1) (f0 - f1))).
    { assert (Y : b - f1 = (f0 - f1) * ((b - f1) / (f0 - f1))) by (field; lra). set (y := (b - f1) / (f0 - f1)) in *. rewrite Y.
      set (d := f0 - f1) in *. assert (D0 : 0 < d) by (unfold d; lra). clearbody y d. clear - D0.
      unfold clamp, Rmax, Rmin. repeat destruct (Rle_dec _ _); try lra; nra. }
    rewrite E. unfold Rmax, Rmin. repeat destruct (Rle_dec _ _); lra.
Qed.
Lemma hh_sum : forall m, sum_to m (fun i => hh (S i)) = fv 0 - fv m.
Proof. induction m as [ | m IH ]; cbn [sum_to]; [ ring | ]. rewrite IH. unfold hh. replace (S m - 1)%nat with m by lia. ring. Qed.

Lemma sum_int : forall (f : nat -> R -> R) a b m, (forall i, ex_RInt (f i) a b) ->
  is_RInt (fun x => sum_to m (fun i => f i x)) a b (sum_to m (fun i => RInt (f i) a b)).
Proof.
  intros f a b m H. induction m as [ | m IH ]; cbn [sum_to].
  - assert (Z0 : is_RInt (fun _ : R => 0) a b (scal (b - a) 0)) by apply (is_RInt_const (V := R_NormedModule)).
    assert (E0 : scal (b - a) 0 = 0) by apply Rmult_0_r. rewrite E0 in Z0. exact Z0.
  - apply (is_RInt_plus (V := R_NormedModule)); [ exact IH | ]. apply (RInt_correct (V := R_CompleteNormedModule)). apply H.
Qed.

Lemma sum_abs : forall n f g e, (forall i, (i < n)%nat -> Rabs (f i - g i) <= e i) ->
  Rabs (sum_to n f - sum_to n g) <= sum_to n e.
Proof.
  induction n as [ | n IH ]; intros f g e H; cbn [sum_to].
  - rewrite Rminus_0_r, Rabs_R0. lra.
  - pose proof (IH f g e ltac:(intros; apply H; lia)). pose proof (H n ltac:(lia)).
    replace (sum_to n f + f n - (sum_to n g + g n)) with ((sum_to n f - sum_to n g) + (f n - g n)) by ring.
    eapply Rle_trans; [ apply Rabs_triang | ]. lra.
Qed.

Lemma fv255_range : 0 < fv 255 < 1.
Proof.
  split; [ apply (zn_f numbers) | ]. rewrite <- (zn_f0 numbers).
  assert (G : forall m, (m < 255)%nat -> fv (S m) < fv 0).
  { induction m as [ | m IH ]; intros Hm; [ destruct (layer_order 1 ltac:(lia)) as (_ & FO & _); exact FO | ].
    destruct (layer_order (S (S m)) ltac:(lia)) as (_ & FO' & _).
    replace (S (S m) - 1)%nat with (S m) in FO' by lia. specialize (IH ltac:(lia)). lra. }
  apply (G 254%nat). lia.
Qed.

Lemma upper_layers : forall t, 0 <= t ->
  Rabs (sum_to 255 (fun i => area * layer (positive_upto t) (S i) 0) - RInt (fun x => Rmax (bell x - fv 255) 0) 0 (Rmin t rr))
    <= 255 * area * (2 * delta + e53 + e52) + 4 * delta.
Proof.
  intros t Ht. set (m := Rmin t rr).
  assert (M0 : 0 <= m) by (unfold m, Rmin; pose proof rr_nonneg; destruct (Rle_dec t rr); lra).
  assert (EX : forall i, ex_RInt (fun x => hh (S i) * astar (S i) x) 0 m).
  { intros i. apply (ex_RInt_scal (V := R_NormedModule)). apply astar_int. }
  assert (EI : RInt (fun x => Rmax (bell x - fv 255) 0) 0 m = sum_to 255 (fun i => hh (S i) * RInt (astar (S i)) 0 m)).
  { apply is_RInt_unique. apply (is_RInt_ext (fun x => sum_to 255 (fun i => hh (S i) * astar (S i) x))).
    - intros x _. apply astar_sum; [ lia | ]. rewrite (zn_f0 numbers). apply bell_le_1.
    - rewrite (sum_to_ext 255 (fun i => hh (S i) * RInt (astar (S i)) 0 m) (fun i => RInt (fun x => hh (S i) * astar (S i) x) 0 m)).
      + now apply sum_int.
      + intros i _. symmetry. apply (RInt_scal (V := R_CompleteNormedModule)). apply astar_int. }
  rewrite EI. eapply Rle_trans.
  - apply (sum_abs 255 _ _ (fun i => area * (2 * delta + e53 + e52) + 4 * delta * hh (S i))). intros i Hi.
    pose proof (layer_term (S i) t ltac:(lia) Ht) as L. fold m in L. lra.
  - rewrite sum_to_plus, sum_to_const, sum_to_scal, hh_sum. rewrite (zn_f0 numbers).
    replace (INR 255) with 255 by (rewrite INR_IZR_INZ; reflexivity).
    pose proof fv255_range as FR. pose proof delta_pos as D.
    assert (4 * delta * (1 - fv 255) <= 4 * delta * 1) by (apply Rmult_le_compat_l; lra). lra.
Qed.

(** ** The base layer *)
Lemma wv_pos : forall i, (i <= 255)%nat -> 0 < wv i.
Proof. intros [ | i ] Hi; [ apply (zn_w0 numbers) | ]. now destruct (layer_order (S i) ltac:(lia)) as (_ & _ & W & _). Qed.

Lemma base_layer : forall t, 0 <= t -> Rabs (area * layer (positive_upto t) 0 0 - fv 255 * Rmin t rr) <= 2 * area * e52.
Proof.
  intros t Ht. pose proof (zn_k0 numbers) as K0. pose proof (zn_w0 numbers) as W0. pose proof (zn_k0l numbers) as KL. pose proof (zn_k0h numbers) as KH.
  pose proof fv255_range as FR. pose proof (IZR_pow_pos 2 52 ltac:(lia) ltac:(lia)) as P52.
  assert (KB : 0 <= IZR (kv 0 - 1) <= IZR (2 ^ 52)) by (split; apply IZR_le; lia).
  set (m := Rmin t (IZR (kv 0 - 1) * wv 0)).
  assert (M0 : 0 <= m <= IZR (kv 0 - 1) * wv 0).
  { unfold m. assert (0 <= IZR (kv 0 - 1) * wv 0) by (apply Rmult_le_pos; lra). unfold Rmin. destruct (Rle_dec _ _); lra. }
  set (c := m / (wv 0 * IZR (2 ^ 52))).
  assert (CM : m = c * IZR (2 ^ 52) * wv 0) by (unfold c; set (p := IZR (2 ^ 52)) in *; clearbody p; field; lra).
  assert (AC : area * c = fv 255 * m).
  { unfold area, xv. rewrite CM. change (2 ^ 52)%Z with (2 ^ 52)%Z. set (p := IZR (2 ^ 52)) in *. clearbody p. ring. }
  assert (AW : fv 255 * wv 0 = area * e52).
  { unfold area, xv, e52. set (p := IZR (2 ^ 52)) in *. clearbody p. field. lra. }
  assert (CB : 0 <= c <= 1).
  { split; unfold c.
    - apply Rmult_le_pos; [ lra | ]. left. apply Rinv_0_lt_compat. apply Rmult_lt_0_compat; lra.
    - apply Rmult_le_reg_r with (wv 0 * IZR (2 ^ 52)); [ apply Rmult_lt_0_compat; lra | ]. unfold Rdiv.
      rewrite Rmult_assoc, Rinv_l, Rmult_1_r, Rmult_1_l by (apply Rgt_not_eq, Rmult_lt_0_compat; lra).
      apply Rle_trans with (IZR (kv 0 - 1) * wv 0); [ lra | ]. rewrite Rmult_comm. apply Rmult_le_compat_l; lra. }
  assert (L : layer (positive_upto t) 0 0 = chance (2 ^ 52) (fun k => (k <? kv 0)%Z && positive_upto t (IZR k * wv 0))).
  { unfold layer, chance. apply mean_ext. intros k _. unfold sgn, accl. cbn [Z.eqb Nat.eqb].
    destruct (k <? kv 0)%Z; cbn [andb]; [ ring | ]. cbn [indicator]. ring. }
  assert (CU : Rabs (layer (positive_upto t) 0 0 - c) <= e52).
  { rewrite L. apply chance_upto; [ exact pos52 | exact CB | ]. intros k Hk. rewrite andb_true_iff, Z.ltb_lt.
    change (positive_upto t) with (in_pos t). rewrite in_pos_true.
    assert (Q : IZR k <= c * IZR (2 ^ 52) <-> IZR k * wv 0 <= m).
    { rewrite CM. split; intros H; [ apply Rmult_le_compat_r; lra | ]. now apply Rmult_le_reg_r in H. }
    rewrite Q. unfold m. split.
    - intros [Hlt [Hp Ht']]. split.
      + apply Rmult_lt_reg_r with (wv 0); lra.
      + apply Rmin_glb; [ exact Ht' | ]. apply Rmult_le_compat_r; [ lra | ]. apply IZR_le. lia.
    - intros [Hp Hm]. repeat split.
      + pose proof (Rle_trans _ _ _ Hm (Rmin_r _ _)) as Z1. apply Rmult_le_reg_r in Z1; [ | lra ]. apply le_IZR in Z1. lia.
      + apply Rmult_lt_0_compat; lra.
      + exact (Rle_trans _ _ _ Hm (Rmin_l _ _)). }
  assert (MR : Rabs (m - Rmin t rr) <= wv 0).
  { unfold m. rewrite minus_IZR in *. unfold Rmin. repeat destruct (Rle_dec _ _); apply Rabs_le; lra. }
  pose proof area_pos as AP.
  assert (S1 : Rabs (area * layer (positive_upto t) 0 0 - fv 255 * m) <= area * e52).
  { rewrite <- AC, <- Rmult_minus_distr_l, Rabs_mult, (Rabs_right area) by lra. apply Rmult_le_compat_l; lra. }
  assert (S2 : Rabs (fv 255 * m - fv 255 * Rmin t rr) <= area * e52).
  { rewrite <- AW, <- Rmult_minus_distr_l, Rabs_mult, (Rabs_right (fv 255)) by lra. apply Rmult_le_compat_l; lra. }
  pose proof (tri _ _ _ _ _ S1 S2). lra.
Qed.

Lemma top_int : forall m, 0 <= m <= rr ->
  Rabs (RInt (fun x => Rmax (bell x - fv 255) 0) 0 m + fv 255 * m - RInt bell 0 m) <= 4 * / IZR (10 ^ 15).
Proof.
  intros m Hm. pose proof (zn_end numbers) as ZE. pose proof (zn_r4 numbers) as R4.
  assert (EP : 0 < / IZR (10 ^ 15)) by (apply Rinv_0_lt_compat; now apply IZR_pow_pos).
  set (e := / IZR (10 ^ 15)) in *. clearbody e.
  assert (CT : forall x, continuous (fun x => Rmax (bell x - fv 255) 0) x).
  { intros x. apply (continuous_ext (fun x => ((bell x - fv 255) + Rabs (bell x - fv 255)) / 2)).
    - intros y. assert (G : (bell y - fv 255 + Rabs (bell y - fv 255)) / 2 = Rmax (bell y - fv 255) 0); [ | exact G ].
      unfold Rmax. destruct (Rle_dec (bell y - fv 255) 0); [ rewrite Rabs_left1 by lra | rewrite Rabs_right by lra ]; field.
    - assert (CB : continuous (fun x => bell x - fv 255) x) by (apply (continuous_minus bell (fun _ => fv 255)); [ apply bell_cont | apply continuous_const ]).
      apply (continuous_mult (fun x => (bell x - fv 255) + Rabs (bell x - fv 255)) (fun _ => / 2)); [ | apply continuous_const ].
      apply (continuous_plus (fun x => bell x - fv 255) (fun x => Rabs (bell x - fv 255))); [ exact CB | ].
      apply (continuous_comp (fun x => bell x - fv 255) Rabs); [ exact CB | apply continuous_Rabs ]. }
  assert (IT : ex_RInt (fun x => Rmax (bell x - fv 255) 0) 0 m) by (apply (ex_RInt_continuous (V := R_CompleteNormedModule)); intros; apply CT).
  assert (C : forall c, RInt (fun _ : R => c) 0 m = m * c) by (intros c; rewrite RInt_const; change ((m - 0) * c = m * c); ring).
  assert (U : forall c, RInt (fun x => bell x + c) 0 m = RInt bell 0 m + m * c).
  { intros c. rewrite <- C. apply (RInt_plus (V := R_CompleteNormedModule) bell (fun _ => c)); [ apply bell_int | apply ex_RInt_const ]. }
  assert (EU : forall c, ex_RInt (fun x => bell x + c) 0 m) by (intros c; apply (ex_RInt_plus (V := R_NormedModule)); [ apply bell_int | apply ex_RInt_const ]).
  assert (LO : RInt (fun x => bell x + - fv 255) 0 m <= RInt (fun x => Rmax (bell x - fv 255) 0) 0 m).
  { apply RInt_le; [ lra | apply EU | exact IT | ]. intros x _. pose proof (Rmax_l (bell x - fv 255) 0). lra. }
  assert (HI : RInt (fun x => Rmax (bell x - fv 255) 0) 0 m <= RInt (fun x => bell x + (e - fv 255)) 0 m).
  { apply RInt_le; [ lra | exact IT | apply EU | ]. intros x Hx. pose proof (bell_decr x rr ltac:(lra) ltac:(lra)). apply Rmax_lub; lra. }
  rewrite U in LO, HI. apply Rabs_le. split; [ nra | ]. assert (m * e <= 4 * e) by (apply Rmult_le_compat_r; lra). lra.
Qed.

Lemma sum_first : forall n f, sum_to (S n) f = f O + sum_to n (fun i => f (S i)).
Proof. induction n as [ | n IH ]; intros f; [ cbn [sum_to]; ring | ]. change (sum_to (S (S n)) f) with (sum_to (S n) f + f (S n)). rewrite IH. cbn [sum_to]. ring. Qed.

Definition eb : R := / IZR (10 ^ 12).
Lemma body_budget : 255 * area * (2 * delta + e53 + e52) + 4 * delta + 2 * area * e52 + 4 * / IZR (10 ^ 15) <= eb.
Proof.
  pose proof (zn_area numbers) as A. pose proof delta_pos as D. pose proof e52_pos as E2. pose proof e53_pos as E3.
  assert (D13 : 10 * delta = eb).
  { unfold delta, eb. replace (IZR (10 ^ 13)) with (10 * IZR (10 ^ 12)) by (rewrite <- mult_IZR; reflexivity).
    pose proof (IZR_pow_pos 10 12 ltac:(lia) ltac:(lia)) as P. set (p := IZR (10 ^ 12)) in *. clearbody p. field. lra. }
  assert (LE : forall a b : Z, (0 < a)%Z -> (a <= b)%Z -> / IZR b <= / IZR a).
  { intros a b Ha Hab. apply Rinv_le_contravar; [ apply IZR_lt; exact Ha | apply IZR_le; exact Hab ]. }
  assert (Q15 : 100 * / IZR (10 ^ 15) = delta).
  { unfold delta. replace (IZR (10 ^ 15)) with (100 * IZR (10 ^ 13)) by (rewrite <- mult_IZR; reflexivity).
    pose proof (IZR_pow_pos 10 13 ltac:(lia) ltac:(lia)) as P. set (p := IZR (10 ^ 13)) in *. clearbody p. field. lra. }
  assert (F2 : e52 <= / IZR (10 ^ 15)) by (unfold e52; apply LE; [ reflexivity | apply (proj1 (Z.leb_le _ _)); reflexivity ]).
  assert (F3 : e53 <= / IZR (10 ^ 15)) by (unfold e53; apply LE; [ reflexivity | apply (proj1 (Z.leb_le _ _)); reflexivity ]).
  set (q := / IZR (10 ^ 15)) in *. clearbody q.
  assert (area * (2 * delta + e53 + e52) <= 1 / 200 * (3 * delta)) by (apply Rmult_le_compat; lra).
  assert (area * e52 <= 1 / 200 * delta) by (apply Rmult_le_compat; lra). lra.
Qed.

Lemma rr_min : forall t, 0 <= t -> 0 <= Rmin t rr <= rr.
Proof. intros t Ht. pose proof rr_nonneg. unfold Rmin. destruct (Rle_dec t rr); lra. Qed.

Lemma body_sum : forall t, 0 <= t ->
  Rabs (area * sum_to 256 (fun i => layer (positive_upto t) i 0) - RInt bell 0 (Rmin t rr)) <= eb.
Proof.
  intros t Ht. rewrite (sum_first 255). rewrite Rmult_plus_distr_l, <- sum_to_scal.
  pose proof (upper_layers t Ht) as U. pose proof (base_layer t Ht) as B. pose proof (top_int (Rmin t rr) (rr_min t Ht)) as T. pose proof body_budget as BB.
  set (a := area * layer (positive_upto t) 0 0) in *. set (s := sum_to 255 _) in *. set (m := Rmin t rr) in *.
  change (RInt (fun x : R => Rmax (bell x - fv 255) 0) 0 m) with (RInt (fun x : R => Rmax (bell x - fv 255) 0) 0 m : R) in *.
  set (I := (RInt (fun x : R => Rmax (bell x - fv 255) 0) 0 m : R)) in *. set (J := (RInt bell 0 m : R)) in *. set (f := fv 255 * m) in *.
  replace (a + s - J) with ((s - I) + ((a - f) + (I + f - J))) by ring.
  eapply Rle_trans; [ apply Rabs_triang | ]. eapply Rle_trans; [ apply Rplus_le_compat_l, Rabs_triang | ]. lra.
Qed.

(** ** Both signs *)
Lemma layer_zero : forall A i s, (forall k, (0 <= k < 2 ^ 52)%Z -> A (sgn s (IZR k * wv i)) = false) -> layer A i s = 0.
Proof.
  intros A i s H. unfold layer. rewrite <- (mean_const (2 ^ 52) 0) by exact pos52. apply mean_ext. intros k Hk. rewrite (H k Hk). cbn. ring.
Qed.
Lemma pos_false : forall t x, x <= 0 -> positive_upto t x = false.
Proof. intros t x Hx. change (in_pos t x = false). destruct (in_pos t x) eqn:E; [ | reflexivity ]. apply in_pos_true in E. lra. Qed.
Lemma kw_nonneg : forall i k, (i <= 255)%nat -> (0 <= k)%Z -> 0 <= IZR k * wv i.
Proof. intros i k Hi Hk. apply Rmult_le_pos; [ now apply IZR_le | left; now apply wv_pos ]. Qed.

Lemma layer_pos_minus : forall t i, (i <= 255)%nat -> layer (positive_upto t) i 1 = 0.
Proof. intros t i Hi. apply layer_zero. intros k Hk. apply pos_false. unfold sgn. cbn [Z.eqb Pos.eqb]. pose proof (kw_nonneg i k Hi ltac:(lia)). lra. Qed.
Lemma layer_neg_plus : forall t i, (i <= 255)%nat -> layer (negative_upto t) i 0 = 0.
Proof. intros t i Hi. apply layer_zero. intros k Hk. unfold negative_upto. apply pos_false. unfold sgn. cbn [Z.eqb Pos.eqb]. pose proof (kw_nonneg i k Hi ltac:(lia)). lra. Qed.
Lemma layer_neg_minus : forall t i, layer (negative_upto t) i 1 = layer (positive_upto t) i 0.
Proof. intros t i. unfold layer, negative_upto, sgn. cbn [Z.eqb Pos.eqb]. apply mean_ext. intros k _. now rewrite Ropp_involutive. Qed.

Lemma mass_sum : forall A, 512 * mass A = sum_to 256 (fun i => layer A i 0 + layer A i 1).
Proof.
  intros A. unfold mass. unfold mean_of at 1. change (Z.to_nat 256) with 256%nat.
  rewrite (sum_to_ext 256 _ (fun i => / 2 * (layer A i 0 + layer A i 1))).
  - rewrite sum_to_scal. field.
  - intros i Hi. rewrite Nat2Z.id. unfold mean_of. change (Z.to_nat 2) with 2%nat. cbn [sum_to Z.of_nat Pos.of_succ_nat]. field.
Qed.

Theorem body_pos : forall t, 0 <= t -> Rabs (512 * area * mass (positive_upto t) - RInt bell 0 (Rmin t rr)) <= eb.
Proof.
  intros t Ht. rewrite (Rmult_comm 512), Rmult_assoc, mass_sum. rewrite (sum_to_ext 256 _ (fun i => layer (positive_upto t) i 0)).
  - now apply body_sum.
  - intros i Hi. rewrite layer_pos_minus by lia. ring.
Qed.
Theorem body_neg : forall t, mass (negative_upto t) = mass (positive_upto t).
Proof.
  intros t. apply Rmult_eq_reg_l with 512; [ | lra ]. rewrite !mass_sum. apply sum_to_ext. intros i Hi.
  rewrite layer_pos_minus, layer_neg_plus, layer_neg_minus by lia. ring.
Qed.

Lemma layer_any : forall i s, (i <= 255)%nat -> Rabs (layer any_number i s - layer (positive_upto rr) i 0) <= e52.
Proof.
  intros i s Hi. set (d := mean_of (2 ^ 52) (fun k => if (k =? 0)%Z then accl i 0 else 0)).
  assert (E : layer any_number i s = layer (positive_upto rr) i 0 + d).
  { unfold layer, d. rewrite <- mean_plus. apply mean_ext. intros k Hk. unfold any_number. cbn [indicator]. unfold sgn at 1. cbn [Z.eqb Pos.eqb].
    destruct (Z.eqb_spec k 0) as [ -> | Hn ].
    - rewrite pos_false by (cbn; lra). cbn [indicator]. ring.
    - destruct (in_pos rr (IZR k * wv i)) eqn:P; change (positive_upto rr (IZR k * wv i)) with (in_pos rr (IZR k * wv i)); rewrite P; cbn [indicator]; [ ring | ].
      assert (Z0 : accl i k = 0 \/ IZR k * wv i <= rr).
      { destruct i as [ | i ].
        - unfold accl. destruct (Z.ltb_spec k (kv 0)) as [L | L]; [ right | left; reflexivity ].
          apply Rle_trans with (IZR (kv 0 - 1) * wv 0); [ | apply (zn_k0l numbers) ].
          apply Rmult_le_compat_r; [ left; apply wv_pos; lia | ]. apply IZR_le. lia.
        - right. destruct (layer_order (S i) ltac:(lia)) as (_ & _ & W & X & _). fold rr in X. apply Rle_trans with (xv (S i)); [ | lra ].
          unfold xv. rewrite Rmult_comm. apply Rmult_le_compat_l; [ lra | ]. apply IZR_le. lia. }
      destruct Z0 as [Z0 | Z0]; [ rewrite Z0; ring | ]. exfalso.
      assert (T : in_pos rr (IZR k * wv i) = true). { apply in_pos_true. split; [ | exact Z0 ]. apply Rmult_lt_0_compat; [ apply IZR_lt; lia | now apply wv_pos ]. }
      congruence. }
  rewrite E. replace (layer (positive_upto rr) i 0 + d - layer (positive_upto rr) i 0) with d by ring.
  unfold d. rewrite mean_first by exact pos52. pose proof (accl_range i 0) as AR. pose proof e52_pos as EP. unfold Rdiv. fold e52.
  rewrite Rabs_right.
  - rewrite <- (Rmult_1_l e52) at 2. apply Rmult_le_compat_r; lra.
  - apply Rle_ge, Rmult_le_pos; lra.
Qed.

Theorem body_any : Rabs (512 * area * mass any_number - 2 * RInt bell 0 rr) <= 4 * eb.
Proof.
  pose proof rr_nonneg as R0. pose proof (body_sum rr R0) as B. rewrite Rmin_left in B by lra.
  assert (M : Rabs (512 * mass any_number - 2 * sum_to 256 (fun i => layer (positive_upto rr) i 0)) <= INR 256 * (2 * e52)).
  { rewrite mass_sum, <- sum_to_scal. apply sum_to_abs. intros i Hi.
    pose proof (layer_any i 0 ltac:(lia)) as L0. pose proof (layer_any i 1 ltac:(lia)) as L1.
    set (p := layer (positive_upto rr) i 0) in *. set (a := layer any_number i 0) in *. set (b := layer any_number i 1) in *. clearbody p a b.
    apply Rabs_le_between in L0. apply Rabs_le_between in L1. apply Rabs_le. lra. }
  replace (INR 256) with 256 in M by (rewrite INR_IZR_INZ; reflexivity).
  pose proof body_budget as BB. pose proof (zn_area numbers) as A. pose proof delta_pos as D. pose proof e52_pos as E2. pose proof e53_pos as E3.
  assert (EP : 0 < / IZR (10 ^ 15)) by (apply Rinv_0_lt_compat; now apply IZR_pow_pos).
  set (J := (RInt bell 0 rr : R)) in *. set (s := sum_to 256 _) in *. set (w := mass any_number) in *.
  set (q := / IZR (10 ^ 15)) in *. clearbody q J s w.
  assert (AM : Rabs (area * (512 * w - 2 * s)) <= area * (256 * (2 * e52))) by (rewrite Rabs_mult, (Rabs_right area) by lra; apply Rmult_le_compat_l; lra).
  assert (P1 : 0 <= area * delta) by (apply Rmult_le_pos; lra). assert (P2 : 0 <= area * e53) by (apply Rmult_le_pos; lra).
  assert (P3 : 0 <= area * e52) by (apply Rmult_le_pos; lra).
  assert (A2 : area * (512 * e52) <= 2 * eb) by lra.
  apply Rabs_le_between in AM. apply Rabs_le_between in B. apply Rabs_le. lra.
Qed.
