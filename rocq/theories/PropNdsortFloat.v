(** Property C83: the order that ndsort gives to the first front with doubles.
    Uses Flocq and therefore the axioms of the Coq Reals library. *)
From Coq Require Import List ZArith Lia Bool Arith Reals Lra.
From Flocq Require Import Core Relative.
From Verif Require Import Base Spec NondomModel HvSpec HvFacts Hv2dModel PctFloatModel PropPctFloat EpsFloatModel PropEpsFloat
  NormFloatModel HvFloatModel PropHv PropHvFloat HvContribFloatModel PropHvContribFloat NdsortFloatModel NondomProofs2d.
Import ListNotations.
Open Scope R_scope.
#[local] Existing Instance dexp_valid.

Lemma double_number : forall x, is_double x -> exists m, x = dval m.
Proof.
  intros x Hx. apply FLT_format_generic in Hx; [|unfold Prec_gt_0; lia]. destruct Hx as [[m e] E _ He]. cbn [Fnum Fexp] in He.
  exists (m * Zpower radix2 (e + 1074))%Z. rewrite E. unfold F2R, dval. cbn [Fnum Fexp].
  rewrite mult_IZR, IZR_Zpower by lia. rewrite Rmult_assoc, <- bpow_plus. do 2 f_equal. lia.
Qed.
Lemma dnum_dval : forall m, dnum (dval m) = m.
Proof.
  intros m. unfold dnum, dval. rewrite Rmult_assoc, <- bpow_plus. change (bpow radix2 (-1074 + 1074)) with 1.
  rewrite Rmult_1_r. apply Zfloor_IZR.
Qed.
Lemma dval_dnum : forall x, is_double x -> dval (dnum x) = x.
Proof. intros x Hx. destruct (double_number x Hx) as (m & ->). now rewrite dnum_dval. Qed.
Lemma dnum_mono : forall x y, x <= y -> (dnum x <= dnum y)%Z.
Proof. intros. apply Zfloor_le. apply Rmult_le_compat_r; [apply bpow_ge_0|auto]. Qed.
Lemma dnum_0 : dnum 0 = 0%Z.
Proof. unfold dnum. rewrite Rmult_0_l. apply (Zfloor_IZR 0). Qed.
Lemma dnum_1 : dnum 1 = dint 1.
Proof. rewrite <- (dval_dint 1). apply dnum_dval. Qed.

(** ** The normalised points are not negative *)
Lemma lower_bound_le : forall front d p, In p front -> lower_bound_d front d <= rcoord p d.
Proof.
  intros [|p0 ps] d p Hp; [destruct Hp|]. cbn [lower_bound_d].
  assert (G : forall l b, fold_left (fun b q => if Rlt_bool (rcoord q d) b then rcoord q d else b) l b <= b /\
            forall q, In q l -> fold_left (fun b q => if Rlt_bool (rcoord q d) b then rcoord q d else b) l b <= rcoord q d).
  { induction l as [|q l IH]; intros b; cbn [fold_left]; [split; [lra|intros ? []]|].
    destruct (IH (if Rlt_bool (rcoord q d) b then rcoord q d else b)) as [I1 I2].
    destruct (Rlt_bool_spec (rcoord q d) b); (split; [lra|]); intros r [<-|Hr]; auto; lra. }
  destruct (G ps (rcoord p0 d)) as [G1 G2]. destruct Hp as [<-|Hp]; auto.
Qed.
Lemma upper_bound_ge : forall front d p, In p front -> rcoord p d <= upper_bound_d front d.
Proof.
  intros [|p0 ps] d p Hp; [destruct Hp|]. cbn [upper_bound_d].
  assert (G : forall l b, b <= fold_left (fun b q => if Rlt_bool b (rcoord q d) then rcoord q d else b) l b /\
            forall q, In q l -> rcoord q d <= fold_left (fun b q => if Rlt_bool b (rcoord q d) then rcoord q d else b) l b).
  { induction l as [|q l IH]; intros b; cbn [fold_left]; [split; [lra|intros ? []]|].
    destruct (IH (if Rlt_bool b (rcoord q d) then rcoord q d else b)) as [I1 I2].
    destruct (Rlt_bool_spec b (rcoord q d)); (split; [lra|]); intros r [<-|Hr]; auto; lra. }
  destruct (G ps (rcoord p0 d)) as [G1 G2]. destruct Hp as [<-|Hp]; auto.
Qed.

(** one normalised value *)
Definition nvalue (lb ub x : R) : R :=
  let diff := rnd (ub - lb) in
  rnd (0 + rnd (rnd (rnd (rnd (9 / 10) - 0) * rnd (x - lb)) / (if Req_bool diff 0 then 1 else diff))).
Lemma nvalue_nonneg : forall lb ub x, lb <= x -> x <= ub -> 0 <= nvalue lb ub x.
Proof.
  intros lb ub x H1 H2. unfold nvalue. apply rnd_nonneg. rewrite Rplus_0_l. apply rnd_nonneg.
  apply Rmult_le_pos.
  - apply rnd_nonneg. apply Rmult_le_pos; apply rnd_nonneg; [|lra]. rewrite Rminus_0_r. apply rnd_nonneg. lra.
  - assert (0 <= rnd (ub - lb)) by (apply rnd_nonneg; lra).
    apply Rlt_le, Rinv_0_lt_compat. destruct (Req_bool_spec (rnd (ub - lb)) 0); lra.
Qed.

Lemma normalised_rows : forall front, normalised_front_d front =
  map (fun p => map (fun d => nvalue (lower_bound_d front d) (upper_bound_d front d) (rcoord p d)) [0%nat; 1%nat]) front.
Proof. intros. reflexivity. Qed.

Lemma normalised_coord : forall front p c, In p (normalised_front_d front) -> (c < 2)%nat ->
  is_double (rcoord p c) /\ 0 <= rcoord p c.
Proof.
  intros front p c Hp Hc. rewrite normalised_rows in Hp. apply in_map_iff in Hp. destruct Hp as (q & <- & Hq).
  assert (G : forall d, is_double (nvalue (lower_bound_d front d) (upper_bound_d front d) (rcoord q d)) /\
                        0 <= nvalue (lower_bound_d front d) (upper_bound_d front d) (rcoord q d)).
  { intros d. split; [apply rnd_format|]. apply nvalue_nonneg. now apply lower_bound_le. now apply upper_bound_ge. }
  destruct c as [|[|c]]; [apply G|apply G|lia].
Qed.

Lemma coord_dnum : forall p c, coord (map dnum p) c = dnum (rcoord p c).
Proof.
  intros p c. unfold coord, rcoord. destruct (Nat.lt_ge_cases c (length p)).
  - rewrite nth_indep with (d' := dnum 0) by (now rewrite map_length). apply map_nth.
  - rewrite !nth_overflow by (rewrite ?map_length; lia). symmetry. apply dnum_0.
Qed.

(** the volume below a box *)
Lemma box_bound : forall pts l ref v, length ref = 2%nat ->
  (forall p c, In p pts -> (c < 2)%nat -> (l <= coord p c)%Z) ->
  (forall c, (c < 2)%nat -> (l < coord ref c)%Z) ->
  hypervolume pts ref v -> (v <= (coord ref 0 - l) * (coord ref 1 - l))%Z.
Proof.
  intros pts l ref v Hr Hp Hl HV.
  assert (E : hv2d sort2d_exec [[l; l]] ref = Ret ((coord ref 0 - l) * (coord ref 1 - l))%Z).
  { pose proof (Hl 0%nat ltac:(lia)) as H0. pose proof (Hl 1%nat ltac:(lia)) as H1.
    change (sort2d_exec [[l; l]]) with [0%nat]. unfold hv2d. cbn [length].
    change (sort2d_exec [[l; l]]) with [0%nat]. cbn [hv2d_do length hv2d_skip Nat.ltb Nat.leb].
    change (deref [[l; l]] [0%nat] 0) with (Ret [l; l]). cbn [bind]. change (coord [l; l] 0) with l. change (coord [l; l] 1) with l.
    replace (coord ref 1 <=? l)%Z with false by (symmetry; apply Z.leb_gt; lia). cbn [bind Nat.eqb].
    change (deref [[l; l]] [0%nat] 0) with (Ret [l; l]). cbn [bind]. change (coord [l; l] 0) with l. change (coord [l; l] 1) with l.
    replace (coord ref 0 <=? l)%Z with false by (symmetry; apply Z.leb_gt; lia). f_equal. }
  destruct (C08_hv2d_exact sort2d_exec [[l; l]] ref sort2d_exec_valid Hr) as (w & E' & HW).
  rewrite E in E'. injection E' as <-. eapply hypervolume_mono; [exact HV|exact HW|].
  apply cover_cells. intros p Hin _. exists [l; l]. split; [now left|]. intros i Hi. rewrite Hr in Hi.
  specialize (Hp p i Hin Hi). destruct i as [|[|i]]; [exact Hp|exact Hp|lia].
Qed.

Lemma ndsort_run : forall sort2d front, valid_sort2d sort2d -> (INR (length front) + 4 <= bpow radix2 23) ->
  exists hvc, length hvc = length front /\ (forall ndebug, ndsort_hvc_d ndebug sort2d front = Ret hvc) /\
    (forall c, In c hvc -> 0 <= c) /\
    let pts := map (map dnum) (normalised_front_d front) in
    exists v, hypervolume pts (map dnum [1; 1]) v /\ area_of v <= 1 /\ contrib_error (length front) v < bpow radix2 (-26) /\
      forall i, (i < length front)%nat -> exists vi,
        hypervolume (firstn i pts ++ skipn (S i) pts) (map dnum [1; 1]) vi /\ (0 <= vi <= v)%Z /\
        reported (length front) v (nth i hvc 0) (area_of (v - vi)).
Proof.
  intros sort2d front Hs Hn. set (pts := map (map dnum) (normalised_front_d front)).
  assert (Hlen : @length point pts = length front) by (unfold pts, normalised_front_d; now rewrite !map_length).
  assert (HC : forall p c, In p pts -> (c < 2)%nat -> double_coord (coord p c) /\ (0 <= coord p c)%Z).
  { intros p c Hp Hc. apply in_map_iff in Hp. destruct Hp as (q & <- & Hq). destruct (normalised_coord front q c Hq Hc) as [D P].
    rewrite coord_dnum. split; [unfold double_coord; rewrite dval_dnum; auto|]. rewrite <- dnum_0. now apply dnum_mono. }
  assert (DR : double_points [map dnum [1; 1]]).
  { intros p c [<-|[]] Hc. cbn [map]. rewrite dnum_1.
    destruct c as [|[|c]]; [| |lia]; (change (double_coord (dint 1)); apply double_dint; lia). }
  assert (D1 : (0 < dint 1)%Z) by (apply (dint_lt 0 1); lia).
  assert (R1 : forall c, (c < 2)%nat -> coord (map dnum [1; 1]) c = dint 1).
  { intros c Hc. rewrite coord_dnum. rewrite <- dnum_1. destruct c as [|[|c]]; [reflexivity|reflexivity|lia]. }
  destruct (C08_hv2d_exact sort2d pts (map dnum [1; 1]) Hs eq_refl) as (v & _ & HV).
  assert (HB : (v <= dcell 1)%Z).
  { replace (dcell 1) with ((coord (map dnum [1%R; 1%R]) 0 - 0) * (coord (map dnum [1%R; 1%R]) 1 - 0))%Z.
    - eapply box_bound; eauto. intros; now apply HC. intros c Hc. now rewrite R1.
    - rewrite !R1 by lia. unfold dcell, dint. ring. }
  assert (DP : double_points pts). { intros p c Hp Hc. now apply HC. }
  assert (AB : area_of v <= 1).
  { rewrite <- (area_dcell 1). unfold area_of. apply Rmult_le_compat_r; [apply Rmult_le_pos; apply bpow_ge_0|now apply IZR_le]. }
  assert (SB : (INR (length front) + 4) * (area_of v + 1) <= bpow radix2 24).
  { pose proof (area_nonneg v (hypervolume_nonneg _ _ _ HV)) as A0. pose proof (pos_INR (length front)) as Hf.
    replace (bpow radix2 24) with (bpow radix2 23 * 2) by (change (bpow radix2 24) with 16777216; change (bpow radix2 23) with 8388608; lra).
    apply Rmult_le_compat; lra. }
  destruct (C82_nonnegative_small sort2d pts (map dnum [1; 1]) v) as (hvc & L & E & P); auto.
  { now rewrite Hlen. }
  exists hvc. split; [now rewrite L|]. split; [|split]; auto.
  - intros ndebug. unfold ndsort_hvc_d. fold pts. now rewrite E.
  - cbn zeta. fold pts. exists v. split; auto. split; auto.
    split. { apply small_error; auto. eapply hypervolume_nonneg; eauto. }
    destruct (C82_accuracy sort2d pts (map dnum [1; 1]) Hs eq_refl DP DR) as (v' & hvc' & HV' & _ & E' & _ & Hi).
    assert (v' = v) by (eapply hypervolume_unique; eauto). subst v'. rewrite E in E'. injection E' as <-.
    intros i Li. destruct (Hi i ltac:(lia)) as (vi & HVi & Hle & Hrep). rewrite Hlen in Hrep. exists vi. split; auto. split; auto.
    split; auto. eapply hypervolume_nonneg; eauto.
Qed.

Lemma rnd_abs : forall x, Rabs x <= 2 -> Rabs (rnd x - x) <= 3 * u.
Proof.
  intros x Hx. destruct (error_N_FLT radix2 (-1074) 53 ltac:(lia) (fun z => negb (Z.even z)) x) as (e & h & He & Hh & _ & E).
  replace (rnd x) with (x * (1 + e) + h) by (symmetry; exact E).
  assert (U : / 2 * bpow radix2 (- (53) + 1) = u). { unfold u. simpl. lra. }
  rewrite U in He. fold eta in Hh.
  assert (HE : eta <= u) by (unfold eta, u; apply bpow_le; lia). pose proof eta_pos.
  replace (x * (1 + e) + h - x) with (x * e + h) by ring. eapply Rle_trans; [apply Rabs_triang|]. rewrite Rabs_mult.
  assert (Rabs x * Rabs e <= 2 * u) by (apply Rmult_le_compat; auto using Rabs_pos). lra.
Qed.

(** ** C83 *)
(** For every first front of at most 2^23 - 4 two-objective points, the assertion
    in hv_contributions holds and the printed orders are at most 2, the smallest
    order of the later fronts. *)
Theorem C83_first_front_first : forall sort2d (front : list rpoint),
  valid_sort2d sort2d -> INR (length front) + 4 <= bpow radix2 23 ->
  exists order, length order = length front /\
    (forall ndebug, ndsort_first_d ndebug sort2d front = Ret order) /\
    (forall o, In o order -> o <= 2).
Proof.
  intros sort2d front Hs Hn. destruct (ndsort_run sort2d front Hs Hn) as (hvc & L & E & P & _).
  exists (map order_d hvc). split; [now rewrite map_length|]. split.
  - intros ndebug. unfold ndsort_first_d. now rewrite E.
  - intros o Ho. apply in_map_iff in Ho. destruct Ho as (c & <- & Hc). specialize (P c Hc). unfold order_d.
    assert (A : rnd (1 - c) <= 1). { apply Rle_trans with (rnd 1); [apply rnd_mono; lra|rewrite (rnd_int 1) by lia; lra]. }
    apply Rle_trans with (rnd 2); [apply rnd_mono; lra|rewrite (rnd_int 2) by lia; lra].
Qed.
Print Assumptions C83_first_front_first.

(** The order of a point is 2 minus its exact contribution to the hypervolume of
    the normalised front, up to 2^-24. *)
Theorem C83_order_accuracy : forall sort2d (front : list rpoint),
  valid_sort2d sort2d -> INR (length front) + 4 <= bpow radix2 23 ->
  let pts := map (map dnum) (normalised_front_d front) in
  exists order v, length order = length front /\
    (forall ndebug, ndsort_first_d ndebug sort2d front = Ret order) /\
    hypervolume pts (map dnum [1; 1]) v /\
    forall i, (i < length front)%nat -> exists vi,
      hypervolume (firstn i pts ++ skipn (S i) pts) (map dnum [1; 1]) vi /\
      Rabs (nth i order 0 - (2 - area_of (v - vi))) <= bpow radix2 (-24).
Proof.
  intros sort2d front Hs Hn pts. destruct (ndsort_run sort2d front Hs Hn) as (hvc & L & E & P & v & HV & AB & EB & Hi).
  exists (map order_d hvc), v. split; [now rewrite map_length|]. split.
  { intros ndebug. unfold ndsort_first_d. now rewrite E. }
  split; auto. intros i Li. destruct (Hi i Li) as (vi & HVi & Hv & Hrep). exists vi. split; auto.
  rewrite nth_indep with (d' := order_d 0) by (rewrite map_length; lia). rewrite map_nth.
  assert (C0 : 0 <= nth i hvc 0). { apply P. apply nth_In. lia. }
  pose proof (area_nonneg (v - vi) ltac:(lia)) as A0.
  assert (A1 : area_of (v - vi) <= 1).
  { eapply Rle_trans; [|exact AB]. unfold area_of. apply Rmult_le_compat_r; [apply Rmult_le_pos; apply bpow_ge_0|apply IZR_le; lia]. }
  unfold reported in Hrep. set (c := nth i hvc 0) in *. set (C := area_of (v - vi)) in *. set (B := contrib_error (length front) v) in *.
  change (bpow radix2 (-26)) with (/ 67108864) in *. change (bpow radix2 (-24)) with (/ 16777216).
  assert (Eu : u = / 9007199254740992) by reflexivity.
  assert (D : Rabs (c - C) <= 2 * / 67108864).
  { destruct Hrep as [(_ & G)|(-> & G)]; [lra|]. rewrite Rabs_minus_sym, Rabs_pos_eq by lra.
    lra. }
  apply Rabs_le_inv in D. unfold order_d.
  assert (F1 : Rabs (rnd (1 - c) - (1 - c)) <= 3 * u) by (apply rnd_abs, Rabs_le; lra). apply Rabs_le_inv in F1.
  set (r := rnd (1 - c)) in *.
  assert (R1 : r <= 1). { unfold r. apply Rle_trans with (rnd 1); [apply rnd_mono; lra|rewrite (rnd_int 1) by lia; lra]. }
  assert (F2 : Rabs (rnd (1 + r) - (1 + r)) <= 3 * u) by (apply rnd_abs, Rabs_le; rewrite Eu in F1; lra). apply Rabs_le_inv in F2.
  rewrite Eu in *. apply Rabs_le. lra.
Qed.
Print Assumptions C83_order_accuracy.

(** Equal rows of the first front all get the order 2, as if they were in the
    second front. *)
Theorem C83_duplicates_last : forall sort2d (front : list rpoint) i j,
  valid_sort2d sort2d -> INR (length front) + 4 <= bpow radix2 23 ->
  (i < length front)%nat -> (j < length front)%nat -> i <> j -> nth i front [] = nth j front [] ->
  exists order, (forall ndebug, ndsort_first_d ndebug sort2d front = Ret order) /\ nth i order 0 = 2 /\ nth j order 0 = 2.
Proof.
  intros sort2d front i j Hs Hn Hi Hj Hij Heq. destruct (ndsort_run sort2d front Hs Hn) as (hvc & L & E & P & _).
  exists (map order_d hvc). split. { intros ndebug. unfold ndsort_first_d. now rewrite E. }
  assert (Z : forall k m, (k < length front)%nat -> (m < length front)%nat -> m <> k -> nth k front [] = nth m front [] ->
            nth k (map order_d hvc) 0 = 2).
  { intros k m Hk Hm Hkm Hq. rewrite nth_indep with (d' := order_d 0) by (rewrite map_length; lia). rewrite map_nth.
    assert (C0 : nth k hvc 0 = 0).
    { set (pts := map (map dnum) (normalised_front_d front)).
      assert (Hlen : @length point pts = length front) by (unfold pts, normalised_front_d; now rewrite !map_length).
      destruct (C82_redundant_zero sort2d pts (map dnum [1; 1]) Hs) as (hvc' & E' & L' & Z').
      specialize (E true). unfold ndsort_hvc_d in E. fold pts in E. rewrite E' in E. cbn [bind fst] in E. injection E as ->.
      apply Z'; [lia|]. left. exists m. split; [lia|]. split; auto. intros c Hc.
      assert (R : row pts m = row pts k).
      { unfold row, pts. rewrite normalised_rows, map_map.
        set (f := fun x : rpoint => _).
        assert (N : forall a, (a < length front)%nat -> nth a (map f front) [] = f (nth a front [])).
        { intros a Ha. rewrite nth_indep with (d' := f []) by (now rewrite map_length). apply map_nth. }
        rewrite !N by lia. now rewrite Hq. }
      rewrite R. lia. }
    rewrite C0. unfold order_d. rewrite Rminus_0_r, (rnd_int 1) by lia. replace (1 + 1) with 2 by lra. apply (rnd_int 2). lia. }
  split; [apply (Z i j)|apply (Z j i)]; auto.
Qed.
Print Assumptions C83_duplicates_last.

(** ** The hypotheses can be met *)
Example C83_example : let front := [[1; 3]; [2; 2]; [1; 3]] in
  valid_sort2d sort2d_exec /\ INR (length front) + 4 <= bpow radix2 23 /\ nth 0 front [] = nth 2 front [] /\
  nth 0 front [] <> nth 1 front [].
Proof.
  cbn [length INR nth]. split; [apply sort2d_exec_valid|]. split; [change (bpow radix2 23) with 8388608; lra|].
  split; auto. intros H. injection H as H. lra.
Qed.
