(** Property C54: normalisation computed with doubles.  Uses Flocq and therefore the
    axioms of the Coq Reals library. *)
From Coq Require Import List ZArith Lia Bool Arith Reals Lra.
From Flocq Require Import Core.
From Verif Require Import Base PctFloatModel EpsFloatModel NormFloatModel PropPctFloat PropEpsFloat.
Import ListNotations.
Open Scope R_scope.
#[local] Existing Instance dexp_valid.

(** the value computed for one coordinate [v] *)
Definition norm_value (up : bool) (lo hi l u v : R) : R :=
  let diff := if Req_bool (rnd (u - l)) 0 then 1 else rnd (u - l) in
  rnd (lo + rnd (rnd (rnd (hi - lo) * (if up then rnd (u + - v) else rnd (v - l))) / diff)).

Lemma norm_nth : forall dim mx lo hi lb ub pts k d, (k < length pts)%nat -> (d < dim)%nat ->
  rcoord (nth k (agree_normalise_d dim mx lo hi lb ub pts) []) d =
  norm_value (nth d mx false) lo hi (rcoord lb d) (rcoord ub d) (rcoord (nth k pts []) d).
Proof.
  intros dim mx lo hi lb ub pts k d Hk Hd. unfold agree_normalise_d. rewrite map_map.
  rewrite (nth_map_lt _ _ _ _ _ _ ([] : rpoint)) by auto. unfold normalise_row_d.
  assert (C : forall h, rcoord (map h (seq 0 dim)) d = h d).
  { intros h. unfold rcoord. rewrite (nth_map_lt _ _ _ _ _ _ 0%nat) by (now rewrite seq_length). now rewrite seq_nth. }
  rewrite C. unfold agree_row_d. rewrite !C. unfold norm_value, norm_diff_d. destruct (nth d mx false); auto.
Qed.

Lemma diff_pos : forall l u, is_double l -> is_double u -> l <= u ->
  0 < (if Req_bool (rnd (u - l)) 0 then 1 else rnd (u - l)).
Proof.
  intros l u Dl Du H. destruct (Req_bool_spec (rnd (u - l)) 0) as [E|E]; [lra|].
  assert (0 <= rnd (u - l)) by (apply rnd_nonneg; lra). lra.
Qed.
Lemma div_mono : forall x y d, 0 < d -> x <= y -> x / d <= y / d.
Proof.
  intros x y d Hd H. unfold Rdiv. apply Rmult_le_compat_r; auto. apply Rlt_le, Rinv_0_lt_compat; auto.
Qed.

Lemma value_mono : forall (up : bool) lo hi l u v v', is_double l -> is_double u -> l <= u -> lo <= hi ->
  (if up then v' <= v else v <= v') -> norm_value up lo hi l u v <= norm_value up lo hi l u v'.
Proof.
  intros up lo hi l u v v' Dl Du Hlu Hr H. unfold norm_value. pose proof (diff_pos l u Dl Du Hlu) as P.
  set (D := if Req_bool (rnd (u - l)) 0 then 1 else rnd (u - l)) in *.
  apply rnd_mono. apply Rplus_le_compat_l. apply rnd_mono. apply div_mono; auto. apply rnd_mono.
  apply Rmult_le_compat_l. { apply rnd_nonneg. lra. }
  destruct up; apply rnd_mono; lra.
Qed.

(** ** C54 *)
(** Rounding never reverses a comparison: if one row weakly dominates another, so it
    does after normalisation (all objectives minimised). *)
Theorem C54_weak_dominance_preserved : forall dim mx lo hi lb ub pts j k,
  (j < length pts)%nat -> (k < length pts)%nat -> length mx = dim -> lo <= hi ->
  (forall d, (d < dim)%nat -> is_double (rcoord lb d) /\ is_double (rcoord ub d) /\ rcoord lb d <= rcoord ub d) ->
  let out := agree_normalise_d dim mx lo hi lb ub pts in
  rwdom mx (nth j pts []) (nth k pts []) -> rwdom (repeat false dim) (nth j out []) (nth k out []).
Proof.
  intros dim mx lo hi lb ub pts j k Hj Hk HL Hr HB out W d Hd. rewrite repeat_length in Hd.
  assert (E : nth d (repeat false dim) false = false).
  { destruct (nth_in_or_default d (repeat false dim) false) as [I|I]; auto. now apply repeat_spec in I. }
  rewrite E. unfold out. rewrite !norm_nth by auto. destruct (HB d Hd) as (Dl & Du & L).
  apply value_mono; auto. specialize (W d ltac:(lia)). auto.
Qed.
Print Assumptions C54_weak_dominance_preserved.

(** A coordinate equal to the bound that is the ideal value gets exactly the lower end
    of the range. *)
Theorem C54_ideal_to_lower_end : forall dim mx lo hi lb ub pts k d,
  (k < length pts)%nat -> (d < dim)%nat -> is_double lo ->
  rcoord (nth k pts []) d = (if nth d mx false then rcoord ub d else rcoord lb d) ->
  rcoord (nth k (agree_normalise_d dim mx lo hi lb ub pts) []) d = lo.
Proof.
  intros dim mx lo hi lb ub pts k d Hk Hd Dlo E. rewrite norm_nth by auto. rewrite E. unfold norm_value.
  assert (Z : (if nth d mx false then rnd (rcoord ub d + - (if nth d mx false then rcoord ub d else rcoord lb d))
               else rnd ((if nth d mx false then rcoord ub d else rcoord lb d) - rcoord lb d)) = 0).
  { destruct (nth d mx false).
    - rewrite Rplus_opp_r. apply rnd_zero.
    - unfold Rminus. rewrite Rplus_opp_r. apply rnd_zero. }
  rewrite Z, Rmult_0_r, rnd_zero. unfold Rdiv. rewrite Rmult_0_l, rnd_zero, Rplus_0_r. now apply rnd_double.
Qed.
Print Assumptions C54_ideal_to_lower_end.

(** For a range of length one (such as the default 0 to 1), the other bound gets exactly the upper end,
    and everything between the bounds stays inside the range. *)
Theorem C54_unit_range : forall dim mx lo hi lb ub pts k d,
  (k < length pts)%nat -> (d < dim)%nat -> is_double lo -> is_double hi -> hi = lo + 1 ->
  is_double (rcoord lb d) -> is_double (rcoord ub d) -> rcoord lb d < rcoord ub d ->
  (rcoord (nth k pts []) d = (if nth d mx false then rcoord lb d else rcoord ub d) ->
     rcoord (nth k (agree_normalise_d dim mx lo hi lb ub pts) []) d = hi) /\
  (rcoord lb d <= rcoord (nth k pts []) d <= rcoord ub d ->
     lo <= rcoord (nth k (agree_normalise_d dim mx lo hi lb ub pts) []) d <= hi).
Proof.
  intros dim mx lo hi lb ub pts k d Hk Hd Dlo Dhi Eh Dl Du L. rewrite norm_nth by auto.
  set (l := rcoord lb d) in *. set (u := rcoord ub d) in *.
  assert (Top : norm_value (nth d mx false) lo hi l u (if nth d mx false then l else u) = hi).
  { unfold norm_value.
    assert (N : rnd (u - l) <> 0).
    { intros E. assert (u <= l); [|lra]. eapply minus_sign; [exact Du|exact Dl|lra]. }
    rewrite Req_bool_false by auto.
    assert (Z : (if nth d mx false then rnd (u + - (if nth d mx false then l else u))
               else rnd ((if nth d mx false then l else u) - l)) = rnd (u - l)).
    { destruct (nth d mx false); reflexivity. }
    rewrite Z. replace (hi - lo) with 1 by lra. rewrite (rnd_int 1) by lia. rewrite Rmult_1_l.
    rewrite (rnd_double (rnd (u - l)) (rnd_format _)). unfold Rdiv. rewrite Rinv_r by auto.
    rewrite (rnd_int 1) by lia. rewrite <- Eh. now apply rnd_double. }
  assert (Bot : norm_value (nth d mx false) lo hi l u (if nth d mx false then u else l) = lo).
  { pose proof (C54_ideal_to_lower_end dim mx lo hi lb ub
      [map (fun d => if nth d mx false then rcoord ub d else rcoord lb d) (seq 0 dim)] 0%nat d ltac:(cbn; lia) Hd Dlo) as B.
    rewrite norm_nth in B by (cbn; lia). cbn [nth] in B.
    assert (C : rcoord (map (fun d => if nth d mx false then rcoord ub d else rcoord lb d) (seq 0 dim)) d =
                if nth d mx false then u else l).
    { unfold rcoord at 1. rewrite (nth_map_lt _ _ _ _ _ _ 0%nat) by (now rewrite seq_length). now rewrite seq_nth. }
    rewrite C in B. apply B. reflexivity. }
  split.
  - intros ->. exact Top.
  - intros [B1 B2]. split.
    + rewrite <- Bot at 1. apply value_mono; auto; try lra. destruct (nth d mx false); auto.
    + rewrite <- Top at 2. apply value_mono; auto; try lra. destruct (nth d mx false); auto.
Qed.
Print Assumptions C54_unit_range.

(** For other ranges the result for the bound itself can lie outside: with the
    bounds 0 and 3 and the range from 0 to 6004799503160666, the value 3 is mapped to
    6004799503160667. *)
Lemma rnd_scaled : forall x e, bpow radix2 (e - 1) <= x < bpow radix2 e -> (-1021 <= e)%Z ->
  rnd x = IZR (ZnearestE (x * bpow radix2 (53 - e))) * bpow radix2 (e - 53).
Proof.
  intros x e Hx He. unfold rnd, round, scaled_mantissa, F2R. cbn [Fnum Fexp].
  assert (M : mag radix2 x = e :> Z). { apply mag_unique. rewrite Rabs_pos_eq; auto. pose proof (bpow_gt_0 radix2 (e - 1)). lra. }
  unfold cexp, dexp, FLT_exp. rewrite M. replace (Z.max (e - 53) (-1074)) with (e - 53)%Z by lia.
  replace (- (e - 53))%Z with (53 - e)%Z by lia. reflexivity.
Qed.
Lemma tie_up : rnd 18014398509481998 = 18014398509482000.
Proof.
  rewrite (rnd_scaled _ 55) by (simpl; lia || lra).
  replace (18014398509481998 * bpow radix2 (53 - 55)) with (4503599627370499 + / 2) by (simpl; lra).
  assert (F : Zfloor (4503599627370499 + / 2) = 4503599627370499%Z) by (apply Zfloor_imp; simpl; lra).
  assert (C : Zceil (4503599627370499 + / 2) = 4503599627370500%Z) by (apply Zceil_imp; simpl; lra).
  unfold Znearest. rewrite F, C. rewrite Rcompare_Eq by lra. simpl. lra.
Qed.
Lemma quotient_up : rnd (18014398509482000 / 3) = 6004799503160667.
Proof.
  rewrite (rnd_scaled _ 53) by (simpl; lia || lra).
  rewrite (Znearest_imp _ _ 6004799503160667); [simpl; lra|].
  simpl. apply Rabs_lt. lra.
Qed.
Theorem C54_upper_end_exceeded_refuted :
  exists lo hi lb ub p, is_double lo /\ is_double hi /\ lo < hi /\
    p = ub /\ doubles 2 [lb; ub] /\ rcoord lb 0 < rcoord ub 0 /\
    hi < rcoord (nth 0 (agree_normalise_d 2 [false; false] lo hi lb ub [p]) []) 0.
Proof.
  exists 0, 6004799503160666, [0; 0], [3; 3], [3; 3].
  assert (DI : forall k, (Z.abs k <= 2 ^ 53)%Z -> is_double (IZR k)) by apply double_int.
  split; [apply DI; lia|]. split; [apply DI; lia|]. split; [lra|]. split; [reflexivity|]. split.
  - intros p d [<-|[<-|[]]] Hd; destruct d as [|[|d]]; try lia; cbn; apply DI; lia.
  - split; [cbn; lra|]. rewrite norm_nth by (cbn; lia). cbn [nth rcoord]. unfold norm_value.
    rewrite !Rminus_0_r. rewrite (rnd_int 3) by lia. rewrite Req_bool_false by lra.
    rewrite (rnd_int 6004799503160666) by lia.
    replace (6004799503160666 * 3) with 18014398509481998 by lra. rewrite tie_up, quotient_up, Rplus_0_l.
    rewrite (rnd_int 6004799503160667) by lia. lra.
Qed.
Print Assumptions C54_upper_end_exceeded_refuted.

(** Strict dominance can be lost to rounding: the two values below become equal. *)
Theorem C54_strictness_lost_refuted :
  exists lb ub p q, doubles 2 [lb; ub; p; q] /\ rcoord lb 0 < rcoord ub 0 /\ rcoord p 0 < rcoord q 0 /\
    let out := agree_normalise_d 2 [false; false] 1 2 lb ub [p; q] in
    rcoord (nth 0 out []) 0 = rcoord (nth 1 out []) 0.
Proof.
  exists [0; 0], [9007199254740992; 1], [0; 0], [1; 0].
  assert (DI : forall k, (Z.abs k <= 2 ^ 53)%Z -> is_double (IZR k)) by apply double_int.
  split; [|split; [cbn; lra|split; [cbn; lra|]]].
  - intros p d H Hd. cbn [In] in H.
    destruct H as [<-|[<-|[<-|[<-|[]]]]]; destruct d as [|[|d]]; try lia; cbn; apply DI; lia.
  - cbv zeta. rewrite !norm_nth by (cbn; lia). cbn [nth rcoord]. unfold norm_value.
    rewrite !Rminus_0_r. replace (2 - 1) with 1 by lra. rewrite (rnd_int 1) by lia.
    rewrite (rnd_int 9007199254740992) by lia. rewrite Req_bool_false by lra.
    rewrite !Rmult_1_l. rewrite rnd_zero, rnd_zero. rewrite (rnd_int 1) by lia.
    unfold Rdiv. rewrite Rmult_0_l, rnd_zero, Rplus_0_r, (rnd_int 1) by lia.
    replace (1 * / 9007199254740992) with (bpow radix2 (-53)) by (simpl; lra).
    rewrite (rnd_double (bpow radix2 (-53))) by (apply generic_format_bpow; unfold dexp, FLT_exp; lia).
    symmetry. rewrite (rnd_scaled _ 1) by (simpl; lia || lra).
    replace ((1 + bpow radix2 (-53)) * bpow radix2 (53 - 1)) with (4503599627370496 + / 2) by (simpl; lra).
    assert (F : Zfloor (4503599627370496 + / 2) = 4503599627370496%Z) by (apply Zfloor_imp; simpl; lra).
    unfold Znearest. rewrite F. rewrite Rcompare_Eq by lra. simpl. lra.
Qed.
Print Assumptions C54_strictness_lost_refuted.

(** The hypotheses are met. *)
Example C54_example :
  let out := agree_normalise_d 2 [false; true] 0 1 [1; 1] [4; 4] [[1; 4]; [2; 1]] in
  rcoord (nth 0 out []) 0 = 0 /\ rcoord (nth 0 out []) 1 = 0 /\ rcoord (nth 1 out []) 1 = 1 /\
  rwdom [false; false] (nth 0 out []) (nth 1 out []).
Proof.
  cbv zeta. assert (DI : forall k, (Z.abs k <= 2 ^ 53)%Z -> is_double (IZR k)) by apply double_int.
  split; [|split; [|split]].
  - apply C54_ideal_to_lower_end; cbn; auto; try lia. apply DI; lia.
  - apply C54_ideal_to_lower_end; cbn; auto; try lia. apply DI; lia.
  - apply C54_unit_range; cbn; auto; try lia; try lra; apply DI; lia.
  - apply (C54_weak_dominance_preserved 2 [false; true] 0 1 [1; 1] [4; 4] [[1; 4]; [2; 1]] 0 1); cbn; auto; try lia; try lra.
    + intros d Hd. destruct d as [|[|d]]; try lia; cbn; split; try apply DI; try lia; split; try apply DI; try lia; lra.
    + intros d Hd. destruct d as [|[|d]]; cbn in *; try lia; lra.
Qed.
