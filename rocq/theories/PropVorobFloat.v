(** Property C40, floating-point part: the midpoint (a + b) / 2.0 computed with
    IEEE 754 binary64 arithmetic (round to nearest even; all values are at most
    200, so overflow does not occur and is not modelled) is a double between a
    and b, so vorobT terminates (C48_vorobT_partial applies).

    This file uses Flocq and therefore the axioms of the Coq Reals library. *)
From Coq Require Import List ZArith Lia Bool Arith Sorted QArith Reals Lra.
From Flocq Require Import Core.
From Verif Require Import Base Spec EafSpec EafModel EafStoreModel NondomModel HvSpec GroupModel PyEafSpec
  PropGroup EafMain NondomProofs2d
  VorobModel VorobSpec PropVorob.
Import ListNotations.
Open Scope Z_scope.

(** binary64 *)
Definition dexp : Z -> Z := FLT_exp (-1074) 53.
Definition is_double (x : R) : Prop := generic_format radix2 dexp x.
Definition rnd (x : R) : R := round radix2 dexp ZnearestE x.

#[global] Instance dexp_valid : Valid_exp dexp.
Proof. apply FLT_exp_valid. unfold Prec_gt_0. lia. Qed.

Lemma double_two : forall x, is_double x -> is_double (2 * x).
Proof.
  intros x Hx. replace (2 * x)%R with (x * bpow radix2 1)%R by (simpl; lra).
  apply generic_format_FLT. apply FLT_format_generic in Hx; [|unfold Prec_gt_0; lia].
  destruct Hx as [f Hf H1 H2]. exists (Float radix2 (Fnum f) (Fexp f + 1)); auto.
  - rewrite Hf. unfold F2R. simpl Fnum. simpl Fexp. rewrite bpow_plus. ring.
  - simpl Fexp. lia.
Qed.

Theorem C40_double_midpoint : forall a b, is_double a -> is_double b -> (a <= b)%R ->
  let c := rnd (rnd (a + b) / 2) in is_double c /\ (a <= c <= b)%R.
Proof.
  intros a b Ha Hb Hab c. unfold c. split. { apply generic_format_round; auto with typeclass_instances. }
  assert (H1 : (2 * a <= rnd (a + b))%R).
  { apply round_ge_generic; auto with typeclass_instances. now apply double_two. lra. }
  assert (H2 : (rnd (a + b) <= 2 * b)%R).
  { apply round_le_generic; auto with typeclass_instances. now apply double_two. lra. }
  split.
  - apply round_ge_generic; auto with typeclass_instances. lra.
  - apply round_le_generic; auto with typeclass_instances. lra.
Qed.
Print Assumptions C40_double_midpoint.

(** every double is an integer multiple of 2^-1074 *)
Definition val (m : Z) : R := (IZR m * bpow radix2 (-1074))%R.
Lemma double_val : forall x, is_double x -> val (Ztrunc (x * bpow radix2 1074)) = x.
Proof.
  intros x Hx. apply FLT_format_generic in Hx; [|unfold Prec_gt_0; lia].
  destruct Hx as [f Hf H1 H2]. unfold val.
  assert (E : (x * bpow radix2 1074)%R = IZR (Fnum f * Zpower radix2 (Fexp f + 1074))).
  { rewrite Hf. unfold F2R. rewrite mult_IZR, IZR_Zpower by lia. rewrite bpow_plus. ring. }
  rewrite E, Ztrunc_IZR, <- E. rewrite Rmult_assoc, <- bpow_plus. simpl (1074 + -1074). simpl. ring.
Qed.
Lemma val_inj_le : forall m n, (val m <= val n)%R <-> m <= n.
Proof.
  intros. unfold val. assert (0 < bpow radix2 (-1074))%R by apply bpow_gt_0. split; intros.
  - apply le_IZR. apply Rmult_le_reg_r with (bpow radix2 (-1074)); auto.
  - apply Rmult_le_compat_r. lra. now apply IZR_le.
Qed.

Definition rep (m : Z) : Prop := is_double (val m).
(** (a + b) / 2.0 *)
Definition dmid (m n : Z) : Z := Ztrunc (rnd (rnd (val m + val n) / 2) * bpow radix2 1074).

Lemma dmid_valid : valid_mid rep dmid.
Proof.
  intros a b Ra Rb Hab. unfold rep in *.
  destruct (C40_double_midpoint (val a) (val b) Ra Rb) as [D [L U]]. { now apply val_inj_le. }
  cbv zeta in *. pose proof (double_val _ D) as E. fold (dmid a b) in E.
  rewrite E. split; auto. split; apply val_inj_le; rewrite E; auto.
Qed.

(** the rational value of a double *)
Definition val_q (m : Z) : Q := m # (2 ^ 1074).
Definition hundred : Z := 100 * 2 ^ 1074.

Lemma rep_zero : rep 0.
Proof. unfold rep, val. rewrite Rmult_0_l. apply generic_format_0. Qed.
Lemma rep_hundred : rep hundred.
Proof.
  unfold rep, val, hundred. rewrite mult_IZR.
  change 2 with (radix_val radix2) at 1. rewrite IZR_Zpower by lia.
  rewrite Rmult_assoc, <- bpow_plus. change (1074 + -1074) with 0. change (bpow radix2 0) with 1%R. rewrite Rmult_1_r.
  apply generic_format_FLT. exists (Float radix2 100 0); simpl; try lia. unfold F2R. simpl. lra.
Qed.

Lemma hundred_pos : 0 <= hundred.
Proof. unfold hundred. apply Z.mul_nonneg_nonneg. lia. apply Z.pow_nonneg. lia. Qed.
Lemma val_q_range : forall c, 0 <= c <= hundred -> (0 <= val_q c <= 100)%Q.
Proof.
  intros c [Hc1 Hc2]. unfold val_q, hundred in *. unfold Qle. simpl Qnum. simpl Qden. split.
  - lia.
  - rewrite Pos2Z.inj_pow. lia.
Qed.

(** vorobT with IEEE arithmetic for the threshold terminates, for every data
    set, every order of the rows and every reference point *)
Theorem C40_vorobT_terminates : forall argsort sort2d sortx sorty junk grow data labels ref,
  valid_argsort le argsort -> valid_sort2d sort2d ->
  is_datax data (sortx data) -> is_datay data (sorty data) ->
  (forall i, 0 <= junk i < 2 ^ 64) -> (forall m r, (m <= grow m r)%nat) ->
  data <> [] -> length labels = length data -> wf_points 2 data -> length ref = 2%nat ->
  Z.of_nat (length data) <= (2 ^ 31 - 1) / 2 ->
  exists N c VE avg, forall fuel, (N <= fuel)%nat ->
    vorobT dmid val_q 0 hundred argsort sort2d sortx sorty junk grow fuel data labels ref
      = Ret (c, VE, avg).
Proof.
  intros. apply (C40_vorobT_terminates_gen rep); auto using dmid_valid, rep_zero, rep_hundred, hundred_pos, val_q_range.
Qed.
Print Assumptions C40_vorobT_terminates.

(** what it returns when the rows are sorted by label *)
Theorem C48_vorobT_double_partial : forall argsort sort2d sortx sorty junk grow data labels ref,
  valid_argsort le argsort -> valid_sort2d sort2d ->
  is_datax data (sortx data) -> is_datay data (sorty data) ->
  (forall i, 0 <= junk i < 2 ^ 64) -> (forall m r, (m <= grow m r)%nat) ->
  data <> [] -> length labels = length data -> wf_points 2 data -> length ref = 2%nat ->
  StronglySorted Z.le labels -> Z.of_nat (length data) <= (2 ^ 31 - 1) / 2 ->
  exists N c VE avg l,
    (forall fuel, (N <= fuel)%nat ->
       vorobT dmid val_q 0 hundred argsort sort2d sortx sorty junk grow fuel data labels ref
         = Ret (c, VE, avg)) /\
    mean_over (sets_of data labels) (fun S v => hypervolume S ref v) avg /\
    level_of (length (sets_of data labels)) (val_q c) l /\ is_surface2d (sets_of data labels) l VE.
Proof.
  intros. destruct (C48_vorobT_partial rep dmid val_q 0 hundred argsort sort2d sortx sorty junk grow data labels ref)
    as (N & c & VE & avg & l & lo & hi & E & M & L & S & _);
    auto using dmid_valid, rep_zero, rep_hundred, hundred_pos, val_q_range.
  exists N, c, VE, avg, l. auto.
Qed.
Print Assumptions C48_vorobT_double_partial.

(** the hypotheses hold for the executable parameters and a concrete data set *)
Example C40_hypotheses :
  valid_argsort le argsort_exec /\ valid_sort2d sort2d_exec /\
  is_datax [[1;3];[2;2];[0;5];[3;1]] (sortx_exec [[1;3];[2;2];[0;5];[3;1]]) /\
  is_datay [[1;3];[2;2];[0;5];[3;1]] (sorty_exec [[1;3];[2;2];[0;5];[3;1]]) /\
  wf_points 2 [[1;3];[2;2];[0;5];[3;1]] /\ StronglySorted Z.le [1;1;2;2].
Proof.
  split. apply argsort_exec_valid. split. apply sort2d_exec_valid. split. apply sortx_exec_ok. split. apply sorty_exec_ok.
  split. repeat constructor. repeat constructor; lia.
Qed.
