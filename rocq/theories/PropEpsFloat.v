(** Property C52: the epsilon indicators computed with doubles.

    Specification: the least real shift (factor) that makes the first set cover the
    second.  Model: EpsFloatModel.v.  Uses Flocq and therefore the axioms of the Coq
    Reals library. *)
From Coq Require Import List ZArith Lia Bool Arith Reals Lra.
From Flocq Require Import Core.
From Verif Require Import Base EpsModel PctFloatModel EpsFloatModel PropPctFloat.
Import ListNotations.
Open Scope R_scope.
#[local] Existing Instance dexp_valid.

(** ** Specification *)
(** [a] weakly dominates [b] *)
Definition rwdom (mx : list bool) (a b : rpoint) : Prop :=
  forall d, (d < length mx)%nat ->
    if nth d mx false then rcoord b d <= rcoord a d else rcoord a d <= rcoord b d.
Definition rset_wdom (mx : list bool) (A B : list rpoint) : Prop :=
  forall b, In b B -> exists a, In a A /\ rwdom mx a b.
(** every row of [B] is weakly dominated by a row of [A] improved by [e] *)
Definition shift_covers (mx : list bool) (A B : list rpoint) (e : R) : Prop :=
  forall b, In b B -> exists a, In a A /\
    forall d, (d < length mx)%nat ->
      if nth d mx false then rcoord b d <= rcoord a d + e else rcoord a d - e <= rcoord b d.
Definition factor_covers (mx : list bool) (A B : list rpoint) (e : R) : Prop :=
  0 < e /\
  forall b, In b B -> exists a, In a A /\
    forall d, (d < length mx)%nat ->
      if nth d mx false then rcoord b d <= rcoord a d * e else rcoord a d / e <= rcoord b d.
Definition least (P : R -> Prop) (e : R) : Prop := P e /\ forall e', P e' -> e <= e'.
Definition doubles (dim : nat) (A : list rpoint) : Prop :=
  forall p d, In p A -> (d < dim)%nat -> is_double (rcoord p d).
Definition positive (dim : nat) (A : list rpoint) : Prop :=
  forall p d, In p A -> (d < dim)%nat -> 0 < rcoord p d.

(** ** The loops commute with monotone functions *)
Definition emap (h : R -> R) (x : ext R) : ext R :=
  match x with NegInf => NegInf | Fin v => Fin (h v) | PosInf => PosInf end.
Definition mono (h : R -> R) : Prop := forall x y, x <= y -> h x <= h y.

Lemma emax_map : forall h x y, mono h -> emax Rle_bool (emap h x) (emap h y) = emap h (emax Rle_bool x y).
Proof.
  intros h x y M. destruct x as [|x|], y as [|y|]; cbn; auto. unfold emax. cbn.
  destruct (Rle_bool_spec x y) as [L|L]; destruct (Rle_bool_spec (h x) (h y)) as [L'|L']; cbn; auto.
  - pose proof (M x y L). lra.
  - f_equal. pose proof (M y x ltac:(lra)). lra.
Qed.
Lemma emin_map : forall h x y, mono h -> emin Rle_bool (emap h x) (emap h y) = emap h (emin Rle_bool x y).
Proof.
  intros h x y M. destruct x as [|x|], y as [|y|]; cbn; auto. unfold emin. cbn.
  destruct (Rle_bool_spec y x) as [L|L]; destruct (Rle_bool_spec (h y) (h x)) as [L'|L']; cbn; auto.
  - pose proof (M y x L). lra.
  - f_equal. pose proof (M x y ltac:(lra)). lra.
Qed.

Lemma eps_max_map : forall h t init dim a b, mono h ->
  eps_max_d (fun a b d => h (t a b d)) (emap h init) dim a b = emap h (eps_max_d t init dim a b).
Proof.
  intros h t init dim a b M. unfold eps_max_d. generalize (seq 0 dim). intros l. revert init.
  induction l as [|d l IH]; intros init; cbn [fold_left]; auto.
  change (Fin (h (t a b d))) with (emap h (Fin (t a b d))). rewrite emax_map by auto. apply IH.
Qed.
Lemma eps_min_map : forall h t init dim A b, mono h ->
  eps_min_d (fun a b d => h (t a b d)) (emap h init) dim A b = emap h (eps_min_d t init dim A b).
Proof.
  intros h t init dim A b M. unfold eps_min_d. change PosInf with (emap h PosInf) at 1. generalize (@PosInf R).
  induction A as [|a A IH]; intros m; cbn [fold_left]; auto.
  rewrite eps_max_map, emin_map by auto. apply IH.
Qed.
Lemma eps_map : forall h t init dim A B, mono h ->
  eps_d (fun a b d => h (t a b d)) (emap h init) dim A B = emap h (eps_d t init dim A B).
Proof.
  intros h t init dim A B M. unfold eps_d.
  assert (G : forall m, fold_left (fun e b => emax Rle_bool e (eps_min_d (fun a b d => h (t a b d)) (emap h init) dim A b)) B (emap h m)
            = emap h (fold_left (fun e b => emax Rle_bool e (eps_min_d t init dim A b)) B m)).
  { induction B as [|b B IH]; intros m; cbn [fold_left]; auto.
    rewrite eps_min_map, emax_map by auto. apply IH. }
  apply G.
Qed.

(** ** The exact value *)
Definition ele (x : ext R) (e : R) : Prop :=
  match x with NegInf => True | Fin v => v <= e | PosInf => False end.

Lemma ele_emax : forall x y e, ele (emax Rle_bool x y) e <-> ele x e /\ ele y e.
Proof.
  intros x y e. destruct x as [|x|], y as [|y|]; unfold emax; cbn; try tauto.
  destruct (Rle_bool_spec x y); cbn; split; intros; try lra.
Qed.
Lemma ele_emin : forall x y e, ele (emin Rle_bool x y) e <-> ele x e \/ ele y e.
Proof.
  intros x y e. destruct x as [|x|], y as [|y|]; unfold emin; cbn; try tauto.
  destruct (Rle_bool_spec y x); cbn; split; intros; try lra; destruct H0; lra.
Qed.
Lemma eps_max_le : forall t init dim a b e,
  ele (eps_max_d t init dim a b) e <-> ele init e /\ forall d, (d < dim)%nat -> t a b d <= e.
Proof.
  intros t init dim a b e. unfold eps_max_d.
  assert (G : forall l m, ele (fold_left (fun m d => emax Rle_bool m (Fin (t a b d))) l m) e <->
     ele m e /\ forall d, In d l -> t a b d <= e).
  { induction l as [|d l IH]; intros m; cbn [fold_left In].
    - split; [intros; split; auto; intros; tauto|tauto].
    - rewrite IH, ele_emax. cbn [ele]. split.
      + intros [[H1 H2] H3]. split; auto. intros d' [->|H]; auto.
      + intros [H1 H2]. split; [split; auto|auto]. }
  rewrite G. split; intros [H1 H2]; split; auto; intros d Hd; apply H2; apply in_seq in Hd || apply in_seq; lia.
Qed.
Lemma eps_min_le : forall t init dim A b e,
  ele (eps_min_d t init dim A b) e <-> exists a, In a A /\ ele (eps_max_d t init dim a b) e.
Proof.
  intros t init dim A b e. unfold eps_min_d.
  assert (G : forall l m, ele (fold_left (fun m a => emin Rle_bool m (eps_max_d t init dim a b)) l m) e <->
     ele m e \/ exists a, In a l /\ ele (eps_max_d t init dim a b) e).
  { induction l as [|a l IH]; intros m; cbn [fold_left In].
    - split; [auto|]. intros [H|(a & [] & _)]; auto.
    - rewrite IH, ele_emin. split.
      + intros [[H|H]|(a' & H1 & H2)]; eauto.
      + intros [H|(a' & [->|H1] & H2)]; eauto. }
  rewrite G. cbn [ele]. split; [intros [[]|H]; auto|auto].
Qed.
Lemma eps_le : forall t init dim A B e,
  ele (eps_d t init dim A B) e <-> ele init e /\
    forall b, In b B -> exists a, In a A /\ ele init e /\ forall d, (d < dim)%nat -> t a b d <= e.
Proof.
  intros t init dim A B e. unfold eps_d.
  assert (G : forall l m, ele (fold_left (fun m b => emax Rle_bool m (eps_min_d t init dim A b)) l m) e <->
     ele m e /\ forall b, In b l -> ele (eps_min_d t init dim A b) e).
  { induction l as [|b l IH]; intros m; cbn [fold_left In].
    - split; [intros; split; auto; intros; tauto|tauto].
    - rewrite IH, ele_emax. split.
      + intros [[H1 H2] H3]. split; auto. intros b' [->|H]; auto.
      + intros [H1 H2]. split; [split; auto|auto]. }
  rewrite G. split; intros [H1 H2]; split; auto; intros b Hb.
  - apply H2 in Hb. apply eps_min_le in Hb. destruct Hb as (a & Ha & K). apply eps_max_le in K. eauto.
  - apply eps_min_le. destruct (H2 b Hb) as (a & Ha & K). exists a. split; auto. now apply eps_max_le.
Qed.

(** the result is a number *)
Lemma eps_max_some : forall t init dim a b, (1 <= dim)%nat -> init <> PosInf ->
  exists v, eps_max_d t init dim a b = Fin v.
Proof.
  intros t init dim a b Hd Hi. unfold eps_max_d. destruct dim as [|dim]; [lia|]. cbn [seq fold_left].
  assert (E : exists v, emax Rle_bool init (Fin (t a b 0%nat)) = Fin v).
  { destruct init as [|x|]; cbn; eauto; [|congruence]. unfold emax. cbn. destruct (Rle_bool _ _); eauto. }
  destruct E as (v & ->). generalize (seq 1 dim). intros l. revert v. induction l as [|d l IH]; intros v; cbn [fold_left]; eauto.
  unfold emax at 2. cbn [eleb]. destruct (Rle_bool _ _); apply IH.
Qed.
Lemma eps_min_some : forall t init dim A b, (1 <= dim)%nat -> init <> PosInf -> A <> [] ->
  exists v, eps_min_d t init dim A b = Fin v.
Proof.
  intros t init dim A b Hd Hi HA. unfold eps_min_d. destruct A as [|a A]; [tauto|]. cbn [fold_left].
  destruct (eps_max_some t init dim a b Hd Hi) as (v & ->). change (emin Rle_bool PosInf (Fin v)) with (Fin v).
  clear HA. revert v. induction A as [|a' A IH]; intros v; cbn [fold_left]; eauto.
  destruct (eps_max_some t init dim a' b Hd Hi) as (v' & ->).
  unfold emin at 2. cbn [eleb]. destruct (Rle_bool _ _); apply IH.
Qed.
Lemma eps_some : forall t init dim A B, (1 <= dim)%nat -> init <> PosInf -> A <> [] -> B <> [] ->
  exists v, eps_d t init dim A B = Fin v.
Proof.
  intros t init dim A B Hd Hi HA HB. unfold eps_d. destruct B as [|b B]; [tauto|]. cbn [fold_left].
  destruct (eps_min_some t init dim A b Hd Hi HA) as (v & ->).
  assert (E : exists v', emax Rle_bool init (Fin v) = Fin v').
  { destruct init as [|x|]; cbn; eauto; [|congruence]. unfold emax. cbn. destruct (Rle_bool _ _); eauto. }
  destruct E as (v' & ->). clear HB v b. revert v'. induction B as [|b' B IH]; intros v; cbn [fold_left]; eauto.
  destruct (eps_min_some t init dim A b' Hd Hi HA) as (v' & ->).
  unfold emax at 2. cbn [eleb]. destruct (Rle_bool _ _); apply IH.
Qed.

Definition diff_exact (mx : list bool) (a b : rpoint) (d : nat) : R :=
  if nth d mx false then rcoord b d - rcoord a d else rcoord a d - rcoord b d.
Definition quot_exact (mx : list bool) (a b : rpoint) (d : nat) : R :=
  if nth d mx false then rcoord b d / rcoord a d else rcoord a d / rcoord b d.

Lemma add_commutes : forall mx A B,
  epsilon_additive_d A B mx = emap rnd (eps_d (diff_exact mx) NegInf (length mx) A B).
Proof.
  intros. unfold epsilon_additive_d. rewrite <- (eps_map rnd) by (intros x y; apply rnd_mono).
  cbn [emap]. unfold eps_d, eps_min_d, eps_max_d, temp_add_d, diff_exact.
  assert (E : forall a b d, (if nth d mx false then rnd (rcoord b d - rcoord a d) else rnd (rcoord a d - rcoord b d)) =
     rnd (if nth d mx false then rcoord b d - rcoord a d else rcoord a d - rcoord b d)).
  { intros. destruct (nth d mx false); auto. }
  f_equal. apply FunctionalExtensionality.functional_extensionality. intros e.
  apply FunctionalExtensionality.functional_extensionality. intros b. f_equal. f_equal.
  apply FunctionalExtensionality.functional_extensionality. intros m.
  apply FunctionalExtensionality.functional_extensionality. intros a. f_equal. f_equal.
  apply FunctionalExtensionality.functional_extensionality. intros m'.
  apply FunctionalExtensionality.functional_extensionality. intros d. now rewrite E.
Qed.
Lemma rnd_zero : rnd 0 = 0.
Proof. apply rnd_double. apply generic_format_0. Qed.
Lemma mult_commutes : forall mx A B,
  eps_d (temp_mult_d mx) (Fin 0) (length mx) A B = emap rnd (eps_d (quot_exact mx) (Fin 0) (length mx) A B).
Proof.
  intros. rewrite <- (eps_map rnd) by (intros x y; apply rnd_mono).
  cbn [emap]. rewrite rnd_zero. unfold eps_d, eps_min_d, eps_max_d, temp_mult_d, quot_exact.
  assert (E : forall a b d, (if nth d mx false then rnd (rcoord b d / rcoord a d) else rnd (rcoord a d / rcoord b d)) =
     rnd (if nth d mx false then rcoord b d / rcoord a d else rcoord a d / rcoord b d)).
  { intros. destruct (nth d mx false); auto. }
  f_equal. apply FunctionalExtensionality.functional_extensionality. intros e.
  apply FunctionalExtensionality.functional_extensionality. intros b. f_equal. f_equal.
  apply FunctionalExtensionality.functional_extensionality. intros m.
  apply FunctionalExtensionality.functional_extensionality. intros a. f_equal. f_equal.
  apply FunctionalExtensionality.functional_extensionality. intros m'.
  apply FunctionalExtensionality.functional_extensionality. intros d. now rewrite E.
Qed.

(** ** C52: the additive indicator is correctly rounded *)
Theorem C52_additive_correctly_rounded : forall mx A B, mx <> [] -> A <> [] -> B <> [] ->
  exists e, least (shift_covers mx A B) e /\ epsilon_additive_d A B mx = Fin (rnd e).
Proof.
  intros mx A B Hm HA HB.
  assert (Hd : (1 <= length mx)%nat) by (destruct mx; simpl; [tauto|lia]).
  destruct (eps_some (diff_exact mx) NegInf (length mx) A B Hd ltac:(discriminate) HA HB) as (v & E).
  exists v. rewrite add_commutes, E. split; auto.
  assert (K : forall e, v <= e <-> shift_covers mx A B e).
  { intros e. pose proof (eps_le (diff_exact mx) NegInf (length mx) A B e) as L. rewrite E in L. cbn [ele] in L.
    rewrite L. unfold shift_covers. split.
    - intros [_ H] b Hb. destruct (H b Hb) as (a & Ha & _ & D). exists a. split; auto. intros d Hdd.
      specialize (D d Hdd). unfold diff_exact in D. destruct (nth d mx false); lra.
    - intros H. split; auto. intros b Hb. destruct (H b Hb) as (a & Ha & D). exists a. split; auto. split; auto.
      intros d Hdd. specialize (D d Hdd). unfold diff_exact. destruct (nth d mx false); lra. }
  split. apply K. lra. intros e' H. now apply K.
Qed.
Print Assumptions C52_additive_correctly_rounded.

(** doubles are multiples of 2^-1074, so a positive difference is not rounded to 0 *)
Lemma double_multiple : forall x, is_double x -> exists m, x = IZR m * bpow radix2 (-1074).
Proof.
  intros x Hx. apply FLT_format_generic in Hx; [|unfold Prec_gt_0; lia].
  destruct Hx as [f Hf H1 H2]. exists (Fnum f * Zpower radix2 (Fexp f + 1074))%Z.
  rewrite mult_IZR, IZR_Zpower by lia. rewrite Rmult_assoc, <- bpow_plus.
  replace (Fexp f + 1074 + -1074)%Z with (Fexp f) by lia. exact Hf.
Qed.
Lemma minus_sign : forall x y, is_double x -> is_double y -> (rnd (x - y) <= 0 <-> x <= y).
Proof.
  intros x y Hx Hy. split; intros H.
  - destruct (Rle_lt_dec x y) as [|G]; auto. exfalso.
    destruct (double_multiple x Hx) as (m & Em). destruct (double_multiple y Hy) as (n & En).
    pose proof (bpow_gt_0 radix2 (-1074)) as P. set (u := bpow radix2 (-1074)) in *.
    assert (Lt : (n < m)%Z).
    { apply lt_IZR. apply Rmult_lt_reg_r with u; auto. lra. }
    assert (L1 : IZR n + 1 <= IZR m). { rewrite <- plus_IZR. apply IZR_le. lia. }
    assert (L2 : u <= x - y).
    { rewrite Em, En. assert ((IZR n + 1) * u <= IZR m * u); [apply Rmult_le_compat_r; lra|lra]. }
    assert (Q : u <= rnd (x - y)).
    { rewrite <- (rnd_double u). now apply rnd_mono. apply generic_format_bpow. unfold dexp, FLT_exp. lia. }
    lra.
  - rewrite <- rnd_zero. apply rnd_mono. lra.
Qed.

(** The sign of the computed additive indicator is exact: it is at most 0 iff the
    first set weakly dominates the second. *)
Theorem C52_additive_sign_exact : forall mx A B v, doubles (length mx) A -> doubles (length mx) B ->
  epsilon_additive_d A B mx = Fin v -> (v <= 0 <-> rset_wdom mx A B).
Proof.
  intros mx A B v DA DB E. unfold doubles in *.
  pose proof (eps_le (temp_add_d mx) NegInf (length mx) A B 0) as L.
  fold (epsilon_additive_d A B mx) in L. rewrite E in L. cbn [ele] in L. rewrite L. unfold rset_wdom, rwdom. split.
  - intros [_ H] b Hb. destruct (H b Hb) as (a & Ha & _ & D). exists a. split; auto. intros d Hd.
    specialize (D d Hd). unfold temp_add_d in D. destruct (nth d mx false); (eapply minus_sign; [| |exact D]); auto.
  - intros H. split; auto. intros b Hb. destruct (H b Hb) as (a & Ha & D). exists a. split; auto. split; auto.
    intros d Hd. specialize (D d Hd). unfold temp_add_d. destruct (nth d mx false); (eapply minus_sign; [| |exact D]); auto.
Qed.
Print Assumptions C52_additive_sign_exact.

(** Rounding does not break weak Pareto compliance. *)
Theorem C52_additive_compliant : forall mx A A' B v v', rset_wdom mx A A' ->
  epsilon_additive_d A B mx = Fin v -> epsilon_additive_d A' B mx = Fin v' -> v <= v'.
Proof.
  intros mx A A' B v v' W E E'.
  pose proof (eps_le (temp_add_d mx) NegInf (length mx) A B v') as L.
  pose proof (eps_le (temp_add_d mx) NegInf (length mx) A' B v') as L'.
  fold (epsilon_additive_d A B mx) in L. fold (epsilon_additive_d A' B mx) in L'.
  rewrite E in L. rewrite E' in L'. cbn [ele] in L, L'. apply L. split; auto.
  intros b Hb. destruct (proj2 (proj1 L' ltac:(lra)) b Hb) as (a' & Ha' & _ & D').
  destruct (W a' Ha') as (a & Ha & Da). exists a. split; auto. split; auto. intros d Hd.
  specialize (D' d Hd). specialize (Da d Hd). eapply Rle_trans; [|exact D'].
  unfold temp_add_d. destruct (nth d mx false); apply rnd_mono; lra.
Qed.
Print Assumptions C52_additive_compliant.

(** ** Multiplicative *)
Lemma no_error : forall mx A B, positive (length mx) A -> positive (length mx) B ->
  epsilon_mult_d A B mx = Ret (eps_d (temp_mult_d mx) (Fin 0) (length mx) A B).
Proof.
  intros mx A B PA PB. unfold epsilon_mult_d.
  destruct (existsb _ B) eqn:E; auto. exfalso.
  apply existsb_exists in E. destruct E as (b & Hb & E).
  apply existsb_exists in E. destruct E as (a & Ha & E).
  apply existsb_exists in E. destruct E as (d & Hd & E). apply in_seq in Hd.
  pose proof (PA a d Ha ltac:(lia)). pose proof (PB b d Hb ltac:(lia)).
  rewrite !Rle_bool_false in E by auto. discriminate.
Qed.

(** The multiplicative indicator is refused exactly if some value is not positive. *)
Theorem C52_multiplicative_refused : forall mx A B, A <> [] -> B <> [] ->
  (epsilon_mult_d A B mx = AssertFailed <->
   exists p d, (In p A \/ In p B) /\ (d < length mx)%nat /\ rcoord p d <= 0).
Proof.
  intros mx A B NA NB. unfold epsilon_mult_d. destruct (existsb _ B) eqn:E.
  - split; auto. intros _. apply existsb_exists in E. destruct E as (b & Hb & E).
    apply existsb_exists in E. destruct E as (a & Ha & E).
    apply existsb_exists in E. destruct E as (d & Hd & E). apply in_seq in Hd.
    apply orb_true_iff in E. destruct E as [E|E].
    + exists a, d. split; auto. split; [lia|]. destruct (Rle_bool_spec (rcoord a d) 0); [auto|discriminate].
    + exists b, d. split; auto. split; [lia|]. destruct (Rle_bool_spec (rcoord b d) 0); [auto|discriminate].
  - split; [discriminate|]. intros (p & d & Hp & Hd & Hv). exfalso.
    destruct A as [|a0 A]; [congruence|]. destruct B as [|b0 B]; [congruence|].
    assert (T : existsb (fun b => existsb (fun a => existsb (fun d => Rle_bool (rcoord a d) 0 || Rle_bool (rcoord b d) 0)
       (seq 0 (length mx))) (a0 :: A)) (b0 :: B) = true); [|congruence].
    apply existsb_exists. destruct Hp as [Hp|Hp].
    + exists b0. split; [now left|]. apply existsb_exists. exists p. split; auto. apply existsb_exists. exists d. split; [apply in_seq; lia|].
      rewrite Rle_bool_true by auto. reflexivity.
    + exists p. split; auto. apply existsb_exists. exists a0. split; [now left|]. apply existsb_exists. exists d. split; [apply in_seq; lia|].
      rewrite (Rle_bool_true (rcoord p d)) by auto. apply orb_true_r.
Qed.

Lemma div_le_iff : forall x y e, 0 < y -> (x / y <= e <-> x <= y * e).
Proof.
  intros x y e Hy. split; intros H.
  - apply Rmult_le_compat_l with (r := y) in H; [|lra]. replace (y * (x / y)) with x in H by (field; lra). auto.
  - apply Rmult_le_reg_l with y; auto. replace (y * (x / y)) with x by (field; lra). auto.
Qed.
Lemma quot_iff : forall mx a b d e, 0 < rcoord a d -> 0 < rcoord b d -> 0 < e ->
  (quot_exact mx a b d <= e <->
   if nth d mx false then rcoord b d <= rcoord a d * e else rcoord a d / e <= rcoord b d).
Proof.
  intros mx a b d e Ha Hb He. unfold quot_exact. destruct (nth d mx false).
  - now apply div_le_iff.
  - rewrite !div_le_iff by auto. rewrite Rmult_comm. tauto.
Qed.

Theorem C52_multiplicative_correctly_rounded : forall mx A B, mx <> [] -> A <> [] -> B <> [] ->
  positive (length mx) A -> positive (length mx) B ->
  exists e, least (factor_covers mx A B) e /\ epsilon_mult_d A B mx = Ret (Fin (rnd e)).
Proof.
  intros mx A B Hm HA HB PA PB. rewrite no_error by auto. rewrite mult_commutes.
  assert (Hd : (1 <= length mx)%nat) by (destruct mx; simpl; [tauto|lia]).
  destruct (eps_some (quot_exact mx) (Fin 0) (length mx) A B Hd ltac:(discriminate) HA HB) as (v & E).
  exists v. rewrite E. split; auto.
  assert (L : forall e, v <= e <-> 0 <= e /\ forall b, In b B -> exists a, In a A /\ 0 <= e /\
             forall d, (d < length mx)%nat -> quot_exact mx a b d <= e).
  { intros e. pose proof (eps_le (quot_exact mx) (Fin 0) (length mx) A B e) as L. rewrite E in L. exact L. }
  assert (QP : forall a b d, In a A -> In b B -> (d < length mx)%nat -> 0 < quot_exact mx a b d).
  { intros a b d Ha Hb Hdd. pose proof (PA a d Ha Hdd). pose proof (PB b d Hb Hdd). unfold quot_exact.
    destruct (nth d mx false); apply Rdiv_lt_0_compat; auto. }
  assert (V : 0 < v).
  { destruct B as [|b B]; [tauto|]. destruct (proj2 (proj1 (L v) ltac:(lra)) b (or_introl eq_refl)) as (a & Ha & _ & D).
    specialize (D 0%nat ltac:(lia)). pose proof (QP a b 0%nat Ha (or_introl eq_refl) ltac:(lia)). lra. }
  assert (K : forall e, 0 < e -> (v <= e <-> factor_covers mx A B e)).
  { intros e He. rewrite L. unfold factor_covers. split.
    - intros [_ H]. split; auto. intros b Hb. destruct (H b Hb) as (a & Ha & _ & D). exists a. split; auto.
      intros d Hdd. apply (proj1 (quot_iff mx a b d e (PA a d Ha Hdd) (PB b d Hb Hdd) He)). auto.
    - intros [_ H]. split; [lra|]. intros b Hb. destruct (H b Hb) as (a & Ha & D). exists a. split; auto. split; [lra|].
      intros d Hdd. apply (proj2 (quot_iff mx a b d e (PA a d Ha Hdd) (PB b d Hb Hdd) He)). exact (D d Hdd). }
  split. apply K; lra. intros e' H. apply K; auto. apply H.
Qed.
Print Assumptions C52_multiplicative_correctly_rounded.

(** the quotient of a larger by a smaller positive double is not rounded to 1 *)
Lemma quotient_above_one : forall x y, is_double x -> is_double y -> 0 < y -> (rnd (x / y) <= 1 <-> x <= y).
Proof.
  intros x y Hx Hy P. split; intros H.
  - destruct (Rle_lt_dec x y) as [|G]; auto. exfalso.
    assert (S : succ radix2 dexp y <= x) by (apply (succ_le_lt radix2 dexp y x Hy Hx G)).
    rewrite succ_eq_pos in S by lra.
    pose proof (bpow_mag_gt radix2 y) as M. rewrite Rabs_pos_eq in M by lra.
    assert (U : bpow radix2 (mag radix2 y - 53) <= ulp radix2 dexp y).
    { rewrite ulp_neq_0 by lra. apply bpow_le. unfold cexp, dexp, FLT_exp. lia. }
    assert (B : y * bpow radix2 (-53) < ulp radix2 dexp y).
    { eapply Rlt_le_trans; [|exact U]. unfold Zminus. rewrite bpow_plus.
      apply Rmult_lt_compat_r; auto. apply bpow_gt_0. }
    assert (Q : 1 + bpow radix2 (-53) < x / y).
    { apply Rmult_lt_reg_l with y; auto. replace (y * (x / y)) with x by (field; lra). lra. }
    set (q := x / y) in *. set (g := 1 + bpow radix2 (-52)).
    assert (G53 : bpow radix2 (-52) = 2 * bpow radix2 (-53)).
    { change (-52)%Z with (1 + -53)%Z. rewrite bpow_plus. simpl (bpow radix2 1). lra. }
    pose proof (bpow_gt_0 radix2 (-53)) as P53.
    assert (Dg : is_double g).
    { unfold g. replace (1 + bpow radix2 (-52)) with (F2R (Float radix2 (2 ^ 52 + 1) (-52))).
      - apply generic_format_FLT. eexists; [reflexivity| |]; simpl; lia.
      - unfold F2R. cbn [Fnum Fexp]. rewrite plus_IZR, Rmult_plus_distr_r, Rmult_1_l. f_equal.
        change (2 ^ 52)%Z with (Zpower radix2 52). rewrite IZR_Zpower by lia. rewrite <- bpow_plus. reflexivity. }
    destruct (Rle_lt_dec g q) as [Lg|Lg].
    + apply rnd_mono in Lg. rewrite (rnd_double g Dg) in Lg. unfold g in Lg. lra.
    + pose proof (round_N_pt radix2 dexp (fun z => negb (Z.even z)) q) as [_ N].
      specialize (N g Dg). fold (rnd q) in N.
      replace (round radix2 dexp (Znearest (fun z => negb (Z.even z))) q) with (rnd q) in N by reflexivity.
      rewrite (Rabs_left (rnd q - q)) in N by lra. rewrite (Rabs_pos_eq (g - q)) in N by lra. unfold g in N. lra.
  - rewrite <- (rnd_int 1) by lia. apply rnd_mono. apply div_le_iff; auto. lra.
Qed.

(** The computed multiplicative indicator is at most 1 iff the first set weakly
    dominates the second. *)
Theorem C52_multiplicative_one_exact : forall mx A B v, doubles (length mx) A -> doubles (length mx) B ->
  positive (length mx) A -> positive (length mx) B ->
  epsilon_mult_d A B mx = Ret (Fin v) -> (v <= 1 <-> rset_wdom mx A B).
Proof.
  intros mx A B v DA DB PA PB E. unfold doubles in *. rewrite no_error in E by auto.
  pose proof PA as PA0. pose proof PB as PB0. unfold positive in PA, PB.
  pose proof (eps_le (temp_mult_d mx) (Fin 0) (length mx) A B 1) as L.
  replace (eps_d (temp_mult_d mx) (Fin 0) (length mx) A B) with (Fin v) in L by congruence.
  cbn [ele] in L. rewrite L. unfold rset_wdom, rwdom. split.
  - intros [_ H] b Hb. destruct (H b Hb) as (a & Ha & _ & D). exists a. split; auto. intros d Hd.
    specialize (D d Hd). unfold temp_mult_d in D. destruct (nth d mx false); (eapply quotient_above_one; [| | |exact D]); auto.
  - intros H. split; [lra|]. intros b Hb. destruct (H b Hb) as (a & Ha & D). exists a. split; auto. split; [lra|].
    intros d Hd. specialize (D d Hd). unfold temp_mult_d. destruct (nth d mx false); (eapply quotient_above_one; [| | |exact D]); auto.
Qed.
Print Assumptions C52_multiplicative_one_exact.

(** ** The hypotheses are met *)
Example C52_example :
  let A := [[1; 3]; [2; 2]] in let B := [[1; 2]] in
  doubles 2 A /\ doubles 2 B /\ positive 2 A /\ positive 2 B /\
  epsilon_additive_d A B [false; false] = Fin 1.
Proof.
  cbv zeta. assert (D : forall k, (Z.abs k <= 2 ^ 53)%Z -> is_double (IZR k)) by apply double_int.
  split; [|split; [|split; [|split]]].
  - intros p d [<-|[<-|[]]] Hd; destruct d as [|[|d]]; try lia; cbn; apply D; lia.
  - intros p d [<-|[]] Hd; destruct d as [|[|d]]; try lia; cbn; apply D; lia.
  - intros p d [<-|[<-|[]]] Hd; destruct d as [|[|d]]; try lia; cbn; lra.
  - intros p d [<-|[]] Hd; destruct d as [|[|d]]; try lia; cbn; lra.
  - destruct (C52_additive_correctly_rounded [false; false] [[1; 3]; [2; 2]] [[1; 2]]) as (e & (C & L) & ->);
      try discriminate.
    assert (e = 1).
    { apply Rle_antisym.
      - apply L. intros b [<-|[]]. exists [1; 3]. split; [now left|]. intros d Hd.
        destruct d as [|[|d]]; cbn in *; try lia; lra.
      - destruct (C _ (or_introl eq_refl)) as (a & [<-|[<-|[]]] & K).
        + specialize (K 1%nat ltac:(cbn; lia)). cbn in K. lra.
        + specialize (K 0%nat ltac:(cbn; lia)). cbn in K. lra. }
    subst. now rewrite (rnd_int 1) by lia.
Qed.
Print Assumptions C52_multiplicative_refused.
