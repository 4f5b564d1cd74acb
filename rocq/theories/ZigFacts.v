(** The tables of the ziggurat compared with the bell curve. *)
From Coq Require Import List ZArith Reals Lra Lia Bool.
From Verif Require Import Base ZigTables RngModel ProbSpec ProbFacts ExpBounds.
Import ListNotations.
Open Scope R_scope.

Definition wv (i : nat) : R := IZR (nth i wi_double 0%Z) * wi_unit.
Definition fv (i : nat) : R := IZR (nth i fi_double 0%Z) * fi_unit.
Definition kv (i : nat) : Z := nth i ki_double 0%Z.
(** the right end of layer i *)
Definition xv (i : nat) : R := wv i * IZR (2 ^ 52).
(** the area of every layer *)
Definition area : R := xv 0 * fv 255.

(** ** the integer checks *)
Definition check_end (i : nat) : bool :=
  let W := nth i wi_double 0%Z in let F := nth i fi_double 0%Z in let F1 := nth (i - 1) fi_double 0%Z in
  let (_, hi) := exp_neg80 50 (W * W * 2 ^ 103) (10 ^ 74) in
  ((hi * 10 ^ 23 - F * 2 ^ 80) * 10 ^ 13 <=? (F1 - F) * 2 ^ 80)%Z.
Definition check_fast (i : nat) : bool :=
  let W := nth i wi_double 0%Z in let F := nth i fi_double 0%Z in let F1 := nth (i - 1) fi_double 0%Z in
  let K := nth i ki_double 0%Z in
  (K =? 0)%Z ||
  ((0 <? K)%Z && let (lo, _) := exp_neg80 50 (((K - 1) * W) * ((K - 1) * W)) (2 * 10 ^ 74) in
   (F1 * 2 ^ 80 - lo * 10 ^ 23) * 10 ^ 13 <=? (F1 - F) * 2 ^ 80)%Z.
Definition check_area (i : nat) : bool :=
  let W := nth i wi_double 0%Z in let F := nth i fi_double 0%Z in let F1 := nth (i - 1) fi_double 0%Z in
  let V := (nth 0 wi_double 0 * nth 255 fi_double 0)%Z in
  (Z.abs (W * (F1 - F) - V) * 10 ^ 13 <=? V)%Z.
Definition check_order (i : nat) : bool :=
  let W := nth i wi_double 0%Z in let F := nth i fi_double 0%Z in let F1 := nth (i - 1) fi_double 0%Z in
  ((F <? F1) && (0 <? F) && (0 <? W) && (W * 2 ^ 52 <=? nor_r * 10 ^ 8) && (nth i ki_double 0 <=? 2 ^ 52))%Z.

Lemma checks : forallb (fun i => check_end i && check_fast i && check_area i && check_order i) (seq 1 255) = true.
Proof. vm_compute. reflexivity. Qed.

Opaque exp_neg80.

Lemma check_all : forall i, (1 <= i <= 255)%nat ->
  check_end i = true /\ check_fast i = true /\ check_area i = true /\ check_order i = true.
Proof.
  intros i Hi. pose proof checks as C. rewrite forallb_forall in C.
  specialize (C i ltac:(apply in_seq; lia)). rewrite !andb_true_iff in C. tauto.
Qed.

Definition delta : R := / IZR (10 ^ 13).

Lemma wi_unit_pos : 0 < wi_unit.
Proof. unfold wi_unit. apply Rdiv_lt_0_compat; [ lra | ]. apply IZR_lt. reflexivity. Qed.
Lemma fi_unit_pos : 0 < fi_unit.
Proof. unfold fi_unit. apply Rdiv_lt_0_compat; [ lra | ]. apply IZR_lt. reflexivity. Qed.
Lemma nor_unit_pos : 0 < nor_unit.
Proof. unfold nor_unit. apply Rdiv_lt_0_compat; [ lra | ]. apply IZR_lt. reflexivity. Qed.
Lemma IZR_pow_pos : forall a n, (0 < a)%Z -> (0 <= n)%Z -> 0 < IZR (a ^ n).
Proof. intros a n Ha Hn. apply IZR_lt. now apply Z.pow_pos_nonneg. Qed.
Lemma delta_pos : 0 < delta.
Proof. unfold delta. apply Rinv_0_lt_compat. now apply IZR_pow_pos. Qed.

Lemma p37 : IZR (10 ^ 74) = IZR (10 ^ 37) * IZR (10 ^ 37).
Proof. rewrite <- mult_IZR. f_equal. Qed.
Lemma p29 : IZR (10 ^ 37) = IZR (10 ^ 29) * IZR (10 ^ 8).
Proof. rewrite <- mult_IZR. f_equal. Qed.
Lemma p103 : IZR (2 ^ 103) = IZR (2 ^ 52) * IZR (2 ^ 52) / 2.
Proof. rewrite <- mult_IZR. replace (2 ^ 52 * 2 ^ 52)%Z with (2 ^ 103 * 2)%Z by reflexivity. rewrite mult_IZR. field. Qed.
Lemma p80 : IZR (2 ^ 80) = IZR unit80.
Proof. reflexivity. Qed.
Lemma pos74 : (0 < 10 ^ 74)%Z. Proof. reflexivity. Qed.
Lemma pos274 : (0 < 2 * 10 ^ 74)%Z. Proof. reflexivity. Qed.

Lemma layer_order : forall i, (1 <= i <= 255)%nat ->
  0 < fv i /\ fv i < fv (i - 1) /\ 0 < wv i /\ 0 < xv i <= ziggurat_nor_r /\ (kv i <= 2 ^ 52)%Z.
Proof.
  intros i Hi. destruct (check_all i Hi) as (_ & _ & _ & C). unfold check_order in C. cbv zeta in C.
  rewrite !andb_true_iff, !Z.ltb_lt, !Z.leb_le in C. destruct C as ((((C1 & C2) & C3) & C4) & C5).
  pose proof fi_unit_pos as FU. pose proof wi_unit_pos as WU.
  pose proof (IZR_pow_pos 2 52 ltac:(lia) ltac:(lia)) as P52.
  assert (W0 : 0 < wv i) by (unfold wv; apply Rmult_lt_0_compat; [ now apply IZR_lt | exact WU ]).
  split; [ | split; [ | split; [ exact W0 | split; [ split | exact C5 ] ] ] ].
  - unfold fv. apply Rmult_lt_0_compat; [ now apply IZR_lt | exact FU ].
  - unfold fv. apply Rmult_lt_compat_r; [ exact FU | now apply IZR_lt ].
  - unfold xv. now apply Rmult_lt_0_compat.
  - unfold xv, wv, ziggurat_nor_r, wi_unit, nor_unit.
    apply IZR_le in C4. rewrite !mult_IZR in C4.
    rewrite p29.
    pose proof (IZR_pow_pos 10 29 ltac:(lia) ltac:(lia)) as P29. pose proof (IZR_pow_pos 10 8 ltac:(lia) ltac:(lia)) as P8.
    set (a := IZR (nth i wi_double 0%Z)) in *. set (b := IZR (2 ^ 52)) in *. set (c := IZR (10 ^ 29)) in *. set (d := IZR (10 ^ 8)) in *. set (nr := IZR nor_r) in *. clearbody a b c d nr.
    apply Rmult_le_reg_r with (c * d); [ now apply Rmult_lt_0_compat | ].
    replace (a * (1 / (c * d)) * b * (c * d)) with (a * b) by (field; lra).
    replace (nr * (1 / c) * (c * d)) with (nr * d) by (field; lra). exact C4.
Qed.

Lemma bell_of : forall x a b, (0 < b)%Z -> x * x / 2 = IZR a / IZR b -> bell x = exp (- (IZR a / IZR b)).
Proof. intros x a b Hb E. unfold bell. f_equal. rewrite <- E. field. Qed.

Lemma sq_nonneg : forall W, (0 <= W * W * 2 ^ 103)%Z.
Proof. intros W. pose proof (Z.square_nonneg W). nia. Qed.
Lemma sq_nonneg2 : forall K W, (0 <= K * W * (K * W))%Z.
Proof. intros K W. apply Z.square_nonneg. Qed.

Lemma layer_end : forall i, (1 <= i <= 255)%nat -> bell (xv i) - fv i <= delta * (fv (i - 1) - fv i).
Proof.
  intros i Hi. destruct (check_all i Hi) as (C & _ & _ & _). unfold check_end in C. cbv zeta in C.
  set (W := nth i wi_double 0%Z) in *. set (F := nth i fi_double 0%Z) in *. set (F1 := nth (i - 1) fi_double 0%Z) in *.
  destruct (exp_neg80 50 (W * W * 2 ^ 103) (10 ^ 74)) as [lo hi] eqn:E.
  apply exp_neg80_sound in E; [ | | exact pos74 ].
  2: exact (sq_nonneg W).
  apply Z.leb_le, IZR_le in C. rewrite !mult_IZR, !minus_IZR, !mult_IZR in C.
  rewrite <- (bell_of (xv i)) in E.
  - destruct E as [_ E]. unfold fv. fold F. fold F1. unfold fi_unit, delta.
    rewrite !p80 in C. pose proof unit80_pos as U.
    pose proof (IZR_pow_pos 10 13 ltac:(lia) ltac:(lia)) as P13. pose proof (IZR_pow_pos 10 23 ltac:(lia) ltac:(lia)) as P23.
    set (u := IZR unit80) in *. set (p := IZR (10 ^ 13)) in *. set (q := IZR (10 ^ 23)) in *. clearbody u p q W F F1.
    eapply Rle_trans; [ apply Rplus_le_compat_r; exact E | ].
    apply Rmult_le_reg_r with (u * q * p); [ repeat apply Rmult_lt_0_compat; assumption | ].
    replace ((IZR hi / u + - (IZR F * (1 / q))) * (u * q * p)) with ((IZR hi * q - IZR F * u) * p) by (field; lra).
    replace (/ p * (IZR F1 * (1 / q) - IZR F * (1 / q)) * (u * q * p)) with ((IZR F1 - IZR F) * u) by (field; lra). exact C.
  - exact pos74.
  - unfold xv, wv. fold W. unfold wi_unit. clearbody W F F1. rewrite !mult_IZR.
    rewrite p103.
    rewrite p37.
    pose proof (IZR_pow_pos 10 37 ltac:(lia) ltac:(lia)) as P37. set (z := IZR (10 ^ 37)) in *. clearbody z. field. lra.
Qed.

Lemma bell_decr : forall x y, 0 <= x -> x <= y -> bell y <= bell x.
Proof.
  intros x y Hx Hxy. unfold bell. assert (A : - (y * y) / 2 <= - (x * x) / 2) by (assert (x * x <= y * y) by (apply Rmult_le_compat; lra); lra).
  destruct A as [A | A]; [ left; now apply exp_increasing | right; now rewrite A ].
Qed.

Lemma layer_fast : forall i rabs, (1 <= i <= 255)%nat -> (0 <= rabs < kv i)%Z ->
  fv (i - 1) - bell (IZR rabs * wv i) <= delta * (fv (i - 1) - fv i).
Proof.
  intros i rabs Hi Hr. destruct (check_all i Hi) as (_ & C & _ & _). unfold check_fast in C. cbv zeta in C.
  unfold kv in Hr.
  destruct (layer_order i Hi) as (_ & _ & W0 & _).
  set (W := nth i wi_double 0%Z) in *. set (F := nth i fi_double 0%Z) in *. set (F1 := nth (i - 1) fi_double 0%Z) in *.
  set (K := nth i ki_double 0%Z) in *.
  apply orb_true_iff in C. destruct C as [C | C]; [ apply Z.eqb_eq in C; lia | ].
  apply andb_true_iff in C. destruct C as [_ C].
  destruct (exp_neg80 50 ((K - 1) * W * ((K - 1) * W)) (2 * 10 ^ 74)) as [lo hi] eqn:E.
  apply exp_neg80_sound in E; [ | exact (sq_nonneg2 (K - 1) W) | exact pos274 ].
  apply Z.leb_le, IZR_le in C. rewrite !mult_IZR, !minus_IZR, !mult_IZR in C.
  rewrite <- (bell_of (IZR (K - 1) * wv i)) in E.
  - destruct E as [E _]. assert (B : bell (IZR (K - 1) * wv i) <= bell (IZR rabs * wv i)).
    { apply bell_decr; [ apply Rmult_le_pos; [ apply IZR_le; lia | lra ] | ]. apply Rmult_le_compat_r; [ lra | ]. apply IZR_le. lia. }
    unfold fv. fold F. fold F1. unfold fi_unit, delta.
    rewrite !p80 in C. pose proof unit80_pos as U.
    pose proof (IZR_pow_pos 10 13 ltac:(lia) ltac:(lia)) as P13. pose proof (IZR_pow_pos 10 23 ltac:(lia) ltac:(lia)) as P23.
    set (u := IZR unit80) in *. set (p := IZR (10 ^ 13)) in *. set (q := IZR (10 ^ 23)) in *. clearbody u p q W F F1.
    apply Rle_trans with (IZR F1 * (1 / q) - IZR lo / u); [ lra | ].
    apply Rmult_le_reg_r with (u * q * p); [ repeat apply Rmult_lt_0_compat; assumption | ].
    replace ((IZR F1 * (1 / q) - IZR lo / u) * (u * q * p)) with ((IZR F1 * u - IZR lo * q) * p) by (field; lra).
    replace (/ p * (IZR F1 * (1 / q) - IZR F * (1 / q)) * (u * q * p)) with ((IZR F1 - IZR F) * u) by (field; lra). exact C.
  - exact pos274.
  - unfold wv. fold W. unfold wi_unit. clearbody W F F1 K. rewrite !mult_IZR.
    rewrite p37.
    pose proof (IZR_pow_pos 10 37 ltac:(lia) ltac:(lia)) as P37. set (z := IZR (10 ^ 37)) in *. clearbody z. field. lra.
Qed.

Lemma layer_area : forall i, (1 <= i <= 255)%nat -> Rabs (xv i * (fv (i - 1) - fv i) - area) <= delta * area.
Proof.
  intros i Hi. destruct (check_all i Hi) as (_ & _ & C & _). unfold check_area in C. cbv zeta in C.
  unfold area, xv, wv, fv.
  set (W := nth i wi_double 0%Z) in *. set (F := nth i fi_double 0%Z) in *. set (F1 := nth (i - 1) fi_double 0%Z) in *.
  set (W0 := nth 0 wi_double 0%Z) in *. set (FL := nth 255 fi_double 0%Z) in *.
  apply Z.leb_le, IZR_le in C. rewrite !mult_IZR, abs_IZR, !minus_IZR, !mult_IZR, !minus_IZR in C.
  pose proof fi_unit_pos as FU. pose proof wi_unit_pos as WU.
  pose proof (IZR_pow_pos 2 52 ltac:(lia) ltac:(lia)) as P52. pose proof (IZR_pow_pos 10 13 ltac:(lia) ltac:(lia)) as P13.
  unfold delta. set (p := IZR (10 ^ 13)) in *. set (b := IZR (2 ^ 52)) in *. set (wu := wi_unit) in *. set (fu := fi_unit) in *. clearbody p b wu fu W F F1 W0 FL.
  replace (IZR W * wu * b * (IZR F1 * fu - IZR F * fu) - IZR W0 * wu * b * (IZR FL * fu))
    with ((wu * b * fu) * (IZR W * (IZR F1 - IZR F) - IZR W0 * IZR FL)) by ring.
  assert (S : 0 < wu * b * fu) by (repeat apply Rmult_lt_0_compat; assumption).
  rewrite Rabs_mult, (Rabs_right (wu * b * fu)) by lra.
  replace (/ p * (IZR W0 * wu * b * (IZR FL * fu))) with ((wu * b * fu) * (IZR W0 * IZR FL / p)) by (field; lra).
  apply Rmult_le_compat_l; [ lra | ]. apply Rmult_le_reg_r with p; [ exact P13 | ].
  unfold Rdiv. rewrite (Rmult_assoc (IZR W0 * IZR FL)), Rinv_l, Rmult_1_r by lra. exact C.
Qed.
