(** The integral of the bell curve: existence, series with error bound, and the
    numerical value of the tail beyond the last layer of the ziggurat. *)
From Coq Require Import List ZArith Reals Lra Lia Bool.
From Coquelicot Require Import Coquelicot.
From Verif Require Import ZigTables RngModel ProbSpec ProbFacts ExpBounds ZigFacts.
Open Scope R_scope.

Lemma bell_pos : forall x, 0 < bell x. Proof. intros. apply exp_pos. Qed.
Lemma bell_0 : bell 0 = 1.
Proof. unfold bell. replace (- (0 * 0) / 2) with 0 by field. apply exp_0. Qed.
Lemma bell_derive : forall x : R, is_derive bell x (- x * bell x).
Proof. intros x. unfold bell. auto_derive; [ exact I | ]. match goal with |- @eq _ ?a ?b => change (@eq R a b) end. unfold Rdiv. field. Qed.
Lemma bell_cont : forall x, continuous bell x.
Proof. intros x. apply (ex_derive_continuous (K := R_AbsRing) (V := R_NormedModule)). eexists. apply bell_derive. Qed.
Lemma bell_int : forall a b, ex_RInt bell a b.
Proof. intros a b. apply (ex_RInt_continuous (V := R_CompleteNormedModule)). intros. apply bell_cont. Qed.
Lemma bell_le_1 : forall x, bell x <= 1.
Proof.
  intros x. unfold bell. rewrite <- exp_0. assert (A : - (x * x) / 2 <= 0) by (pose proof (Rle_0_sqr x); unfold Rsqr in *; lra).
  destruct A as [A | A]; [ left; now apply exp_increasing | right; now rewrite A ].
Qed.
Lemma bell_chasles : forall a b c, RInt bell a c = RInt bell a b + RInt bell b c.
Proof. intros a b c. symmetry. apply (RInt_Chasles (V := R_CompleteNormedModule)); apply bell_int. Qed.
Lemma bell_int_bounds : forall a b, 0 <= a -> a <= b -> 0 <= RInt bell a b <= (b - a) * bell a.
Proof.
  intros a b Ha Hab.
  assert (C : forall c, RInt (fun _ : R => c) a b = (b - a) * c) by (intros c; rewrite RInt_const; reflexivity).
  split.
  - rewrite <- (Rmult_0_r (b - a)), <- C. apply RInt_le; [ exact Hab | apply ex_RInt_const | apply bell_int | ]. intros. left. apply bell_pos.
  - rewrite <- C. apply RInt_le; [ exact Hab | apply bell_int | apply ex_RInt_const | ]. intros. apply bell_decr; lra.
Qed.
Lemma bell_int_lower : forall a b, 0 <= a -> a <= b -> (b - a) * bell b <= RInt bell a b.
Proof.
  intros a b Ha Hab.
  assert (C : forall c, RInt (fun _ : R => c) a b = (b - a) * c) by (intros c; rewrite RInt_const; reflexivity).
  rewrite <- C. apply RInt_le; [ exact Hab | apply ex_RInt_const | apply bell_int | ]. intros. apply bell_decr; lra.
Qed.

(** the tail beyond a point z >= 1 is at most bell z *)
Lemma bell_tail : forall z T, 1 <= z -> z <= T -> RInt bell z T <= bell z.
Proof.
  intros z T Hz HT.
  assert (A : RInt bell z T <= RInt (fun x => x * bell x) z T).
  { apply RInt_le; [ exact HT | apply bell_int | | ].
    - apply (ex_RInt_continuous (V := R_CompleteNormedModule)). intros x _.
      apply (continuous_mult (fun x : R => x) bell); [ apply continuous_id | apply bell_cont ].
    - intros x Hx. rewrite <- (Rmult_1_l (bell x)) at 1. apply Rmult_le_compat_r; [ left; apply bell_pos | lra ]. }
  assert (B : RInt (fun x => x * bell x) z T = - bell T - - bell z).
  { apply is_RInt_unique. apply (is_RInt_derive (V := R_CompleteNormedModule) (fun x => - bell x) (fun x => x * bell x)).
    - intros x _. replace (x * bell x) with (- (- x * bell x)) by ring.
      apply (is_derive_opp (K := R_AbsRing) (V := R_NormedModule) bell). apply bell_derive.
    - intros x _. apply (continuous_mult (fun x : R => x) bell); [ apply continuous_id | apply bell_cont ]. }
  pose proof (bell_pos T). lra.
Qed.

(** ** The series of the integral with positive terms *)
Fixpoint odd_term (k : nat) (z : R) : R :=
  match k with
  | O => z
  | S k => odd_term k z * (z * z) / INR (2 * k + 3)
  end.
Definition odd_sum (n : nat) (z : R) : R := sum_to n (fun k => odd_term k z).

Lemma odd_term_derive : forall k (z : R), exists d : R, is_derive (odd_term k) z d /\ z * d = INR (2 * k + 1) * odd_term k z /\
  d = match k with O => 1 | S k => z * odd_term k z end.
Proof.
  induction k as [ | k IH ]; intros z.
  - exists 1. split; [ apply (is_derive_id (K := R_AbsRing)) | split; [ cbn [odd_term Nat.mul Nat.add INR]; ring | reflexivity ] ].
  - destruct (IH z) as (d & D & E & _).
    assert (N : INR (2 * k + 3) <> 0) by (apply not_0_INR; lia).
    assert (N3 : INR (2 * k + 3) = INR (2 * k + 1) + 2) by (rewrite !plus_INR; cbn [INR]; ring).
    exists (z * odd_term k z). split; [ | split; [ | reflexivity ] ].
    + apply (is_derive_ext (fun z => / INR (2 * k + 3) * (odd_term k z * (z * z)))).
      { intros t. match goal with |- @eq _ ?a ?b => change (@eq R a b) end. cbn [odd_term]. unfold Rdiv. ring. }
      replace (z * odd_term k z) with (/ INR (2 * k + 3) * (d * (z * z) + odd_term k z * (z + z))).
      * apply (is_derive_scal (fun z => odd_term k z * (z * z))).
        replace (d * (z * z) + odd_term k z * (z + z)) with (d * (z * z) + odd_term k z * (1 * z + z * 1)) by ring.
        apply (is_derive_mult (odd_term k) (fun z => z * z) z d (1 * z + z * 1) D); [ | intros; apply Rmult_comm ].
        apply (is_derive_mult (fun z : R => z) (fun z : R => z) z 1 1); [ apply (is_derive_id (K := R_AbsRing)) | apply (is_derive_id (K := R_AbsRing)) | intros; apply Rmult_comm ].
      * replace (d * (z * z) + odd_term k z * (z + z)) with (z * odd_term k z * INR (2 * k + 3)) by (rewrite N3; replace (d * (z * z)) with (z * (z * d)) by ring; rewrite E; ring).
        field. exact N.
    + cbn [odd_term]. replace (2 * S k + 1)%nat with (2 * k + 3)%nat by lia. field. exact N.
Qed.
Lemma odd_sum_derive : forall n (z : R), is_derive (odd_sum (S n)) z (1 + z * odd_sum n z).
Proof.
  induction n as [ | n IH ]; intros z.
  - unfold odd_sum. cbn [sum_to odd_term]. apply (is_derive_ext (fun z : R => z)).
    + intros t. symmetry. apply Rplus_0_l.
    + replace (1 + z * 0) with 1 by ring. apply (is_derive_id (K := R_AbsRing)).
  - destruct (odd_term_derive (S n) z) as (d & D & _ & E). rewrite E in D.
    apply (is_derive_ext (fun z => odd_sum (S n) z + odd_term (S n) z)); [ reflexivity | ].
    replace (1 + z * odd_sum (S n) z) with ((1 + z * odd_sum n z) + z * odd_term n z) by (unfold odd_sum; cbn [sum_to]; ring).
    apply (is_derive_plus (K := R_AbsRing) (V := R_NormedModule)); [ apply IH | exact D ].
Qed.
Lemma odd_sum_0 : forall n, odd_sum n 0 = 0.
Proof.
  assert (T : forall k, odd_term k 0 = 0) by (induction k as [ | k IH ]; cbn [odd_term]; [ reflexivity | rewrite IH; unfold Rdiv; ring ]).
  induction n as [ | n IH ]; unfold odd_sum in *; cbn [sum_to]; [ reflexivity | rewrite IH, T; ring ].
Qed.
Lemma odd_term_pos : forall k z, 0 <= z -> 0 <= odd_term k z.
Proof.
  induction k as [ | k IH ]; intros z Hz; cbn [odd_term]; [ exact Hz | ].
  apply Rmult_le_pos; [ apply Rmult_le_pos; [ now apply IH | now apply Rmult_le_pos ] | left; apply Rinv_0_lt_compat, lt_0_INR; lia ].
Qed.
Lemma odd_term_mono : forall k y z, 0 <= y -> y <= z -> odd_term k y <= odd_term k z.
Proof.
  induction k as [ | k IH ]; intros y z Hy Hz; cbn [odd_term]; [ exact Hz | ].
  apply Rmult_le_compat_r; [ left; apply Rinv_0_lt_compat, lt_0_INR; lia | ].
  apply Rmult_le_compat; [ now apply odd_term_pos | now apply Rmult_le_pos | now apply IH | apply Rmult_le_compat; lra ].
Qed.

Lemma bell_series : forall n z, 0 <= z ->
  bell z * odd_sum (S n) z <= RInt bell 0 z <= bell z * odd_sum (S n) z + z * z * odd_term n z.
Proof.
  intros n z Hz.
  set (h := fun x => RInt bell 0 x - bell x * odd_sum (S n) x).
  assert (D : forall x : R, is_derive h x (bell x * (x * odd_term n x))).
  { intros x. unfold h.
    replace (bell x * (x * odd_term n x)) with (bell x - ((- x * bell x) * odd_sum (S n) x + bell x * (1 + x * odd_sum n x)))
      by (unfold odd_sum; cbn [sum_to]; ring).
    apply (is_derive_minus (K := R_AbsRing) (V := R_NormedModule)).
    - apply (is_derive_RInt (V := R_NormedModule) bell (fun x => RInt bell 0 x) 0).
      + exists (mkposreal 1 Rlt_0_1). intros y _. apply (RInt_correct (V := R_CompleteNormedModule)). apply bell_int.
      + apply bell_cont.
    - apply (is_derive_mult bell (odd_sum (S n)) x (- x * bell x) (1 + x * odd_sum n x)).
      + apply bell_derive.
      + apply odd_sum_derive.
      + intros; apply Rmult_comm. }
  destruct (MVT_gen h 0 z (fun x => bell x * (x * odd_term n x))) as (c & Hc & E).
  - intros x _. apply D.
  - intros x _. apply continuity_pt_filterlim. refine (ex_derive_continuous (K := R_AbsRing) (V := R_NormedModule) h x _). eexists. apply D.
  - rewrite Rmin_left, Rmax_right in Hc by exact Hz.
    assert (H0 : h 0 = 0).
    { unfold h. rewrite odd_sum_0. assert (P : RInt bell 0 0 = 0) by (rewrite RInt_point; reflexivity). rewrite P. ring. }
    rewrite H0, !Rminus_0_r in E. unfold h in E.
    pose proof (bell_pos c) as B. pose proof (bell_le_1 c) as B1. pose proof (odd_term_pos n c ltac:(lra)) as T.
    assert (X : 0 <= c * odd_term n c <= z * odd_term n z).
    { split; [ apply Rmult_le_pos; lra | apply Rmult_le_compat; try lra; apply odd_term_mono; lra ]. }
    assert (Y : 0 <= bell c * (c * odd_term n c) <= z * odd_term n z).
    { split; [ apply Rmult_le_pos; lra | ]. rewrite <- (Rmult_1_l (z * odd_term n z)). apply Rmult_le_compat; lra. }
    assert (0 <= bell c * (c * odd_term n c) * z) by (apply Rmult_le_pos; lra).
    assert (bell c * (c * odd_term n c) * z <= z * odd_term n z * z) by (apply Rmult_le_compat_r; lra).
    lra.
Qed.

(** ** Enclosing the series with integers *)
(** bounds, in units of 2^-80, of the k-th term and of the sum so far; the square of
    the argument is a / b *)
Fixpoint odd_loop (n : nat) (k : Z) (a b tl th sl sh : Z) : Z * Z * Z :=
  match n with
  | O => (sl, sh, th)
  | S n => odd_loop n (k + 1) a b (tl * a / ((2 * k + 3) * b)) (ceil_div (th * a) ((2 * k + 3) * b)) (sl + tl) (sh + th)
  end%Z.

Lemma odd_loop_sound : forall n m a b tl th sl sh z u lo hi t,
  (0 <= a)%Z -> (0 < b)%Z -> 0 <= z -> 0 < u -> z * z = IZR a / IZR b -> (0 <= tl)%Z ->
  IZR tl <= odd_term m z * u <= IZR th -> IZR sl <= odd_sum m z * u <= IZR sh ->
  odd_loop n (Z.of_nat m) a b tl th sl sh = (lo, hi, t) ->
  IZR lo <= odd_sum (n + m) z * u <= IZR hi /\ odd_term (n + m) z * u <= IZR t.
Proof.
  induction n as [ | n IH ]; intros m a b tl th sl sh z u lo hi t Ha Hb Hz Hu E Htl Ht Hs R; cbn [odd_loop] in R.
  - injection R as <- <- <-. cbn [Nat.add]. split; [ exact Hs | apply Ht ].
  - replace (Z.of_nat m + 1)%Z with (Z.of_nat (S m)) in R by lia.
    replace (S n + m)%nat with (n + S m)%nat by lia.
    assert (MP : (0 < (2 * Z.of_nat m + 3) * b)%Z) by (apply Z.mul_pos_pos; lia).
    assert (MR : 0 < INR (2 * m + 3)) by (apply lt_0_INR; lia).
    assert (EI : IZR (2 * Z.of_nat m + 3) = INR (2 * m + 3)) by (rewrite INR_IZR_INZ; f_equal; lia).
    assert (B : 0 < IZR b) by (apply IZR_lt; exact Hb). assert (A : 0 <= IZR a) by (apply IZR_le; exact Ha).
    assert (NT : odd_term (S m) z * u = (odd_term m z * u) * IZR a / IZR ((2 * Z.of_nat m + 3) * b)).
    { cbn [odd_term]. rewrite E, mult_IZR, EI. field. split; lra. }
    assert (MI : 0 <= / IZR ((2 * Z.of_nat m + 3) * b)) by (left; apply Rinv_0_lt_compat, IZR_lt; exact MP).
    refine (IH (S m) a b _ _ _ _ z u lo hi t Ha Hb Hz Hu E _ _ _ R).
    + apply Z.div_pos; [ apply Z.mul_nonneg_nonneg; assumption | exact MP ].
    + rewrite NT. split.
      * eapply Rle_trans; [ apply floor_div_le; exact MP | ]. apply Rmult_le_compat_r; [ exact MI | ]. rewrite mult_IZR. apply Rmult_le_compat_r; lra.
      * eapply Rle_trans; [ | apply ceil_div_ge; exact MP ]. apply Rmult_le_compat_r; [ exact MI | ]. rewrite mult_IZR. apply Rmult_le_compat_r; lra.
    + unfold odd_sum in *. cbn [sum_to]. rewrite !plus_IZR. lra.
Qed.

(** bounds of the integral up to z, given bounds of bell z *)
Lemma bell_int_enclosed : forall n a b z0l z0h z lo hi t bl bh, (0 < n)%nat ->
  (0 <= a)%Z -> (0 < b)%Z -> 0 <= z -> z * z = IZR a / IZR b -> (0 <= z0l)%Z ->
  IZR z0l <= z * IZR unit80 <= IZR z0h ->
  odd_loop n 0 a b z0l z0h 0 0 = (lo, hi, t) ->
  0 <= bl -> bl <= bell z <= bh -> (0 <= lo)%Z ->
  bl * (IZR lo / IZR unit80) <= RInt bell 0 z <= bh * (IZR hi / IZR unit80) + INR (2 * n + 1) * (IZR t / IZR unit80).
Proof.
  intros n a b z0l z0h z lo hi t bl bh Hn Ha Hb Hz E H0 H0' R Hbl Hbb Hlo. pose proof unit80_pos as U.
  destruct (odd_loop_sound n 0 a b z0l z0h 0 0 z (IZR unit80) lo hi t Ha Hb Hz U E H0) as (SS & T).
  - exact H0'.
  - unfold odd_sum. cbn [sum_to]. lra.
  - exact R.
  - rewrite Nat.add_0_r in SS, T. destruct n as [ | n ]; [ lia | ].
    pose proof (bell_series n z Hz) as (L & H).
    assert (ET : z * z * odd_term n z = INR (2 * S n + 1) * odd_term (S n) z).
    { cbn [odd_term]. replace (2 * S n + 1)%nat with (2 * n + 3)%nat by lia. field. apply not_0_INR. lia. }
    set (u := IZR unit80) in *. clearbody u.
    assert (D : forall x y, x * u <= y -> x <= y / u).
    { intros x y Hxy. apply Rmult_le_reg_r with u; [ exact U | ]. unfold Rdiv. rewrite Rmult_assoc, Rinv_l, Rmult_1_r by lra. exact Hxy. }
    assert (D' : forall x y, y <= x * u -> y / u <= x).
    { intros x y Hxy. apply Rmult_le_reg_r with u; [ exact U | ]. unfold Rdiv. rewrite Rmult_assoc, Rinv_l, Rmult_1_r by lra. exact Hxy. }
    pose proof (D' _ _ (proj1 SS)) as S1. pose proof (D _ _ (proj2 SS)) as S2. pose proof (D _ _ T) as T1.
    assert (S0 : 0 <= IZR lo / u) by (apply Rmult_le_pos; [ now apply IZR_le | left; now apply Rinv_0_lt_compat ]).
    split.
    + eapply Rle_trans; [ | exact L ]. apply Rmult_le_compat; lra.
    + eapply Rle_trans; [ exact H | ]. apply Rplus_le_compat.
      * pose proof (bell_pos z). apply Rmult_le_compat; lra.
      * rewrite ET. apply Rmult_le_compat_l; [ apply pos_INR | exact T1 ].
Qed.

(** ** The tail beyond the last layer *)
Definition tail_area : R := (1 - IZR (kv 0) / IZR (2 ^ 52)) * area.

(** e^-8, e^(-r^2/2) and e^(-q^2/2), where q is the inverse of the constant nor_inv_r *)
Definition e8 : Z * Z := exp_neg80 60 8 1.
Definition er : Z * Z := exp_neg80 60 (nor_r * nor_r) (2 * 10 ^ 58).
Definition eq_ : Z * Z := exp_neg80 60 (10 ^ 58) (2 * (nor_inv_r * nor_inv_r)).
Definition h8 : Z * Z * Z := odd_loop 150 0 64 1 (8 * 2 ^ 80) (8 * 2 ^ 80) 0 0.
Definition hr : Z * Z * Z :=
  odd_loop 60 0 (nor_r * nor_r) (10 ^ 58) (nor_r * 2 ^ 80 / 10 ^ 29) (ceil_div (nor_r * 2 ^ 80) (10 ^ 29)) 0 0.

(** all quantities multiplied by 2^400 10^60 10^13 *)
Definition check_tail : bool :=
  let (e8l, e8h) := e8 in let (erl, erh) := er in let (_, eqh) := eq_ in
  let '(s8l, s8h, t8) := h8 in let '(srl, srh, tr) := hr in
  let U := (2 ^ 80)%Z in let D := (10 ^ 60)%Z in
  let H8l := (e8l ^ 4 * s8l)%Z in let H8h := (e8h ^ 4 * s8h + 301 * t8 * U ^ 4)%Z in
  let Hrl := (erl * srl * U ^ 3)%Z in let Hrh := (erh * srh * U ^ 3 + 121 * tr * U ^ 4)%Z in
  let TA := ((2 ^ 52 - nth 0 ki_double 0) * nth 0 wi_double 0 * nth 255 fi_double 0)%Z in
  let F := nth 255 fi_double 0%Z in let W0 := nth 0 wi_double 0%Z in let K0 := nth 0 ki_double 0%Z in
  ((0 <=? e8l) && (0 <=? erl) && (0 <=? s8l) && (0 <=? srl) &&
   (((H8h - Hrl) * D - TA * U ^ 5) * 10 ^ 13 <=? U ^ 5 * D) &&
   ((TA * U ^ 5 - (H8l - Hrh) * D) * 10 ^ 13 <=? U ^ 5 * D) &&
   (* bell 8 <= 10^-13, bell q <= 1/500 *)
   (e8h ^ 4 * 10 ^ 13 <=? U ^ 4) && (eqh * 500 <=? U) &&
   (* fv 255 - bell r <= 10^-15 *)
   ((F * U - erl * 10 ^ 23) * 10 ^ 15 <=? U * 10 ^ 23) &&
   (* (K0 - 1) w0 <= r <= K0 w0 *)
   ((K0 - 1) * W0 <=? nor_r * 10 ^ 8) && (nor_r * 10 ^ 8 <=? K0 * W0) &&
   (0 <? K0) && (K0 <? 2 ^ 52) && (0 <? W0) && (0 <? F) &&
   (* |1 - r inv_r| <= 10^-27, r <= 4, inv_r >= 1/4, tail_area >= 0.0003, area <= 1/200, area >= 1/1000, fv 0 = 1 *)
   (Z.abs (nor_r * nor_inv_r - 10 ^ 58) * 10 ^ 27 <=? 10 ^ 58) && (nor_r <=? 4 * 10 ^ 29) && (10 ^ 29 <=? 4 * nor_inv_r) && (nor_inv_r <=? 10 ^ 29) &&
   (3 * D <=? TA * 10 ^ 4) && (W0 * 2 ^ 52 * F * 200 <=? D) && (D <=? W0 * 2 ^ 52 * F * 1000) &&
   (nth 0 fi_double 0 =? 10 ^ 23))%Z%bool.
Lemma check_tail_ok : check_tail = true.
Proof. vm_compute. reflexivity. Qed.

Opaque exp_neg80 odd_loop.

Lemma check_facts : exists e8l e8h erl erh eql eqh s8l s8h t8 srl srh tr,
  e8 = (e8l, e8h) /\ er = (erl, erh) /\ eq_ = (eql, eqh) /\ h8 = (s8l, s8h, t8) /\ hr = (srl, srh, tr) /\
  let U := (2 ^ 80)%Z in let D := (10 ^ 60)%Z in
  let H8l := (e8l ^ 4 * s8l)%Z in let H8h := (e8h ^ 4 * s8h + 301 * t8 * U ^ 4)%Z in
  let Hrl := (erl * srl * U ^ 3)%Z in let Hrh := (erh * srh * U ^ 3 + 121 * tr * U ^ 4)%Z in
  let TA := ((2 ^ 52 - nth 0 ki_double 0) * nth 0 wi_double 0 * nth 255 fi_double 0)%Z in
  let F := nth 255 fi_double 0%Z in let W0 := nth 0 wi_double 0%Z in let K0 := nth 0 ki_double 0%Z in
  ((0 <= e8l)%Z /\ (0 <= erl)%Z /\ (0 <= s8l)%Z /\ (0 <= srl)%Z /\
   (((H8h - Hrl) * D - TA * U ^ 5) * 10 ^ 13 <= U ^ 5 * D)%Z /\
   ((TA * U ^ 5 - (H8l - Hrh) * D) * 10 ^ 13 <= U ^ 5 * D)%Z /\
   (e8h ^ 4 * 10 ^ 13 <= U ^ 4)%Z /\ (eqh * 500 <= U)%Z /\
   ((F * U - erl * 10 ^ 23) * 10 ^ 15 <= U * 10 ^ 23)%Z /\
   ((K0 - 1) * W0 <= nor_r * 10 ^ 8)%Z /\ (nor_r * 10 ^ 8 <= K0 * W0)%Z /\
   (0 < K0)%Z /\ (K0 < 2 ^ 52)%Z /\ (0 < W0)%Z /\ (0 < F)%Z /\
   (Z.abs (nor_r * nor_inv_r - 10 ^ 58) * 10 ^ 27 <= 10 ^ 58)%Z /\ (nor_r <= 4 * 10 ^ 29)%Z /\ (10 ^ 29 <= 4 * nor_inv_r)%Z /\ (nor_inv_r <= 10 ^ 29)%Z /\
   (3 * D <= TA * 10 ^ 4)%Z /\ (W0 * 2 ^ 52 * F * 200 <= D)%Z /\ (D <= W0 * 2 ^ 52 * F * 1000)%Z /\
   nth 0 fi_double 0%Z = (10 ^ 23)%Z).
Proof.
  pose proof check_tail_ok as C. unfold check_tail in C.
  destruct e8 as [e8l e8h]. destruct er as [erl erh]. destruct eq_ as [eql eqh]. destruct h8 as [[s8l s8h] t8]. destruct hr as [[srl srh] tr].
  exists e8l, e8h, erl, erh, eql, eqh, s8l, s8h, t8, srl, srh, tr. do 5 (split; [ reflexivity | ]). cbv zeta in *.
  rewrite !andb_true_iff, !Z.leb_le, !Z.ltb_lt, Z.eqb_eq in C. tauto.
Qed.
