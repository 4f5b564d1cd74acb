(** Enclosures of exp (- q) for rational q >= 0, computed with integers. *)
From Coq Require Import List ZArith Reals Lra Lia.
From Coquelicot Require Import Coquelicot.
From Verif Require Import ProbSpec ProbFacts.
Open Scope R_scope.

(** ** Taylor polynomials of exp (- q) alternate around it *)
Definition taylor (n : nat) (q : R) : R := sum_to n (fun k => (-1) ^ k * (q ^ k / INR (fact k))).

Lemma taylor_derive : forall n q, is_derive (taylor (S n)) q (- taylor n q).
Proof.
  induction n as [ | n IH ]; intros q.
  - unfold taylor. cbn [sum_to]. apply (is_derive_ext (fun _ => 0 + 1 * (1 / 1))).
    + intros t. cbn [fact INR pow]. lra.
    + replace (- 0) with 0 by lra. apply (is_derive_const (K := R_AbsRing) (V := R_NormedModule)).
  - apply (is_derive_ext (fun q => taylor (S n) q + (-1) ^ (S n) * (q ^ (S n) / INR (fact (S n))))).
    + reflexivity.
    + replace (- taylor (S n) q) with (- taylor n q + (-1) ^ (S n) * (q ^ n / INR (fact n))).
      * apply (is_derive_plus (K := R_AbsRing) (V := R_NormedModule)); [ apply IH | ].
        assert (EF : INR (fact (S n)) = INR (S n) * INR (fact n)) by (rewrite fact_simpl, mult_INR; reflexivity).
        assert (NF : INR (fact n) <> 0) by apply INR_fact_neq_0. assert (NS : INR (S n) <> 0) by (apply not_0_INR; lia).
        replace ((-1) ^ S n * (q ^ n / INR (fact n))) with ((-1) ^ S n * / INR (fact (S n)) * (INR (S n) * q ^ n))
          by (rewrite EF; field; split; assumption).
        apply (is_derive_ext (fun q => (-1) ^ S n * / INR (fact (S n)) * q ^ S n)).
        { intros t. match goal with |- @eq _ ?a ?b => change (@eq R a b) end. unfold Rdiv. ring. }
        apply (is_derive_scal (fun q => q ^ S n)).
        pose proof (is_derive_pow (fun q => q) (S n) q 1 (is_derive_id q)) as P. rewrite Rmult_1_r in P. exact P.
      * unfold taylor at 2. cbn [sum_to]. fold (taylor n q). cbn [pow]. lra.
Qed.

Lemma taylor_alternates : forall n q, 0 <= q -> 0 <= (-1) ^ n * (exp (- q) - taylor n q).
Proof.
  induction n as [ | n IH ]; intros q Hq.
  - cbn [pow]. unfold taylor. cbn [sum_to]. pose proof (exp_pos (- q)). lra.
  - assert (D : forall x, is_derive (fun x => (-1) ^ (S n) * (exp (- x) - taylor (S n) x)) x ((-1) ^ n * (exp (- x) - taylor n x))).
    { intros x. replace ((-1) ^ n * (exp (- x) - taylor n x)) with ((-1) ^ (S n) * (- exp (- x) - - taylor n x)) by (cbn [pow]; ring).
      apply (is_derive_scal (fun x => exp (- x) - taylor (S n) x)).
      apply (is_derive_minus (K := R_AbsRing) (V := R_NormedModule)); [ | apply taylor_derive ].
      auto_derive; [ exact I | ring ]. }
    destruct (MVT_gen (fun x => (-1) ^ (S n) * (exp (- x) - taylor (S n) x)) 0 q
                (fun x => (-1) ^ n * (exp (- x) - taylor n x))) as (c & Hc & E).
    + intros x _. apply D.
    + intros x _. apply continuity_pt_filterlim. refine (ex_derive_continuous (K := R_AbsRing) (V := R_NormedModule) (fun x => (-1) ^ (S n) * (exp (- x) - taylor (S n) x)) x _).
      eexists. apply D.
    + rewrite Rmin_left, Rmax_right in Hc by exact Hq.
      assert (Z : (-1) ^ (S n) * (exp (- 0) - taylor (S n) 0) = 0).
      { assert (T : forall m, taylor (S m) 0 = 1).
        { induction m as [ | m IHm ].
          - unfold taylor. cbn [sum_to fact INR pow]. lra.
          - unfold taylor. cbn [sum_to]. fold (taylor m 0). change (taylor m 0 + (-1) ^ m * (0 ^ m / INR (fact m))) with (taylor (S m) 0).
            rewrite IHm. cbn [pow]. unfold Rdiv. ring. }
        rewrite T, Ropp_0, exp_0. ring. }
      rewrite Z in E. rewrite Rminus_0_r in E. rewrite E. rewrite Rminus_0_r. apply Rmult_le_pos; [ apply IH; lra | exact Hq ].
Qed.

Lemma taylor_error : forall n q, 0 <= q ->
  Rabs (exp (- q) - taylor n q) <= q ^ n / INR (fact n).
Proof.
  intros n q Hq. pose proof (taylor_alternates n q Hq) as A. pose proof (taylor_alternates (S n) q Hq) as B.
  unfold taylor in B. cbn [sum_to] in B. fold (taylor n q) in B.
  assert (P : 0 <= q ^ n / INR (fact n)).
  { apply Rmult_le_pos; [ now apply pow_le | left; apply Rinv_0_lt_compat, INR_fact_lt_0 ]. }
  set (t := q ^ n / INR (fact n)) in *.
  assert (S1 : (-1) ^ n = 1 \/ (-1) ^ n = -1).
  { clear. induction n as [ | n IH ]; [ left; reflexivity | ]. cbn [pow]. destruct IH as [-> | ->]; [ right | left ]; ring. }
  cbn [pow] in B. destruct S1 as [E | E]; rewrite E in *; apply Rabs_le; lra.
Qed.

(** ** Fixed-point evaluation, in units of 2^-80 *)
Definition unit80 : Z := 2 ^ 80.
Definition floor80 (x : Z) : Z := Z.shiftr x 80.
Definition ceil80 (x : Z) : Z := - Z.shiftr (- x) 80.
Definition ceil_div (x k : Z) : Z := - ((- x) / k).

(** [k] terms done; [tl], [th] enclose the k-th term and [sl], [sh] the sum so far *)
Fixpoint exp_loop (n : nat) (k : Z) (even : bool) (ql qh tl th sl sh : Z) : Z * Z :=
  match n with
  | O => (sl - th, sh + th)%Z
  | S n =>
      let sl' := if even then sl + tl else sl - th in
      let sh' := if even then sh + th else sh - tl in
      exp_loop n (k + 1) (negb even) ql qh (floor80 (tl * ql) / (k + 1)) (ceil_div (ceil80 (th * qh)) (k + 1)) sl' sh'
  end%Z.
(** bounds of 2^80 exp (- a / b) *)
Definition exp_neg80 (n : nat) (a b : Z) : Z * Z :=
  exp_loop n 0 true (a * unit80 / b) (ceil_div (a * unit80) b) unit80 unit80 0 0.

Lemma unit80_pos : 0 < IZR unit80. Proof. apply IZR_lt. reflexivity. Qed.

Lemma floor_div_le : forall x k, (0 < k)%Z -> IZR (x / k) <= IZR x / IZR k.
Proof.
  intros x k Hk. assert (K : 0 < IZR k) by (apply IZR_lt; exact Hk).
  apply Rmult_le_reg_r with (IZR k); [ exact K | ]. unfold Rdiv. rewrite Rmult_assoc, Rinv_l, Rmult_1_r by lra.
  rewrite <- mult_IZR. apply IZR_le. pose proof (Z.mul_div_le x k Hk). lia.
Qed.
Lemma ceil_div_ge : forall x k, (0 < k)%Z -> IZR x / IZR k <= IZR (ceil_div x k).
Proof.
  intros x k Hk. unfold ceil_div. rewrite opp_IZR. pose proof (floor_div_le (- x) k Hk) as H. rewrite opp_IZR in H.
  unfold Rdiv in *. lra.
Qed.
Lemma floor80_le : forall x, IZR (floor80 x) <= IZR x / IZR unit80.
Proof. intros x. unfold floor80. rewrite Z.shiftr_div_pow2 by lia. apply floor_div_le. reflexivity. Qed.
Lemma ceil80_ge : forall x, IZR x / IZR unit80 <= IZR (ceil80 x).
Proof. intros x. unfold ceil80. rewrite Z.shiftr_div_pow2 by lia. apply (ceil_div_ge x unit80). reflexivity. Qed.
Lemma floor80_pos : forall x, (0 <= x)%Z -> (0 <= floor80 x)%Z.
Proof. intros x H. unfold floor80. now apply Z.shiftr_nonneg. Qed.

Lemma exp_loop_sound : forall n m (even : bool) ql qh tl th sl sh q lo hi,
  (0 <= ql)%Z -> (0 <= tl)%Z -> IZR ql <= q * IZR unit80 <= IZR qh -> 0 <= q ->
  IZR tl <= q ^ m / INR (fact m) * IZR unit80 <= IZR th ->
  IZR sl <= taylor m q * IZR unit80 <= IZR sh ->
  (-1) ^ m = (if even then 1 else -1) ->
  exp_loop n (Z.of_nat m) even ql qh tl th sl sh = (lo, hi) ->
  IZR lo <= exp (- q) * IZR unit80 <= IZR hi.
Proof.
  pose proof unit80_pos as U. set (u := IZR unit80) in *.
  induction n as [ | n IH ]; intros m even ql qh tl th sl sh q lo hi Hql Htl Hq Hq0 Ht Hs He E; cbn [exp_loop] in E.
  - injection E as <- <-. rewrite minus_IZR, plus_IZR.
    pose proof (taylor_error m q Hq0) as T. apply Rabs_le_between in T.
    assert (A : (exp (- q) - taylor m q) * u <= q ^ m / INR (fact m) * u) by (apply Rmult_le_compat_r; lra).
    assert (B : - (q ^ m / INR (fact m)) * u <= (exp (- q) - taylor m q) * u) by (apply Rmult_le_compat_r; lra).
    lra.
  - replace (Z.of_nat m + 1)%Z with (Z.of_nat (S m)) in E by lia.
    assert (MP : (0 < Z.of_nat (S m))%Z) by lia.
    assert (MR : 0 < INR (S m)) by (apply lt_0_INR; lia).
    assert (EI : IZR (Z.of_nat (S m)) = INR (S m)) by (symmetry; apply INR_IZR_INZ).
    assert (NT : q ^ (S m) / INR (fact (S m)) * u = (q ^ m / INR (fact m) * u) * (q * u) / u / INR (S m)).
    { rewrite fact_simpl, mult_INR. cbn [pow]. field. repeat split; try lra; apply INR_fact_neq_0. }
    refine (IH (S m) _ _ _ _ _ _ _ q lo hi Hql _ Hq Hq0 _ _ _ E).
    + apply Z.div_pos; [ | lia ]. apply floor80_pos. lia.
    + rewrite NT. assert (T0 : 0 <= q ^ m / INR (fact m) * u).
      { apply Rmult_le_pos; [ | lra ]. apply Rmult_le_pos; [ now apply pow_le | left; apply Rinv_0_lt_compat, INR_fact_lt_0 ]. }
      assert (Q0 : 0 <= q * u) by (apply Rmult_le_pos; lra).
      set (t := q ^ m / INR (fact m) * u) in *. set (w := q * u) in *.
      assert (IL : 0 <= IZR tl) by (apply IZR_le; exact Htl). assert (IQ : 0 <= IZR ql) by (apply IZR_le; exact Hql).
      split.
      * eapply Rle_trans; [ apply floor_div_le; exact MP | ]. rewrite EI. apply Rmult_le_compat_r; [ left; now apply Rinv_0_lt_compat | ].
        eapply Rle_trans; [ apply floor80_le | ]. apply Rmult_le_compat_r; [ left; now apply Rinv_0_lt_compat | ].
        rewrite mult_IZR. apply Rmult_le_compat; lra.
      * eapply Rle_trans; [ | apply ceil_div_ge; exact MP ]. rewrite EI. apply Rmult_le_compat_r; [ left; now apply Rinv_0_lt_compat | ].
        eapply Rle_trans; [ | apply ceil80_ge ]. apply Rmult_le_compat_r; [ left; now apply Rinv_0_lt_compat | ].
        rewrite mult_IZR. apply Rmult_le_compat; lra.
    + unfold taylor. cbn [sum_to]. fold (taylor m q). rewrite He. set (t := q ^ m / INR (fact m)) in *.
      rewrite Rmult_plus_distr_r. destruct even; rewrite ?plus_IZR, ?minus_IZR; lra.
    + cbn [pow]. rewrite He. destruct even; cbn; ring.
Qed.

Theorem exp_neg80_sound : forall n a b lo hi, (0 <= a)%Z -> (0 < b)%Z -> exp_neg80 n a b = (lo, hi) ->
  IZR lo / IZR unit80 <= exp (- (IZR a / IZR b)) <= IZR hi / IZR unit80.
Proof.
  intros n a b lo hi Ha Hb E. pose proof unit80_pos as U.
  assert (B : 0 < IZR b) by (apply IZR_lt; exact Hb). assert (A : 0 <= IZR a) by (apply IZR_le; exact Ha).
  assert (Q : 0 <= IZR a / IZR b) by (apply Rmult_le_pos; [ exact A | left; now apply Rinv_0_lt_compat ]).
  assert (S : IZR lo <= exp (- (IZR a / IZR b)) * IZR unit80 <= IZR hi).
  { refine (exp_loop_sound n 0 true _ _ _ _ _ _ (IZR a / IZR b) lo hi _ _ _ Q _ _ _ E).
    - apply Z.div_pos; [ | exact Hb ]. apply Z.mul_nonneg_nonneg; [ exact Ha | unfold unit80; lia ].
    - unfold unit80. lia.
    - replace (IZR a / IZR b * IZR unit80) with (IZR (a * unit80) / IZR b) by (rewrite mult_IZR; field; lra).
      split; [ apply floor_div_le; exact Hb | apply ceil_div_ge; exact Hb ].
    - cbn [pow fact]. change (INR 1) with 1. unfold Rdiv. rewrite Rinv_1. lra.
    - unfold taylor. cbn [sum_to]. lra.
    - reflexivity. }
  split; apply Rmult_le_reg_r with (IZR unit80); try exact U; unfold Rdiv; rewrite Rmult_assoc, Rinv_l, Rmult_1_r by lra; apply S.
Qed.
