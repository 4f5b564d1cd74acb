(** The integral of the bell curve over the positive numbers is sqrt (pi / 2). *)
From Coq Require Import Reals Lra Lia.
From Coquelicot Require Import Coquelicot.
From Verif Require Import ProbSpec ZigFacts GaussInt.
Open Scope R_scope.

Definition kern (x u : R) : R := 2 * exp (- (x * x * (1 + u * u)) / 2) / (1 + u * u).
Definition dkern (x u : R) : R := - 2 * x * exp (- (x * x * (1 + u * u)) / 2).

Lemma den_pos : forall u, 0 < 1 + u * u. Proof. intros u. pose proof (Rle_0_sqr u). unfold Rsqr in *. lra. Qed.

Lemma kern_derive : forall x u : R, is_derive (fun z => kern z u) x (dkern x u).
Proof.
  intros x u. pose proof (den_pos u). unfold kern, dkern. auto_derive; [ lra | ]. match goal with |- @eq _ ?a ?b => change (@eq R a b) end.
  unfold Rdiv. field. lra.
Qed.
Lemma kern_cont : forall x u : R, continuous (fun u => kern x u) u.
Proof. intros x u. pose proof (den_pos u). apply (ex_derive_continuous (K := R_AbsRing) (V := R_NormedModule)). unfold kern. auto_derive. lra. Qed.
Lemma kern_int : forall x a b, ex_RInt (fun u => kern x u) a b.
Proof. intros x a b. apply (ex_RInt_continuous (V := R_CompleteNormedModule)). intros. apply kern_cont. Qed.

Lemma dkern_int : forall x, RInt (fun u => dkern x u) 0 1 = - 2 * bell x * RInt bell 0 x.
Proof.
  intros x. pose proof (RInt_comp_lin (V := R_CompleteNormedModule) bell x 0 0 1 (bell_int _ _)) as RL.
  replace (x * 0 + 0) with 0 in RL by ring. replace (x * 1 + 0) with x in RL by ring. rewrite <- RL.
  assert (E : RInt (fun y => (- 2 * bell x) * (x * bell (x * y + 0))) 0 1 = (- 2 * bell x) * RInt (fun y => x * bell (x * y + 0)) 0 1).
  { apply (RInt_scal (V := R_CompleteNormedModule)). apply (ex_RInt_comp_lin (V := R_NormedModule) bell). apply bell_int. }
  change (RInt (fun u => dkern x u) 0 1 = - 2 * bell x * RInt (fun y => x * bell (x * y + 0)) 0 1).
  rewrite <- E. apply RInt_ext. intros u _. change (dkern x u = - 2 * bell x * (x * bell (x * u + 0))). unfold dkern.
  replace (exp (- (x * x * (1 + u * u)) / 2)) with (bell x * bell (x * u + 0)) by (unfold bell; rewrite <- exp_plus; f_equal; field). ring.
Qed.

Definition both (x : R) : R := RInt bell 0 x * RInt bell 0 x + RInt (fun u => kern x u) 0 1.

Lemma both_derive : forall x : R, is_derive both x 0.
Proof.
  intros x. assert (D1 : is_derive (fun z => RInt bell 0 z) x (bell x)).
  { apply (is_derive_RInt (V := R_NormedModule) bell (fun z => RInt bell 0 z) 0 x); [ | apply bell_cont ].
    exists (mkposreal 1 Rlt_0_1). intros y _. apply (RInt_correct (V := R_CompleteNormedModule)). apply bell_int. }
  assert (DK : forall v u : R, Derive (fun z => kern z v) u = dkern u v) by (intros; apply is_derive_unique, kern_derive).
  assert (D2 : is_derive (fun z => RInt (fun u => kern z u) 0 1) x (- 2 * bell x * RInt bell 0 x)).
  { rewrite <- dkern_int.
    replace (RInt (fun u => dkern x u) 0 1) with (RInt (fun t => Derive (fun u => kern u t) x) 0 1).
    2: { apply RInt_ext. intros u _. apply DK. }
    apply (is_derive_RInt_param kern 0 1 x).
    - exists (mkposreal 1 Rlt_0_1). intros y _ t _. eexists. apply kern_derive.
    - intros t _. apply (continuity_2d_pt_ext dkern); [ intros; symmetry; apply DK | ]. unfold dkern.
      apply (continuity_2d_pt_mult (fun x _ => - 2 * x) (fun x u => exp (- (x * x * (1 + u * u)) / 2))).
      + apply (continuity_2d_pt_mult (fun _ _ => - 2) (fun x _ => x)); [ apply continuity_2d_pt_const | apply continuity_2d_pt_id1 ].
      + apply (continuity_1d_2d_pt_comp exp (fun x u => - (x * x * (1 + u * u)) / 2)); [ apply derivable_continuous_pt, derivable_pt_exp | ].
        apply (continuity_2d_pt_mult (fun x u => - (x * x * (1 + u * u))) (fun _ _ => / 2)); [ | apply continuity_2d_pt_const ].
        apply (continuity_2d_pt_opp (fun x u => x * x * (1 + u * u))).
        apply (continuity_2d_pt_mult (fun x _ => x * x) (fun _ u => 1 + u * u)).
        * apply (continuity_2d_pt_mult (fun x _ => x) (fun x _ => x)); apply continuity_2d_pt_id1.
        * apply (continuity_2d_pt_plus (fun _ _ => 1) (fun _ u => u * u)); [ apply continuity_2d_pt_const | ].
          apply (continuity_2d_pt_mult (fun _ u => u) (fun _ u => u)); apply continuity_2d_pt_id2.
    - exists (mkposreal 1 Rlt_0_1). intros y _. apply kern_int. }
  set (F := fun z : R => (RInt bell 0 z : R)) in *. set (G := fun z : R => (RInt (fun u => kern z u) 0 1 : R)) in *.
  pose proof (is_derive_mult (K := R_AbsRing) F F x (bell x) (bell x) D1 D1 Rmult_comm) as DM.
  pose proof (is_derive_plus (V := R_NormedModule) (fun z => F z * F z) G x _ _ DM D2) as DP.
  assert (DP' : is_derive both x (bell x * F x + F x * bell x + - 2 * bell x * F x)) by exact DP.
  assert (E : bell x * F x + F x * bell x + - 2 * bell x * F x = 0) by ring. rewrite E in DP'. exact DP'.
Qed.

Lemma both_value : forall x, 0 <= x -> both x = PI / 2.
Proof.
  intros x Hx. assert (B0 : both 0 = PI / 2).
  { unfold both. assert (P : RInt bell 0 0 = 0) by (rewrite RInt_point; reflexivity). rewrite P.
    assert (A : RInt (fun u => kern 0 u) 0 1 = 2 * atan 1 - 2 * atan 0).
    { apply is_RInt_unique. apply (is_RInt_derive (V := R_CompleteNormedModule) (fun u => 2 * atan u) (fun u => kern 0 u)).
      - intros u _. evar_last; [ apply is_derive_scal; apply is_derive_atan | ].
        change (2 * / (1 + Rsqr u) = kern 0 u). unfold kern, Rsqr. replace (- (0 * 0 * (1 + u * u)) / 2) with 0 by field. rewrite exp_0. field. pose proof (den_pos u). lra.
      - intros u _. apply kern_cont. }
    rewrite A, atan_1, atan_0. field. }
  destruct Hx as [Hx | <-]; [ | exact B0 ]. rewrite <- B0. symmetry. apply (eq_is_derive (V := R_NormedModule)); [ | exact Hx ]. intros. apply both_derive.
Qed.

Lemma bell_square : forall x, 0 <= x -> PI / 2 - 2 * bell x <= RInt bell 0 x * RInt bell 0 x <= PI / 2.
Proof.
  intros x Hx. pose proof (both_value x Hx) as B. unfold both in B.
  assert (K : 0 <= RInt (fun u => kern x u) 0 1 <= 2 * bell x).
  { assert (C : forall c : R, RInt (fun _ : R => c) 0 1 = c) by (intros c; rewrite RInt_const; change ((1 - 0) * c = c); ring).
    assert (KR : forall u, 0 <= u -> 0 <= kern x u <= 2 * bell x).
    { intros u Hu. unfold kern. pose proof (den_pos u) as D. pose proof (exp_pos (- (x * x * (1 + u * u)) / 2)) as E. split.
      - apply Rmult_le_pos; [ lra | left; now apply Rinv_0_lt_compat ].
      - assert (X : exp (- (x * x * (1 + u * u)) / 2) <= bell x).
        { unfold bell. assert (Z : - (x * x * (1 + u * u)) / 2 <= - (x * x) / 2) by (pose proof (Rle_0_sqr (x * u)); unfold Rsqr in *; nra).
          destruct Z as [Z | ->]; [ left; now apply exp_increasing | right; reflexivity ]. }
        assert (I1 : / (1 + u * u) <= 1) by (rewrite <- Rinv_1; apply Rinv_le_contravar; [ lra | pose proof (Rle_0_sqr u); unfold Rsqr in *; lra ]).
        assert (I0 : 0 < / (1 + u * u)) by now apply Rinv_0_lt_compat.
        unfold Rdiv. rewrite <- (Rmult_1_r (2 * bell x)). apply Rmult_le_compat; lra. }
    split.
    - rewrite <- (C 0) at 1. apply RInt_le; [ lra | apply ex_RInt_const | apply kern_int | ]. intros u Hu. apply KR. lra.
    - rewrite <- (C (2 * bell x)). apply RInt_le; [ lra | apply kern_int | apply ex_RInt_const | ]. intros u Hu. apply KR. lra. }
  lra.
Qed.
