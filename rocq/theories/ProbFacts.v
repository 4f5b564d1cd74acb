(** Facts about averages (ProbSpec.v): reindexing, counting the integers below a
    threshold, and sums of a decreasing function compared with its integral. *)
From Coq Require Import List ZArith Reals Lra Lia.
From Coquelicot Require Import Coquelicot.
From Verif Require Import ProbSpec.
Open Scope R_scope.

Lemma sum_to_ext : forall n f g, (forall i, (i < n)%nat -> f i = g i) -> sum_to n f = sum_to n g.
Proof. induction n as [ | n IH ]; intros f g H; cbn [sum_to]; [ reflexivity | ]. rewrite (IH f g) by (intros; apply H; lia). rewrite H by lia. reflexivity. Qed.
Lemma sum_to_le : forall n f g, (forall i, (i < n)%nat -> f i <= g i) -> sum_to n f <= sum_to n g.
Proof. induction n as [ | n IH ]; intros f g H; cbn [sum_to]; [ lra | ]. pose proof (IH f g ltac:(intros; apply H; lia)). pose proof (H n ltac:(lia)). lra. Qed.
Lemma sum_to_plus : forall n f g, sum_to n (fun i => f i + g i) = sum_to n f + sum_to n g.
Proof. induction n as [ | n IH ]; intros f g; cbn [sum_to]; [ lra | ]. rewrite IH. lra. Qed.
Lemma sum_to_scal : forall n c f, sum_to n (fun i => c * f i) = c * sum_to n f.
Proof. induction n as [ | n IH ]; intros c f; cbn [sum_to]; [ lra | ]. rewrite IH. lra. Qed.
Lemma sum_to_const : forall n c, sum_to n (fun _ => c) = INR n * c.
Proof. induction n as [ | n IH ]; intros c; cbn [sum_to]; [ cbn [INR]; lra | ]. rewrite IH, S_INR. lra. Qed.
Lemma sum_to_abs : forall n f g e, (forall i, (i < n)%nat -> Rabs (f i - g i) <= e) ->
  Rabs (sum_to n f - sum_to n g) <= INR n * e.
Proof.
  induction n as [ | n IH ]; intros f g e H; cbn [sum_to].
  - cbn [INR]. rewrite Rminus_0_r, Rabs_R0. lra.
  - rewrite S_INR. pose proof (IH f g e ltac:(intros; apply H; lia)) as A. pose proof (H n ltac:(lia)) as B.
    replace (sum_to n f + f n - (sum_to n g + g n)) with (sum_to n f - sum_to n g + (f n - g n)) by lra.
    eapply Rle_trans; [ apply Rabs_triang | lra ].
Qed.
Lemma sum_to_app : forall a b f, sum_to (a + b) f = sum_to a f + sum_to b (fun i => f (a + i)%nat).
Proof. induction b as [ | b IH ]; intros f; [ rewrite Nat.add_0_r; cbn [sum_to]; lra | ]. rewrite Nat.add_succ_r. cbn [sum_to]. rewrite IH. lra. Qed.
Lemma sum_to_prod : forall b a f, sum_to (a * b) f = sum_to b (fun j => sum_to a (fun i => f (i + a * j)%nat)).
Proof.
  induction b as [ | b IH ]; intros a f.
  - rewrite Nat.mul_0_r. reflexivity.
  - rewrite Nat.mul_succ_r, sum_to_app, IH. cbn [sum_to]. f_equal. apply sum_to_ext. intros. f_equal. lia.
Qed.
Lemma sum_to_swap : forall a b (f : nat -> nat -> R), sum_to a (fun i => sum_to b (fun j => f i j)) = sum_to b (fun j => sum_to a (fun i => f i j)).
Proof.
  induction a as [ | a IH ]; intros b f; cbn [sum_to].
  - rewrite sum_to_const. lra.
  - rewrite IH, sum_to_plus. reflexivity.
Qed.

(** ** means *)
Lemma mean_ext : forall n f g, (forall i, (0 <= i < n)%Z -> f i = g i) -> mean_of n f = mean_of n g.
Proof. intros n f g H. unfold mean_of. f_equal. apply sum_to_ext. intros i Hi. apply H. lia. Qed.
Lemma mean_le : forall n f g, (0 < n)%Z -> (forall i, (0 <= i < n)%Z -> f i <= g i) -> mean_of n f <= mean_of n g.
Proof.
  intros n f g Hn H. unfold mean_of. apply Rmult_le_compat_r.
  - left. apply Rinv_0_lt_compat. apply IZR_lt. exact Hn.
  - apply sum_to_le. intros i Hi. apply H. lia.
Qed.
Lemma INR_to_nat : forall n, (0 <= n)%Z -> INR (Z.to_nat n) = IZR n.
Proof. intros n H. rewrite INR_IZR_INZ, Z2Nat.id by exact H. reflexivity. Qed.
Lemma mean_const : forall n c, (0 < n)%Z -> mean_of n (fun _ => c) = c.
Proof.
  intros n c Hn. unfold mean_of. rewrite sum_to_const, INR_to_nat by lia. field. apply not_0_IZR. lia.
Qed.
Lemma mean_plus : forall n f g, mean_of n (fun i => f i + g i) = mean_of n f + mean_of n g.
Proof. intros. unfold mean_of. rewrite (sum_to_plus (Z.to_nat n) (fun i => f (Z.of_nat i)) (fun i => g (Z.of_nat i))). lra. Qed.
Lemma mean_scal : forall n c f, mean_of n (fun i => c * f i) = c * mean_of n f.
Proof. intros. unfold mean_of. rewrite (sum_to_scal (Z.to_nat n) c (fun i => f (Z.of_nat i))). lra. Qed.
Lemma mean_abs : forall n f g e, (0 < n)%Z -> (forall i, (0 <= i < n)%Z -> Rabs (f i - g i) <= e) ->
  Rabs (mean_of n f - mean_of n g) <= e.
Proof.
  intros n f g e Hn H.
  pose proof (sum_to_abs (Z.to_nat n) (fun i => f (Z.of_nat i)) (fun i => g (Z.of_nat i)) e
                ltac:(intros; apply H; lia)) as A.
  rewrite INR_to_nat in A by lia.
  assert (N : 0 < IZR n) by (apply IZR_lt; exact Hn).
  unfold mean_of. replace (sum_to (Z.to_nat n) (fun i => f (Z.of_nat i)) / IZR n - sum_to (Z.to_nat n) (fun i => g (Z.of_nat i)) / IZR n)
    with ((sum_to (Z.to_nat n) (fun i => f (Z.of_nat i)) - sum_to (Z.to_nat n) (fun i => g (Z.of_nat i))) / IZR n) by (field; lra).
  unfold Rdiv. rewrite Rabs_mult, (Rabs_right (/ IZR n)) by (left; apply Rinv_0_lt_compat; exact N).
  apply Rmult_le_reg_r with (IZR n); [ exact N | ]. rewrite Rmult_assoc, Rinv_l, Rmult_1_r by lra. lra.
Qed.
(** a uniform integer below a * b is a uniform pair *)
Lemma mean_prod : forall a b f, (0 < a)%Z -> (0 < b)%Z ->
  mean_of (a * b) f = mean_of b (fun j => mean_of a (fun i => f (i + a * j)%Z)).
Proof.
  intros a b f Ha Hb. unfold mean_of.
  rewrite Z2Nat.inj_mul, sum_to_prod, mult_IZR by lia.
  replace (sum_to (Z.to_nat b) (fun j => sum_to (Z.to_nat a) (fun i => f (Z.of_nat i + a * Z.of_nat j)%Z) / IZR a))
    with (/ IZR a * sum_to (Z.to_nat b) (fun j => sum_to (Z.to_nat a) (fun i => f (Z.of_nat i + a * Z.of_nat j)%Z))).
  - rewrite (sum_to_ext (Z.to_nat b) _ (fun j => sum_to (Z.to_nat a) (fun i => f (Z.of_nat i + a * Z.of_nat j)%Z))).
    + field. split; apply not_0_IZR; lia.
    + intros j Hj. apply sum_to_ext. intros i Hi. f_equal. rewrite Nat2Z.inj_add, Nat2Z.inj_mul, Z2Nat.id by lia. reflexivity.
  - rewrite <- sum_to_scal. apply sum_to_ext. intros. unfold Rdiv. apply Rmult_comm.
Qed.
Lemma mean_swap : forall a b (f : Z -> Z -> R), mean_of a (fun i => mean_of b (fun j => f i j)) = mean_of b (fun j => mean_of a (fun i => f i j)).
Proof.
  intros a b f. unfold mean_of.
  assert (E : forall c n (g : nat -> R), sum_to n (fun i => g i / c) = sum_to n g / c).
  { intros c n g. unfold Rdiv. rewrite (Rmult_comm (sum_to n g)), <- sum_to_scal. apply sum_to_ext. intros. apply Rmult_comm. }
  rewrite !E. rewrite sum_to_swap. unfold Rdiv. rewrite !Rmult_assoc. f_equal. apply Rmult_comm.
Qed.

(** ** counting *)
Lemma count_below : forall n th (P : nat -> bool),
  (forall i, (i < n)%nat -> P i = true <-> INR i < th) ->
  let s := sum_to n (fun i => indicator (P i)) in
  Rmin th (INR n) <= s /\ s <= INR n /\ s <= Rmax 0 (th + 1) /\ 0 <= s /\ (INR n <= th -> s = INR n).
Proof.
  induction n as [ | n IH ]; intros th P H; cbv zeta; cbn [sum_to].
  - cbn [INR]. unfold Rmin, Rmax. destruct (Rle_dec th 0), (Rle_dec 0 (th + 1)); repeat split; intros; lra.
  - specialize (IH th P ltac:(intros; apply H; lia)). cbv zeta in IH. destruct IH as (A & B & C & D & E).
    rewrite S_INR. pose proof (H n ltac:(lia)) as Hn. pose proof (pos_INR n) as N.
    unfold indicator at 2 4 6 8 10. destruct (P n) eqn:EP.
    + assert (L : INR n < th) by (now apply Hn). rewrite E by lra.
      unfold Rmin, Rmax. destruct (Rle_dec th (INR n + 1)), (Rle_dec 0 (th + 1)); repeat split; intros; lra.
    + assert (L : th <= INR n) by (destruct (Rlt_dec (INR n) th) as [ L | L ]; [ apply Hn in L; congruence | lra ]).
      revert A C. unfold Rmin, Rmax. destruct (Rle_dec th (INR n)), (Rle_dec th (INR n + 1)), (Rle_dec 0 (th + 1)); repeat split; intros; lra.
Qed.

Definition clamp (x : R) : R := Rmax 0 (Rmin x 1).
Lemma clamp_bounds : forall x, 0 <= clamp x <= 1.
Proof. intros x. unfold clamp, Rmax, Rmin. destruct (Rle_dec x 1); destruct (Rle_dec 0 _); lra. Qed.
Lemma clamp_mono : forall x y, x <= y -> clamp x <= clamp y.
Proof. intros x y. unfold clamp, Rmax, Rmin. destruct (Rle_dec x 1), (Rle_dec y 1); intros; repeat destruct (Rle_dec 0 _); lra. Qed.
Lemma clamp_id : forall x, 0 <= x <= 1 -> clamp x = x.
Proof. intros x. unfold clamp, Rmax, Rmin. destruct (Rle_dec x 1); intros; repeat destruct (Rle_dec 0 _); lra. Qed.
Lemma clamp_lip : forall x y, Rabs (clamp x - clamp y) <= Rabs (x - y).
Proof.
  intros x y. unfold clamp, Rmax, Rmin, Rabs.
  destruct (Rle_dec x 1), (Rle_dec y 1); repeat destruct (Rle_dec 0 _); repeat destruct (Rcase_abs _); lra.
Qed.

(** the fraction of the integers below n that are below c * n *)
Lemma chance_below : forall n c P, (0 < n)%Z ->
  (forall i, (0 <= i < n)%Z -> P i = true <-> IZR i < c * IZR n) ->
  Rabs (chance n P - clamp c) <= / IZR n.
Proof.
  intros n c P Hn H. unfold chance, mean_of.
  assert (N : 0 < IZR n) by (apply IZR_lt; exact Hn).
  pose proof (count_below (Z.to_nat n) (c * IZR n) (fun i => P (Z.of_nat i))) as Q.
  cbv zeta in Q. rewrite INR_to_nat in Q by lia.
  destruct Q as (A & B & C & D & E).
  { intros i Hi. rewrite INR_IZR_INZ. apply H. lia. }
  set (s := sum_to _ _) in *.
  assert (X : s = (s / IZR n) * IZR n) by (field; lra).
  set (q := s / IZR n) in *. rewrite X in A, B, C, D. clear X.
  assert (I : / IZR n * IZR n = 1) by (field; lra). set (e := / IZR n) in *.
  assert (B' : q <= 1) by (apply Rmult_le_reg_r with (IZR n); lra).
  assert (D' : 0 <= q) by (apply Rmult_le_reg_r with (IZR n); lra).
  assert (He : 0 < e) by (apply Rinv_0_lt_compat; exact N).
  assert (A' : c <= q \/ 1 <= q).
  { revert A. unfold Rmin. destruct (Rle_dec (c * IZR n) (IZR n)); intros A.
    - left. apply Rmult_le_reg_r with (IZR n); lra.
    - right. apply Rmult_le_reg_r with (IZR n); lra. }
  assert (C' : q <= 0 \/ q <= c + e).
  { revert C. unfold Rmax. destruct (Rle_dec 0 (c * IZR n + 1)); intros C.
    - right. apply Rmult_le_reg_r with (IZR n); [ exact N | ]. rewrite Rmult_plus_distr_r. lra.
    - left. apply Rmult_le_reg_r with (IZR n); lra. }
  apply Rabs_le. unfold clamp, Rmax, Rmin.
  destruct (Rle_dec c 1); destruct (Rle_dec 0 _); lra.
Qed.

(** ** sums of a decreasing function *)
Section Riemann.
Variable g : R -> R.
Variable t : R.
Hypothesis t0 : 0 <= t.
Hypothesis g_cont : forall x, 0 <= x <= t -> continuous g x.
Hypothesis g_decr : forall x y, 0 <= x -> x <= y -> y <= t -> g y <= g x.
Hypothesis g_range : forall x, 0 <= x <= t -> 0 <= g x <= 1.

Lemma g_int : forall a b, 0 <= a -> a <= b -> b <= t -> ex_RInt g a b.
Proof.
  intros a b Ha Hab Hb. apply (ex_RInt_continuous (V := R_CompleteNormedModule)).
  intros z Hz. rewrite Rmin_left, Rmax_right in Hz by lra. apply g_cont. lra.
Qed.
Lemma g_chasles : forall a b c, 0 <= a -> a <= b -> b <= c -> c <= t -> RInt g a c = RInt g a b + RInt g b c.
Proof.
  intros a b c Ha Hab Hbc Hc. symmetry. apply (RInt_Chasles (V := R_CompleteNormedModule)); apply g_int; lra.
Qed.
Lemma g_int_bounds : forall a b, 0 <= a -> a <= b -> b <= t ->
  (b - a) * g b <= RInt g a b <= (b - a) * g a.
Proof.
  intros a b Ha Hab Hb.
  assert (C : forall c, RInt (fun _ : R => c) a b = (b - a) * c).
  { intros c. rewrite RInt_const. reflexivity. }
  split.
  - rewrite <- C. apply RInt_le; [ exact Hab | apply ex_RInt_const | now apply g_int | ].
    intros x Hx. apply g_decr; lra.
  - rewrite <- C. apply RInt_le; [ exact Hab | now apply g_int | apply ex_RInt_const | ].
    intros x Hx. apply g_decr; lra.
Qed.
Lemma g_int_pos : forall a b, 0 <= a -> a <= b -> b <= t -> 0 <= RInt g a b <= b - a.
Proof.
  intros a b Ha Hab Hb. pose proof (g_int_bounds a b Ha Hab Hb) as [A B].
  pose proof (g_range a ltac:(lra)) as [GA GA']. pose proof (g_range b ltac:(lra)) as [GB GB'].
  split.
  - apply Rle_trans with (2 := A). apply Rmult_le_pos; lra.
  - apply Rle_trans with (1 := B). rewrite <- (Rmult_1_r (b - a)) at 2. apply Rmult_le_compat_l; lra.
Qed.

Definition in_pos (y x : R) : bool := if Rlt_dec 0 x then if Rle_dec x y then true else false else false.

Lemma in_pos_true : forall y x, in_pos y x = true <-> 0 < x <= y.
Proof. intros y x. unfold in_pos. destruct (Rlt_dec 0 x); [ destruct (Rle_dec x y) | ]; intuition lra || (split; intros; try discriminate; try lra; reflexivity). Qed.

Lemma riemann : forall h, 0 < h -> forall n,
  let s := h * sum_to n (fun i => indicator (in_pos t (INR i * h)) * g (INR i * h)) in
  RInt g 0 (Rmin t (INR n * h)) - h <= s /\
  s <= match n with O => 0 | S m => RInt g 0 (Rmin t (INR m * h)) end.
Proof.
  intros h Hh. induction n as [ | n IH ]; cbv zeta.
  - cbn [sum_to INR]. rewrite Rmult_0_l, Rmult_0_r, Rmin_right by lra. rewrite RInt_point. change zero with 0. lra.
  - cbv zeta in IH. destruct IH as [L U]. cbn [sum_to]. set (s := sum_to n _) in *.
    rewrite Rmult_plus_distr_l. pose proof (pos_INR n) as N0.
    assert (SN : INR (S n) * h = INR n * h + h) by (rewrite S_INR; ring).
    assert (NH : 0 <= INR n * h) by (apply Rmult_le_pos; lra).
    destruct (in_pos t (INR n * h)) eqn:EP.
    + apply in_pos_true in EP. unfold indicator. rewrite Rmult_1_l.
      rewrite (Rmin_right t (INR n * h)) in * by lra.
      split.
      * rewrite SN.
        assert (M : INR n * h <= Rmin t (INR n * h + h) <= t /\ Rmin t (INR n * h + h) - INR n * h <= h)
          by (unfold Rmin; destruct (Rle_dec t (INR n * h + h)); lra).
        set (m := Rmin t (INR n * h + h)) in *.
        rewrite (g_chasles 0 (INR n * h) m) by lra.
        pose proof (g_int_bounds (INR n * h) m ltac:(lra) ltac:(lra) ltac:(lra)) as [_ B].
        pose proof (g_range (INR n * h) ltac:(lra)) as [G _].
        assert ((m - INR n * h) * g (INR n * h) <= h * g (INR n * h)) by (apply Rmult_le_compat_r; lra). lra.
      * destruct n as [ | k ]; [ cbn [INR] in EP; lra | ].
        assert (SK : INR (S k) * h = INR k * h + h) by (rewrite S_INR; ring).
        assert (KH : 0 <= INR k * h) by (apply Rmult_le_pos; [ apply pos_INR | lra ]).
        rewrite (Rmin_right t (INR k * h)) in U by lra.
        rewrite (g_chasles 0 (INR k * h) (INR (S k) * h)) by lra.
        pose proof (g_int_bounds (INR k * h) (INR (S k) * h) ltac:(lra) ltac:(lra) ltac:(lra)) as [A _].
        replace (INR (S k) * h - INR k * h) with h in A by lra. lra.
    + unfold indicator. rewrite Rmult_0_l, Rmult_0_r, Rplus_0_r.
      assert (Q : INR n * h = 0 \/ t < INR n * h).
      { destruct (Rle_lt_dec (INR n * h) t); [ left | now right ]. destruct (Rlt_dec 0 (INR n * h)); [ | lra ].
        exfalso. assert (in_pos t (INR n * h) = true) by (apply in_pos_true; lra). congruence. }
      destruct Q as [Q | Q].
      * assert (n = 0%nat) by (destruct n as [ | k ]; [ reflexivity | ]; exfalso; rewrite S_INR in Q; pose proof (pos_INR k); assert (0 < (INR k + 1) * h) by (apply Rmult_lt_0_compat; lra); lra).
        subst n. cbn [sum_to] in s. subst s. rewrite SN. cbn [INR]. rewrite Rmult_0_l, Rplus_0_l, Rmult_0_r.
        assert (M : 0 <= Rmin t h <= t /\ Rmin t h <= h) by (unfold Rmin; destruct (Rle_dec t h); lra).
        pose proof (g_int_pos 0 (Rmin t h) ltac:(lra) ltac:(lra) ltac:(lra)).
        rewrite (Rmin_right t 0) by lra. rewrite RInt_point. change zero with 0. lra.
      * rewrite (Rmin_left t (INR n * h)) in * by lra. rewrite (Rmin_left t (INR (S n) * h)) by lra.
        split; [ exact L | ]. destruct n as [ | k ]; [ cbn [INR] in Q; lra | ].
        assert (KH : 0 <= INR k * h) by (apply Rmult_le_pos; [ apply pos_INR | lra ]).
        assert (M : 0 <= Rmin t (INR k * h) <= t) by (unfold Rmin; destruct (Rle_dec t (INR k * h)); lra).
        apply Rle_trans with (1 := U). rewrite (g_chasles 0 (Rmin t (INR k * h)) t) by lra.
        pose proof (g_int_pos (Rmin t (INR k * h)) t ltac:(lra) ltac:(lra) ltac:(lra)). lra.
Qed.

(** the mean over n points of spacing h = 1/n of the unit interval scaled by w *)
Lemma riemann_mean : forall n w, (0 < n)%Z -> 0 < w ->
  Rabs (mean_of n (fun i => indicator (in_pos t (IZR i * (w / IZR n))) * g (IZR i * (w / IZR n)))
        - RInt g 0 (Rmin t w) / w) <= / IZR n.
Proof.
  intros n w Hn Hw. assert (N : 0 < IZR n) by (apply IZR_lt; exact Hn).
  set (h := w / IZR n). assert (Hh : 0 < h) by (apply Rdiv_lt_0_compat; lra).
  pose proof (riemann h Hh (Z.to_nat n)) as [L U]. cbv zeta in L, U.
  assert (EN : INR (Z.to_nat n) * h = w) by (rewrite INR_to_nat by lia; unfold h; field; lra).
  rewrite EN in L.
  assert (U' : h * sum_to (Z.to_nat n) (fun i => indicator (in_pos t (INR i * h)) * g (INR i * h)) <= RInt g 0 (Rmin t w)).
  { apply Rle_trans with (1 := U). destruct (Z.to_nat n) as [ | k ] eqn:EK; [ lia | ].
    assert (KH : 0 <= INR k * h) by (apply Rmult_le_pos; [ apply pos_INR | lra ]).
    assert (SK : INR k * h + h = w) by (rewrite <- EN, S_INR; ring).
    assert (M : 0 <= Rmin t (INR k * h) <= Rmin t w /\ Rmin t w <= t)
      by (unfold Rmin; destruct (Rle_dec t (INR k * h)), (Rle_dec t w); lra).
    rewrite (g_chasles 0 (Rmin t (INR k * h)) (Rmin t w)) by lra.
    pose proof (g_int_pos (Rmin t (INR k * h)) (Rmin t w) ltac:(lra) ltac:(lra) ltac:(lra)). lra. }
  unfold mean_of.
  replace (sum_to (Z.to_nat n) (fun i => indicator (in_pos t (IZR (Z.of_nat i) * h)) * g (IZR (Z.of_nat i) * h)))
    with (sum_to (Z.to_nat n) (fun i => indicator (in_pos t (INR i * h)) * g (INR i * h)))
    by (apply sum_to_ext; intros; rewrite INR_IZR_INZ; reflexivity).
  set (s := sum_to _ _) in *. set (I := RInt g 0 (Rmin t w)) in *.
  replace (s / IZR n - I / w) with ((h * s - I) / w) by (unfold h; field; lra).
  unfold Rdiv. rewrite Rabs_mult, (Rabs_right (/ w)) by (left; apply Rinv_0_lt_compat; lra).
  apply Rmult_le_reg_r with w; [ exact Hw | ]. rewrite Rmult_assoc, Rinv_l, Rmult_1_r by lra.
  replace (/ IZR n * w) with h by (unfold h; field; lra). apply Rabs_le. lra.
Qed.
End Riemann.
