(** The recursion of [prob_normal] solved: layers, tail, and the limit. *)
From Coq Require Import List ZArith Reals Lra Lia Bool.
From Coquelicot Require Import Coquelicot.
From Verif Require Import Base ZigTables RngModel ProbSpec ProbFacts ZigFacts ZigSpec.
Import ListNotations.
Open Scope R_scope.

Lemma len_wi : length wi_double = 256%nat. Proof. vm_compute. reflexivity. Qed.
Lemma len_fi : length fi_double = 256%nat. Proof. vm_compute. reflexivity. Qed.
Lemma len_ki : length ki_double = 256%nat. Proof. vm_compute. reflexivity. Qed.

Definition sgn (s : Z) (x : R) : R := if (s =? 1)%Z then - x else x.
Definition first_of (i : nat) (s k : Z) : first :=
  if (k <? kv i)%Z then FValue (sgn s (IZR k * wv i))
  else if (i =? 0)%nat then FTail k
  else FWedge (sgn s (IZR k * wv i)) i.

Lemma zig_first_eq : forall i s k e, (0 <= i < 256)%Z -> (0 <= s < 2)%Z -> (0 <= k < 2 ^ 52)%Z -> (0 <= e)%Z ->
  zig_first (i + 256 * (s + 2 * (k + 2 ^ 52 * e))) = Ret (first_of (Z.to_nat i) s k).
Proof.
  intros i s k e Hi Hs Hk He. unfold zig_first. cbv zeta.
  set (P := (2 ^ 52)%Z) in *. assert (HP : (0 < P)%Z) by reflexivity.
  set (j := (k + P * e)%Z).
  assert (E1 : Z.land (i + 256 * (s + 2 * j)) 255 = i).
  { change 255%Z with (Z.ones 8). rewrite Z.land_ones by lia. change (2 ^ 8)%Z with 256%Z.
    rewrite (Z.mul_comm 256), Z.mod_add by lia. apply Z.mod_small. lia. }
  assert (E2 : Z.shiftr (i + 256 * (s + 2 * j)) 8 = (s + 2 * j)%Z).
  { rewrite Z.shiftr_div_pow2 by lia. change (2 ^ 8)%Z with 256%Z.
    rewrite (Z.mul_comm 256), Z.div_add by lia. rewrite Z.div_small by lia. lia. }
  assert (E3 : Z.land (s + 2 * j) 1 = s).
  { change 1%Z with (Z.ones 1) at 1. rewrite Z.land_ones by lia. change (2 ^ 1)%Z with 2%Z.
    rewrite (Z.mul_comm 2), Z.mod_add by lia. apply Z.mod_small. lia. }
  assert (E4 : Z.shiftr (s + 2 * j) 1 = j).
  { rewrite Z.shiftr_div_pow2 by lia. change (2 ^ 1)%Z with 2%Z.
    rewrite (Z.mul_comm 2), Z.div_add by lia. rewrite Z.div_small by lia. lia. }
  assert (E5 : Z.land j 0x000fffffffffffff = k).
  { change 0x000fffffffffffff%Z with (Z.ones 52). rewrite Z.land_ones by lia. fold P. unfold j.
    rewrite (Z.mul_comm P), Z.mod_add by lia. apply Z.mod_small. lia. }
  rewrite E1, E2, E3, E4, E5.
  rewrite (rd_ok _ wi_double _ 0%Z) by (rewrite len_wi; lia). cbn [bind].
  rewrite (rd_ok _ ki_double _ 0%Z) by (rewrite len_ki; lia). cbn [bind].
  unfold first_of, kv, wv, sgn. destruct (k <? nth (Z.to_nat i) ki_double 0)%Z; [ reflexivity | ].
  destruct (Z.to_nat i =? 0)%nat; reflexivity.
Qed.

Lemma split64 : (2 ^ 64 = 256 * (2 * (2 ^ 52 * 8)))%Z. Proof. reflexivity. Qed.
Lemma pos52 : (0 < 2 ^ 52)%Z. Proof. reflexivity. Qed.
Lemma pos53z : (0 < 2 ^ 53)%Z. Proof. reflexivity. Qed.
Lemma pos52_8 : (0 < 2 ^ 52 * 8)%Z. Proof. reflexivity. Qed.
Lemma pos53_8 : (0 < 2 * (2 ^ 52 * 8))%Z. Proof. reflexivity. Qed.

Lemma first_mean : forall (G : outcome first -> R),
  mean_of (2 ^ 64) (fun r => G (zig_first r)) =
  mean_of 256 (fun i => mean_of 2 (fun s => mean_of (2 ^ 52) (fun k => G (Ret (first_of (Z.to_nat i) s k))))).
Proof.
  intros G. rewrite split64, mean_prod by (try exact pos53_8; lia).
  rewrite mean_prod by (try exact pos52_8; lia). rewrite mean_prod by (try exact pos52; lia).
  rewrite (mean_ext 8 _ (fun _ => mean_of (2 ^ 52) (fun k => mean_of 2 (fun s => mean_of 256 (fun i => G (Ret (first_of (Z.to_nat i) s k))))))).
  - rewrite mean_const by lia. rewrite mean_swap.
    rewrite (mean_ext 2 _ (fun s => mean_of 256 (fun i => mean_of (2 ^ 52) (fun k => G (Ret (first_of (Z.to_nat i) s k)))))) by (intros; apply mean_swap).
    apply mean_swap.
  - intros e He. apply mean_ext. intros k Hk. apply mean_ext. intros s Hs. apply mean_ext. intros i Hi.
    rewrite zig_first_eq by (try exact Hk; lia). reflexivity.
Qed.

(** ** One turn *)
Definition accepts (x : R) (i : nat) (u : Z) : bool :=
  if Rlt_dec ((fv (i - 1) - fv i) * frac53 u + fv i) (bell x) then true else false.
Definition acc (x : R) (i : nat) : R := chance (2 ^ 53) (accepts x i).

Lemma bell_exp : forall x, exp (- (1 / 2) * x * x) = bell x.
Proof. intros x. unfold bell. f_equal. field. Qed.
Lemma bell_even : forall x, bell (- x) = bell x.
Proof. intros x. unfold bell. f_equal. field. Qed.
Lemma bell_sgn : forall s x, bell (sgn s x) = bell x.
Proof. intros s x. unfold sgn. destruct (s =? 1)%Z; [ apply bell_even | reflexivity ]. Qed.
Lemma acc_sgn : forall s x i, acc (sgn s x) i = acc x i.
Proof. intros s x i. unfold acc, accepts. now rewrite bell_sgn. Qed.

Lemma mean_if : forall n (P : Z -> bool) a b, (0 < n)%Z ->
  mean_of n (fun u => if P u then a else b) = chance n P * a + (1 - chance n P) * b.
Proof.
  intros n P a b Hn. unfold chance.
  rewrite (mean_ext n _ (fun u => a * indicator (P u) + (b + (- b) * indicator (P u)))) by (intros u _; destruct (P u); cbn; ring).
  rewrite mean_plus, mean_scal, (mean_plus n (fun _ => b)), mean_scal, mean_const by exact Hn. ring.
Qed.

Lemma wedge_mean : forall A x i P, (i < 256)%nat ->
  mean_of (2 ^ 53) (fun u => match zig_wedge x i u with Ret (Some y) => indicator (A y) | Ret None => P | _ => 0 end)
  = acc x i * indicator (A x) + (1 - acc x i) * P.
Proof.
  intros A x i P Hi. unfold acc. rewrite <- mean_if by exact pos53z. apply mean_ext. intros u _.
  unfold zig_wedge. rewrite (rd_ok _ fi_double (i - 1) 0%Z) by (rewrite len_fi; lia). cbn [bind].
  rewrite (rd_ok _ fi_double i 0%Z) by (rewrite len_fi; lia). cbn [bind].
  rewrite bell_exp. unfold accepts, fv. destruct (Rlt_dec _ _); reflexivity.
Qed.

Definition accl (i : nat) (k : Z) : R :=
  if (k <? kv i)%Z then 1 else if (i =? 0)%nat then 0 else acc (IZR k * wv i) i.
Definition layer (A : R -> bool) (i : nat) (s : Z) : R :=
  mean_of (2 ^ 52) (fun k => accl i k * indicator (A (sgn s (IZR k * wv i)))).
Definition tail_part (A : R -> bool) (n : nat) : R :=
  mean_of (2 ^ 52) (fun k => if (k <? kv 0)%Z then 0 else prob_tail A k n).
Definition mass (A : R -> bool) : R := mean_of 256 (fun i => mean_of 2 (fun s => layer A (Z.to_nat i) s)).
Definition rejected : R :=
  mean_of 256 (fun i => mean_of 2 (fun s => if (i =? 0)%Z then 0 else 1 - layer any_number (Z.to_nat i) s)).

Lemma mean_first : forall n c, (0 < n)%Z -> mean_of n (fun i => if (i =? 0)%Z then c else 0) = c / IZR n.
Proof.
  intros n c Hn. unfold mean_of. f_equal.
  assert (G : forall m, sum_to (S m) (fun i => if (Z.of_nat i =? 0)%Z then c else 0) = c).
  { induction m as [ | m IH ]; [ cbn; ring | ]. cbn [sum_to] in *. rewrite IH.
    destruct (Z.eqb_spec (Z.of_nat (S m)) 0) as [E | E]; [ lia | ring ]. }
  destruct (Z.to_nat n) as [ | m ] eqn:E; [ lia | apply G ].
Qed.

Lemma turn : forall A i s n P, (i < 256)%nat ->
  mean_of (2 ^ 52) (fun k =>
    match Ret (first_of i s k) with
    | Ret (FValue x) => indicator (A x)
    | Ret (FTail rabs) => prob_tail A rabs n
    | Ret (FWedge x idx) =>
        mean_of (2 ^ 53) (fun u => match zig_wedge x idx u with Ret (Some y) => indicator (A y) | Ret None => P | _ => 0 end)
    | _ => 0
    end)
  = layer A i s + (if (i =? 0)%nat then tail_part A n else (1 - layer any_number i s) * P).
Proof.
  intros A i s n P Hi. unfold layer, tail_part. destruct (Nat.eqb_spec i 0) as [ -> | Ei ].
  - rewrite <- mean_plus. apply mean_ext. intros k _. unfold first_of, accl. destruct (k <? kv 0)%Z; cbn [Nat.eqb]; ring.
  - rewrite (mean_ext (2 ^ 52) _ (fun k => accl i k * indicator (A (sgn s (IZR k * wv i))) + (P + (- P) * (accl i k * indicator (any_number (sgn s (IZR k * wv i))))))).
    + rewrite mean_plus, (mean_plus (2 ^ 52) (fun _ => P)), mean_const, mean_scal by exact pos52. ring.
    + intros k _. unfold first_of, accl, any_number. cbn [indicator]. destruct (k <? kv i)%Z; [ ring | ].
      rewrite (proj2 (Nat.eqb_neq i 0) Ei). rewrite wedge_mean by exact Hi. rewrite acc_sgn. ring.
Qed.

Lemma normal_step : forall A n, prob_normal A (S n) = mass A + tail_part A n / 256 + rejected * prob_normal A n.
Proof.
  intros A n. cbn [prob_normal]. set (P := prob_normal A n).
  rewrite (first_mean (fun o => match o with
             | Ret (FValue x) => indicator (A x)
             | Ret (FTail rabs) => prob_tail A rabs n
             | Ret (FWedge x idx) => mean_of (2 ^ 53) (fun u => match zig_wedge x idx u with Ret (Some y) => indicator (A y) | Ret None => P | _ => 0 end)
             | _ => 0 end)).
  rewrite (mean_ext 256 _ (fun i => mean_of 2 (fun s => layer A (Z.to_nat i) s) +
     ((if (i =? 0)%Z then tail_part A n else 0) + P * mean_of 2 (fun s => if (i =? 0)%Z then 0 else 1 - layer any_number (Z.to_nat i) s)))).
  - rewrite mean_plus, (mean_plus 256 (fun i => if (i =? 0)%Z then tail_part A n else 0)), mean_first, mean_scal by lia. unfold mass, rejected. ring.
  - intros i Hi. rewrite (mean_ext 2 _ (fun s => layer A (Z.to_nat i) s + (if (i =? 0)%Z then tail_part A n else (1 - layer any_number (Z.to_nat i) s) * P))).
    + rewrite mean_plus. f_equal. destruct (i =? 0)%Z; rewrite ?mean_const by lia; [ ring | ].
      rewrite Rplus_0_l, <- mean_scal. apply mean_ext. intros; ring.
    + intros s Hs. rewrite turn by lia. f_equal. destruct (Z.eqb_spec i 0) as [ -> | Ei ]; [ reflexivity | ].
      destruct (Nat.eqb_spec (Z.to_nat i) 0); [ lia | reflexivity ].
Qed.

(** ** The tail *)
Definition tacc (A : R -> bool) (k : Z) : R :=
  mean_of (2 ^ 53) (fun u1 => mean_of (2 ^ 53) (fun u2 => match zig_tail k u1 u2 with Some x => indicator (A x) | None => 0 end)).

Lemma tail_step : forall A k n, prob_tail A k (S n) = tacc A k + (1 - tacc any_number k) * prob_tail A k n.
Proof.
  intros A k n. cbn [prob_tail]. set (P := prob_tail A k n). unfold tacc.
  rewrite (mean_ext (2 ^ 53) _ (fun u1 => mean_of (2 ^ 53) (fun u2 => match zig_tail k u1 u2 with Some x => indicator (A x) | None => 0 end)
    + (P + (- P) * mean_of (2 ^ 53) (fun u2 => match zig_tail k u1 u2 with Some x => indicator (any_number x) | None => 0 end)))).
  - rewrite mean_plus, (mean_plus (2 ^ 53) (fun _ => P)), mean_scal, mean_const by exact pos53z. ring.
  - intros u1 _. rewrite <- mean_scal, <- (mean_const (2 ^ 53) P) at 1 by exact pos53z. rewrite <- !mean_plus. apply mean_ext.
    intros u2 _. destruct (zig_tail k u1 u2); unfold any_number; cbn [indicator]; ring.
Qed.

(** ** Limits *)
Lemma rec_limit : forall (c p : nat -> R) (c0 q : R), 0 <= q < 1 -> is_lim_seq c c0 ->
  (forall n, p (S n) = c n + q * p n) -> is_lim_seq p (c0 / (1 - q)).
Proof.
  intros c p c0 q Hq Hc Hp. set (l := c0 / (1 - q)).
  assert (D : forall n, p (S n) - l = (c n - c0) + q * (p n - l)) by (intros n; rewrite Hp; unfold l; field; lra).
  apply is_lim_seq_spec. intros eps. apply is_lim_seq_spec in Hc.
  assert (E2 : 0 < eps / 2 * (1 - q)) by (apply Rmult_lt_0_compat; [ destruct eps; cbn; lra | lra ]).
  destruct (Hc (mkposreal _ E2)) as [N HN]. cbn [pos] in HN.
  assert (B : forall m, Rabs (p (N + m)%nat - l) <= q ^ m * Rabs (p N - l) + eps / 2).
  { induction m as [ | m IH ].
    - rewrite Nat.add_0_r. cbn [pow]. destruct eps; cbn in *; lra.
    - rewrite Nat.add_succ_r, D. eapply Rle_trans; [ apply Rabs_triang | ]. rewrite Rabs_mult, (Rabs_right q) by lra.
      pose proof (HN (N + m)%nat ltac:(lia)) as C. cbn [pow].
      assert (q * Rabs (p (N + m)%nat - l) <= q * (q ^ m * Rabs (p N - l) + eps / 2)) by (apply Rmult_le_compat_l; lra).
      lra. }
  assert (G : is_lim_seq (fun m => q ^ m * Rabs (p N - l)) 0).
  { replace (Finite 0) with (Rbar_mult (Finite 0) (Finite (Rabs (p N - l)))) by (cbn; f_equal; ring).
    apply is_lim_seq_mult'; [ | apply is_lim_seq_const ]. apply is_lim_seq_geom. rewrite Rabs_right; lra. }
  apply is_lim_seq_spec in G. assert (E3 : 0 < eps / 2) by (destruct eps; cbn; lra).
  destruct (G (mkposreal _ E3)) as [M HM]. cbn [pos] in HM.
  exists (N + M)%nat. intros n Hn. replace n with (N + (n - N))%nat by lia.
  pose proof (HM (n - N)%nat ltac:(lia)) as X. rewrite Rminus_0_r in X. pose proof (Rle_abs (q ^ (n - N) * Rabs (p N - l))).
  pose proof (B (n - N)%nat). lra.
Qed.

Lemma lim_sum : forall m (f : nat -> nat -> R) (l : nat -> R), (forall i, (i < m)%nat -> is_lim_seq (f i) (l i)) ->
  is_lim_seq (fun n => sum_to m (fun i => f i n)) (sum_to m l).
Proof.
  induction m as [ | m IH ]; intros f l H; cbn [sum_to]; [ apply is_lim_seq_const | ].
  apply is_lim_seq_plus'; [ apply IH; intros; apply H; lia | apply H; lia ].
Qed.
Lemma lim_mean : forall m (f : Z -> nat -> R) (l : Z -> R), (forall i, (0 <= i < m)%Z -> is_lim_seq (f i) (l i)) ->
  is_lim_seq (fun n => mean_of m (fun i => f i n)) (mean_of m l).
Proof.
  intros m f l H. unfold mean_of, Rdiv. apply is_lim_seq_mult'; [ | apply is_lim_seq_const ].
  apply (lim_sum (Z.to_nat m) (fun i n => f (Z.of_nat i) n) (fun i => l (Z.of_nat i))). intros i Hi. apply H. lia.
Qed.

Definition tail_mass (A : R -> bool) : R :=
  mean_of (2 ^ 52) (fun k => if (k <? kv 0)%Z then 0 else tacc A k / tacc any_number k).

Lemma tail_limit : forall A, (forall k, 0 < tacc any_number k <= 1) -> is_lim_seq (tail_part A) (tail_mass A).
Proof.
  intros A H. unfold tail_part, tail_mass.
  apply (lim_mean (2 ^ 52) (fun k n => if (k <? kv 0)%Z then 0 else prob_tail A k n)). intros k _.
  destruct (k <? kv 0)%Z; [ apply is_lim_seq_const | ].
  replace (tacc any_number k) with (1 - (1 - tacc any_number k)) by ring.
  apply (rec_limit (fun _ => tacc A k)); [ specialize (H k); lra | apply is_lim_seq_const | apply tail_step ].
Qed.

Definition total (A : R -> bool) : R := mass A + tail_mass A / 256.

Lemma rejected_eq : (forall k, 0 < tacc any_number k <= 1) -> 1 - rejected = total any_number.
Proof.
  intros H. unfold total. symmetry.
  assert (E : mass any_number + tail_mass any_number / 256 + rejected = 1); [ | lra ].
  unfold mass, rejected.
  replace (tail_mass any_number / 256) with (mean_of 256 (fun i => if (i =? 0)%Z then tail_mass any_number else 0)) by (apply mean_first; lia).
  rewrite <- !mean_plus. transitivity (mean_of 256 (fun _ => 1)); [ | apply mean_const; lia ]. apply mean_ext. intros i Hi.
  destruct (Z.eqb_spec i 0) as [ -> | Ei ].
  - rewrite (mean_const 2 0) by lia. rewrite Rplus_0_r.
    rewrite (mean_ext 2 _ (fun _ => 1 - tail_mass any_number)); [ rewrite mean_const by lia; ring | ].
    intros s _. unfold layer, tail_mass.
    assert (E : forall a b : R, a + b = 1 -> a = 1 - b) by (intros; lra). apply E. rewrite <- mean_plus.
    rewrite <- (mean_const (2 ^ 52) 1) by exact pos52. apply mean_ext. intros k _. change (Z.to_nat 0) with 0%nat.
    unfold accl, any_number at 1. cbn [indicator Nat.eqb]. specialize (H k). destruct (k <? kv 0)%Z; field; lra.
  - rewrite Rplus_0_r, <- mean_plus. transitivity (mean_of 2 (fun _ => 1)); [ apply mean_ext; intros; ring | apply mean_const; lia ].
Qed.

Lemma normal_limit : forall A, (forall k, 0 < tacc any_number k <= 1) -> 0 <= rejected < 1 ->
  is_lim_seq (prob_normal A) (total A / total any_number).
Proof.
  intros A H Hr. rewrite <- rejected_eq by exact H.
  apply (rec_limit (fun n => mass A + tail_part A n / 256)); [ exact Hr | | apply normal_step ].
  unfold total, Rdiv. apply is_lim_seq_plus'; [ apply is_lim_seq_const | ].
  apply is_lim_seq_mult'; [ now apply tail_limit | apply is_lim_seq_const ].
Qed.
