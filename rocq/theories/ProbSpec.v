(** Averages over equally likely integers, and the bell curve. *)
From Coq Require Import List ZArith Reals.
Open Scope R_scope.

(** f 0 + ... + f (n - 1) *)
Fixpoint sum_to (n : nat) (f : nat -> R) : R :=
  match n with
  | O => 0
  | S n => sum_to n f + f n
  end.

(** the mean of [f i] for an integer [i] drawn uniformly from 0, ..., n - 1 *)
Definition mean_of (n : Z) (f : Z -> R) : R :=
  sum_to (Z.to_nat n) (fun i => f (Z.of_nat i)) / IZR n.

Definition indicator (b : bool) : R := if b then 1 else 0.

(** the probability of an event for such an integer *)
Definition chance (n : Z) (P : Z -> bool) : R := mean_of n (fun i => indicator (P i)).

(** the density of the standard normal distribution, up to a constant factor *)
Definition bell (x : R) : R := exp (- (x * x) / 2).
