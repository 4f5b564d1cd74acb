(** Distances of the generational-distance indicators.  Nothing here refers to
    the modelled code. *)
From Coq Require Import List ZArith Reals.
From Verif Require Import Base Spec.
Import ListNotations.
Open Scope R_scope.

(** sum of f(0), ..., f(n-1) *)
Fixpoint rsum (f : nat -> R) (n : nat) : R :=
  match n with O => 0 | S m => rsum f m + f m end.

Definition rlist_sum (l : list R) : R := fold_right Rplus 0 l.

(** Euclidean distance of two rows in [n] objectives *)
Definition euclid (n : nat) (p q : point) : R :=
  sqrt (rsum (fun d => (IZR (coord p d) - IZR (coord q d)) ^ 2) n).

(** by how much [a] is worse than [r] in objective [d] (0 if it is not) *)
Definition excess (mx : list bool) (a r : point) (d : nat) : R :=
  if nth d mx false then Rmax (IZR (coord r d) - IZR (coord a d)) 0
  else Rmax (IZR (coord a d) - IZR (coord r d)) 0.

(** the distance of IGD+: only objectives in which [a] is worse than [r] count *)
Definition dist_plus (mx : list bool) (a r : point) : R :=
  sqrt (rsum (fun d => excess mx a r d ^ 2) (length mx)).

(** [m] is the smallest distance from [x] to a row of [S] *)
Definition nearest (dist : point -> R) (S : list point) (m : R) : Prop :=
  (exists s, In s S /\ m = dist s) /\ forall s, In s S -> m <= dist s.

(** [ms] lists, row by row of [A], the distance to the nearest row of [S] *)
Definition nearest_dists (dist : point -> point -> R) (A S : list point) (ms : list R) : Prop :=
  Forall2 (fun a m => nearest (dist a) S m) A ms.

