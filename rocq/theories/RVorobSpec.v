(** Specification for C68: symmetric differences and thresholds with directions of
    optimisation.  Nothing here refers to the model. *)
From Coq Require Import List ZArith QArith Bool Arith.
From Verif Require Import Base Spec HvSpec HvShiftProofs.
Import ListNotations.
Open Scope Z_scope.

(** [v] is the volume of the symmetric difference of the regions dominated by [A] and by
    [B] on the good side of [ref] *)
Definition symmetric_difference_mx (mx : list bool) (ref : point) (A B : list point) (v : Z) : Prop :=
  exists L, NoDup L /\
    (forall z, In z L <-> (dominated_cell_mx mx A ref z /\ ~ dominated_cell_mx mx B ref z) \/
                          (dominated_cell_mx mx B ref z /\ ~ dominated_cell_mx mx A ref z)) /\
    v = Z.of_nat (length L).

(** [l] is the level of percentile [p] of [n] sets: the smallest one >= 1 with
    l >= n * p / 100 (up to 2^-26) *)
Definition level_at (n : nat) (p : Q) (l : nat) : Prop :=
  (1 <= l <= n)%nat /\
  forall m : nat, ((l <= m)%nat <-> (1 <= m)%nat /\ (inject_Z (Z.of_nat n) * p / 100 - (1 # (2 ^ 26)) <= inject_Z (Z.of_nat m))%Q).

(** one value of the reference for each objective; one value for all of them if all
    objectives have the same direction *)
Definition reference_for (d : nat) (reference : list Z) (mx : list bool) (ref : point) : Prop :=
  ref = reference /\ length reference = d \/
  exists a b, reference = [a] /\ ref = repeat a d /\ mx = repeat b d.
