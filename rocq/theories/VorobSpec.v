(** Specification for C40: mean volumes and symmetric differences. *)
From Coq Require Import List ZArith Bool Arith QArith.
From Verif Require Import Base HvSpec GroupSpec PyEafSpec.
Import ListNotations.
Open Scope Z_scope.

(** [m] is the mean of [v set] over the sets, where [P set v] defines v *)
Definition mean_over (sets : list (list point)) (P : list point -> Z -> Prop) (m : Q) : Prop :=
  exists vs, Forall2 P sets vs /\
    (m == inject_Z (zsum vs) / inject_Z (Z.of_nat (length sets)))%Q.

(** [v] is the volume of the symmetric difference of the regions dominated by
    [A] and by [B] within [ref] *)
Definition symmetric_difference (ref : point) (A B : list point) (v : Z) : Prop :=
  exists L, NoDup L /\
    (forall z, In z L <-> (dominated_cell A ref z /\ ~ dominated_cell B ref z) \/
                          (dominated_cell B ref z /\ ~ dominated_cell A ref z)) /\
    v = Z.of_nat (length L).
