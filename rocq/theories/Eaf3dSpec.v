(** Specification of attainment surfaces in any number of objectives.  Nothing
    here refers to the modelled code. *)
From Coq Require Import List ZArith Lia Bool Arith Permutation.
From Verif Require Import Base Spec EafSpec.
Import ListNotations.
Open Scope Z_scope.

(** [s] is the attainment surface of level [l]: no point of [s] is weakly
    dominated by another one, and [s] weakly dominates exactly the locations
    attained by at least [l] of the sets *)
Definition is_surface (dim : nat) (runs : list (list point)) (l : nat) (s : list point) : Prop :=
  wf_points dim s /\
  (forall i j, (i < length s)%nat -> (j < length s)%nat -> i <> j -> ~ wdom (minimise dim) (row s i) (row s j)) /\
  forall z, length z = dim ->
    ((exists p, In p s /\ wdom (minimise dim) p z) <-> attained_by_at_least dim l runs z).
