(** Specifications for the quality indicators: what "weakly dominates a set",
    "smallest epsilon" etc. mean.  Nothing here refers to the modelled code. *)
From Coq Require Import List ZArith QArith Lia Bool Arith.
From Verif Require Import Base Spec.
Import ListNotations.
Open Scope Z_scope.

(** set-level weak dominance: every row of [B] is weakly dominated by a row of [A] *)
Definition set_wdom (mx : list bool) (A B : list point) : Prop :=
  forall b, In b B -> exists a, In a A /\ wdom mx a b.

(** mutually nondominated, distinct rows of the right length *)
Definition nondominated_set (mx : list bool) (A : list point) : Prop :=
  wf_points (length mx) A /\ NoDup A /\
  forall p q, In p A -> In q A -> ~ dom mx p q.

(** every coordinate is positive *)
Definition pos_point (dim : nat) (p : point) : Prop :=
  forall d, (d < dim)%nat -> 0 < coord p d.

(** every row of [R] is weakly dominated by some row of [A] after every
    coordinate of that row has been improved by [e] *)
Definition covers_add (mx : list bool) (A R : list point) (e : Q) : Prop :=
  forall r, In r R -> exists a, In a A /\
    forall d, (d < length mx)%nat ->
      if nth d mx false
      then (inject_Z (coord r d) <= inject_Z (coord a d) + e)%Q
      else (inject_Z (coord a d) - e <= inject_Z (coord r d))%Q.

(** every row of [R] is weakly dominated by some row of [A] after every
    coordinate of that row has been improved by the factor [e]: multiplied by
    [e] where the objective is maximised, divided by [e] where it is minimised *)
Definition covers_mult (mx : list bool) (A R : list point) (e : Q) : Prop :=
  (0 < e)%Q /\
  forall r, In r R -> exists a, In a A /\
    forall d, (d < length mx)%nat ->
      if nth d mx false
      then (inject_Z (coord r d) <= inject_Z (coord a d) * e)%Q
      else (inject_Z (coord a d) / e <= inject_Z (coord r d))%Q.
