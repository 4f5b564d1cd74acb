(** Specification for force_bounds: sets of points inside a box. *)
From Coq Require Import List ZArith Lia Bool Arith.
From Verif Require Import Base.
Import ListNotations.
Open Scope Z_scope.

(** every coordinate within the bounds *)
Definition inside (dim : nat) (lb ub p : point) : Prop :=
  forall d, (d < dim)%nat -> coord lb d <= coord p d <= coord ub d.

(** the sizes of a list of sets, cumulated as the library stores them *)
Fixpoint cumsizes_from (acc : nat) (sets : list (list point)) : list nat :=
  match sets with
  | [] => []
  | s :: sets => (acc + length s)%nat :: cumsizes_from (acc + length s) sets
  end.
Definition cumsizes_of (sets : list (list point)) : list nat := cumsizes_from 0 sets.

(** [l'] consists of the elements of [l] that satisfy [P], in the same order *)
Inductive selected {A} (P : A -> Prop) : list A -> list A -> Prop :=
| sel_nil : selected P [] []
| sel_take : forall x l l', P x -> selected P l l' -> selected P (x :: l) (x :: l')
| sel_skip : forall x l l', ~ P x -> selected P l l' -> selected P (x :: l) l'.
