(** Specification of the coloured rectangles of an EAF difference. *)
From Coq Require Import List ZArith Lia Bool Arith QArith.
From Verif Require Import Base Spec EafSpec.
Import ListNotations.
Open Scope Z_scope.

(** an upper bound of a rectangle side: a number or +infinity *)
Inductive bound : Type := At (x : Z) | Infty.
Definition below (x : Z) (b : bound) : Prop := match b with At y => x < y | Infty => True end.

Record rect (C : Type) : Type := mkRect { r_lx : Z; r_ly : Z; r_ux : bound; r_uy : bound; r_col : C }.
Arguments mkRect {C}. Arguments r_lx {C}. Arguments r_ly {C}. Arguments r_ux {C}. Arguments r_uy {C}.
Arguments r_col {C}.

(** location [z] lies in the rectangle (lower sides included, upper sides not) *)
Definition in_rect {C} (r : rect C) (z : point) : Prop :=
  r_lx r <= coord z 0 /\ below (coord z 0) (r_ux r) /\
  r_ly r <= coord z 1 /\ below (coord z 1) (r_uy r).

Definition nondegenerate {C} (r : rect C) : Prop :=
  below (r_lx r) (r_ux r) /\ below (r_ly r) (r_uy r).

Definition pairwise_disjoint {C} (rs : list (rect C)) : Prop :=
  forall i j r r', (i < j)%nat -> nth_error rs i = Some r -> nth_error rs j = Some r' ->
    forall z, in_rect r z -> in_rect r' z -> False.

(** [c] is the difference at [z] of the EAF of the sets [xs] and that of the sets
    [ys], scaled to [intervals] *)
Definition diff_between (xs ys : list (list point)) (intervals : nat) (z : point) (c : Q) : Prop :=
  exists L R, attained_by_exactly 2 L xs z /\ attained_by_exactly 2 R ys z /\
    (c == inject_Z (Z.of_nat intervals) *
          (inject_Z (Z.of_nat L) / inject_Z (Z.of_nat (length xs)) -
           inject_Z (Z.of_nat R) / inject_Z (Z.of_nat (length ys))))%Q.
