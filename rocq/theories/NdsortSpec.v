(** Specification for C43: what "ordering by front and hypervolume contribution"
    means.  Nothing here refers to the modelled code. *)
From Coq Require Import List ZArith Lia Bool Arith QArith.
From Verif Require Import Base Spec HvSpec.
Import ListNotations.
Open Scope Z_scope.

(** [F] consists of the rows of [pts] that no row dominates, in their order:
    every row is either kept or dominated. *)
Inductive nondominated_rows (mx : list bool) (pts : list point) : list point -> list point -> Prop :=
| ndr_nil : nondominated_rows mx pts [] []
| ndr_keep : forall p l F, (forall q, In q pts -> ~ dom mx q p) ->
    nondominated_rows mx pts l F -> nondominated_rows mx pts (p :: l) (p :: F)
| ndr_drop : forall p q l F, In q pts -> dom mx q p ->
    nondominated_rows mx pts l F -> nondominated_rows mx pts (p :: l) F.
Definition first_front (mx : list bool) (pts F : list point) : Prop :=
  nondominated_rows mx pts pts F.

(** the smallest and the largest value of objective [d] *)
Definition smallest (F : list point) (d : nat) (l : Z) : Prop :=
  (exists p, In p F /\ coord p d = l) /\ forall p, In p F -> l <= coord p d.
Definition largest (F : list point) (d : nat) (u : Z) : Prop :=
  (exists p, In p F /\ coord p d = u) /\ forall p, In p F -> coord p d <= u.
Definition bounds_of (dim : nat) (F : list point) (lo hi : point) : Prop :=
  length lo = dim /\ length hi = dim /\
  forall d, (d < dim)%nat -> smallest F d (coord lo d) /\ largest F d (coord hi d).

(** Objective [d] mapped to [0, 9/10]; an objective that is constant is mapped
    to 0.  In units of 1/(10 * width). *)
Definition width (lo hi : point) (d : nat) : Z :=
  if coord hi d =? coord lo d then 1 else coord hi d - coord lo d.
Definition to_grid (dim : nat) (lo : point) (p : point) : point :=
  map (fun d => 9 * (coord p d - coord lo d)) (seq 0 dim).
Definition grid_ref (dim : nat) (lo hi : point) : point :=
  map (fun d => 10 * width lo hi d) (seq 0 dim).
Definition grid_cells (dim : nat) (lo hi : point) : Z :=
  fold_right Z.mul 1 (grid_ref dim lo hi).

(** [c] is the hypervolume, with respect to the reference point (1,...,1), that
    the normalised front loses when one copy of [p] is removed from it. *)
Definition front_contribution (dim : nat) (F : list point) (p : point) (c : Q) : Prop :=
  exists lo hi A B total rest,
    bounds_of dim F lo hi /\ F = A ++ p :: B /\
    hypervolume (map (to_grid dim lo) F) (grid_ref dim lo hi) total /\
    hypervolume (map (to_grid dim lo) (A ++ B)) (grid_ref dim lo hi) rest /\
    (c == inject_Z (total - rest) / inject_Z (grid_cells dim lo hi))%Q.
