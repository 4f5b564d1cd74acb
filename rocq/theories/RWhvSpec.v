(** Specification of normalisation with default bounds and of the total weighted
    hypervolume.  Nothing here refers to the model of the R functions. *)
From Coq Require Import List ZArith QArith Qabs Lia Bool Arith.
From Verif Require Import Base RectSpec.
Import ListNotations.
Open Scope Q_scope.

Definition column (rows : list (list Q)) (j : nat) : list Q := map (fun r => nth j r 0) rows.
(** the bound of a column: the one given, or else the least (greatest) value of the column *)
Definition lower_bound (given : option Q) (c : list Q) (b : Q) : Prop :=
  match given with Some v => b = v | None => In b c /\ forall v, In v c -> b <= v end.
Definition upper_bound (given : option Q) (c : list Q) (b : Q) : Prop :=
  match given with Some v => b = v | None => In b c /\ forall v, In v c -> v <= b end.
(** [w] is the value [v] moved from the bounds [l], [u] to the range [lo], [hi]; the other
    way round if the objective is maximised *)
Definition rescaled (lo hi : Q) (maximised : bool) (l u v w : Q) : Prop :=
  let width := if Qeq_bool l u then 1 else u - l in
  w == if maximised then lo + (hi - lo) * ((u - v) / width) else lo + (hi - lo) * ((v - l) / width).

(** the rows of a matrix of rectangles: sides x1, y1, x2, y2 and a weight *)
Definition rect_row (r : rect Z) : list bound := [At (r_lx r); At (r_ly r); r_ux r; r_uy r; At (r_col r)].
(** the best value of each objective, minimised, of the two *)
Definition ideal_of (rows : list point) (i : point) : Prop :=
  length i = 2%nat /\ forall j, (j < 2)%nat -> (exists p, In p rows /\ coord p j = coord i j) /\ forall p, In p rows -> (coord i j <= coord p j)%Z.
(** area plus scaled, weighted area; [u] is the unit of length, [wu] the unit of weight *)
Definition total_value (u wu : Q) (hv whv : Z) (ref ideal : point) (scale : Q) : Q :=
  u * u * inject_Z hv +
  scale * Qabs (u * inject_Z (coord ref 0 - coord ideal 0)%Z * (u * inject_Z (coord ref 1 - coord ideal 1)%Z)) * (wu * (u * u) * inject_Z whv).
