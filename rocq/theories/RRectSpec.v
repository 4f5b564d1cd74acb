(** Specification of matrices of rectangles with differences of EAFs, and of the largest
    difference between data sets.  Nothing here refers to the model. *)
From Coq Require Import List ZArith QArith Lia Bool Arith.
From Verif Require Import Base Spec GroupSpec PyEafSpec WhvSpec.
Import ListNotations.
Open Scope Z_scope.

(** a number, or infinite *)
Inductive xnum : Type := Fin (q : Q) | PosInf | NegInf.
Definition at_most (a : xnum) (z : Z) : Prop := match a with Fin q => (q <= inject_Z z)%Q | PosInf => False | NegInf => True end.
Definition at_least (a : xnum) (z : Z) : Prop := match a with Fin q => (inject_Z z <= q)%Q | PosInf => True | NegInf => False end.
(** [z] is between the side [a], which belongs to the rectangle, and the side [b], which
    does not: upwards if the objective is minimised, downwards if it is maximised *)
Definition between (maximised : bool) (a b : xnum) (z : Z) : Prop :=
  if maximised then at_least a z /\ ~ at_least b z else at_most a z /\ ~ at_most b z.
(** a row: a corner, the opposite corner, and a value *)
Definition in_row (mx : list bool) (r : list xnum) (z : point) : Prop :=
  between (nth 0 mx false) (nth 0 r PosInf) (nth 2 r PosInf) (coord z 0) /\
  between (nth 1 mx false) (nth 1 r PosInf) (nth 3 r PosInf) (coord z 1).

(** [c] is the difference at [z] between the fraction of the sets [xs] and the fraction of
    the sets [ys] that attain [z], in intervals *)
Definition diff_at (mx : list bool) (xs ys : list (list point)) (iv : nat) (z : point) (c : Q) : Prop :=
  exists L R, exactly_attain mx L xs z /\ exactly_attain mx R ys z /\
    (c == inject_Z (Z.of_nat iv) *
          (inject_Z (Z.of_nat L) / inject_Z (Z.of_nat (length xs)) - inject_Z (Z.of_nat R) / inject_Z (Z.of_nat (length ys))))%Q.

(** the rectangles: not empty, disjoint, on each of them the difference is the value of the
    row, and they cover exactly the locations attained by some of the sets but not by all *)
Definition diff_rectangles (mx : list bool) (xs ys : list (list point)) (iv : nat) (rows : list (list xnum)) : Prop :=
  (forall r, In r rows -> length r = 5%nat /\ (exists z, length z = 2%nat /\ in_row mx r z) /\
     exists c, nth 4 r PosInf = Fin c /\ forall z, length z = 2%nat -> in_row mx r z -> diff_at mx xs ys iv z c) /\
  (forall i j z, (i < j < length rows)%nat -> in_row mx (nth i rows []) z -> in_row mx (nth j rows []) z -> False) /\
  (forall z, length z = 2%nat -> ((exists r, In r rows /\ in_row mx r z) <->
     at_least_attain mx 1 (xs ++ ys) z /\ ~ at_least_attain mx (length xs + length ys) (xs ++ ys) z)).

(** the rectangles where [xs] is ahead of [ys]: the same, for the locations with a positive difference *)
Definition ahead_rectangles (mx : list bool) (xs ys : list (list point)) (iv : nat) (rows : list (list xnum)) : Prop :=
  (forall r, In r rows -> length r = 5%nat /\ (exists z, length z = 2%nat /\ in_row mx r z) /\
     exists c, nth 4 r PosInf = Fin c /\ (0 < c)%Q /\ forall z, length z = 2%nat -> in_row mx r z -> diff_at mx xs ys iv z c) /\
  (forall i j z, (i < j < length rows)%nat -> in_row mx (nth i rows []) z -> in_row mx (nth j rows []) z -> False) /\
  (forall z, length z = 2%nat -> ((exists r, In r rows /\ in_row mx r z) <-> exists c, diff_at mx xs ys iv z c /\ (0 < c)%Q)).

(** the locations from [ideal] to [ref] (objectives minimised) where the sets [xs] are ahead
    of the sets [ys] by at least one interval *)
Definition ahead (xs ys : list (list point)) (iv : nat) (ideal ref z : point) : Prop :=
  length z = 2%nat /\ (forall i, (i < 2)%nat -> coord ideal i <= coord z i < coord ref i) /\
  exists c, diff_at [false; false] xs ys iv z c /\ (1 <= c)%Q.
(** the value of a pair of data sets: the smaller of the areas where one of them is ahead *)
Definition difference (xs ys : list (list point)) (iv : nat) (ideal ref : point) (v : Z) : Prop :=
  exists a b, region_area (ahead xs ys iv ideal ref) a /\ region_area (ahead ys xs iv ideal ref) b /\ v = Z.min a b.
(** the order in which the pairs are tried *)
Definition earlier (p q : nat * nat) : Prop := (fst p < fst q)%nat \/ fst p = fst q /\ (snd p < snd q)%nat.
(** the first pair with the largest value, if a value is positive; [val a b v]: the value of the pair *)
Definition largest (n : nat) (val : nat -> nat -> Z -> Prop) (pair : option (nat * nat)) (value : Z) : Prop :=
  (forall a b, (a < b < n)%nat -> exists v, val a b v) /\
  (forall a b v, (a < b < n)%nat -> val a b v -> v <= value) /\
  match pair with
  | None => value = 0
  | Some (a, b) => 0 < value /\ (a < b < n)%nat /\ val a b value /\
      forall a' b' v, (a' < b' < n)%nat -> earlier (a', b') (a, b) -> val a' b' v -> v < value
  end.
