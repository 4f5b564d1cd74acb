(** Specification of the rectangle-weighted hypervolume (two objectives,
    minimisation). *)
From Coq Require Import List ZArith Lia Bool Arith.
From Verif Require Import Base Spec HvSpec RectSpec.
Import ListNotations.
Open Scope Z_scope.

(** the area of a region made of unit cells (a cell is named by its lower corner) *)
Definition region_area (P : point -> Prop) (v : Z) : Prop :=
  exists L, NoDup L /\ (forall z, In z L <-> P z) /\ v = Z.of_nat (length L).

(** [v] is the sum over the rectangles of weight times the area of the part of
    the rectangle that is dominated by [data], bounded by [ref] and satisfies [Q] *)
Definition weighted_area_where (Q : point -> Prop) (data : list point) (ref : point)
           (rs : list (rect Z)) (v : Z) : Prop :=
  exists areas, length areas = length rs /\
    (forall i r, nth_error rs i = Some r ->
       region_area (fun z => dominated_cell data ref z /\ in_rect r z /\ Q z) (nth i areas 0)) /\
    v = zsum (map (fun ra => r_col (fst ra) * snd ra) (combine rs areas)).
Definition weighted_area := weighted_area_where (fun _ => True).

(** what is accepted as a list of weighted rectangles *)
Definition valid_rect (r : rect Z) : Prop :=
  (below (r_lx r) (r_ux r) \/ r_ux r = At (r_lx r)) /\
  (below (r_ly r) (r_uy r) \/ r_uy r = At (r_ly r)) /\ 0 <= r_col r.

(** no row of [data] weakly dominates another one (in particular no duplicates) *)
Definition antichain (data : list point) : Prop :=
  forall i j, (i < length data)%nat -> (j < length data)%nat -> i <> j ->
    ~ wdom [false; false] (row data i) (row data j).

(** the clipped upper side of a rectangle and when some of it remains *)
Definition clip (b : bound) (x : Z) : Z := match b with At y => Z.min y x | Infty => x end.
Definition remains (ref : point) (r : rect Z) : Prop :=
  Z.min (r_lx r) (coord ref 0) < clip (r_ux r) (coord ref 0) /\
  Z.min (r_ly r) (coord ref 1) < clip (r_uy r) (coord ref 1).
(** the smallest upper side (in the second objective) of the rectangles that remain *)
Definition lowest_top (ref : point) (rs : list (rect Z)) (y : Z) : Prop :=
  (exists r, In r rs /\ remains ref r /\ clip (r_uy r) (coord ref 1) = y) /\
  (forall r, In r rs -> remains ref r -> y <= clip (r_uy r) (coord ref 1)).
