(** Normalisation (c/nondominated.h:328-382) in IEEE 754 binary64 arithmetic,
    rounding to nearest even; every operation is rounded, negation is exact.
    Overflow is not modelled. *)
From Coq Require Import List ZArith Reals Bool Arith.
From Flocq Require Import Core.
From Verif Require Import Base PctFloatModel EpsFloatModel.
Import ListNotations.
Open Scope R_scope.

(** nondominated.h:328-337 agree_objectives with AGREE_MINIMISE, one row; minmax[d] > 0
    iff objective d is maximised *)
Definition agree_row_d (dim : nat) (mx : list bool) (p : rpoint) : rpoint :=
  map (fun d => if nth d mx false then - rcoord p d else rcoord p d) (seq 0 dim).

(** nondominated.h:349-353 *)
Definition norm_diff_d (lbound ubound : rpoint) (d : nat) : R :=
  let diff := rnd (rcoord ubound d - rcoord lbound d) in
  if Req_bool diff 0 then 1 else diff.

(** nondominated.h:347, 355-364, one row *)
Definition normalise_row_d (dim : nat) (mx : list bool) (lower_range upper_range : R)
           (lbound ubound p : rpoint) : rpoint :=
  let range := rnd (upper_range - lower_range) in
  map (fun d =>
         if nth d mx false
         then rnd (lower_range + rnd (rnd (range * rnd (rcoord ubound d + rcoord p d)) / norm_diff_d lbound ubound d))
         else rnd (lower_range + rnd (rnd (range * rnd (rcoord p d - rcoord lbound d)) / norm_diff_d lbound ubound d)))
      (seq 0 dim).

(** nondominated.h:369-382 agree_normalise *)
Definition agree_normalise_d (dim : nat) (mx : list bool) (lower_range upper_range : R)
           (lbound ubound : rpoint) (points : list rpoint) : list rpoint :=
  map (normalise_row_d dim mx lower_range upper_range lbound ubound) (map (agree_row_d dim mx) points).
