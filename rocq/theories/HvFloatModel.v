(** [hv2d] (c/hv.c:853-879) with the area accumulated in IEEE 754 binary64
    arithmetic.  A coordinate [m : Z] stands for the double [m * 2^-1074]; every
    finite double has this form.  Overflow to infinity is not modelled. *)
From Coq Require Import List ZArith Lia Bool Arith Reals.
From Flocq Require Import Core.
From Verif Require Import Base NondomModel Hv2dModel PctFloatModel.
Import ListNotations.
Open Scope Z_scope.

(** the double with number [m] *)
Definition dval (m : Z) : R := (IZR m * bpow radix2 (-1074))%R.

(** hv.c:865-875: the loop; comparisons are exact, so the search for the next
    point is [hv2d_skip]. *)
Fixpoint hv2d_do_d (fuel : nat) (pts : list point) (pp : list nat) (ref : point)
         (hyperv : R) (prev_j : Z) (j : nat) : outcome R :=
  match fuel with
  | O => OutOfFuel
  | S fuel' =>
    j <- hv2d_skip (S (length pts)) pts pp prev_j j ;;
    if (j =? length pts)%nat then Ret hyperv else
    pj <- deref pts pp j ;;
    if coord ref 0 <=? coord pj 0 then Ret hyperv else
    let hyperv := rnd (hyperv + rnd (rnd (dval (coord ref 0) - dval (coord pj 0)) *
                                     rnd (dval prev_j - dval (coord pj 1)))) in
    let prev_j := coord pj 1 in
    let j := S j in
    if (j <? length pts)%nat then
      pj <- deref pts pp j ;;
      if coord pj 0 <? coord ref 0 then hv2d_do_d fuel' pts pp ref hyperv prev_j j
      else Ret hyperv
    else Ret hyperv
  end.

(** hv.c:853-879 [hv2d]. *)
Definition hv2d_d (sort2d : list point -> list nat) (pts : list point) (ref : point) : outcome R :=
  hv2d_do_d (S (length pts)) pts (sort2d pts) ref 0%R (coord ref 1) 0.
