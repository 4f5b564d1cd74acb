(** [hv_contributions] (c/hv_contrib.c) for two objectives with the volumes
    computed in IEEE 754 binary64 arithmetic.  As in [HvFloatModel] a coordinate
    [m : Z] stands for the double [m * 2^-1074]; overflow to infinity is not
    modelled.  For two objectives [fpli_hv] is [hv2d] (hv.c:1139); the return of
    zero for no points (hv.c:1138) is what [hv2d_d] gives too, but
    [hv_contributions] has nothing to do then. *)
From Coq Require Import List ZArith Lia Bool Arith Reals.
From Flocq Require Import Core.
From Verif Require Import Base NondomModel Hv2dModel PctFloatModel HvFloatModel.
Import ListNotations.
Open Scope Z_scope.

(** hv_contrib.c:25-32: iterations [is] of [hv_1point_diffs] (with
    [uev == NULL], the only call); [hv] is [fpli_hv] on the current array.
    Result: the values and the array. *)
Fixpoint hv_1point_diffs_d (hv : list point -> outcome R) (ref : point) (is : list nat)
         (points : list point) : outcome (list R * list point) :=
  match is with
  | [] => Ret ([], points)
  | i :: is' =>
    tmp <- rd points i ;;
    points <- wr points i ref ;;
    v <- hv points ;;
    points <- wr points i tmp ;;
    r <- hv_1point_diffs_d hv ref is' points ;;
    Ret (v :: fst r, snd r)
  end.

(** hv_contrib.c:40: [sqrt(DBL_EPSILON)]; [DBL_EPSILON] is 2^-52 and [sqrt] is
    correctly rounded. *)
Definition tolerance_hvc : R := rnd (sqrt (bpow radix2 (-52))).

(** hv_contrib.c:43-48.  [ndebug]: compiled with -DNDEBUG (gcc.mk:9), which
    removes the assertion of line 47 (common.h:60). *)
Fixpoint contrib_loop_d (ndebug : bool) (total : R) (hvc : list R) : outcome (list R) :=
  match hvc with
  | [] => Ret []
  | h :: t =>
    let c := rnd (total - h) in
    let c := if Rle_bool tolerance_hvc (Rabs c) then c else 0%R in
    _ <- assert_ (ndebug || Rle_bool 0 c) ;;
    r <- contrib_loop_d ndebug total t ;;
    Ret (c :: r)
  end.

(** hv_contrib.c:37-49 [hv_contributions] with [dim = 2].  Result: [hvc] and the
    final contents of the caller's array. *)
Definition hv_contributions_d (ndebug : bool) (sort2d : list point -> list nat)
           (points : list point) (ref : point) : outcome (list R * list point) :=
  let hv pts := hv2d_d sort2d pts ref in
  total <- hv points ;;
  r <- hv_1point_diffs_d hv ref (seq 0 (length points)) points ;;
  hvc <- contrib_loop_d ndebug total (fst r) ;;
  Ret (hvc, snd r).
