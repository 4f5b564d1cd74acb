(** The generational distances of c/igd.h with [p = 1] (GD, IGD, IGD+) in IEEE 754
    arithmetic, rounding to nearest even, including overflow to infinity.

    A finite double is a real number in the binary64 format, an infinite one is
    [PosInf] or [NegInf].  For finite inputs no step of these functions gives a NaN.
    The powers of [p > 1] (powl) are not modelled here: the C library need not round
    them correctly.  Every operation is rounded on its own: a compiler that fuses
    [dist += diff * diff] into one rounding is not covered.  [minmax_from_bool] never gives 0, so the test
    [minmax[d] == 0] (igd.h:72) is left out and [minmax[d] < 0] is
    [negb (nth d mx false)]. *)
From Coq Require Import List ZArith Reals Bool Arith.
From Flocq Require Import Core.
From Verif Require Import Base EpsModel PctFloatModel EpsFloatModel.
Import ListNotations.
Open Scope R_scope.

(** 2^1024: results that round to this or more are infinite *)
Definition omega_d : R := bpow radix2 1024.

(** the double nearest to [x] *)
Definition fl (x : R) : ext R :=
  if Rle_bool omega_d (rnd x) then PosInf
  else if Rle_bool (rnd x) (- omega_d) then NegInf
  else Fin (rnd x).

(** [x * x] *)
Definition sq_d (x : ext R) : ext R :=
  match x with Fin v => fl (v * v) | _ => PosInf end.

(** [x + y]; the sum of infinities of different sign does not occur *)
Definition plus_d (x y : ext R) : ext R :=
  match x, y with
  | Fin a, Fin b => fl (a + b)
  | NegInf, _ | _, NegInf => NegInf
  | _, _ => PosInf
  end.

(** [MAX (x, 0.0)] *)
Definition max0_d (x : ext R) : ext R :=
  match x with
  | NegInf => Fin 0
  | Fin v => if Rle_bool v 0 then Fin 0 else Fin v
  | PosInf => PosInf
  end.

(** rounding to a long double of [prec] bits with smallest positive number
    2^[emin] (x87: 64 and -16445; where long double is double: 53 and -1074) *)
Definition lrnd (prec emin : Z) (x : R) : R := round radix2 (FLT_exp emin prec) ZnearestE x.

(** c/igd.h:87: [(double) sqrtl(x)] *)
Definition sqrt_d (prec emin : Z) (x : ext R) : ext R :=
  match x with Fin v => fl (lrnd prec emin (sqrt v)) | _ => x end.

(** [x / (double) n]; an int is converted exactly *)
Definition div_d (x : ext R) (n : nat) : ext R :=
  match x with Fin v => fl (v / INR n) | _ => x end.

(** c/igd.h:73-77: diff *)
Definition diff_d (mx : list bool) (plus : bool) (a r : rpoint) (d : nat) : ext R :=
  if negb plus then fl (rcoord r d - rcoord a d)
  else max0_d (if negb (nth d mx false) then fl (rcoord r d - rcoord a d)
               else fl (rcoord a d - rcoord r d)).

(** c/igd.h:70-80: the loop over d *)
Definition sq_dist_d (mx : list bool) (plus : bool) (a r : rpoint) : ext R :=
  fold_left (fun dist d => plus_d dist (sq_d (diff_d mx plus a r d))) (seq 0 (length mx)) (Fin 0).

(** c/igd.h:68-85: the loop over r, [if (dist < min_dist) min_dist = dist] *)
Definition min_sq_dist_d mx plus (Rf : list rpoint) (a : rpoint) : ext R :=
  fold_left (fun m r => let dist := sq_dist_d mx plus a r in
                        if negb (eleb Rle_bool m dist) then dist else m) Rf PosInf.

(** c/igd.h:57-98: gd_common with p = 1 *)
Definition gd_common_d (prec emin : Z) mx (A Rf : list rpoint) (plus : bool) : ext R :=
  match A with
  | [] => PosInf
  | _ => div_d (fold_left (fun gd a => plus_d gd (sqrt_d prec emin (min_sq_dist_d mx plus Rf a))) A (Fin 0))
               (length A)
  end.

(** c/igd.h:100-110 GD_minmax *)
Definition GD_d prec emin (A Rf : list rpoint) (mx : list bool) : ext R :=
  gd_common_d prec emin mx A Rf false.
(** c/igd.h:112-132 IGD_minmax, IGD *)
Definition IGD_d prec emin (A Rf : list rpoint) (mx : list bool) : ext R :=
  gd_common_d prec emin mx Rf A false.
(** c/igd.h:158-179 IGD_plus_minmax, IGD_plus *)
Definition IGD_plus_d prec emin (A Rf : list rpoint) (mx : list bool) : ext R :=
  gd_common_d prec emin mx Rf A true.
