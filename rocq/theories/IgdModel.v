(** Model of c/igd.h (generational distances).

    The squared distances are integers (coordinates are in Z); the square root,
    the powers and the quotients are real numbers (exact instead of rounded).
    [powl(x, p)] with an integer exponent is [x ^ p]; [powl(x, 1.0 / p)] is the
    real power, with powl(0, y) = 0 for y > 0. *)
From Coq Require Import List ZArith Reals Lia Lra Bool Arith.
From Verif Require Import Base NondomModel EpsModel.
Import ListNotations.
Open Scope Z_scope.

(** c/igd.h:70-81: the loop over d *)
Definition sq_dist (dim : nat) (minmax : list Z) (plus : bool) (a r : point) : Z :=
  fold_left (fun dist d =>
    if coord minmax d =? 0 then dist
    else let diff := if negb plus then coord r d - coord a d
                     else Z.max (if coord minmax d <? 0 then coord r d - coord a d
                                 else coord a d - coord r d) 0 in
         dist + diff * diff) (seq 0 dim) 0.

(** c/igd.h:67-86: the loop over r, [if (dist < min_dist) min_dist = dist] *)
Definition min_sq_dist dim minmax plus (R : list point) (a : point) : ext Z :=
  fold_left (fun m r => let dist := Fin (sq_dist dim minmax plus a r) in
                        if negb (eleb Z.leb m dist) then dist else m) R PosInf.

(** c/igd.h:88: sqrtl *)
Definition sqrt_ext (x : ext Z) : ext R :=
  match x with NegInf => NegInf | Fin z => Fin (sqrt (IZR z)) | PosInf => PosInf end.

(** c/igd.h:90: [(p == 1) ? min_dist : powl(min_dist, p)] *)
Definition pow_ext (x : ext R) (p : nat) : ext R :=
  match x with
  | Fin y => if Nat.eqb p 1 then Fin y else Fin (pow y p)
  | _ => x
  end.

(** sum of non-negative doubles *)
Definition add_ext (x y : ext R) : ext R :=
  match x, y with
  | Fin a, Fin b => Fin (a + b)%R
  | NegInf, _ | _, NegInf => NegInf
  | _, _ => PosInf
  end.

(** powl(x, 1.0 / p) *)
Definition powl_inv (x : R) (p : nat) : R :=
  if Req_EM_T x 0 then 0%R else Rpower x (1 / INR p).

Definition lift_ext (f : R -> R) (x : ext R) : ext R :=
  match x with Fin a => Fin (f a) | _ => x end.

(** c/igd.h:57-98: gd_common *)
Definition gd_common dim minmax (A Rf : list point) (plus psize : bool) (p : nat) : ext R :=
  match A with
  | [] => PosInf
  | _ =>
    let gd := fold_left (fun gd a =>
                add_ext gd (pow_ext (sqrt_ext (min_sq_dist dim minmax plus Rf a)) p))
                A (Fin 0%R) in
    let n := INR (length A) in
    if Nat.eqb p 1 then lift_ext (fun x => (x / n)%R) gd
    else if psize then lift_ext (fun x => powl_inv (x / n) p) gd
    else lift_ext (fun x => (powl_inv x p / n)%R) gd
  end.

(** c/igd.h:100-110 GD_minmax, with minmax from [maximise] *)
Definition GD (A Rf : list point) (mx : list bool) : ext R :=
  gd_common (length mx) (minmax_from_bool mx) A Rf false false 1.

(** c/igd.h:112-132 IGD_minmax, IGD (data, ref) *)
Definition IGD (A Rf : list point) (mx : list bool) : ext R :=
  gd_common (length mx) (minmax_from_bool mx) Rf A false false 1.

(** c/igd.h:134-144 GD_p *)
Definition GD_p (A Rf : list point) (mx : list bool) (p : nat) : ext R :=
  gd_common (length mx) (minmax_from_bool mx) A Rf false true p.

(** c/igd.h:146-156 IGD_p *)
Definition IGD_p (A Rf : list point) (mx : list bool) (p : nat) : ext R :=
  gd_common (length mx) (minmax_from_bool mx) Rf A false true p.

(** c/igd.h:158-179 IGD_plus_minmax, IGD_plus *)
Definition IGD_plus (A Rf : list point) (mx : list bool) : ext R :=
  gd_common (length mx) (minmax_from_bool mx) Rf A true true 1.

Definition Rleb (x y : R) : bool := if Rle_dec x y then true else false.

(** c/igd.h:181-198 avg_Hausdorff_dist *)
Definition avg_Hausdorff_dist (A Rf : list point) (mx : list bool) (p : nat) : ext R :=
  let gd_p := gd_common (length mx) (minmax_from_bool mx) A Rf false true p in
  let igd_p := gd_common (length mx) (minmax_from_bool mx) Rf A false true p in
  emax Rleb gd_p igd_p.
