(** Model of c/rng.c: the normal sampler (ziggurat method) and the bivariate
    normal sampler, over the generator of MtModel.v.

    Values are real numbers: log1p(-u) is ln (1 - u), exp and sqrt are the real
    functions, and rounding to double is not modelled.  A fraction drawn by
    mt19937_next_double is given by its numerator over 2^53. *)
From Coq Require Import List ZArith Reals Bool Arith.
From Verif Require Import Base MtModel ZigTables.
Import ListNotations.
Open Scope R_scope.

(** the values of the table entries and constants (ZigTables.v) *)
Definition wi_unit : R := 1 / IZR (10 ^ 37).
Definition fi_unit : R := 1 / IZR (10 ^ 23).
Definition nor_unit : R := 1 / IZR (10 ^ 29).
Definition ziggurat_nor_r : R := IZR nor_r * nor_unit.
Definition ziggurat_nor_inv_r : R := IZR nor_inv_r * nor_unit.

(** the value returned by mt19937_next_double with numerator [u] *)
Definition frac53 (u : Z) : R := IZR u / IZR (2 ^ 53).

(** how far one turn of the outer loop gets with the 64-bit word alone *)
Inductive first : Type :=
| FValue (x : R)              (* returned at line 85 *)
| FTail (rabs : Z)            (* the inner loop of lines 87-94 *)
| FWedge (x : R) (idx : nat). (* the comparison of lines 95-96 *)

(** rng.c:76-86 *)
Definition zig_first (r : Z) : outcome first :=
  let idx := Z.to_nat (Z.land r 255) in
  let r := Z.shiftr r 8 in
  let sign := Z.land r 1 in
  let rabs := Z.land (Z.shiftr r 1) 0x000fffffffffffff in
  wi <- rd wi_double idx ;;
  let x := IZR rabs * (IZR wi * wi_unit) in
  let x := if (sign =? 1)%Z then - x else x in
  ki <- rd ki_double idx ;;
  if (rabs <? ki)%Z then Ret (FValue x)
  else if (idx =? 0)%nat then Ret (FTail rabs)
  else Ret (FWedge x idx).

(** rng.c:89-93, one turn of the inner loop with the two fractions drawn *)
Definition zig_tail (rabs u1 u2 : Z) : option R :=
  let xx := - ziggurat_nor_inv_r * ln (1 - frac53 u1) in
  let yy := - ln (1 - frac53 u2) in
  if Rlt_dec (xx * xx) (yy + yy)
  then Some (if (Z.land (Z.shiftr rabs 8) 1 =? 1)%Z then - (ziggurat_nor_r + xx) else ziggurat_nor_r + xx)
  else None.

(** rng.c:95-97 with the fraction drawn *)
Definition zig_wedge (x : R) (idx : nat) (u : Z) : outcome (option R) :=
  f1 <- rd fi_double (idx - 1) ;;
  f0 <- rd fi_double idx ;;
  Ret (if Rlt_dec ((IZR f1 * fi_unit - IZR f0 * fi_unit) * frac53 u + IZR f0 * fi_unit) (exp (- (1 / 2) * x * x))
       then Some x else None).

(** rng.c:87-94; [fuel] bounds the number of turns *)
Fixpoint zig_tail_loop (fuel : nat) (rabs : Z) (st : mt_state) : outcome (R * mt_state) :=
  match fuel with
  | O => OutOfFuel
  | S fuel =>
      u1 <- mt_next_double53 st ;;
      u2 <- mt_next_double53 (snd u1) ;;
      match zig_tail rabs (fst u1) (fst u2) with
      | Some x => Ret (x, snd u2)
      | None => zig_tail_loop fuel rabs (snd u2)
      end
  end.

(** rng.c:71-99 rng_standard_normal; [lf] is the order of evaluation in
    mt19937_next64 and [fuel] bounds the number of turns of each loop *)
Fixpoint rng_standard_normal (lf : bool) (fuel : nat) (st : mt_state) : outcome (R * mt_state) :=
  match fuel with
  | O => OutOfFuel
  | S fuel =>
      r <- mt_next64 lf st ;;
      s <- zig_first (fst r) ;;
      match s with
      | FValue x => Ret (x, snd r)
      | FTail rabs => zig_tail_loop fuel rabs (snd r)
      | FWedge x idx =>
          u <- mt_next_double53 (snd r) ;;
          w <- zig_wedge x idx (fst u) ;;
          match w with
          | Some x => Ret (x, snd u)
          | None => rng_standard_normal lf fuel (snd u)
          end
      end
  end.

(** rng.c:109-115; the buffer [out] is the list of the values written, in order *)
Fixpoint bivariate_loop (lf : bool) (fuel : nat) (mu1 mu2 sigma1 sigma2rho nu : R) (n : nat) (st : mt_state)
  : outcome (list R * mt_state) :=
  match n with
  | O => Ret ([], st)
  | S n =>
      x1 <- rng_standard_normal lf fuel st ;;
      x2 <- rng_standard_normal lf fuel (snd x1) ;;
      rest <- bivariate_loop lf fuel mu1 mu2 sigma1 sigma2rho nu n (snd x2) ;;
      Ret (mu1 + fst x1 * sigma1 :: mu2 + fst x1 * sigma2rho + nu * fst x2 :: fst rest, snd rest)
  end.
(** rng.c:101-116 rng_bivariate_normal_fill *)
Definition rng_bivariate_normal_fill (lf : bool) (fuel : nat) (mu1 mu2 sigma1 sigma2 rho : R) (n : nat) (st : mt_state)
  : outcome (list R * mt_state) :=
  bivariate_loop lf fuel mu1 mu2 sigma1 (sigma2 * rho) (sigma2 * sqrt (1 - rho * rho)) n st.

(** rng.h:28-35 rng_uniform (the assertion rng != NULL always holds here) *)
Definition rng_uniform (low high : R) (st : mt_state) : outcome (R * mt_state) :=
  if Rle_dec high low then Ret (low, st)
  else u <- mt_next_double53 st ;; Ret (low + (high - low) * frac53 (fst u), snd u).
