(** Percentiles and levels (c/eaf.h:147-191) in IEEE 754 binary64 arithmetic,
    rounding to nearest even.  The values stay below 2^38, so overflow is not
    modelled.  A double is a real number in the format of binary64. *)
From Coq Require Import ZArith Reals List.
From Flocq Require Import Core.
From Verif Require Import Base.
Import ListNotations.
Open Scope Z_scope.

(** binary64: 53 bits, smallest positive number 2^-1074 *)
Definition dexp : Z -> Z := FLT_exp (-1074) 53.
Definition is_double (x : R) : Prop := generic_format radix2 dexp x.
Definition rnd (x : R) : R := round radix2 dexp ZnearestE x.

(** c/eaf.h:147-152 level2percentile *)
Definition level2percentile_d (level n : Z) : R :=
  if level =? n then 100%R else rnd (rnd (IZR level * 100) / IZR n).

(** c/eaf.h:157: sqrt(DBL_EPSILON), DBL_EPSILON = 2^-52 *)
Definition tolerance_d : R := bpow radix2 (-26).

(** c/eaf.h:154-166 percentile2level; floor and ceil are exact, the difference is
    rounded *)
Definition percentile2level_d (p : R) (n : Z) : outcome Z :=
  let x := rnd (rnd (IZR n * p) / 100) in
  let level := if Rle_bool (rnd (x - IZR (Zfloor x))) tolerance_d then Zfloor x else Zceil x in
  _ <- assert_ (level <=? n) ;;
  _ <- assert_ (0 <=? level) ;;
  Ret (if level <? 1 then 1 else level).

(** c/eaf.h:185-191 all_percentiles *)
Definition all_percentiles_d (n_sets : nat) : list R :=
  let x := rnd (100 / IZR (Z.of_nat n_sets)) in
  map (fun i => rnd (IZR (Z.of_nat i) * x)) (seq 1 n_sets).
