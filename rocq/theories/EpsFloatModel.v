(** The epsilon indicators of c/epsilon.h in IEEE 754 binary64 arithmetic,
    rounding to nearest even.  A double is a real number in the binary64 format
    (PctFloatModel.is_double); [rnd] is the rounding of one operation.  Overflow to
    infinity is not modelled: the theorems are about inputs whose differences
    (quotients) are below 2^1024 in magnitude, and say nothing about others. *)
From Coq Require Import List ZArith Reals Bool Arith.
From Flocq Require Import Core.
From Verif Require Import Base EpsModel PctFloatModel.
Import ListNotations.

Notation rpoint := (list R).
Definition rcoord (p : rpoint) (d : nat) : R := nth d p 0%R.

(** c/epsilon.h:82-87: epsilon_temp of the additive indicator; minmax[d] is > 0 for
    maximised and < 0 for minimised objectives (minmax_from_bool) *)
Definition temp_add_d (mx : list bool) (a b : rpoint) (d : nat) : R :=
  if nth d mx false then rnd (rcoord b d - rcoord a d) else rnd (rcoord a d - rcoord b d).

(** c/epsilon.h:49-54: epsilon_temp of the multiplicative indicator *)
Definition temp_mult_d (mx : list bool) (a b : rpoint) (d : nat) : R :=
  if nth d mx false then rnd (rcoord b d / rcoord a d) else rnd (rcoord a d / rcoord b d).

(** c/epsilon.h:79-89 *)
Definition eps_max_d (t : rpoint -> rpoint -> nat -> R) (init : ext R) (dim : nat) (a b : rpoint) : ext R :=
  fold_left (fun m d => emax Rle_bool m (Fin (t a b d))) (seq 0 dim) init.
(** c/epsilon.h:77-91 *)
Definition eps_min_d t init dim (A : list rpoint) (b : rpoint) : ext R :=
  fold_left (fun m a => emin Rle_bool m (eps_max_d t init dim a b)) A PosInf.
(** c/epsilon.h:74-96 (initial values -INFINITY) and c/epsilon.h:40-66 (initial
    values 0) *)
Definition eps_d t init dim (A B : list rpoint) : ext R :=
  fold_left (fun e b => emax Rle_bool e (eps_min_d t init dim A b)) B init.

(** c/epsilon.h:98-106: epsilon_additive *)
Definition epsilon_additive_d (A B : list rpoint) (mx : list bool) : ext R :=
  eps_d (temp_add_d mx) NegInf (length mx) A B.
(** c/epsilon.h:107-115: epsilon_mult; the fatal error for values that are not
    positive (c/epsilon.h:46-48) is tested inside the loops, so it is raised iff
    some compared pair has such a value *)
Definition epsilon_mult_d (A B : list rpoint) (mx : list bool) : outcome (ext R) :=
  if existsb (fun b => existsb (fun a => existsb (fun d => Rle_bool (rcoord a d) 0 || Rle_bool (rcoord b d) 0)
       (seq 0 (length mx))) A) B
  then AssertFailed
  else Ret (eps_d (temp_mult_d mx) (Fin 0%R) (length mx) A B).
