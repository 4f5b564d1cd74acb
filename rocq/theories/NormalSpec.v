(** What it means that a sampler has the standard normal distribution.

    A sampler is a tree: it returns a result, or asks for a 64-bit word or for a
    53-bit fraction and goes on with the answer. [run] answers from the generator of
    c/mt19937; [tree_chance] is the probability that the result lies in a set when
    all answers are equally likely and independent. *)
From Coq Require Import List ZArith Reals.
From Coquelicot Require Import Coquelicot.
From Verif Require Import Base MtModel ProbSpec.
Open Scope R_scope.

Inductive sampler : Type :=
| Result (o : outcome R)
| Word (f : Z -> sampler)
| Fraction (f : Z -> sampler).

Fixpoint run (lf : bool) (t : sampler) (st : mt_state) : outcome (R * mt_state) :=
  match t with
  | Result o => x <- o ;; Ret (x, st)
  | Word f => r <- mt_next64 lf st ;; run lf (f (fst r)) (snd r)
  | Fraction f => u <- mt_next_double53 st ;; run lf (f (fst u)) (snd u)
  end.

Fixpoint tree_chance (A : R -> bool) (t : sampler) : R :=
  match t with
  | Result (Ret x) => indicator (A x)
  | Result _ => 0
  | Word f => mean_of (2 ^ 64) (fun r => tree_chance A (f r))
  | Fraction f => mean_of (2 ^ 53) (fun u => tree_chance A (f u))
  end.

(** the sampler returns a number that is at most [z] *)
Definition at_most (z x : R) : bool := if Rle_dec x z then true else false.

(** the probability that a standard normal variable is at most [z] *)
Definition normal_cdf (z : R) : R := 1 / 2 + RInt bell 0 z / sqrt (2 * PI).
