(** The probability that the normal sampler of c/rng.c returns a number in a given
    set: the program of RngModel.v with every draw from the generator replaced by an
    average over all the values the draw can have, equally likely and independent. *)
From Coq Require Import List ZArith Reals.
From Verif Require Import Base RngModel ProbSpec.
Open Scope R_scope.

(** the inner loop returns a number in [A] within the given number of turns *)
Fixpoint prob_tail (A : R -> bool) (rabs : Z) (turns : nat) : R :=
  match turns with
  | O => 0
  | S n => mean_of (2 ^ 53) (fun u1 => mean_of (2 ^ 53) (fun u2 =>
             match zig_tail rabs u1 u2 with
             | Some x => indicator (A x)
             | None => prob_tail A rabs n
             end))
  end.

(** rng_standard_normal returns a number in [A] within the given number of turns *)
Fixpoint prob_normal (A : R -> bool) (turns : nat) : R :=
  match turns with
  | O => 0
  | S n => mean_of (2 ^ 64) (fun r =>
             match zig_first r with
             | Ret (FValue x) => indicator (A x)
             | Ret (FTail rabs) => prob_tail A rabs n
             | Ret (FWedge x idx) =>
                 mean_of (2 ^ 53) (fun u =>
                   match zig_wedge x idx u with
                   | Ret (Some y) => indicator (A y)
                   | Ret None => prob_normal A n
                   | _ => 0
                   end)
             | _ => 0
             end)
  end.

(** the events: a number in (0, t], a number in [-t, 0), any number *)
Definition positive_upto (t : R) (x : R) : bool := if Rlt_dec 0 x then if Rle_dec x t then true else false else false.
Definition negative_upto (t : R) (x : R) : bool := positive_upto t (- x).
Definition any_number (x : R) : bool := true.
