(** Specification of the Monte-Carlo estimate with real-valued samples. *)
From Coq Require Import List ZArith Reals.
From Verif Require Import Base MtSpec.
Import ListNotations.
Open Scope R_scope.

(** a point is at least as good as a location in both objectives *)
Definition r_wdom (mx : list bool) (p : list R) (loc : nat -> R) : Prop :=
  forall d, (d < 2)%nat -> if nth d mx false then loc d <= nth d p 0 else nth d p 0 <= loc d.

(** some point of the data is at least as good as the location *)
Definition r_attained (mx : list bool) (data : list (list R)) (loc : nat -> R) : Prop :=
  exists p, In p data /\ r_wdom mx p loc.

(** the location in objective space of a sample given relative to the box *)
Definition r_location (ideal ref s : list R) (d : nat) : R :=
  nth d ideal 0 + nth d s 0 * (nth d ref 0 - nth d ideal 0).

(** the ideal point is strictly better than the reference point *)
Definition r_proper_box (mx : list bool) (ideal ref : list R) : Prop :=
  forall d, (d < 2)%nat -> if nth d mx false then nth d ref 0 < nth d ideal 0
                           else nth d ideal 0 < nth d ref 0.

(** the area of the box *)
Definition r_area (ideal ref : list R) : R :=
  Rabs ((nth 0 ref 0 - nth 0 ideal 0) * (nth 1 ref 0 - nth 1 ideal 0)).

(** the location at [z] standard deviations from the goal along the diagonal of
    the box; the standard deviation is a quarter of the box.  The goal is [mu]
    where the objective is minimised and [- mu] where it is maximised. *)
Definition on_diagonal (mx : list bool) (mu ideal ref : list R) (z : R) (d : nat) : R :=
  (if nth d mx false then - nth d mu 0 else nth d mu 0) + z / 4 * (nth d ref 0 - nth d ideal 0).

(** a sample of the exponential distribution, relative to the box, from two
    fractions given by their numerators over 2^53 *)
Definition exp_sample (mu : R) (exp_first : bool) (u : Z * Z) : list R :=
  let f := fun k => IZR k / IZR (2 ^ 53) in
  if exp_first then [- mu * ln (f (fst u)); f (snd u)] else [f (fst u); - mu * ln (f (snd u))].
(** the numerator the logarithm is applied to *)
Definition exp_draw (exp_first : bool) (u : Z * Z) : Z := if exp_first then fst u else snd u.

(** the numerators over 2^53 of the fractions drawn one after the other from the words
    of the generator, and the i-th pair of them *)
Definition fraction_drawn (x : nat -> Z) (i : nat) : Z :=
  (mt_temper (x (mt_n + 2 * i)%nat) / 2 ^ 5 * 2 ^ 26 + mt_temper (x (mt_n + 2 * i + 1)%nat) / 2 ^ 6)%Z.
Definition pair_drawn (x : nat -> Z) (i : nat) : Z * Z := (fraction_drawn x (2 * i), fraction_drawn x (2 * i + 1)).

(** the pairs of numbers a sampler returns one after the other from a state of its generator *)
Fixpoint drawn_pairs {S : Type} (sampler : S -> outcome (R * S)) (st : S) (zs : list (R * R)) : Prop :=
  match zs with
  | [] => True
  | (z, z') :: zs => exists s s', sampler st = Ret (z, s) /\ sampler s = Ret (z', s') /\ drawn_pairs sampler s' zs
  end.
