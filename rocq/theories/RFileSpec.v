(** Specification for C69: matrices of numbered sets.  Nothing here refers to the model. *)
From Coq Require Import List ZArith Lia Bool Arith Sorted.
From Verif Require Import Base GroupSpec IoSpec.
Import ListNotations.
Open Scope Z_scope.

(** the rows of all the sets, each followed by the number of its set: 1, 2, 3, ... ([one] is
    the number 1) *)
Definition numbered (one : Z) (sets : list (list (list Z))) : list (list Z) :=
  map (fun rk => fst rk ++ [Z.of_nat (snd rk) * one]) (labelled_from 1 sets).

(** [vs] are the different labels, in increasing order *)
Definition distinct_labels (labels vs : list Z) : Prop :=
  StronglySorted Z.lt vs /\ forall v, In v vs <-> In v labels.

(** the last element of a row *)
Definition set_of_row (r : list Z) : Z := last r 0.
(** [r] with another number of its set *)
Definition renumber (f : Z -> Z) (r : list Z) : list Z := removelast r ++ [f (set_of_row r)].
