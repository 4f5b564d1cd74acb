(** Specification of R matrices: their rows.  Nothing here refers to the model of the
    R functions. *)
From Coq Require Import List ZArith Lia Bool Arith.
From Verif Require Import Base RMatModel.
Import ListNotations.
Open Scope Z_scope.

(** [x] is the matrix with these rows, all of length [d]: values[j * n + i] is element
    [j] of row [i] (values are stored by columns) *)
Definition has_rows {A} (x : rmat A) (d : nat) (rows : list (list A)) : Prop :=
  nrow x = length rows /\ ncol x = d /\ length (values x) = (length rows * d)%nat /\
  Forall (fun r => length r = d) rows /\
  forall na i j, (i < length rows)%nat -> (j < d)%nat -> nth (j * length rows + i) (values x) na = nth j (nth i rows []) na.

(** one flag (or value) for each of the [d] objectives: either given, or the same one for
    all of them *)
Definition for_each {A} (d : nat) (l l' : list A) : Prop := l' = l /\ length l = d \/ exists a, l = [a] /\ l' = repeat a d.
