(** Specification for the Python functions: what an argument contains and what is left as it
    was.  Of the model only the types are used. *)
From Coq Require Import List ZArith Lia Bool Arith.
From Verif Require Import Base Spec PyIndModel.
Import ListNotations.
Open Scope Z_scope.

(** the argument has [d] columns and these rows *)
Definition contents (m : memory) (data : py_data) (d : nat) (rows : list point) : Prop :=
  wf_points d rows /\
  exists x, a_ncol x = d /\ a_rows x = rows /\
    match data with
    | Nested y | Converted y => y = x
    | Array a | Shared a => nth_error m a = Some x
    end.
(** every array that was in memory is as it was *)
Definition kept (m m' : memory) : Prop := exists new, m' = m ++ new.
(** the argument is of another class than numpy.ndarray and shares its floats *)
Definition is_shared (data : py_data) : Prop := match data with Shared _ => True | _ => False end.

(** the flags mark the rows that no row dominates *)
Definition marks_nondominated (mx : list bool) (rows : list point) (flags : list bool) : Prop :=
  length flags = length rows /\
  forall i, (i < length rows)%nat -> (nth i flags false = true <-> ~ exists q, In q rows /\ dom mx q (nth i rows [])).
(** the same, but of equal rows only one is marked *)
Definition marks_one_of_each (mx : list bool) (rows : list point) (flags : list bool) : Prop :=
  length flags = length rows /\
  (forall i, (i < length rows)%nat -> nth i flags false = true -> ~ exists q, In q rows /\ dom mx q (nth i rows [])) /\
  (forall i j, (i < length rows)%nat -> (j < length rows)%nat -> nth i flags false = true -> nth j flags false = true -> i <> j -> nth i rows [] <> nth j rows []) /\
  (forall i, (i < length rows)%nat -> exists j, (j < length rows)%nat /\ nth j flags false = true /\ wdom mx (nth j rows []) (nth i rows [])).
(** the rows that are marked, in their order *)
Definition marked (rows : list point) (flags : list bool) : list point :=
  map (fun i => nth i rows []) (filter (fun i => nth i flags false) (seq 0 (length rows))).
(** the objectives and the number of the set of a row: its last element *)
Definition objectives (r : point) : point := removelast r.
Definition set_of (r : point) : Z := last r 0.
