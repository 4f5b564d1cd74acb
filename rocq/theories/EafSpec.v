(** Specification of empirical attainment functions.  Nothing here refers to the
    modelled code. *)
From Coq Require Import List ZArith Lia Bool Arith QArith.
From Verif Require Import Base Spec.
Import ListNotations.
Open Scope Z_scope.

(** a set (run) attains the location [z] if one of its points is at least as good
    as [z] in all [dim] objectives (all minimised) *)
Definition attains (dim : nat) (run : list point) (z : point) : Prop :=
  exists p, In p run /\ wdom (minimise dim) p z.

(** at least [l] of the sets attain [z] *)
Definition attained_by_at_least (dim l : nat) (runs : list (list point)) (z : point) : Prop :=
  exists ks : list nat, NoDup ks /\ length ks = l /\
    forall k, In k ks -> (k < length runs)%nat /\ attains dim (nth k runs []) z.

(** cumulative sizes of a list of sets *)
Fixpoint cumsizes_from (acc : nat) (runs : list (list point)) : list nat :=
  match runs with
  | [] => []
  | r :: runs => (acc + length r)%nat :: cumsizes_from (acc + length r) runs
  end.
Definition cumsizes (runs : list (list point)) : list nat := cumsizes_from 0 runs.

(** strictly increasing in the first coordinate, strictly decreasing in the second *)
Definition staircase (s : list point) : Prop :=
  forall i j, (i < j < length s)%nat ->
    coord (row s i) 0 < coord (row s j) 0 /\ coord (row s j) 1 < coord (row s i) 1.

(** exactly [m] of the sets attain [z] *)
Definition attained_by_exactly (dim m : nat) (runs : list (list point)) (z : point) : Prop :=
  exists ks : list nat, NoDup ks /\ length ks = m /\
    forall k, In k ks <-> (k < length runs)%nat /\ attains dim (nth k runs []) z.

(** [s] is the attainment surface of level [l] for two objectives: a strict
    staircase that weakly dominates exactly the locations attained by at least
    [l] of the sets *)
Definition is_surface2d (runs : list (list point)) (l : nat) (s : list point) : Prop :=
  wf_points 2 s /\ staircase s /\
  forall z, length z = 2%nat ->
    ((exists p, In p s /\ wdom (minimise 2) p z) <-> attained_by_at_least 2 l runs z).

(** [c] is the difference of the EAFs at [z] between the first half of the sets
    and the second half, scaled to [intervals] *)
Definition diff_value (runs : list (list point)) (intervals : nat) (z : point) (c : Q) : Prop :=
  let n := length runs in
  exists L R, attained_by_exactly 2 L (firstn (n / 2) runs) z /\
              attained_by_exactly 2 R (skipn (n / 2) runs) z /\
    (c == inject_Z (Z.of_nat intervals) *
          (inject_Z (Z.of_nat L) / inject_Z (Z.of_nat (n / 2)) -
           inject_Z (Z.of_nat R) / inject_Z (Z.of_nat (n - n / 2))))%Q.
