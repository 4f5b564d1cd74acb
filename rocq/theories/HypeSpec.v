(** Specification of the Monte-Carlo estimate: the box between the ideal point and
    the reference point, the location of a sample in it, and dominance. *)
From Coq Require Import List ZArith Lia Bool Arith QArith.
From Verif Require Import NormSpec.
Import ListNotations.
Open Scope Q_scope.

(** the location in objective space of a sample given relative to the box *)
Definition location (ideal ref s : list Q) : list Q :=
  map (fun d => nth d ideal 0 + nth d s 0 * (nth d ref 0 - nth d ideal 0)) (seq 0 2).

(** some point of the data is at least as good as the location in both objectives *)
Definition attained (mx : list bool) (data : list (list Q)) (ideal ref s : list Q) : Prop :=
  exists p, In p data /\ q_wdom 2 mx p (location ideal ref s).

(** [k] of the elements of the list satisfy [P] *)
Inductive holds_for {A} (P : A -> Prop) : list A -> nat -> Prop :=
| hf_nil : holds_for P [] 0
| hf_yes : forall x l k, P x -> holds_for P l k -> holds_for P (x :: l) (S k)
| hf_no : forall x l k, ~ P x -> holds_for P l k -> holds_for P (x :: l) k.

(** the ideal point is strictly better than the reference point *)
Definition proper_box (mx : list bool) (ideal ref : list Q) : Prop :=
  forall d, (d < 2)%nat -> if nth d mx false then nth d ref 0 < nth d ideal 0
                           else nth d ideal 0 < nth d ref 0.

(** the area of the box *)
Definition box_area (ideal ref : list Q) : Q :=
  (nth 0 ref 0 - nth 0 ideal 0) * (nth 1 ref 0 - nth 1 ideal 0).
