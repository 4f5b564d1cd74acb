(** Specification vocabulary for C38/C39: rows grouped by their label. *)
From Coq Require Import List ZArith Bool Arith.
From Verif Require Import Base.
Import ListNotations.
Open Scope Z_scope.

(** The rows of [x] whose label is [v], in their original order. *)
Fixpoint rows_with {A} (x : list A) (labels : list Z) (v : Z) : list A :=
  match x, labels with
  | a :: x', l :: labels' =>
    if l =? v then a :: rows_with x' labels' v else rows_with x' labels' v
  | _, _ => []
  end.

(** The distinct labels, in order of first appearance. *)
Fixpoint in_order_of_appearance (labels : list Z) : list Z :=
  match labels with
  | [] => []
  | l :: labels' => l :: filter (fun w => negb (w =? l)) (in_order_of_appearance labels')
  end.

(** How many rows before row [i] have the same label as row [i]. *)
Definition rank_in_set (labels : list Z) (i : nat) : nat :=
  countb (Z.eqb (nth i labels 0)) (firstn i labels).
