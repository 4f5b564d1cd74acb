(** What it means for the pointer structure of the hypervolume code to be a height
    balanced search tree that holds a given sequence of nodes. *)
From Coq Require Import List ZArith Lia Bool Arith.
From Verif Require Import Base AvlModel.
Import ListNotations.
Open Scope nat_scope.

(** mathematical binary trees of nodes *)
Inductive btree := Leaf | Node (l : btree) (n : nat) (r : btree).
Fixpoint inorder (t : btree) : list nat :=
  match t with Leaf => [] | Node l n r => inorder l ++ n :: inorder r end.
Fixpoint height (t : btree) : nat :=
  match t with Leaf => 0 | Node l _ r => S (Nat.max (height l) (height r)) end.
(** the heights of the two children of a node differ by at most one *)
Fixpoint balanced (t : btree) : Prop :=
  match t with
  | Leaf => True
  | Node l _ r => height l <= S (height r) /\ height r <= S (height l) /\ balanced l /\ balanced r
  end.

(** the pointer [root] leads to a memory image of [t] whose root has parent [pr]:
    child pointers, parent pointers and stored depths are all right *)
Fixpoint points_to (s : avl) (t : btree) (pr : option nat) (root : option nat) : Prop :=
  match t with
  | Leaf => root = None
  | Node l n r =>
      root = Some n /\ par s n = pr /\ dep s n = height t /\
      points_to s l (Some n) (lft s n) /\ points_to s r (Some n) (rgt s n)
  end.

(** the doubly linked list through next and prev visits [xs], between [p] and [q] *)
Fixpoint linked (s : avl) (p : option nat) (xs : list nat) (q : option nat) : Prop :=
  match xs with
  | [] => True
  | x :: xs' =>
      prv s x = p /\ nxt s x = match xs' with y :: _ => Some y | [] => q end /\ linked s (Some x) xs' q
  end.
Fixpoint last_error (xs : list nat) : option nat :=
  match xs with [] => None | [x] => Some x | _ :: xs' => last_error xs' end.

(** [s] is a threaded AVL tree holding the sequence [xs] of distinct nodes *)
Definition holds (s : avl) (xs : list nat) : Prop :=
  NoDup xs /\
  (exists t, inorder t = xs /\ balanced t /\ points_to s t None (tp s)) /\
  hd_ s = hd_error xs /\ tl_ s = last_error xs /\ linked s None xs None.

(** fewer nodes than could ever be allocated (2^120); below it the depth of a
    balanced tree fits the unsigned char in which it is stored *)
Definition allocatable (xs : list nat) : Prop := (Z.of_nat (length xs) < 2 ^ 120)%Z.
