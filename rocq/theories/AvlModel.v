(** Model of the AVL tree used by the hypervolume code (c/hv.c:97-489, compiled with
    AVL_DEPTH).

    Tree nodes are numbers; a pointer is [option nat], NULL is [None], and
    dereferencing NULL is the outcome [OutOfBounds].  Every field of struct
    avl_node_t is a map from nodes to values; the field [item] never changes and
    appears as the function [cmp] that compares the item searched for with the item
    of a node.  depth is an unsigned char. *)
From Coq Require Import List ZArith Lia Bool Arith.
From Verif Require Import Base.
Import ListNotations.
Open Scope Z_scope.

Record avl := mkAvl {
  nxt : nat -> option nat;  (* node->next *)
  prv : nat -> option nat;  (* node->prev *)
  par : nat -> option nat;  (* node->parent *)
  lft : nat -> option nat;  (* node->left *)
  rgt : nat -> option nat;  (* node->right *)
  dep : nat -> nat;         (* node->depth *)
  hd_ : option nat;         (* avltree->head *)
  tl_ : option nat;         (* avltree->tail *)
  tp : option nat           (* avltree->top *)
}.

Definition fset {A} (f : nat -> A) (k : nat) (v : A) : nat -> A :=
  fun i => if (i =? k)%nat then v else f i.
Definition set_nxt p v s := mkAvl (fset (nxt s) p v) (prv s) (par s) (lft s) (rgt s) (dep s) (hd_ s) (tl_ s) (tp s).
Definition set_prv p v s := mkAvl (nxt s) (fset (prv s) p v) (par s) (lft s) (rgt s) (dep s) (hd_ s) (tl_ s) (tp s).
Definition set_par p v s := mkAvl (nxt s) (prv s) (fset (par s) p v) (lft s) (rgt s) (dep s) (hd_ s) (tl_ s) (tp s).
Definition set_lft p v s := mkAvl (nxt s) (prv s) (par s) (fset (lft s) p v) (rgt s) (dep s) (hd_ s) (tl_ s) (tp s).
Definition set_rgt p v s := mkAvl (nxt s) (prv s) (par s) (lft s) (fset (rgt s) p v) (dep s) (hd_ s) (tl_ s) (tp s).
Definition set_dep p v s := mkAvl (nxt s) (prv s) (par s) (lft s) (rgt s) (fset (dep s) p v) (hd_ s) (tl_ s) (tp s).
Definition set_hd v s := mkAvl (nxt s) (prv s) (par s) (lft s) (rgt s) (dep s) v (tl_ s) (tp s).
Definition set_tl v s := mkAvl (nxt s) (prv s) (par s) (lft s) (rgt s) (dep s) (hd_ s) v (tp s).
Definition set_tp v s := mkAvl (nxt s) (prv s) (par s) (lft s) (rgt s) (dep s) (hd_ s) (tl_ s) v.

(** if (p) p->parent = v *)
Definition set_par_opt (p : option nat) v s := match p with Some q => set_par q v s | None => s end.

Definition deref (p : option nat) : outcome nat := match p with Some q => Ret q | None => OutOfBounds end.

(** hv.c:133-137 NODE_DEPTH, L_DEPTH, R_DEPTH, CALC_DEPTH *)
Definition node_depth (s : avl) (p : option nat) : nat := match p with Some q => dep s q | None => 0 end.
Definition l_depth s n := node_depth s (lft s n).
Definition r_depth s n := node_depth s (rgt s n).
Definition uchar (x : nat) : nat := Z.to_nat (Z.of_nat x mod 256).
Definition calc_depth s n : nat :=
  uchar ((if (r_depth s n <? l_depth s n)%nat then l_depth s n else r_depth s n) + 1).

(** hv.c:140-145 avl_check_balance *)
Definition check_balance s n : Z :=
  let d := Z.of_nat (r_depth s n) - Z.of_nat (l_depth s n) in
  if d <? -1 then -1 else if 1 <? d then 1 else 0.

(** the address [superparent] of the pointer to a node: &parent->left,
    &parent->right or &avltree->top (hv.c:309-311, 362-364) *)
Inductive slot := SLeft (p : nat) | SRight (p : nat) | STop.
Definition opt_is (o : option nat) (n : nat) : bool := match o with Some m => (m =? n)%nat | None => false end.
Definition slot_of s (n : nat) (parent : option nat) : slot :=
  match parent with
  | Some p => if opt_is (lft s p) n then SLeft p else SRight p
  | None => STop
  end.
Definition set_slot (sl : slot) v s : avl :=
  match sl with SLeft p => set_lft p v s | SRight p => set_rgt p v s | STop => set_tp v s end.

(** hv.c:354-489 avl_rebalance, the body of the loop; returns the next node *)
Definition rebalance_step (s : avl) (n : nat) : outcome (avl * option nat) :=
  let parent := par s n in
  let superparent := slot_of s n parent in
  let b := check_balance s n in
  if b =? -1 then
    child <- deref (lft s n) ;;
    if (r_depth s child <=? l_depth s child)%nat then
      let s := set_lft n (rgt s child) s in
      let s := set_par_opt (lft s n) (Some n) s in
      let s := set_rgt child (Some n) s in
      let s := set_par n (Some child) s in
      let s := set_slot superparent (Some child) s in
      let s := set_par child parent s in
      let s := set_dep n (calc_depth s n) s in
      let s := set_dep child (calc_depth s child) s in
      Ret (s, parent)
    else
      gchild <- deref (rgt s child) ;;
      let s := set_lft n (rgt s gchild) s in
      let s := set_par_opt (lft s n) (Some n) s in
      let s := set_rgt child (lft s gchild) s in
      let s := set_par_opt (rgt s child) (Some child) s in
      let s := set_rgt gchild (Some n) s in
      let s := set_par_opt (rgt s gchild) (Some gchild) s in
      let s := set_lft gchild (Some child) s in
      let s := set_par_opt (lft s gchild) (Some gchild) s in
      let s := set_slot superparent (Some gchild) s in
      let s := set_par gchild parent s in
      let s := set_dep n (calc_depth s n) s in
      let s := set_dep child (calc_depth s child) s in
      let s := set_dep gchild (calc_depth s gchild) s in
      Ret (s, parent)
  else if b =? 1 then
    child <- deref (rgt s n) ;;
    if (l_depth s child <=? r_depth s child)%nat then
      let s := set_rgt n (lft s child) s in
      let s := set_par_opt (rgt s n) (Some n) s in
      let s := set_lft child (Some n) s in
      let s := set_par n (Some child) s in
      let s := set_slot superparent (Some child) s in
      let s := set_par child parent s in
      let s := set_dep n (calc_depth s n) s in
      let s := set_dep child (calc_depth s child) s in
      Ret (s, parent)
    else
      gchild <- deref (lft s child) ;;
      let s := set_rgt n (lft s gchild) s in
      let s := set_par_opt (rgt s n) (Some n) s in
      let s := set_lft child (rgt s gchild) s in
      let s := set_par_opt (lft s child) (Some child) s in
      let s := set_lft gchild (Some n) s in
      let s := set_par_opt (lft s gchild) (Some gchild) s in
      let s := set_rgt gchild (Some child) s in
      let s := set_par_opt (rgt s gchild) (Some gchild) s in
      let s := set_slot superparent (Some gchild) s in
      let s := set_par gchild parent s in
      let s := set_dep n (calc_depth s n) s in
      let s := set_dep child (calc_depth s child) s in
      let s := set_dep gchild (calc_depth s gchild) s in
      Ret (s, parent)
  else Ret (set_dep n (calc_depth s n) s, parent).
(** the loop; [FUEL] bounds the number of iterations and is never reached (AvlProofs.v) *)
Definition FUEL : nat := 256.
Fixpoint rebalance_loop (fuel : nat) (s : avl) (n : option nat) : outcome avl :=
  match n with
  | None => Ret s
  | Some n => match fuel with
              | O => OutOfFuel
              | S fuel => r <- rebalance_step s n ;; rebalance_loop fuel (fst r) (snd r)
              end
  end.
Definition avl_rebalance (s : avl) (n : option nat) : outcome avl := rebalance_loop FUEL s n.

(** hv.c:196-199 avl_clear_tree; 201-210 avl_clear_node *)
Definition avl_clear_tree (s : avl) : avl := set_hd None (set_tl None (set_tp None s)).
Definition avl_clear_node (n : nat) (s : avl) : avl := set_dep n 1%nat (set_rgt n None (set_lft n None s)).

(** hv.c:212-218 avl_insert_top *)
Definition avl_insert_top (n : nat) (s : avl) : outcome avl :=
  let s := avl_clear_node n s in
  let s := set_par n None (set_nxt n None (set_prv n None s)) in
  Ret (set_hd (Some n) (set_tl (Some n) (set_tp (Some n) s))).

(** hv.c:223-252 avl_insert_before, 254-282 avl_insert_after: the two functions call
    each other at most twice; [calls] bounds the nesting *)
Fixpoint insert_before (calls : nat) (node : option nat) (n : nat) (s : avl) : outcome avl :=
  match calls with
  | O => OutOfFuel
  | S calls =>
      match node with
      | None => match tl_ s with
                | Some t => insert_after calls (Some t) n s
                | None => avl_insert_top n s
                end
      | Some a =>
          match lft s a with
          | Some _ => insert_after calls (prv s a) n s
          | None =>
              let s := avl_clear_node n s in
              let s := set_nxt n (Some a) s in
              let s := set_par n (Some a) s in
              let s := set_prv n (prv s a) s in
              let s := match prv s a with Some p => set_nxt p (Some n) s | None => set_hd (Some n) s end in
              let s := set_prv a (Some n) s in
              let s := set_lft a (Some n) s in
              avl_rebalance s (Some a)
          end
      end
  end
with insert_after (calls : nat) (node : option nat) (n : nat) (s : avl) : outcome avl :=
  match calls with
  | O => OutOfFuel
  | S calls =>
      match node with
      | None => match hd_ s with
                | Some h => insert_before calls (Some h) n s
                | None => avl_insert_top n s
                end
      | Some a =>
          match rgt s a with
          | Some _ => insert_before calls (nxt s a) n s
          | None =>
              let s := avl_clear_node n s in
              let s := set_prv n (Some a) s in
              let s := set_par n (Some a) s in
              let s := set_nxt n (nxt s a) s in
              let s := match nxt s a with Some p => set_prv p (Some n) s | None => set_tl (Some n) s end in
              let s := set_nxt a (Some n) s in
              let s := set_rgt a (Some n) s in
              avl_rebalance s (Some a)
          end
      end
  end.
Definition avl_insert_before (node : option nat) (n : nat) (s : avl) : outcome avl := insert_before 3 node n s.
Definition avl_insert_after (node : option nat) (n : nat) (s : avl) : outcome avl := insert_after 3 node n s.

(** hv.c:289-343 avl_unlink_node *)
Definition avl_unlink_node (a : nat) (s : avl) : outcome avl :=
  let s := match prv s a with Some p => set_nxt p (nxt s a) s | None => set_hd (nxt s a) s end in
  let s := match nxt s a with Some p => set_prv p (prv s a) s | None => set_tl (prv s a) s end in
  let parent := par s a in
  let superparent := slot_of s a parent in
  match lft s a, rgt s a with
  | None, r =>
      let s := set_slot superparent r s in
      let s := set_par_opt r parent s in
      avl_rebalance s parent
  | Some l, None =>
      let s := set_slot superparent (Some l) s in
      let s := set_par l parent s in
      avl_rebalance s parent
  | Some l, Some r =>
      subst_ <- deref (prv s a) ;;
      sb <- (if (subst_ =? l)%nat then Ret (s, Some subst_)
            else
              balnode <- deref (par s subst_) ;;
              let s := set_rgt balnode (lft s subst_) s in
              let s := set_par_opt (rgt s balnode) (Some balnode) s in
              let s := set_lft subst_ (Some l) s in
              let s := set_par l (Some subst_) s in
              Ret (s, Some balnode)) ;;
      let s := fst sb in
      let s := set_rgt subst_ (Some r) s in
      let s := set_par subst_ parent s in
      let s := set_par r (Some subst_) s in
      let s := set_slot superparent (Some subst_) s in
      avl_rebalance s (snd sb)
  end.

(** hv.c:147-178 avl_search_closest; [cmp n] is compare (item, n->item) *)
Fixpoint search_loop (fuel : nat) (cmp : nat -> Z) (s : avl) (n : nat) : outcome (nat * Z) :=
  match fuel with
  | O => OutOfFuel
  | S fuel =>
      let c := cmp n in
      if c <? 0 then match lft s n with Some m => search_loop fuel cmp s m | None => Ret (n, -1) end
      else if 0 <? c then match rgt s n with Some m => search_loop fuel cmp s m | None => Ret (n, 1) end
      else Ret (n, 0)
  end.
Definition avl_search_closest (cmp : nat -> Z) (s : avl) : outcome (option nat * Z) :=
  match tp s with
  | None => Ret (None, 0)
  | Some n => r <- search_loop FUEL cmp s n ;; Ret (Some (fst r), snd r)
  end.
