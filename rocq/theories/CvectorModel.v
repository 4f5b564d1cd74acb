(** Model of c/cvector.h (growable vectors).

    A vector is its allocated block and its size: v->_capacity - v->_begin is
    the length of the block, v->_end - v->_begin the size.  Memory obtained from
    realloc has unspecified contents ([junk]); [maxn] = SIZE_MAX / sizeof(BASE_TYPE).
    Failure of realloc is an assertion failure in C and not modelled. *)
From Coq Require Import List ZArith Lia Bool Arith.
From Verif Require Import Base.
Import ListNotations.
Open Scope Z_scope.

Section Vec.
Context {A : Type}.
Variables (junk : nat -> A) (maxn : Z).

Record vec : Type := mkVec { v_block : list A; v_size : nat }.

(** cvector.h:26-41 ctor_zero, 75-78 capacity, 70-73 size, 82-84 empty *)
Definition ctor_zero : vec := mkVec [] 0.
Definition capacity (v : vec) : nat := length (v_block v).
Definition empty (v : vec) : bool := (v_size v =? 0)%nat.

(** cvector.h:104-116 reserve *)
Definition reserve (v : vec) (n : nat) : outcome vec :=
  if (capacity v <? n)%nat then
    _ <- assert_ (Z.of_nat n <=? maxn) ;;
    Ret (mkVec (firstn n (v_block v) ++ map junk (seq (length (v_block v)) (n - length (v_block v)))) (v_size v))
  else Ret v.

(** cvector.h:35-41 ctor *)
Definition ctor (n : nat) : outcome vec := reserve ctor_zero n.

(** cvector.h:126-137 push_back *)
Definition push_back (v : vec) (x : A) : outcome vec :=
  v <- (if (v_size v =? capacity v)%nat
        then reserve v (if (capacity v =? 0)%nat then 8 else 2 * capacity v) else Ret v) ;;
  b <- wr (v_block v) (v_size v) x ;;
  Ret (mkVec b (S (v_size v))).

(** cvector.h:142-148 pop_back *)
Definition pop_back (v : vec) : outcome (A * vec) :=
  _ <- assert_ (negb (empty v)) ;;
  x <- rd (v_block v) (v_size v - 1) ;;
  Ret (x, mkVec (v_block v) (v_size v - 1)).

(** cvector.h:152-157 front, 161-166 back *)
Definition front (v : vec) : outcome A := _ <- assert_ (negb (empty v)) ;; rd (v_block v) 0.
Definition back (v : vec) : outcome A := _ <- assert_ (negb (empty v)) ;; rd (v_block v) (v_size v - 1).

(** cvector.h:180-185 at, 188-193 set (the assertions compare with <=) *)
Definition at_ (v : vec) (pos : nat) : outcome A :=
  _ <- assert_ (pos <=? v_size v)%nat ;; rd (v_block v) pos.
Definition set_ (v : vec) (pos : nat) (e : A) : outcome vec :=
  _ <- assert_ (pos <=? v_size v)%nat ;;
  b <- wr (v_block v) pos e ;; Ret (mkVec b (v_size v)).

(** a client: a sequence of operations and what it observes *)
Inductive op : Type := Push (x : A) | Pop | Reserve (n : nat) | Set_ (pos : nat) (x : A)
                     | At_ (pos : nat) | Front | Back | Size.
Inductive obs : Type := ONone | OVal (x : A) | OSize (n : nat).

Definition step (v : vec) (o : op) : outcome (vec * obs) :=
  match o with
  | Push x => v <- push_back v x ;; Ret (v, ONone)
  | Pop => r <- pop_back v ;; Ret (snd r, OVal (fst r))
  | Reserve n => v <- reserve v n ;; Ret (v, ONone)
  | Set_ pos x => v <- set_ v pos x ;; Ret (v, OVal x)
  | At_ pos => x <- at_ v pos ;; Ret (v, OVal x)
  | Front => x <- front v ;; Ret (v, OVal x)
  | Back => x <- back v ;; Ret (v, OVal x)
  | Size => Ret (v, OSize (v_size v))
  end.
Fixpoint run (v : vec) (os : list op) : outcome (vec * list obs) :=
  match os with
  | [] => Ret (v, [])
  | o :: os => r <- step v o ;; s <- run (fst r) os ;; Ret (fst s, snd r :: snd s)
  end.
End Vec.
Arguments vec : clear implicits.
Arguments op : clear implicits.
Arguments obs : clear implicits.
