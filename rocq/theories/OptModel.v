(** Model of the parsing of option arguments of the command-line tools (c/io.h:
    default_minmax, read_minmax, read_bitvector). *)
From Coq Require Import List ZArith Lia Bool Arith Ascii.
From Verif Require Import Base.
Import ListNotations.
Open Scope Z_scope.

(** What reading an option argument can result in: a vector and the new number
    of objectives, NULL (the callers print an error and stop), or the end of the
    program ("all objectives ignored", EXIT_SUCCESS). *)
Inductive parsed (A : Type) : Type :=
| Parsed (v : list A) (nobj : nat)
| ParsedNull
| ParsedExit.
Arguments Parsed {A}. Arguments ParsedNull {A}. Arguments ParsedExit {A}.

(** io.h:47-56; ASSUME(nobj > 0) *)
Definition default_minmax (nobj : nat) (default_value : Z) : outcome (list Z) :=
  _ <- assert_ (0 <? nobj)%nat ;;
  _ <- assert_ ((default_value =? -1) || (default_value =? 1)) ;;
  Ret (repeat default_value nobj).

(** io.h:78-97: one iteration per character; [None] is "return NULL".  [buf] is
    the allocated array. *)
Fixpoint minmax_loop (str : list ascii) (i : nat) (buf : list Z) (all_ignored : bool)
  : outcome (option (list Z * bool)) :=
  match str with
  | [] => Ret (Some (buf, all_ignored))
  | ch :: str' =>
    if ascii_dec ch "+"%char then
      buf <- wr buf i 1 ;; minmax_loop str' (S i) buf false
    else if ascii_dec ch "-"%char then
      buf <- wr buf i (-1) ;; minmax_loop str' (S i) buf false
    else if ascii_dec ch "0"%char then
      buf <- wr buf i 0 ;; minmax_loop str' (S i) buf all_ignored
    else if ascii_dec ch "i"%char then
      buf <- wr buf i 0 ;; minmax_loop str' (S i) buf all_ignored
    else Ret None
  end.
(** io.h:105-107 *)
Fixpoint cycle_loop (len : nat) (is : list nat) (buf : list Z) : outcome (list Z) :=
  match is with
  | [] => Ret buf
  | i :: is' =>
    v <- rd buf i ;;
    buf <- wr buf (len + i) v ;;
    cycle_loop len is' buf
  end.
(** io.h:70-111; [garbage] is the content of the block returned by malloc.  The
    returned list is the whole allocated array. *)
Definition read_minmax (garbage : Z) (str : list ascii) (nobj : nat) : outcome (parsed Z) :=
  let len := length str in
  let buf := repeat garbage (Nat.max len nobj) in
  r <- minmax_loop str 0 buf true ;;
  match r with
  | None => Ret ParsedNull
  | Some (buf, true) => Ret ParsedExit
  | Some (buf, false) =>
    buf <- (if (len <? nobj)%nat then cycle_loop len (seq 0 (nobj - len)) buf else Ret buf) ;;
    Ret (Parsed buf len)
  end.

(** io.h:130-141 *)
Fixpoint bitvector_loop (str : list ascii) (i : nat) (buf : list bool) : outcome (option (list bool)) :=
  match str with
  | [] => Ret (Some buf)
  | ch :: str' =>
    if ascii_dec ch "1"%char then buf <- wr buf i true ;; bitvector_loop str' (S i) buf
    else if ascii_dec ch "0"%char then buf <- wr buf i false ;; bitvector_loop str' (S i) buf
    else Ret None
  end.
(** io.h:113-144; [None] is str == NULL *)
Definition read_bitvector (garbage : bool) (str : option (list ascii)) (nobj : nat) : outcome (parsed bool) :=
  match str with
  | None => _ <- assert_ (0 <? nobj)%nat ;; Ret (Parsed (repeat false nobj) nobj)
  | Some str =>
    r <- bitvector_loop str 0 (repeat garbage (length str)) ;;
    match r with
    | None => Ret ParsedNull
    | Some buf => Ret (Parsed buf (length str))
    end
  end.
