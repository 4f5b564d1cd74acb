(** What a text file of data sets means, line by line.  Independent of the
    reader: nothing of IoModel.v is used but the names of characters. *)
Require Import List ZArith Lia Bool Ascii.
Import ListNotations.
From Verif Require Import IoModel.
Open Scope Z_scope.

Definition blank_char (c : ascii) : Prop := c = space \/ c = tab \/ c = cr.

(** the lines of a text: the pieces between the newline characters *)
Fixpoint lines_of (t : text) : list text :=
  match t with
  | [] => [[]]
  | c :: t' =>
      if (c =? nl)%char then [] :: lines_of t'
      else match lines_of t' with l :: ls => (c :: l) :: ls | [] => [[c]] end
  end.

(** lines that separate sets: comments and lines of blanks *)
Definition separator (l : text) : Prop :=
  (exists r, l = hash :: r) \/ Forall blank_char l.

Section Spec.
Variable num : Type.
(** the numeral at the start of a text: its value and what follows it *)
Variable scan : text -> option (num * text).

(** what "%lf" is required to do: it consumes at least one character, and a
    numeral does not extend beyond the end of its line *)
Definition valid_scanner : Prop :=
  (forall t x r, scan t = Some (x, r) -> exists tok, tok <> [] /\ t = tok ++ r) /\
  (forall l r, ~ In nl l ->
     scan (l ++ nl :: r) =
       match scan l with Some (x, l') => Some (x, l' ++ nl :: r) | None => None end).

(** the numbers on a line: numerals with blanks before, between and after *)
Inductive numbers : text -> list num -> Prop :=
| numbers_nil : forall w, Forall blank_char w -> numbers w []
| numbers_cons : forall w c l x r xs,
    Forall blank_char w -> ~ blank_char c ->
    scan (c :: l) = Some (x, r) -> numbers r xs -> numbers (w ++ c :: l) (x :: xs).

(** a line is a separator, or a row of numbers *)
Inductive line_is : text -> option (list num) -> Prop :=
| line_sep : forall l, separator l -> line_is l None
| line_row : forall l xs, ~ separator l -> numbers l xs -> line_is l (Some xs).

Definition starts_with_row (ls : list (option (list num))) : bool :=
  match ls with Some _ :: _ => true | _ => false end.

(** maximal runs of consecutive rows *)
Fixpoint group (ls : list (option (list num))) : list (list (list num)) :=
  match ls with
  | [] => []
  | None :: ls' => group ls'
  | Some r :: ls' =>
      if starts_with_row ls'
      then match group ls' with g :: gs => (r :: g) :: gs | [] => [[r]] end
      else [r] :: group ls'
  end.

Definition all_of_width (w : nat) (rs : list (option (list num))) : Prop :=
  forall xs, In (Some xs) rs -> length xs = w.

(** the text describes these sets of rows of [w] numbers *)
Definition describes (t : text) (w : nat) (sets : list (list (list num))) : Prop :=
  exists rs, Forall2 line_is (lines_of t) rs /\ all_of_width w rs /\ sets = group rs /\ sets <> [].

(** the first line that is wrong is [l]; [rs] are the lines before it, whose
    rows all have [w] numbers *)
Definition first_error (t : text) (w : nat) (rs : list (option (list num))) (l : text) : Prop :=
  exists pre post, lines_of t = pre ++ l :: post /\ Forall2 line_is pre rs /\ all_of_width w rs /\
    ~ separator l.
End Spec.

(** cumulative sizes of sets *)
Fixpoint cum_from {A} (n : nat) (sets : list (list A)) : list nat :=
  match sets with [] => [] | s :: sets' => (n + length s)%nat :: cum_from (n + length s) sets' end.

(** the memory layout of a list of sets of rows of [w] numbers *)
Definition layout {num} (w : nat) (sets : list (list (list num))) : dataset num :=
  mk_ds num w (cum_from 0 sets) (length sets) (concat (concat sets)).

(** rows with the number of their set, counted from [k] *)
Fixpoint labelled_from {A} (k : nat) (sets : list (list A)) : list (A * nat) :=
  match sets with [] => [] | s :: sets' => map (fun r => (r, k)) s ++ labelled_from (S k) sets' end.

(** what the format of a number has to satisfy: a numeral that is read as the
    number [val x] when a space or nothing follows it, padded with spaces *)
Definition valid_printer {num} (scan : text -> option (num * text)) (fmt : num -> text) (val : num -> num) : Prop :=
  forall x, exists c numeral k, fmt x = (c :: numeral) ++ repeat space k /\
    ~ blank_char c /\ c <> hash /\ ~ In nl (c :: numeral) /\ ~ In vt (c :: numeral) /\ ~ In ff (c :: numeral) /\
    forall r, (r = [] \/ exists r', r = space :: r') -> scan ((c :: numeral) ++ r) = Some (val x, r).
