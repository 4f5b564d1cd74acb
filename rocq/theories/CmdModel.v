(** Model of the parts shared by the command-line programs: the files they read
    and write, the end of the program, and c/cmdline.h. *)
From Coq Require Import Ascii String List ZArith Lia Bool Arith.
From Verif Require Import Base IoModel.
Import ListNotations.
Local Open Scope list_scope.
Open Scope Z_scope.

(** What a program can see and change: the contents of the files (a file that is
    absent or cannot be read has no contents), standard input and standard
    output.  Standard error is not modelled. *)
Record world : Type := mkWorld { w_files : string -> option text; w_stdin : text; w_stdout : text }.

(** A program step: it continues with a value, or the program ends with an exit
    status; or an assertion fails, an array is overrun, .... *)
Definition prog (X : Type) : Type := world -> outcome ((X + Z) * world).
Definition pret {X} (x : X) : prog X := fun w => Ret (inl x, w).
Definition pbind {X Y} (p : prog X) (f : X -> prog Y) : prog Y :=
  fun w => r <- p w ;;
           match r with
           | (inl x, w1) => f x w1
           | (inr status, w1) => Ret (inr status, w1)
           end.
Notation "x <~ e1 ;; e2" := (pbind e1 (fun x => e2)) (at level 61, e1 at next level, right associativity) : outcome_scope.
(** exit (status) *)
Definition exit_ {X} (status : Z) : prog X := fun w => Ret (inr status, w).
Definition EXIT_SUCCESS : Z := 0.
Definition EXIT_FAILURE : Z := 1.
(** a computation without effects *)
Definition lift {X} (o : outcome X) : prog X := fun w => x <- o ;; Ret (inl x, w).

(** an output stream: stdout, or a file opened with fopen (name, "w") *)
Inductive ofile : Type := Stdout | OFile (name : string).
Definition set_file (fs : string -> option text) (name : string) (c : option text) : string -> option text :=
  fun n => if String.eqb n name then c else fs n.
Definition fwrite (f : ofile) (t : text) : prog unit :=
  fun w => match f with
           | Stdout => Ret (inl tt, mkWorld (w_files w) (w_stdin w) (w_stdout w ++ t))
           | OFile n => Ret (inl tt, mkWorld (set_file (w_files w) n
                                        (Some (match w_files w n with Some c => c | None => [] end ++ t)))
                                      (w_stdin w) (w_stdout w))
           end.

Section Cmd.
(** whether a file can be created (or truncated) *)
Variable can_create : string -> bool.

(** fopen (name, "w"); the callers stop with EXIT_FAILURE if it fails
    (main-hv.c:223-227, epsilon.c:116-120, igd.c:136-140, nondominated.c:556-560) *)
Definition open_output (name : string) : prog ofile :=
  fun w => if can_create name
           then Ret (inl (OFile name), mkWorld (set_file (w_files w) name (Some [])) (w_stdin w) (w_stdout w))
           else Ret (inr EXIT_FAILURE, w).

Variable junk : Z.
Variable junk_int : nat.
Variable scan : text -> option (Z * text).
Variable data_inc : nat.

(** io_priv.h:19-171 read_double_data, followed by cmdline.h:47-64
    handle_read_data_error.  [None]: standard input, which is read to its end.
    Numbers are integers, in a unit small enough for the data. *)
Definition read_input (filename : option string) (nobj : nat) : prog (dataset Z) :=
  fun w =>
    match filename with
    | None =>
        r <- read_objective_t_data Z junk junk_int scan data_inc (w_stdin w) (mk_ds Z nobj [] 0 []) ;;
        let w := mkWorld (w_files w) [] (w_stdout w) in
        if fst r =? 0 then Ret (inl (snd r), w) else Ret (inr EXIT_FAILURE, w)
    | Some n =>
        match w_files w n with
        | None => Ret (inr EXIT_FAILURE, w)        (* ERROR_FOPEN *)
        | Some t =>
            r <- read_objective_t_data Z junk junk_int scan data_inc t (mk_ds Z nobj [] 0 []) ;;
            if fst r =? 0 then Ret (inl (snd r), w) else Ret (inr EXIT_FAILURE, w)
        end
    end.

(** the rows [from .. from + count) of an array of rows of [nobj] numbers:
    &data[nobj * from] *)
Definition rows_at (data : list Z) (nobj from count : nat) : outcome (list point) :=
  if (nobj * (from + count) <=? length data)%nat
  then Ret (map (fun i => firstn nobj (skipn (nobj * i) data)) (seq from count))
  else OutOfBounds.

(** for (n = 0, cumsize = 0; n < nruns; cumsize = cumsizes[n], n++) body (main-hv.c:275,
    epsilon.c:140, igd.c:192) *)
Fixpoint for_sets (body : list point -> prog unit) (data : list Z) (nobj : nat) (cumsizes : list nat)
  (n k cumsize : nat) : prog unit :=
  match k with
  | O => pret tt
  | S k' =>
      c <~ lift (rd cumsizes n) ;;
      pts <~ lift (rows_at data nobj cumsize (c - cumsize)) ;;
      _ <~ body pts ;;
      for_sets body data nobj cumsizes (S n) k' c
  end.

(** cmdline.h:75-96 read_reference_set: the reference set, its size and the number
    of objectives *)
Definition read_reference_set (filename : string) (nobj : nat) : prog (list Z * nat * nat) :=
  ds <~ read_input (Some filename) nobj ;;
  _ <~ lift (assert_ (ds_nsets _ ds =? 1)%nat) ;;
  size <~ lift (rd (ds_cumsizes _ ds) 0) ;;
  pret (ds_data _ ds, size, ds_nobjs _ ds).

(** main-hv.c:217-228, epsilon.c:112-121, igd.c:132-141: the output of a file *)
Definition output_of (filename : option string) (suffix : option string) : prog ofile :=
  match filename, suffix with
  | Some n, Some s => open_output (n ++ s)%string
  | _, _ => pret Stdout
  end.
End Cmd.

Section Points.
(** strtod(): a number at the start of the text (after white space) and the rest of
    the text; [None]: no number *)
Variable strtod : text -> option (Z * text).

(** main-hv.c:107-115: do { ... } while (cursor != endp).  [buf] is the allocated
    array (its length is [size]).  Result: the array, k and the final cursor. *)
Fixpoint read_point_loop (fuel : nat) (buf : list Z) (junk : Z) (k : nat) (endp : text) : outcome (list Z * nat * text) :=
  match fuel with
  | O => OutOfFuel
  | S fuel' =>
      let cursor := endp in
      let buf := if (k =? length buf)%nat then buf ++ repeat junk 10 else buf in
      match strtod cursor with
      | Some (x, endp) => buf <- wr buf k x ;; read_point_loop fuel' buf junk (S k) endp
      | None => buf <- wr buf k 0 ;; Ret (buf, S k, cursor)
      end
  end.

(** main-hv.c:97-128 read_reference (= nondominated.c:136-163 read_point): the array
    and the number of objectives; [None] is NULL *)
Definition read_point (junk : Z) (str : text) : outcome (option (list Z * nat)) :=
  r <- read_point_loop (S (length str)) (repeat junk 10) junk 0 str ;;
  let '(buf, k, cursor) := r in
  if forallb isspace cursor then
    if (k =? 1)%nat then Ret None else Ret (Some (buf, (k - 1)%nat))
  else Ret None.
End Points.
