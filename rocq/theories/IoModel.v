(** Model of the text input and output of data sets: c/io.c, c/io_priv.h.

    Text is a list of characters; the position in the stream is the rest of the
    text.  The number type and the conversion made by "%lf" (or "%d") are
    parameters, see [scanner]; a concrete decimal scanner is in IoFmt.v.
    Opening and closing the file, the error messages and the overflow of the
    int counters (2^31 numbers or more) are not modelled. *)
Require Import List ZArith Lia Bool Ascii.
Import ListNotations.
From Verif Require Import Base.
Open Scope Z_scope.

Notation text := (list ascii).
Definition nl : ascii := "010"%char.
Definition tab : ascii := "009"%char.
Definition cr : ascii := "013"%char.
Definition vt : ascii := "011"%char.
Definition ff : ascii := "012"%char.
Definition space : ascii := " "%char.
Definition hash : ascii := "#"%char.

(** the scanset "[ \t\r]" *)
Definition is_blank (c : ascii) : bool := (c =? space)%char || (c =? tab)%char || (c =? cr)%char.
(** C isspace(), used by "%lf" to skip leading white space *)
Definition isspace (c : ascii) : bool := is_blank c || (c =? nl)%char || (c =? vt)%char || (c =? ff)%char.

Fixpoint drop_while (f : ascii -> bool) (t : text) : text :=
  match t with [] => [] | c :: t' => if f c then drop_while f t' else t end.

(** io.h:16-21 and EOF *)
Definition EOF : Z := -1.
Definition READ_INPUT_FILE_EMPTY : Z := -1.
Definition READ_INPUT_WRONG_INITIAL_DIM : Z := -2.
Definition ERROR_CONVERSION : Z := -4.
Definition ERROR_COLUMNS : Z := -5.

(** io.c:53-56, fscanf (instream, "%*[ \t\r]") *)
Definition skip_trailing_whitespace (t : text) : text := drop_while is_blank t.

(** io.c:58-62, fscanf (instream, "%1[\n]", newline) *)
Definition fscanf_newline (t : text) : Z * text :=
  match t with
  | [] => (EOF, [])
  | c :: t' => if (c =? nl)%char then (1, t') else (0, t)
  end.

(** io.c:68, fscanf (instream, "%1[#]%*[^\n]", newline) *)
Definition fscanf_comment (t : text) : Z * text :=
  match t with
  | [] => (EOF, [])
  | c :: t' => if (c =? hash)%char then (1, drop_while (fun c => negb (c =? nl)%char) t') else (0, t)
  end.

(** io.c:65-72 *)
Definition skip_comment_line (t : text) : Z * text :=
  let '(r, t1) := fscanf_comment t in
  let t2 := if r =? 0 then skip_trailing_whitespace t1 else t1 in
  fscanf_newline t2.

Section Reader.
Variable num : Type.
(** value of memory that was never written *)
Variable junk : num.
Variable junk_int : nat.
(** the conversion of "%lf" applied to text that does not start with white
    space: the number and the rest of the text *)
Variable scan : text -> option (num * text).
(** io_priv.h:11, DATA_INC = 4096 / sizeof(objective_t) *)
Variable data_inc : nat.

(** fscanf (instream, "%lf", &number) *)
Definition fscanf_number (t : text) : option (num * text) := scan (drop_while isspace t).

(** realloc(): keeps the common prefix, the rest is undefined *)
Definition realloc {A} (undef : A) (a : list A) (n : nat) : list A :=
  firstn n a ++ repeat undef (n - length a).

(** the local variables of io_priv.h:23-49 *)
Record st := mk_st {
  nobjs : nat; nsets : nat;
  cumsizes : list nat; sizessize : nat;
  data : list num; datasize : nat; ntotal : nat }.

(** io_priv.h:84-119: the numbers of one row.  [inl]: goto read_data_finish. *)
Fixpoint read_row (fuel : nat) (t : text) (column : nat) (s : st) : outcome ((Z * st) + (text * nat * st)) :=
  match fuel with
  | O => OutOfFuel
  | S f =>
      let column := S column in
      match fscanf_number t with
      | None => Ret (inl (ERROR_CONVERSION, s))
      | Some (number, t1) =>
          let '(ds, d) := if (ntotal s =? datasize s)%nat
                          then ((datasize s + data_inc)%nat, realloc junk (data s) (datasize s + data_inc))
                          else (datasize s, data s) in
          d' <- wr d (ntotal s) number ;;
          let s' := mk_st (nobjs s) (nsets s) (cumsizes s) (sizessize s) d' ds (S (ntotal s)) in
          let '(retval, t2) := fscanf_newline (skip_trailing_whitespace t1) in
          if retval =? 0 then read_row f t2 column s' else Ret (inr (t2, column, s'))
      end
  end.

(** io_priv.h:80-142: the rows of one set *)
Fixpoint read_set (fuel : nat) (t : text) (s : st) : outcome ((Z * st) + (text * st)) :=
  match fuel with
  | O => OutOfFuel
  | S f =>
      r <- read_row fuel t 0 s ;;
      match r with
      | inl e => Ret (inl e)
      | inr (t1, column, s1) =>
          let ok := ((nobjs s1 =? 0) || (column =? nobjs s1))%nat in
          if ok then
            c <- rd (cumsizes s1) (nsets s1) ;;
            cs <- wr (cumsizes s1) (nsets s1) (S c) ;;
            let s2 := mk_st (if (nobjs s1 =? 0)%nat then column else nobjs s1) (nsets s1)
                        cs (sizessize s1) (data s1) (datasize s1) (ntotal s1) in
            let '(retval, t2) := skip_comment_line t1 in
            if retval =? 0 then read_set f t2 s2 else Ret (inr (t2, s2))
          else
            c0 <- rd (cumsizes s1) 0 ;;
            Ret (inl ((if (c0 =? 0)%nat then READ_INPUT_WRONG_INITIAL_DIM else ERROR_COLUMNS), s1))
      end
  end.

(** io_priv.h:61-65 and 147-150: do { retval = skip_comment_line } while (retval == 1) *)
Fixpoint skip_lines (fuel : nat) (t : text) : outcome (Z * text) :=
  match fuel with
  | O => OutOfFuel
  | S f => let '(retval, t1) := skip_comment_line t in
           if retval =? 1 then skip_lines f t1 else Ret (retval, t1)
  end.

(** io_priv.h:72-152: all the sets *)
Fixpoint read_sets (fuel : nat) (t : text) (s : st) : outcome (Z * st) :=
  match fuel with
  | O => OutOfFuel
  | S f =>
      let '(ss, cs) := if (nsets s =? sizessize s)%nat
                       then ((sizessize s + data_inc)%nat, realloc junk_int (cumsizes s) (sizessize s + data_inc))
                       else (sizessize s, cumsizes s) in
      prev <- (if (nsets s =? 0)%nat then Ret 0%nat else rd cs (nsets s - 1)) ;;
      cs' <- wr cs (nsets s) prev ;;
      r <- read_set fuel t (mk_st (nobjs s) (nsets s) cs' ss (data s) (datasize s) (ntotal s)) ;;
      match r with
      | inl e => Ret e
      | inr (t1, s1) =>
          let s2 := mk_st (nobjs s1) (S (nsets s1)) (cumsizes s1) (sizessize s1) (data s1) (datasize s1) (ntotal s1) in
          sk <- skip_lines fuel t1 ;;
          if (fst sk =? EOF) then Ret (0, s2) else read_sets f (snd sk) s2
      end
  end.

(** what the caller sees: *nobjs_p, *cumsizes_p, *nsets_p and *data_p *)
Record dataset := mk_ds { ds_nobjs : nat; ds_cumsizes : list nat; ds_nsets : nat; ds_data : list num }.

(** round a count up to a multiple of DATA_INC: io_priv.h:47-48 *)
Definition round_up (n : nat) : nat := ((n - 1) / data_inc + 1) * data_inc.

(** io_priv.h:19-171 on an existing data set [ds] *)
Definition read_objective_t_data (t : text) (ds : dataset) : outcome (Z * dataset) :=
  init <- (if (ds_nsets ds =? 0)%nat then Ret (0, 0, 0)%nat
           else c <- rd (ds_cumsizes ds) (ds_nsets ds - 1) ;;
                let ntotal := (ds_nobjs ds * c)%nat in
                Ret (ntotal, round_up (ds_nsets ds), round_up ntotal)) ;;
  let '(ntotal0, sizessize0, datasize0) := init in
  let s0 := mk_st (ds_nobjs ds) (ds_nsets ds) (realloc junk_int (ds_cumsizes ds) sizessize0) sizessize0
              (realloc junk (ds_data ds) datasize0) datasize0 ntotal0 in
  let fuel := S (length t) in
  sk <- skip_lines fuel t ;;
  r <- (if (fst sk =? EOF) then Ret (READ_INPUT_FILE_EMPTY, s0)
        else
          x <- read_sets fuel (snd sk) s0 ;;
          (if (fst x =? 0) then
             let s := snd x in
             Ret (0, mk_st (nobjs s) (nsets s) (realloc junk_int (cumsizes s) (nsets s)) (nsets s)
                       (realloc junk (data s) (ntotal s)) (ntotal s) (ntotal s))
           else Ret x)) ;;
  let s := snd r in
  Ret (fst r, mk_ds (nobjs s) (cumsizes s) (nsets s) (data s)).

(** io.c:109-117: the copy with the set number in the last column.  A row of
    the result is a pair of the values and the set number. *)
Fixpoint label_rows (fuel : nat) (nrows nobjs : nat) (d : list num) (cs : list nat) (set i : nat)
  : outcome (list (list num * nat)) :=
  if (i <? nrows)%nat then
    match fuel with
    | O => OutOfFuel
    | S f =>
        _ <- (if (i * nobjs + nobjs <=? length d)%nat then Ret tt else OutOfBounds) ;;
        let row := (firstn nobjs (skipn (i * nobjs) d), set) in
        c <- rd cs (set - 1) ;;
        rest <- label_rows f nrows nobjs d cs (if (S i =? c)%nat then S set else set) (S i) ;;
        Ret (row :: rest)
    end
  else Ret [].

(** io.c:93-125: error code or the rows with their set numbers *)
Definition read_datasets (t : text) : outcome (Z + list (list num * nat)) :=
  r <- read_objective_t_data t (mk_ds 0 [] 0 []) ;;
  let '(error, ds) := r in
  if error =? 0 then
    nrows <- rd (ds_cumsizes ds) (ds_nsets ds - 1) ;;
    rows <- label_rows nrows nrows (ds_nobjs ds) (ds_data ds) (ds_cumsizes ds) 1 0 ;;
    Ret (inr rows)
  else Ret (inl error).

(** io.h:9, fprintf (stream, "%-22.15g", x): a parameter that includes the
    padding *)
Variable fmt : num -> text.

(** io.c:128-135 *)
Definition vector_fprintf (v : list num) : text :=
  match v with [] => [] | x :: v' => fmt x ++ flat_map (fun y => space :: fmt y) v' end.

(** io.c:163-169 and 181-189: the rows [size..cumsizes[set])] *)
Fixpoint write_rows (fuel : nat) (d : list num) (ncols size stop : nat) (write_p : nat -> bool) : outcome (text * nat) :=
  if (size <? stop)%nat then
    match fuel with
    | O => OutOfFuel
    | S f =>
        line <- (if write_p size then
                   if (ncols * size + ncols <=? length d)%nat
                   then Ret (vector_fprintf (firstn ncols (skipn (ncols * size) d)) ++ [nl]) else OutOfBounds
                 else Ret []) ;;
        r <- write_rows f d ncols (S size) stop write_p ;;
        Ret (line ++ fst r, snd r)
    end
  else Ret ([], size).

Fixpoint write_sets_from (d : list num) (ncols : nat) (cs : list nat) (size : nat) (write_p : nat -> bool) : outcome text :=
  match cs with
  | [] => Ret []
  | c :: cs' =>
      r <- write_rows (c - size) d ncols size c write_p ;;
      rest <- write_sets_from d ncols cs' (snd r) write_p ;;
      Ret (fst r ++ [nl] ++ rest)
  end.

(** io.c:157-172 *)
Definition write_sets (d : list num) (ncols : nat) (cs : list nat) : outcome text :=
  write_sets_from d ncols cs 0 (fun _ => true).
(** io.c:174-193 *)
Definition write_sets_filtered (d : list num) (ncols : nat) (cs : list nat) (write_p : list bool) : outcome text :=
  write_sets_from d ncols cs 0 (fun i => nth i write_p false).
End Reader.
