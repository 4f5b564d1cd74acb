(** Model of the R layer, part 5: data sets in files, r/R/read_datasets.R,
    r/R/rbind_datasets.R and R_read_datasets of r/src/Rmoocore.c.

    Numbers are integers in a unit small enough for the data; the number 1 is [one].
    A file is its contents.  Names of columns are texts.  Whether the file exists, paths,
    connections and the decompression of xz files are not modelled. *)
From Coq Require Import List ZArith Lia Bool Arith Ascii.
From Verif Require Import Base IoModel GroupModel RMatModel RVorobModel.
Import ListNotations.
Open Scope Z_scope.

Section File.
Variables (junk : Z) (junk_int : nat) (scan : text -> option (Z * text)) (data_inc : nat).
(** contents of a fresh R matrix *)
Variable fresh : nat -> Z.
Variable one : Z.
(** as.character(i) *)
Variable itoa : nat -> text.

(** ** r/src/Rmoocore.c *)
(** c/common.h:144-155 matrix_transpose_double: the positions in src, in the order of the
    positions in dst *)
Definition transposed (nrows ncols : nat) : list nat :=
  flat_map (fun j => map (fun i => (j + i * ncols)%nat) (seq 0 nrows)) (seq 0 ncols).
Fixpoint copy_from (cells : list nat) (pos : nat) (src dst : list Z) : outcome (list Z) :=
  match cells with
  | [] => Ret dst
  | k :: cells => v <- rd src k ;; dst <- wr dst pos v ;; copy_from cells (S pos) src dst
  end.
(** Rmoocore.c:276-281, the last column; [n] rows to go *)
Fixpoint put_sets (n k j pos : nat) (cumsizes : list nat) (rdata : list Z) : outcome (list Z) :=
  match n with
  | O => Ret rdata
  | S n =>
      c <- rd cumsizes j ;;
      let j := if (k =? c)%nat then S j else j in
      rdata <- wr rdata pos (Z.of_nat (j + 1) * one) ;;
      put_sets n (S k) j (S pos) cumsizes rdata
  end.
(** Rmoocore.c:259-286.  In the R package errprintf is Rf_error (c/common.h:12), so that
    reading does not return after the errors that print a message: all of them but
    READ_INPUT_FILE_EMPTY (c/io_priv.h:67-70).  The result of the call is not used.
    cumsizes[nruns - 1] is before the array if nruns = 0. *)
Definition R_read_datasets (t : text) : outcome (rmat Z) :=
  r <- read_objective_t_data Z junk junk_int scan data_inc t (mk_ds Z 0 [] 0 []) ;;
  _ <- assert_ ((fst r =? 0) || (fst r =? READ_INPUT_FILE_EMPTY)) ;;
  let ds := snd r in
  let nruns := ds_nsets Z ds in
  let nobj := ds_nobjs Z ds in
  ntotal <- (if (nruns =? 0)%nat then OutOfBounds else rd (ds_cumsizes Z ds) (nruns - 1)) ;;
  rdata <- copy_from (transposed ntotal nobj) 0 (ds_data Z ds) (map fresh (seq 0 (ntotal * (nobj + 1)))) ;;
  rdata <- put_sets ntotal 0 0 (ntotal * nobj) (ds_cumsizes Z ds) rdata ;;
  Ret (mkMat ntotal (nobj + 1) rdata).

(** ** r/R/read_datasets.R *)
Definition set_name : text := ["s"; "e"; "t"]%char.
(** read_datasets.R:67-71: the matrix and the names of its columns; a wrong number of names
    is an error.  [None]: col_names is missing *)
Definition r_read_datasets (file : text) (col_names : option (list text)) : outcome (rmat Z * list text) :=
  out <- R_read_datasets file ;;
  let names := match col_names with
               | Some names => names
               | None => map (fun i => "V"%char :: itoa i) (seq 1 (ncol out - 1))
               end in
  _ <- assert_ (length (names ++ [set_name]) =? ncol out)%nat ;;
  Ret (out, names ++ [set_name]).
(** read_datasets.R:51-54: writeLines(text, file) *)
Definition write_lines (strings : list text) : text := flat_map (fun s => s ++ [nl]) strings.
Definition r_read_text (strings : list text) (col_names : option (list text)) : outcome (rmat Z * list text) :=
  r_read_datasets (write_lines strings) col_names.

(** a number in the output of write.table () *)
Variable fmt : Z -> text.
(** cat (s, file = file, append = append), write.table (..., append = append) *)
Definition put_text (append : bool) (old new : text) : text := if append then old ++ new else new.
(** paste0 (l, collapse = sep) *)
Definition paste_collapse (sep : text) (l : list text) : text :=
  match l with [] => [] | a :: l => a ++ flat_map (fun b => sep ++ b) l end.
(** write.table (x, row.names = FALSE, col.names = FALSE) *)
Definition write_table (x : rmat Z) : text :=
  flat_map (fun i => paste_collapse [space] (map (fun j => fmt (cell 0 x i j)) (seq 0 (ncol x))) ++ [nl]) (seq 0 (nrow x)).
(** read_datasets.R:94-113; [old] is what the file contains before, [names] the names of
    the columns of x or NULL.  x[[1]] of an empty list is an error.  Matrices of one
    column are not modelled (1L:nobjs is then c(1, 0)): OutOfBounds. *)
Definition r_write_datasets (x : rmat Z) (names : option (list text)) (old : text) : outcome text :=
  let setcol := ncol x in
  _ <- (if (setcol <=? 1)%nat then OutOfBounds else Ret tt) ;;
  let sets := r_col 0 x (setcol - 1) in
  let nobjs := (setcol - 1)%nat in
  let col_names := option_map (firstn nobjs) names in
  let xs := r_split (r_init 0 x) sets in
  let '(append, file) :=
    match col_names with
    | Some ns => (true, put_text false old ([hash; space] ++ paste_collapse [tab] ns ++ [space; nl]))
    | None => (false, old)
    end in
  match xs with
  | [] => AssertFailed
  | x1 :: xs =>
      let file := put_text append file (write_table x1) in
      Ret (fold_left (fun file xi => put_text true (put_text true file [nl]) (write_table xi)) xs file)
  end.

(** ** r/R/rbind_datasets.R *)
(** min (l), max (l); +Inf and -Inf for an empty vector *)
Definition r_min (l : list Z) : option Z := match l with [] => None | a :: l => Some (fold_left Z.min l a) end.
Definition r_max (l : list Z) : option Z := match l with [] => None | a :: l => Some (fold_left Z.max l a) end.
Definition is_one (m : option Z) : bool := match m with Some v => v =? one | None => false end.
(** rbind_datasets.R:13-24 *)
Definition r_rbind_datasets (x y : rmat Z) : outcome (rmat Z) :=
  let setcol := ncol x in
  _ <- assert_ (2 <? setcol)%nat ;;
  _ <- assert_ (ncol x =? ncol y)%nat ;;
  _ <- assert_ (is_one (r_min (r_col 0 x (setcol - 1)))) ;;
  _ <- assert_ (is_one (r_min (r_col 0 y (setcol - 1)))) ;;
  let m := match r_max (r_col 0 x (setcol - 1)) with Some m => m | None => 0 end in
  let y := matrix_of (nrow y) (ncol y) (fun i j => if (j =? setcol - 1)%nat then cell 0 y i j + m else cell 0 y i j) in
  Ret (r_rbind 0 x y).
End File.
