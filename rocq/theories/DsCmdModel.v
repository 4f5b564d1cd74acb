(** Model of the dominatedsets program: c/dominatedsets.c.

    Not modelled: getopt (the options are given in the order in which getopt
    returns them), --help, --version, standard error, int overflow, and the
    deallocation.  Numbers are integers, in a unit small enough for the data. *)
From Coq Require Import Ascii String List ZArith Lia Bool Arith.
From Verif Require Import Base NondomModel IoModel OptModel EpsModel CmdModel NdCmdModel.
Import ListNotations.
Local Open Scope list_scope.
Open Scope Z_scope.

(** the options: dominatedsets.c:335-378.  [DsUnknown]: getopt returns '?'.  The
    flag of --verbose and --quiet has no effect (dominatedsets.c:477-478). *)
Inductive ds_option : Type := DsQuiet | DsVerbose | DsPercentages | DsNoCheck | DsObj (arg : text) | DsUnknown.
(** dominatedsets.c:91-93 and 314, 317: percentages_flag, check_flag, minmax, dim *)
Record ds_opts : Type := mkDs { d_percent : bool; d_check : bool; d_minmax : option (list Z); d_dim : nat }.
Definition ds_opts0 : ds_opts := mkDs false true None 0.

(** printf ("%*s", width, s) *)
Definition pad (width : nat) (s : text) : text := repeat " "%char (width - length s) ++ s.

Section Ds.
Variable sort2d : list point -> list nat.
Variable junk : Z.
Variable junk_int : nat.
Variable scan : text -> option (Z * text).
Variable data_inc : nat.
(** malloc (n) returns a block with at least [n] bytes: the number of bytes that it has *)
Variable block : nat -> nat.
(** "%d"; "%.1f" of a * 100.0 / b; the text that usage () prints (dominatedsets.c:70-88) *)
Variable fmt_int : Z -> text.
Variable fmt_percent : Z -> Z -> text.
Variable usage : text.

Definition ds_option_step (o : ds_opts) (opt : ds_option) : prog ds_opts :=
  match opt with
  | DsQuiet | DsVerbose => pret o
  | DsPercentages => pret (mkDs true (d_check o) (d_minmax o) (d_dim o))
  | DsNoCheck => pret (mkDs (d_percent o) false (d_minmax o) (d_dim o))
  | DsObj arg =>
      r <~ lift (read_minmax junk arg (d_dim o)) ;;
      match r with
      | Parsed buf len => pret (mkDs (d_percent o) (d_check o) (Some buf) len)
      | ParsedNull => exit_ EXIT_FAILURE
      | ParsedExit => exit_ EXIT_SUCCESS              (* io.h:102-105 *)
      end
  | DsUnknown => exit_ EXIT_FAILURE
  end.
Fixpoint ds_options (o : ds_opts) (opts : list ds_option) : prog ds_opts :=
  match opts with
  | [] => pret o
  | opt :: opts => o <~ ds_option_step o opt ;; ds_options o opts
  end.

(** dominatedsets.c:394-402 *)
Fixpoint ds_read (filenames : list string) (dim : nat) : prog (list (dataset Z) * nat) :=
  match filenames with
  | [] => pret ([], dim)
  | f :: filenames =>
      ds <~ read_input junk junk_int scan data_inc (Some f) dim ;;
      r <~ ds_read filenames (ds_nobjs _ ds) ;;
      pret (ds :: fst r, snd r)
  end.

(** the sets of a file: points[k] + dim * cumsizes[k][n - 1], cumsizes[k][n] - cumsizes[k][n - 1]
    (dominatedsets.c:440-453 and 291-306).  Simplification: they are separated once, before
    the loops. *)
Definition ds_sets (dim : nat) (ds : dataset Z) : outcome (list (list point)) :=
  last <- rd (ds_cumsizes _ ds) (ds_nsets _ ds - 1) ;;
  rows <- rows_at (ds_data _ ds) dim 0 last ;;
  slices rows (firstn (ds_nsets _ ds) (ds_cumsizes _ ds)) 0.

(** the elements of a list, computed and concatenated *)
Fixpoint cat_map {A} (f : A -> outcome text) (l : list A) : outcome text :=
  match l with
  | [] => Ret []
  | x :: l => t <- f x ;; ts <- cat_map f l ;; Ret (t ++ ts)
  end.
Fixpoint all_of {A B} (f : A -> outcome B) (l : list A) : outcome (list B) :=
  match l with
  | [] => Ret []
  | x :: l => y <- f x ;; ys <- all_of f l ;; Ret (y :: ys)
  end.

(** dominatedsets.c:408-417: the short names.  strncpy (p, buffer, 32) always writes 32 bytes. *)
Fixpoint ds_names (k : nat) (filenames : list string) : prog (list text) :=
  match filenames with
  | [] => pret []
  | f :: filenames =>
      let buffer := firstn 31 ("f"%char :: fmt_int (Z.of_nat k + 1)) in
      _ <~ lift (if (32 <=? block (length buffer + 1))%nat then Ret tt else OutOfBounds) ;;
      _ <~ fwrite Stdout (list_ascii_of_string "# " ++ buffer ++ list_ascii_of_string ": " ++ list_ascii_of_string f ++ [nl]) ;;
      names <~ ds_names (S k) filenames ;;
      pret (buffer :: names)
  end.

(** dominatedsets.c:421-426 *)
Definition ds_info (x : text * dataset Z) : outcome text :=
  c0 <- rd (ds_cumsizes _ (snd x)) 0 ;;
  rest <- cat_map (fun n => c <- rd (ds_cumsizes _ (snd x)) n ;; Ret (list_ascii_of_string ", " ++ fmt_int (Z.of_nat c)))
            (seq 1 (ds_nsets _ (snd x) - 1)) ;;
  Ret (list_ascii_of_string "# " ++ fst x ++ list_ascii_of_string ": " ++ fmt_int (Z.of_nat (ds_nsets _ (snd x))) ++ list_ascii_of_string " (" ++
       fmt_int (Z.of_nat c0) ++ rest ++ list_ascii_of_string ")" ++ [nl]).
(** dominatedsets.c:429-434 *)
Definition ds_objectives (dim : nat) (minmax : list Z) : text :=
  list_ascii_of_string "# objectives (" ++ fmt_int (Z.of_nat dim) ++ list_ascii_of_string "): " ++
  map (fun m => if m <? 0 then "-"%char else if m >? 0 then "+"%char else "i"%char) minmax ++ [nl].

(** dominatedsets.c:436-459: check_failed *)
Fixpoint ds_check_sets (dim : nat) (minmax : list Z) (sets : list (list point)) : outcome bool :=
  match sets with
  | [] => Ret false
  | A :: sets =>
      failed_pos <- find_dominated_point sort2d A dim minmax ;;
      rest <- ds_check_sets dim minmax sets ;;
      Ret ((0 <=? failed_pos) || rest)
  end.
Fixpoint ds_check (dim : nat) (minmax : list Z) (files : list (list (list point))) : outcome bool :=
  match files with
  | [] => Ret false
  | sets :: files =>
      a <- ds_check_sets dim minmax sets ;;
      b <- ds_check dim minmax files ;;
      Ret (a || b)
  end.

(** dominatedsets.c:469-473, the loop over j for one k; results is one array of
    numfiles * numfiles numbers (dominatedsets.c:460-467) *)
Fixpoint ds_row (dim : nat) (minmax : list Z) (n k : nat) (A : list (list point)) (j : nat) (files : list (list (list point))) (results : list Z)
  : outcome (list Z) :=
  match files with
  | [] => Ret results
  | B :: files =>
      r <- cmpparetos dim minmax A B 0 0 ;;
      results <- wr results (k * n + j) (fst r) ;;
      results <- wr results (j * n + k) (snd r) ;;
      ds_row dim minmax n k A (S j) files results
  end.
Fixpoint ds_pairs (dim : nat) (minmax : list Z) (n k : nat) (files : list (list (list point))) (results : list Z) : outcome (list Z) :=
  match files with
  | [] => Ret results
  | A :: files =>
      results <- ds_row dim minmax n k A (S k) files results ;;
      ds_pairs dim minmax n (S k) files results
  end.

(** dominatedsets.c:95-171 print_results *)
Fixpoint ds_max (results : list Z) (l : list nat) (m : Z) : outcome Z :=
  match l with
  | [] => Ret m
  | i :: l => x <- rd results i ;; ds_max results l (Z.max m x)
  end.
(** a table: the header row and the rows (dominatedsets.c:119-133 and 143-158) *)
Definition ds_table (names : list text) (name_len col_len : nat) (cell : nat -> nat -> outcome text) : outcome text :=
  rows <- cat_map (fun k =>
            name <- rd names k ;;
            cells <- cat_map (fun j => c <- (if (k =? j)%nat then Ret (list_ascii_of_string "--") else cell k j) ;;
                                       Ret (list_ascii_of_string " " ++ pad col_len c)) (seq 0 (length names)) ;;
            Ret ([nl] ++ pad name_len name ++ cells)) (seq 0 (length names)) ;;
  Ret ([nl] ++ pad name_len [] ++ concat (map (fun name => list_ascii_of_string " " ++ pad col_len name) names) ++ rows).
(** dominatedsets.c:163-169: rank *)
Fixpoint ds_rank (results : list Z) (n k : nat) (l : list nat) (rank : Z) : outcome Z :=
  match l with
  | [] => Ret rank
  | j :: l => if (k =? j)%nat then ds_rank results n k l rank
              else x <- rd results (j * n + k) ;; ds_rank results n k l (rank + x)
  end.
Definition print_results (percent : bool) (names : list text) (nruns : list nat) (results : list Z) : outcome text :=
  let n := length names in
  let name_len := fold_left Nat.max (map (@length ascii) names) 0%nat in
  max_result <- ds_max results (flat_map (fun k => map (fun j => (k * n + j)%nat) (seq 0 n)) (seq 0 n)) 0 ;;
  let col_len := Nat.max name_len (length (firstn 31 (fmt_int max_result))) in
  t1 <- ds_table names name_len col_len (fun k j => x <- rd results (k * n + j) ;; Ret (fmt_int x)) ;;
  t2 <- (if percent then
           t <- ds_table names name_len (Nat.max col_len 5) (fun k j =>
                  x <- rd results (k * n + j) ;; a <- rd nruns k ;; b <- rd nruns j ;; Ret (fmt_percent x (Z.of_nat a * Z.of_nat b))) ;;
           Ret ([nl; nl] ++ list_ascii_of_string "Percentage of times that <row> is better than <column>:" ++ [nl] ++ t)
         else Ret []) ;;
  ranks <- cat_map (fun k => rank <- ds_rank results n k (seq 0 n) 0 ;; Ret (list_ascii_of_string " " ++ pad 3 (fmt_int rank))) (seq 0 n) ;;
  Ret ([nl; nl] ++ list_ascii_of_string "Number of times that <row> is better than <column>:" ++ [nl] ++ t1 ++ [nl] ++ t2 ++ [nl; nl] ++
       list_ascii_of_string "Ranks:" ++ ranks ++ [nl]).

(** dominatedsets.c:309-481 main *)
Definition ds_main (opts : list ds_option) (filenames : list string) : prog unit :=
  o <~ ds_options ds_opts0 opts ;;
  let n := length filenames in
  if (n <=? 1)%nat then
    _ <~ fwrite Stdout usage ;;
    exit_ EXIT_FAILURE
  else
    r <~ ds_read filenames (d_dim o) ;;
    let '(files, dim) := r in
    minmax <~ match d_minmax o with
              | None => lift (default_minmax dim (-1))
              | Some m => lift (vec dim m)
              end ;;
    names <~ ds_names 0 filenames ;;
    _ <~ fwrite Stdout [nl] ;;
    info <~ lift (cat_map ds_info (combine names files)) ;;
    _ <~ fwrite Stdout info ;;
    _ <~ fwrite Stdout (ds_objectives dim minmax) ;;
    sets <~ lift (all_of (ds_sets dim) files) ;;
    failed <~ lift (if d_check o then ds_check dim minmax sets else Ret false) ;;
    if failed then exit_ EXIT_FAILURE
    else
      results <~ lift (ds_pairs dim minmax n 0 sets (repeat (-1) (n * n))) ;;
      t <~ lift (print_results (d_percent o) names (map (fun ds => ds_nsets _ ds) files) results) ;;
      _ <~ fwrite Stdout t ;;
      exit_ EXIT_SUCCESS.
End Ds.
