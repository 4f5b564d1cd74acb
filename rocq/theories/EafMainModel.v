(** Model of the eaf program (c/eaf_main.c) and of the printing functions of
    c/eaf.c: parsing of the lists of levels and percentiles, choice of the levels,
    choice of the output streams, output.

    The formatting of numbers is not modelled: the output is a sequence of tokens
    per stream.  --polygons is in PolyMainModel.v.  --help, --version and the messages written to stderr
    are not modelled. *)
From Coq Require Import Ascii String List ZArith Lia Bool Arith QArith.
From Verif Require Import Base BitArrayModel EafModel EafStoreModel Eaf3dModel EafMainSpec.
Import ListNotations.
Local Open Scope list_scope.
Open Scope Z_scope.

(** ** Lists of numbers (read_ints, read_doubles) *)

Fixpoint skip_space (s : text) : text :=
  match s with
  | [] => []
  | c :: s' => if isspace c then skip_space s' else s
  end.
Fixpoint take_digits (s : text) : text * text :=
  match s with
  | [] => ([], [])
  | c :: s' => if isdigit c then let (d, r) := take_digits s' in (c :: d, r) else ([], s)
  end.

(** the limits of long *)
Definition clamp_long (v : Z) : Z := Z.max (- 2 ^ 63) (Z.min (2 ^ 63 - 1) v).
(** the conversion (int) of a long: modulo 2^32 *)
Definition to_int (v : Z) : Z := (v + 2 ^ 31) mod 2 ^ 32 - 2 ^ 31.

(** (int) strtol (cursor, &endp, 10): the value and the text that follows;
    [None] if there is no number (endp == cursor) *)
Definition strtol_int (s : text) : option (Z * text) :=
  let s1 := skip_space s in
  let '(neg, s2) := match s1 with
                    | c :: r => if ascii_dec c "-" then (true, r)
                                else if ascii_dec c "+" then (false, r) else (false, s1)
                    | [] => (false, [])
                    end in
  match take_digits s2 with
  | ([], _) => None
  | (ds, r) => Some (to_int (clamp_long (if neg : bool then - decimal ds else decimal ds)), r)
  end.

Section ReadList.
Variables (A : Type) (zero : A).
(** strtol or strtod *)
Variable conv : text -> option (A * text).

(** c/eaf_main.c:88-96 (read_doubles) and 122-130 (read_ints): the loop.  [vec] is
    the whole array and [base] the index of its first free element; the result is
    the array, k and cursor. *)
Fixpoint read_loop (fuel : nat) (vec : list A) (base k : nat) (endp : text) : outcome (list A * nat * text) :=
  match fuel with
  | O => OutOfFuel
  | S fuel =>
    let cursor := endp in
    match conv cursor with
    | Some (v, endp) =>
      vec <- wr vec (base + k) v ;;
      read_loop fuel vec base (S k) endp
    | None =>
      vec <- wr vec (base + k) zero ;;
      match cursor with
      | c :: endp => if (if ascii_dec c "," then true else if ascii_dec c ";" then true else false)
                     then read_loop fuel vec base k endp
                     else Ret (vec, S k, cursor)
      | [] => Ret (vec, S k, cursor)
      end
    end
  end.

(** c/eaf_main.c:82-115 and 116-148.  [None]: exit (EXIT_FAILURE); otherwise the
    array and the number of values read. *)
Definition read_list (vec : list A) (base : nat) (str : text) : outcome (option (list A * nat)) :=
  r <- read_loop (S (List.length str)) vec base 0 str ;;
  let '(vec, k, cursor) := r in
  if negb (forallb isspace cursor) then Ret None
  else if (k =? 1)%nat then Ret None
  else Ret (Some (vec, (k - 1)%nat)).

(** c/eaf_main.c:233-241: one option -l or -p; [n] is nlevels or npercentiles *)
Definition read_option (vec : list A) (n : nat) (str : text) : outcome (option (list A * nat)) :=
  _ <- assert_ (n <? 50)%nat ;;
  r <- read_list vec n str ;;
  match r with
  | None => Ret None
  | Some (vec, k) => Ret (Some (vec, (n + k)%nat))
  end.

(** all the options -l (or -p), in order; MAX_LEVELS = 50 elements are allocated
    (c/eaf_main.c:222-226).  The result is the list of the values read. *)
Fixpoint read_options (vec : list A) (n : nat) (strs : list text) : outcome (option (list A)) :=
  match strs with
  | [] => Ret (Some (firstn n vec))
  | s :: strs =>
    r <- read_option vec n s ;;
    match r with
    | None => Ret None
    | Some (vec, n) => read_options vec n strs
    end
  end.
Definition read_all_options (strs : list text) : outcome (option (list A)) := read_options (repeat zero 50) 0 strs.
End ReadList.

(** ** The levels (c/eaf_main.c:377-422) *)

(** c/eaf_main.c:391-402.  Neither comparison holds for a NaN, and the conversion
    of a NaN to int in percentile2level is undefined: the model fails there. *)
Fixpoint levels_of_percentiles (ps : list pct) (nruns : Z) : outcome (option (list Z)) :=
  match ps with
  | [] => Ret (Some [])
  | PNan :: _ => AssertFailed
  | PQ p :: ps =>
    if Qle_bool p 0 then Ret None
    else if negb (Qle_bool p 100) then Ret None
    else l <- percentile2level p nruns ;;
         r <- levels_of_percentiles ps nruns ;;
         match r with None => Ret None | Some ls => Ret (Some (l :: ls)) end
  end.
(** c/eaf_main.c:403-415; level[k] is only checked *)
Fixpoint check_levels (ls : list Z) (nruns : Z) : bool :=
  match ls with
  | [] => true
  | l :: ls => if l <=? 0 then false else if nruns <? l then false else check_levels ls nruns
  end.
(** [None]: exit (EXIT_FAILURE) *)
Definition choose_levels (best median worst : bool) (percentiles : list pct) (levels : list Z) (nruns : Z)
  : outcome (option (list Z)) :=
  if best then Ret (Some [1])
  else if median then l <- percentile2level 50 nruns ;; Ret (Some [l])
  else if worst then Ret (Some [nruns])
  else if (0 <? List.length percentiles)%nat then levels_of_percentiles percentiles nruns
  else if (0 <? List.length levels)%nat then
    if check_levels levels nruns then Ret (Some levels) else Ret None
  else Ret (Some (map (fun k => Z.of_nat k + 1) (seq 0 (Z.to_nat nruns)))).

(** ** The streams (c/eaf_main.c:243-277 and 337-375) *)

Definition ostream_eqb (a b : option stream) : bool :=
  match a, b with
  | Some a, Some b => stream_eqb a b
  | None, None => true
  | _, _ => false
  end.

Record files : Type := mkFiles {
  coord_file : option stream; coord_filename : option string;
  indic_file : option stream; indic_filename : option string;
  diff_file : option stream; diff_filename : option string }.
Definition init_files : files := mkFiles (Some Stdout) None None None None None.

(** c/eaf_main.c:243-277: one option.  stdin stands for "same file as --output". *)
Definition opt_file (fs : files) (o : fileopt) : files :=
  match o with
  | OptO a =>
    if String.eqb a "-" then mkFiles (Some Stdout) None (indic_file fs) (indic_filename fs) (diff_file fs) (diff_filename fs)
    else mkFiles (coord_file fs) (Some a) (indic_file fs) (indic_filename fs) (diff_file fs) (diff_filename fs)
  | OptI None => mkFiles (coord_file fs) (coord_filename fs) (Some Stdin) None (diff_file fs) (diff_filename fs)
  | OptI (Some a) =>
    if String.eqb a "-" then mkFiles (coord_file fs) (coord_filename fs) (Some Stdout) None (diff_file fs) (diff_filename fs)
    else mkFiles (coord_file fs) (coord_filename fs) (indic_file fs) (Some a) (diff_file fs) (diff_filename fs)
  | OptD None => mkFiles (coord_file fs) (coord_filename fs) (indic_file fs) (indic_filename fs) (Some Stdin) None
  | OptD (Some a) =>
    if String.eqb a "-" then mkFiles (coord_file fs) (coord_filename fs) (indic_file fs) (indic_filename fs) (Some Stdout) None
    else mkFiles (coord_file fs) (coord_filename fs) (indic_file fs) (indic_filename fs) (diff_file fs) (Some a)
  end.

(** fopen (name, "w"): [None] if it fails *)
Section Open.
Variable openable : string -> bool.
Definition fopen (name : string) : option stream := if openable name then Some (File name) else None.
Definition is_name (a b : option string) : bool :=   (* b && !strcmp (a, b) *)
  match a, b with Some a, Some b => String.eqb a b | _, _ => false end.

(** c/eaf_main.c:337-375; [None]: exit (EXIT_FAILURE); otherwise coord_file,
    indic_file and diff_file *)
Definition open_files (fs : files) : option (option stream * option stream * option stream) :=
  (* 337-343 *)
  match (match coord_filename fs with
         | None => Some (coord_file fs)
         | Some n => match fopen n with None => None | f => Some f end
         end) with
  | None => None
  | Some cf =>
    (* 347-350 *)
    let '(inf, inn) :=
      if ostream_eqb (indic_file fs) None || ostream_eqb (indic_file fs) (Some Stdout)
         || negb (match indic_filename fs with None => true | _ => false end)
      then (indic_file fs, indic_filename fs) else (cf, coord_filename fs) in
    (* 352-359 *)
    match (match inn with
           | Some n => if is_name (Some n) (coord_filename fs) then Some inf
                       else match fopen n with None => None | f => Some f end
           | None => Some inf
           end) with
    | None => None
    | Some inf =>
      (* 363-366 *)
      let '(df, dn) :=
        if ostream_eqb (diff_file fs) None || ostream_eqb (diff_file fs) (Some Stdout)
           || negb (match diff_filename fs with None => true | _ => false end)
        then (diff_file fs, diff_filename fs) else (cf, coord_filename fs) in
      (* 369-377 *)
      match (match dn with
             | Some n => if is_name (Some n) (coord_filename fs) || is_name (Some n) inn then Some df
                         else match fopen n with None => None | f => Some f end
             | None => Some df
             end) with
      | None => None
      | Some df => Some (cf, inf, df)
      end
    end
  end.
End Open.

(** ** Printing *)

Definition put (f : option stream) (ts : list token) : list (stream * token) :=
  match f with None => [] | Some f => map (fun t => (f, t)) ts end.

(** c/eaf.c:72-78 point_printf: at least two coordinates *)
Definition point_printf (x : point) : list token :=
  TNum (coord x 0) :: TSp :: TNum (coord x 1) :: concat (map (fun v => [TSp; TNum v]) (skipn 2 x)).

(** c/eaf.c:181-194: the indices k, k+1, ... (m of them), each after a space, and
    how many are 1 *)
Fixpoint print_bits (bits : list Z) (off k m : nat) : outcome (list token * Z) :=
  match m with
  | O => Ret ([], 0)
  | S m => v <- bit_array_get bits off k ;;
           r <- print_bits bits off (S k) m ;;
           Ret (TSp :: TInt (if v =? 0 then 0 else 1) :: fst r, (if v =? 0 then 0 else 1) + snd r)
  end.

(** c/eaf.c:167-198 eaf_print_line *)
Definition eaf_print_line (cf inf df : option stream) (x : point) (bits : list Z) (off nruns : nat)
  : outcome (list (stream * token)) :=
  let out1 := match cf with
              | None => []
              | Some _ => put cf (point_printf x ++ [if ostream_eqb cf inf || ostream_eqb cf df then TTab else TNl])
              end in
  r <- (match inf with
        | Some _ =>
          v <- bit_array_get bits off 0 ;;
          r1 <- print_bits bits off 1 (nruns / 2 - 1) ;;
          r2 <- print_bits bits off (nruns / 2) (nruns - nruns / 2) ;;
          Ret (put inf (TInt (if v =? 0 then 0 else 1) :: fst r1 ++ fst r2 ++ [if ostream_eqb inf df then TTab else TNl]),
               ((if v =? 0 then 0 else 1) + snd r1, snd r2))
        | None =>
          match df with
          | Some _ => lr <- attained_left_right bits off (nruns / 2) nruns ;; Ret ([], lr)
          | None => Ret ([], (0, 0))
          end
        end) ;;
  Ret (out1 ++ fst r ++ put df [TInt (fst (snd r)); TSp; TInt (snd (snd r)); TNl]).

(** c/eaf.c:200-212 eaf_print_attsurf *)
Definition eaf_print_attsurf (e : eaf_t) (nobj : nat) (cf inf df : option stream) : outcome (list (stream * token)) :=
  ls <- collect (fun i => x <- read_point e nobj i ;;
                          eaf_print_line cf inf df x (e_bits e) (bit_array_offset 0 i (e_nruns e)) (e_nruns e))
                0 (e_size e) ;;
  Ret (concat ls).

(** c/eaf_main.c:150-164 eaf_print *)
Fixpoint eaf_print (eafs : list eaf_t) (nobj : nat) (cf inf df : option stream) : outcome (list (stream * token)) :=
  match eafs with
  | [] => Ret []
  | e :: eafs =>
    l <- eaf_print_attsurf e nobj cf inf df ;;
    rest <- eaf_print eafs nobj cf inf df ;;
    Ret (l ++ put (match cf with Some _ => cf | None => match inf with Some _ => inf | None => df end end) [TNl] ++ rest)
  end.

(** ** The program *)

Section Program.
Variables (sortx sorty sortz : list point -> list nat) (junk : nat -> Z) (grow : nat -> nat -> nat) (lo hi : Z).

(** c/eaf.h:107-127 attsurf; [None]: fatal_error *)
Definition attsurf (data : list point) (nobj : nat) (cumsizes : list nat) (nruns : nat) (level : list Z)
  : outcome (option (list eaf_t)) :=
  match nobj with
  | 2%nat => ss <- eaf2d sortx sorty data cumsizes nruns level ;;
             es <- store_surfaces junk grow 2 nruns (List.length data) ss ;; Ret (Some es)
  | 3%nat => ss <- eaf3d lo hi sortz junk data cumsizes nruns level ;;
             es <- store_surfaces_3d junk grow nruns (List.length data) ss ;; Ret (Some es)
  | _ => Ret None
  end.

Record options : Type := mkOptions {
  o_verbose : bool; o_best : bool; o_median : bool; o_worst : bool;
  o_levels : list text; o_percentiles : list text; o_files : list fileopt }.

(** c/eaf_main.c:185-455 main, without --polygons, after the data was read.
    [strtod] is the C function, [openable] tells which files can be written.
    [None]: exit (EXIT_FAILURE).  The order of the failures of main is not
    modelled (the options are parsed one by one before the data is read). *)
Definition eaf_main (strtod : text -> option (pct * text)) (openable : string -> bool) (o : options)
  (data : list point) (nobj : nat) (cumsizes : list nat) (nruns : nat) : outcome (option (list (stream * token))) :=
  lv <- read_all_options Z 0 strtol_int (o_levels o) ;;
  pc <- read_all_options pct (PQ 0) strtod (o_percentiles o) ;;
  match lv, pc, open_files openable (fold_left opt_file (o_files o) init_files) with
  | Some lv, Some pc, Some (cf, inf, df) =>
    level <- choose_levels (o_best o) (o_median o) (o_worst o) pc lv (Z.of_nat nruns) ;;
    match level with
    | None => Ret None
    | Some level =>
      (* 424-432: cumsizes[nruns - 1] *)
      _ <- (if o_verbose o then (if (nruns =? 0)%nat then OutOfBounds else rd cumsizes (nruns - 1)) else Ret 0%nat) ;;
      es <- attsurf data nobj cumsizes nruns level ;;
      match es with
      | None => Ret None
      | Some es => w <- eaf_print es nobj cf inf df ;; Ret (Some w)
      end
    end
  | _, _, _ => Ret None
  end.
End Program.
