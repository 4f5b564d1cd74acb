(** Model of the nondominated program: c/nondominated.c.

    Not modelled: getopt (the options are given in the order in which getopt
    returns them), --help, --version, standard error, and the deallocation.
    Numbers are integers, in a unit small enough for the data; the quotient and the
    logarithm of --normalise and --log are parameters. *)
From Coq Require Import Ascii String List ZArith Lia Bool Arith.
From Verif Require Import Base NondomModel IoModel OptModel FbModel CmdModel HvCmdModel.
Import ListNotations.
Local Open Scope list_scope.
Open Scope Z_scope.

(** the options: nondominated.c:638-739.  [NdUnknown]: getopt returns '?'. *)
Inductive nd_option : Type :=
| NdQuiet | NdVerbose | NdNoCheck | NdFilter | NdForce | NdUnion | NdObj (arg : text) | NdAgree (arg : text) | NdMaximise
| NdUpper (arg : text) | NdLower (arg : text) | NdSuffix (arg : string) | NdNormalise (arg : text) | NdLog (arg : text) | NdUnknown.

(** nondominated.c:59-65 and 598-607.  [n_range]: lower_range and upper_range, if
    normalise_flag is set. *)
Record nd_opts : Type := mkNd { n_verbose : bool; n_check : bool; n_filter : bool; n_force : bool; n_union : bool;
  n_minmax : option (list Z); n_dim : nat; n_agree : Z; n_maximise : bool; n_lower : option (list Z); n_upper : option (list Z);
  n_suffix : string; n_range : option (Z * Z); n_log : option (list bool) }.
Definition nd_opts0 : nd_opts := mkNd false true false false false None 0 0 false None None "_dat" None None.

Section Nd.
Variable sort2d : list point -> list nat.
Variable can_create : string -> bool.
Variable junk : Z.
Variable junk_int : nat.
Variable junk_bool : nat -> bool.
Variable scan : text -> option (Z * text).
Variable data_inc : nat.
Variable strtod : text -> option (Z * text).
(** point_printf_format (io.h:9) and "%d" *)
Variable fmt : Z -> text.
Variable fmt_int : nat -> text.
(** x / y of the C code, with its rounding: the number of units in the quotient of
    a number of squared units by a number of units.  Sums, differences and products
    are exact. *)
Variable divide : Z -> Z -> Z.
(** log10; for a number that is not positive (NaN or an infinity in C) any number *)
Variable log10 : Z -> Z.
(** the number 1 in the unit *)
Variable one : Z.

(** nondominated.c:110-130 read_range *)
Definition read_range (str : text) : option (Z * Z) :=
  match strtod str with
  | None => None
  | Some (lower, str) =>
      match strtod str with
      | None => None
      | Some (upper, str) => if forallb isspace str then Some (lower, upper) else None
      end
  end.
(** io.h:114-144 read_bitvector with a string: the vector, or NULL *)
Fixpoint read_bitvector (str : text) : option (list bool) :=
  match str with
  | [] => Some []
  | c :: str =>
      if Ascii.eqb c "1" then option_map (cons true) (read_bitvector str)
      else if Ascii.eqb c "0" then option_map (cons false) (read_bitvector str)
      else None
  end.

Definition nd_option_step (o : nd_opts) (opt : nd_option) : prog nd_opts :=
  let '(mkNd v c f b u mm dim a m lo up s rg lg) := o in
  match opt with
  | NdQuiet => pret (mkNd false c f b u mm dim a m lo up s rg lg)
  | NdVerbose => pret (mkNd true c f b u mm dim a m lo up s rg lg)
  | NdNoCheck => pret (mkNd v false f b u mm dim a m lo up s rg lg)
  | NdFilter => pret (mkNd v true true b u mm dim a m lo up s rg lg)
  | NdForce => pret (mkNd v c f true u mm dim a m lo up s rg lg)
  | NdUnion => pret (mkNd v c f b true mm dim a m lo up s rg lg)
  | NdObj arg =>
      r <~ lift (read_minmax junk arg dim) ;;
      match r with
      | Parsed buf len => pret (mkNd v c f b u (Some buf) len a m lo up s rg lg)
      | ParsedNull => exit_ EXIT_FAILURE
      | ParsedExit => exit_ EXIT_SUCCESS              (* io.h:102-105 *)
      end
  | NdAgree arg =>
      if list_eq_dec ascii_dec arg (list_ascii_of_string "max") then pret (mkNd v c f b u mm dim 1 m lo up s rg lg)
      else if list_eq_dec ascii_dec arg (list_ascii_of_string "min") then pret (mkNd v c f b u mm dim (-1) m lo up s rg lg)
      else exit_ EXIT_FAILURE
  | NdMaximise => pret (mkNd v c f b u mm dim a true lo up s rg lg)
  | NdUpper arg =>
      r <~ lift (read_point strtod junk arg) ;;
      match r with
      | None => exit_ EXIT_FAILURE                    (* nondominated.c:165-174 robust_read_point *)
      | Some (p, dim) => pret (mkNd v c f b u mm dim a m lo (Some p) s rg lg)
      end
  | NdLower arg =>
      r <~ lift (read_point strtod junk arg) ;;
      match r with
      | None => exit_ EXIT_FAILURE
      | Some (p, dim) => pret (mkNd v c f b u mm dim a m (Some p) up s rg lg)
      end
  | NdSuffix s => pret (mkNd v c f b u mm dim a m lo up s rg lg)
  | NdNormalise arg =>
      match read_range arg with
      | None => exit_ EXIT_FAILURE
      | Some (lower, upper) =>
          if lower >=? upper then exit_ EXIT_FAILURE else pret (mkNd v c f b u mm dim a m lo up s (Some (lower, upper)) lg)
      end
  | NdLog arg =>
      match read_bitvector arg with
      | None => exit_ EXIT_FAILURE
      | Some vec => pret (mkNd v c f b u mm (length arg) a m lo up s rg (Some vec))
      end
  | NdUnknown => exit_ EXIT_FAILURE
  end.
Fixpoint nd_options (o : nd_opts) (opts : list nd_option) : prog nd_opts :=
  match opts with
  | [] => pret o
  | opt :: opts => o <~ nd_option_step o opt ;; nd_options o opts
  end.

(** the first [dim] elements of an array.  Simplification: they are all read, even
    if the comparison of two arrays ends earlier. *)
Definition vec (dim : nat) (buf : list Z) : outcome point :=
  if (dim <=? length buf)%nat then Ret (firstn dim buf) else OutOfBounds.

(** the same for an array of bool *)
Definition bits (dim : nat) (buf : list bool) : outcome (list bool) :=
  if (dim <=? length buf)%nat then Ret (firstn dim buf) else OutOfBounds.

(** nondominated.c:240-253 logarithm_scale, one row; also 516-522 for the bounds *)
Fixpoint logarithm_row (logarithm : list bool) (p : point) : point :=
  match logarithm, p with
  | b :: l, x :: p => (if b then log10 x else x) :: logarithm_row l p
  | _, _ => p
  end.
(** nondominated.h:349-364 normalise, one row *)
Fixpoint normalise_row (minmax : list Z) (agree lower_range upper_range : Z) (lbound ubound p : point) : point :=
  match minmax, lbound, ubound, p with
  | m :: minmax, l :: lbound, u :: ubound, x :: p =>
      let range := upper_range - lower_range in
      let diff := if u - l =? 0 then one else u - l in
      (if (agree >? 0) && (m <? 0) || (agree <? 0) && (m >? 0)
       then lower_range + divide (range * (u + x)) diff
       else lower_range + divide (range * (x - l)) diff)
      :: normalise_row minmax agree lower_range upper_range lbound ubound p
  | _, _, _, _ => p
  end.

(** nondominated.c:219-238 file_bounds, with data_bounds (nondominated.c:176-207):
    for finite numbers, the loop over all the rows that starts from INFINITY and
    -DBL_MAX gives the same as the loop of main-hv.c, which starts from the first
    row. *)
Definition file_bounds (filename : string) (bounds : option (point * point)) (dim : nat) : prog (point * point * nat) :=
  ds <~ read_input junk junk_int scan data_inc (Some filename) dim ;;
  last <~ lift (rd (ds_cumsizes _ ds) (ds_nsets _ ds - 1)) ;;
  rows <~ lift (rows_at (ds_data _ ds) (ds_nobjs _ ds) 0 last) ;;
  b <~ lift (data_bounds (option_map fst bounds) (option_map snd bounds) rows) ;;
  pret (b, ds_nobjs _ ds).

(** the sets of an array of points: &points[dim * cumsize], cumsizes[n] - cumsize *)
Fixpoint slices (pts : list point) (cumsizes : list nat) (cumsize : nat) : outcome (list (list point)) :=
  match cumsizes with
  | [] => Ret []
  | c :: cs =>
      if (c <=? length pts)%nat
      then rest <- slices pts cs c ;; Ret (firstn (c - cumsize) (skipn cumsize pts) :: rest)
      else OutOfBounds
  end.

(** nondominated.c:373-385 print_file_info *)
Definition file_info (filename : text) (dim : nat) (minmax : list Z) : text :=
  list_ascii_of_string "# file: " ++ filename ++ [nl] ++
  list_ascii_of_string "# objectives (" ++ fmt_int dim ++ list_ascii_of_string "): " ++
  map (fun m => if m <? 0 then "-"%char else if m >? 0 then "+"%char else "i"%char) minmax ++ [nl].
(** nondominated.c:387-418 print_output_header *)
Definition output_header (filename : text) (dim : nat) (minmax : list Z) (agree : Z) (range : option (Z * Z)) (lbound ubound : point)
  (logarithm : option (list bool)) : text :=
  file_info filename dim minmax ++
  list_ascii_of_string "# agree: " ++
  list_ascii_of_string (if agree <? 0 then "min" else if agree >? 0 then "max" else "no") ++ [nl] ++
  match logarithm with
  | Some l => list_ascii_of_string "# logarithm: " ++ map (fun b : bool => if b then "1"%char else "0"%char) l ++ [nl]
  | None => []
  end ++
  match range with
  | Some (lrange, urange) => list_ascii_of_string "# range: " ++ fmt lrange ++ list_ascii_of_string " " ++ fmt urange ++ [nl]
  | None => []
  end ++
  list_ascii_of_string "# lower bound: " ++ vector_fprintf Z fmt lbound ++ [nl] ++
  list_ascii_of_string "# upper bound: " ++ vector_fprintf Z fmt ubound ++ [nl].

(** nondominated.c:441-594 process_file; the result is dominated_found, the minimum
    and the maximum, and the number of objectives *)
Definition process_file (o : nd_opts) (filename : option string) (dim : nat) (lbound ubound : option (list Z))
  (check_minimum check_maximum : bool) : prog (bool * (point * point) * nat) :=
  ds <~ read_input junk junk_int scan data_inc filename dim ;;
  let dim := ds_nobjs _ ds in
  last <~ lift (rd (ds_cumsizes _ ds) (ds_nsets _ ds - 1)) ;;
  let cumsizes := if n_union o then [last] else ds_cumsizes _ ds in
  minmax <~ match n_minmax o with
            | None => lift (default_minmax dim (if n_maximise o then 1 else -1))
            | Some m => lift (vec dim m)
            end ;;
  points <~ lift (rows_at (ds_data _ ds) dim 0 last) ;;
  b <~ lift (data_bounds None None points) ;;
  lb <~ match lbound with
        | None => pret (fst b)
        | Some l =>
            l <~ lift (vec dim l) ;;
            if check_minimum && negb (n_force o) && any_less_than dim (fst b) l then exit_ EXIT_FAILURE else pret l
        end ;;
  ub <~ match ubound with
        | None => pret (snd b)
        | Some u =>
            u <~ lift (vec dim u) ;;
            if check_maximum && negb (n_force o) && any_less_than dim u (snd b) then exit_ EXIT_FAILURE else pret u
        end ;;
  pc <~ lift (if n_force o then r <- force_bounds dim lb ub junk_bool points cumsizes ;; Ret (snd (fst r), snd r)
              else Ret (points, cumsizes)) ;;
  let cumsizes := snd pc in
  size <~ lift (rd cumsizes (length cumsizes - 1)) ;;
  let points := firstn size (fst pc) in
  logarithm <~ match n_log o with
               | None => pret None
               | Some l => l <~ lift (bits dim l) ;; pret (Some l)
               end ;;
  let log := match logarithm with Some l => logarithm_row l | None => fun p => p end in
  let lb := log lb in
  let ub := log ub in
  let points := map log points in
  let points := if n_agree o =? 0 then points else agree_objectives points minmax (n_agree o) in
  let points := match n_range o with
                | Some (lower, upper) => map (normalise_row minmax (n_agree o) lower upper lb ub) points
                | None => points
                end in
  sets <~ lift (slices points cumsizes 0) ;;
  fd <~ lift (if n_check o || n_filter o then check_nondominated sort2d sets dim minmax (n_agree o) else Ret ([], false)) ;;
  let '(nondom, dominated_found) := fd in
  let logarithm_flag := match logarithm with Some l => existsb (fun b => b) l | None => false end in
  _ <~ (if n_filter o || negb (n_agree o =? 0) || match n_range o with Some _ => true | None => false end || n_force o || logarithm_flag then
          outfile <~ output_of can_create filename (Some (n_suffix o)) ;;
          _ <~ fwrite outfile (output_header (list_ascii_of_string (match filename with None => "<stdin>" | Some n => n end))
                                 dim minmax (n_agree o) (n_range o) lb ub logarithm) ;;
          t <~ lift (if n_filter o && dominated_found then write_sets_filtered Z fmt (concat points) dim cumsizes nondom
                     else write_sets Z fmt (concat points) dim cumsizes) ;;
          fwrite outfile t
        else pret tt) ;;
  pret (dominated_found, b, dim).

(** nondominated.c:773-774 *)
Fixpoint nd_bounds (filenames : list string) (bounds : option (point * point)) (dim : nat)
  : prog (option (point * point) * nat) :=
  match filenames with
  | [] => pret (bounds, dim)
  | f :: filenames =>
      r <~ file_bounds f bounds dim ;;
      nd_bounds filenames (Some (fst r)) (snd r)
  end.

(** nondominated.c:789-813: the files from argv[optind + k] on.  [bounds]: minimum
    and maximum; [found]: dominated_found.  The result is the final bounds and
    number of objectives, and dominated_found. *)
Fixpoint nd_files (o : nd_opts) (filenames : list string) (bounds : point * point) (dim : nat) (found : bool)
  : prog (point * point * nat * bool) :=
  match filenames with
  | [] => pret (bounds, dim, found)
  | f :: filenames =>
      let given {A} (x : option A) := match x with Some _ => true | None => false end in
      r <~ process_file o (Some f) dim
             (Some (match n_lower o with Some l => l | None => fst bounds end))
             (Some (match n_upper o with Some u => u | None => snd bounds end))
             (given (n_lower o)) (given (n_upper o)) ;;
      let '(dominated_found, tmp, dim) := r in
      let bounds := if given (n_lower o) && given (n_upper o)
                    then (map2 HvCmdModel.lower (fst bounds) (fst tmp), map2 HvCmdModel.higher (snd bounds) (snd tmp))
                    else bounds in
      nd_files o filenames bounds dim (if dominated_found then true else found)
  end.

(** nondominated.c:814-823 *)
Definition totals (numfiles : nat) (bounds : point * point) (dominated_found : bool) : text :=
  list_ascii_of_string "# Total files: " ++ fmt_int numfiles ++ [nl] ++
  list_ascii_of_string "# Total minimum:" ++ vector_fprintf Z fmt (fst bounds) ++ [nl] ++
  list_ascii_of_string "# Total maximum:" ++ vector_fprintf Z fmt (snd bounds) ++ [nl] ++
  list_ascii_of_string "# Nondominated: " ++ list_ascii_of_string (if dominated_found then "FALSE" else "TRUE") ++ [nl].

(** nondominated.c:596-827; the program ends with the exit status *)
Definition nd_main (opts : list nd_option) (filenames : list string) : prog unit :=
  o <~ nd_options nd_opts0 opts ;;
  _ <~ match n_lower o, n_upper o with
       | Some l, Some u =>
           l <~ lift (vec (n_dim o) l) ;;
           u <~ lift (vec (n_dim o) u) ;;
           if any_less_than (n_dim o) u l then exit_ EXIT_FAILURE else pret tt
       | _, _ => pret tt
       end ;;
  match filenames with
  | [] => r <~ process_file o None (n_dim o) (n_lower o) (n_upper o) true true ;; exit_ (Z.b2z (fst (fst r)))
  | [f] => r <~ process_file o (Some f) (n_dim o) (n_lower o) (n_upper o) true true ;; exit_ (Z.b2z (fst (fst r)))
  | f :: rest =>
      r <~ match n_lower o, n_upper o with
           | Some _, Some _ =>
               r <~ process_file o (Some f) (n_dim o) (n_lower o) (n_upper o) true true ;;
               let '(dominated_found, b, dim) := r in
               nd_files o rest b dim dominated_found
           | _, _ =>
               r <~ nd_bounds filenames None (n_dim o) ;;
               match fst r with
               | Some b => nd_files o filenames b (snd r) false
               | None => lift OutOfBounds
               end
           end ;;
      let '(b, dim, dominated_found) := r in
      _ <~ (if n_verbose o then fwrite Stdout (totals (length filenames) b dominated_found) else pret tt) ;;
      exit_ (Z.b2z dominated_found)
  end.
End Nd.
