(** Model of the hv program: c/main-hv.c.

    Not modelled: getopt (the options are given in the order in which getopt
    returns them), --help, --version and --verbose (which also prints comments and
    times), standard error, and the deallocation. *)
From Coq Require Import Ascii String List ZArith Lia Bool Arith.
From Verif Require Import Base IoModel CmdModel HvModel HvShiftModel.
Import ListNotations.
Local Open Scope list_scope.
Open Scope Z_scope.

(** main-hv.c:132-160 data_bounds.  The pointers are NULL ([None]) or point to
    arrays; the array of data is given by its rows. *)
Definition lower (m x : Z) : Z := if m >? x then x else m.
Definition higher (m x : Z) : Z := if m <? x then x else m.
Fixpoint map2 (f : Z -> Z -> Z) (a b : point) : point :=
  match a, b with
  | x :: a, y :: b => f x y :: map2 f a b
  | _, _ => []
  end.
Definition data_bounds (minimum maximum : option point) (rows : list point) : outcome (point * point) :=
  let r := match minimum, maximum with Some _, Some _ => 0%nat | _, _ => 1%nat end in
  mn <- match minimum with Some m => Ret m | None => rd rows 0 end ;;
  mx <- match maximum with Some m => Ret m | None => rd rows 0 end ;;
  Ret (fold_left (fun m x => map2 lower m x) (skipn r rows) mn,
       fold_left (fun m x => map2 higher m x) (skipn r rows) mx).

(** main-hv.c:263: maximum[n] + 0.1 * (maximum[n] - minimum[n]).  The unit of the
    numbers is such that a tenth of the difference is a number. *)
Definition default_ref (mn mx : Z) : Z := mx + (mx - mn) / 10.

(** the options: main-hv.c:332-377 *)
Inductive hv_option : Type := HvReference (arg : text) | HvUnion | HvSuffix (arg : string) | HvShift | HvQuiet.
Record hv_opts : Type := mkHvOpts { o_reference : option (list Z); o_nobj : nat; o_union : bool;
  o_suffix : option string; o_shift : bool }.

Section Hv.
Variable sort2d : list point -> list nat.
Variable sortd : (nat -> Z) -> list nat -> list nat.
Variable dbl_max : Z.
Variable g : hvst.
Variable can_create : string -> bool.
Variable junk : Z.
Variable junk_int : nat.
Variable scan : text -> option (Z * text).
Variable data_inc : nat.
Variable strtod : text -> option (Z * text).
(** indicator_printf_format (io.h:11) *)
Variable fmt : Z -> text.

Definition hv_option_step (o : hv_opts) (opt : hv_option) : prog hv_opts :=
  match opt with
  | HvReference arg =>
      r <~ lift (read_point strtod junk arg) ;;
      match r with
      | None => exit_ EXIT_FAILURE
      | Some (ref, nobj) => pret (mkHvOpts (Some ref) nobj (o_union o) (o_suffix o) (o_shift o))
      end
  | HvUnion => pret (mkHvOpts (o_reference o) (o_nobj o) true (o_suffix o) (o_shift o))
  | HvSuffix s => pret (mkHvOpts (o_reference o) (o_nobj o) (o_union o) (Some s) (o_shift o))
  | HvShift => pret (mkHvOpts (o_reference o) (o_nobj o) (o_union o) (o_suffix o) true)
  | HvQuiet => pret o
  end.
Fixpoint hv_options (o : hv_opts) (opts : list hv_option) : prog hv_opts :=
  match opts with
  | [] => pret o
  | opt :: opts => o <~ hv_option_step o opt ;; hv_options o opts
  end.

(** main-hv.c:162-184 file_range; the result includes the number of objectives *)
Definition file_range (filename : string) (bounds : option (point * point)) (nobj : nat) : prog (point * point * nat) :=
  ds <~ read_input junk junk_int scan data_inc (Some filename) nobj ;;
  last <~ lift (rd (ds_cumsizes _ ds) (ds_nsets _ ds - 1)) ;;
  rows <~ lift (rows_at (ds_data _ ds) (ds_nobjs _ ds) 0 last) ;;
  b <~ lift (data_bounds (option_map fst bounds) (option_map snd bounds) rows) ;;
  pret (b, ds_nobjs _ ds).

(** main-hv.c:275-285: one set *)
Definition hv_set (o : hv_opts) (outfile : ofile) (nobj : nat) (reference : point) (pts : list point) : prog unit :=
  volume <~ lift (if o_shift o then r <- fpli_hv_shift sort2d sortd dbl_max g pts nobj reference ;; Ret (fst r)
                  else fpli_hv sort2d sortd dbl_max g pts nobj reference) ;;
  if volume =? 0 then exit_ EXIT_FAILURE else fwrite outfile (fmt volume ++ [nl]).

(** main-hv.c:186-307 hv_file; the result is the number of objectives *)
Definition hv_file (o : hv_opts) (filename : option string) (bounds : option (point * point)) (nobj : nat) : prog nat :=
  ds <~ read_input junk junk_int scan data_inc filename nobj ;;
  let nobj := ds_nobjs _ ds in
  outfile <~ output_of can_create filename (o_suffix o) ;;
  cn <~ lift (if o_union o then last <- rd (ds_cumsizes _ ds) (ds_nsets _ ds - 1) ;;
                                cs <- wr (ds_cumsizes _ ds) 0 last ;; Ret (cs, 1%nat)
              else Ret (ds_cumsizes _ ds, ds_nsets _ ds)) ;;
  let '(cumsizes, nruns) := cn in
  b <~ match bounds with
       | Some b => pret b
       | None =>
           last <~ lift (rd cumsizes (nruns - 1)) ;;
           rows <~ lift (rows_at (ds_data _ ds) nobj 0 last) ;;
           lift (data_bounds None None rows)
       end ;;
  reference <~ match o_reference o with
               | Some r => if (nobj <=? length r)%nat then pret (firstn nobj r) else lift OutOfBounds
               | None => pret (map2 default_ref (fst b) (snd b))
               end ;;
  _ <~ for_sets (hv_set o outfile nobj reference) (ds_data _ ds) nobj cumsizes 0 nruns 0 ;;
  pret nobj.

Fixpoint hv_ranges (filenames : list string) (bounds : option (point * point)) (nobj : nat)
  : prog (option (point * point) * nat) :=
  match filenames with
  | [] => pret (bounds, nobj)
  | f :: filenames =>
      r <~ file_range f bounds nobj ;;
      hv_ranges filenames (Some (fst r)) (snd r)
  end.
Fixpoint hv_files (o : hv_opts) (filenames : list string) (bounds : option (point * point)) (nobj : nat) : prog unit :=
  match filenames with
  | [] => pret tt
  | f :: filenames =>
      nobj <~ hv_file o (Some f) bounds nobj ;;
      hv_files o filenames bounds nobj
  end.

(** main-hv.c:309-417; the program ends with the exit status *)
Definition hv_main (opts : list hv_option) (filenames : list string) : prog unit :=
  o <~ hv_options (mkHvOpts None 0 false None false) opts ;;
  _ <~ match filenames with
       | [] => _ <~ hv_file o None None (o_nobj o) ;; pret tt
       | [f] => _ <~ hv_file o (Some f) None (o_nobj o) ;; pret tt
       | _ =>
           r <~ match o_reference o with
                | None => hv_ranges filenames None (o_nobj o)
                | Some _ => pret (None, o_nobj o)
                end ;;
           hv_files o filenames (fst r) (snd r)
       end ;;
  exit_ EXIT_SUCCESS.
End Hv.
