(** Model of the epsilon and igd programs (c/epsilon.c, c/igd.c).

    The two programs have the same structure: the options --obj, --reference and
    --suffix, the reading of the files and the loop over the sets; they differ in
    the other options and in what is printed for a set.  Not modelled: getopt,
    --verbose (extra comment lines), --help, --version, standard error. *)
From Coq Require Import Ascii String List ZArith QArith Reals Lia Bool Arith.
From Verif Require Import Base NondomModel IoModel OptModel EpsModel IgdModel CmdModel.
Import ListNotations.
Local Open Scope list_scope.
Open Scope Z_scope.

(** epsilon.c:200-255, igd.c:286-371: -o, -r, -s, an option of the particular
    program, an option that getopt does not know ('?'), an option that getopt knows
    and the switch does not ("default: abort ()") *)
Inductive ind_option (X : Type) : Type :=
| OptObj (arg : text) | OptReference (file : string) | OptSuffix (arg : string) | OptOther (x : X) | OptUnknown | OptDefault.
Arguments OptObj {X}. Arguments OptReference {X}. Arguments OptSuffix {X}. Arguments OptOther {X}.
Arguments OptUnknown {X}. Arguments OptDefault {X}.

Record ind_opts (M : Type) : Type := mkInd { i_reference : option (list Z * nat); i_nobj : nat; i_minmax : option (list Z);
  i_suffix : option string; i_mode : M }.
Arguments mkInd {M}. Arguments i_reference {M}. Arguments i_nobj {M}. Arguments i_minmax {M}.
Arguments i_suffix {M}. Arguments i_mode {M}.

Section Ind.
Variable can_create : string -> bool.
Variable junk : Z.
Variable junk_int : nat.
Variable scan : text -> option (Z * text).
Variable data_inc : nat.
(** the other options, the initial mode, and what is done for a set: mode, output,
    number of objectives, directions, reference set, set *)
Variables X M : Type.
Variable other : X -> M -> M.
Variable mode0 : M.
Variable body : M -> ofile -> nat -> list Z -> list point -> list point -> prog unit.

Definition ind_option_step (o : ind_opts M) (opt : ind_option X) : prog (ind_opts M) :=
  match opt with
  | OptObj arg =>
      r <~ lift (read_minmax junk arg (i_nobj o)) ;;
      match r with
      | Parsed buf len => pret (mkInd (i_reference o) len (Some buf) (i_suffix o) (i_mode o))
      | ParsedNull => exit_ EXIT_FAILURE
      | ParsedExit => exit_ EXIT_SUCCESS              (* io.h:102-105 *)
      end
  | OptReference file =>
      r <~ read_reference_set junk junk_int scan data_inc file (i_nobj o) ;;
      let '(reference, size, nobj) := r in
      if (size =? 0)%nat then exit_ EXIT_FAILURE
      else pret (mkInd (Some (reference, size)) nobj (i_minmax o) (i_suffix o) (i_mode o))
  | OptSuffix s => pret (mkInd (i_reference o) (i_nobj o) (i_minmax o) (Some s) (i_mode o))
  | OptOther x => pret (mkInd (i_reference o) (i_nobj o) (i_minmax o) (i_suffix o) (other x (i_mode o)))
  | OptUnknown => exit_ EXIT_FAILURE
  | OptDefault => lift AssertFailed
  end.
Fixpoint ind_options (o : ind_opts M) (opts : list (ind_option X)) : prog (ind_opts M) :=
  match opts with
  | [] => pret o
  | opt :: opts => o <~ ind_option_step o opt ;; ind_options o opts
  end.

(** epsilon.c:99-173, igd.c:119-248 do_file; the result is the number of objectives *)
Definition do_file (o : ind_opts M) (reference : list Z * nat) (filename : option string) (nobj : nat) : prog nat :=
  ds <~ read_input junk junk_int scan data_inc filename nobj ;;
  let nobj := ds_nobjs _ ds in
  outfile <~ output_of can_create filename (i_suffix o) ;;
  minmax <~ match i_minmax o with
            | None => lift (default_minmax nobj (-1))
            | Some m => if (nobj <=? length m)%nat then pret (firstn nobj m) else lift OutOfBounds
            end ;;
  ref <~ lift (rows_at (fst reference) nobj 0 (snd reference)) ;;
  _ <~ for_sets (body (i_mode o) outfile nobj minmax ref) (ds_data _ ds) nobj (ds_cumsizes _ ds) 0 (ds_nsets _ ds) 0 ;;
  pret nobj.

Fixpoint do_files (o : ind_opts M) (reference : list Z * nat) (filenames : list string) (nobj : nat) : prog unit :=
  match filenames with
  | [] => pret tt
  | f :: filenames => nobj <~ do_file o reference (Some f) nobj ;; do_files o reference filenames nobj
  end.

(** epsilon.c:175-300, igd.c:250-411 *)
Definition ind_main (opts : list (ind_option X)) (filenames : list string) : prog unit :=
  o <~ ind_options (mkInd None 0 None None mode0) opts ;;
  match i_reference o with
  | None => exit_ EXIT_FAILURE
  | Some reference =>
      _ <~ match filenames with
           | [] => _ <~ do_file o reference None (i_nobj o) ;; pret tt
           | _ => do_files o reference filenames (i_nobj o)
           end ;;
      exit_ EXIT_SUCCESS
  end.
End Ind.

(** ** epsilon *)

Inductive eps_option : Type := EpsAdditive | EpsMultiplicative | EpsQuiet.
(** additive_flag: epsilon.c:69, 203-209 *)
Definition eps_other (x : eps_option) (additive : bool) : bool :=
  match x with EpsAdditive => true | EpsMultiplicative => false | EpsQuiet => additive end.

Definition ext_map {A B} (f : A -> B) (x : ext A) : ext B :=
  match x with NegInf => NegInf | Fin a => Fin (f a) | PosInf => PosInf end.

Section Eps.
(** indicator_printf_format *)
Variable fmt : ext Q -> text.
(** epsilon.c:143-157.  fatal_error() ends the program with EXIT_FAILURE. *)
Definition eps_body (additive : bool) (outfile : ofile) (nobj : nat) (minmax : list Z) (reference pts : list point) : prog unit :=
  epsilon <~ (if additive then pret (ext_map inject_Z (epsilon_additive_minmax nobj minmax pts reference))
              else match epsilon_mult_minmax nobj minmax pts reference with
                   | AssertFailed => exit_ EXIT_FAILURE
                   | r => lift r
                   end) ;;
  _ <~ fwrite outfile (fmt epsilon ++ [nl]) ;;
  if (additive && negb (eleb Qle_bool (Fin 0%Q) epsilon)) || (negb additive && negb (eleb Qle_bool (Fin 1%Q) epsilon))
  then exit_ EXIT_FAILURE
  else pret tt.
End Eps.
Definition eps_main can_create junk junk_int scan data_inc fmt :=
  ind_main can_create junk junk_int scan data_inc eps_option bool eps_other true (eps_body fmt).

(** ** igd *)

Inductive igd_option : Type := IgdGD | IgdIGD | IgdGDp | IgdIGDp | IgdPlus | IgdHausdorff | IgdAll | IgdExponent (arg : text) | IgdQuiet.
(** igd.c:75-81 *)
Record igd_mode : Type := mkIgd { m_gd : bool; m_igd : bool; m_gdp : bool; m_igdp : bool; m_igdplus : bool; m_hausdorff : bool;
  m_exponent : nat }.
Definition igd_mode0 : igd_mode := mkIgd false false false true false false 1.

Section Igd.
Variable atoi : text -> Z.
Variable uint_size : Z.
(** igd.c:289-325; the exponent is an unsigned int *)
Definition igd_other (x : igd_option) (m : igd_mode) : igd_mode :=
  match x with
  | IgdGD => mkIgd true (m_igd m) (m_gdp m) (m_igdp m) (m_igdplus m) (m_hausdorff m) (m_exponent m)
  | IgdIGD => mkIgd (m_gd m) true (m_gdp m) (m_igdp m) (m_igdplus m) (m_hausdorff m) (m_exponent m)
  | IgdGDp => mkIgd (m_gd m) (m_igd m) true (m_igdp m) (m_igdplus m) (m_hausdorff m) (m_exponent m)
  | IgdIGDp => mkIgd (m_gd m) (m_igd m) (m_gdp m) true (m_igdplus m) (m_hausdorff m) (m_exponent m)
  | IgdPlus => mkIgd (m_gd m) (m_igd m) (m_gdp m) (m_igdp m) true (m_hausdorff m) (m_exponent m)
  | IgdHausdorff => mkIgd (m_gd m) (m_igd m) (m_gdp m) (m_igdp m) (m_igdplus m) true (m_exponent m)
  | IgdAll => mkIgd true true true true true true (m_exponent m)
  | IgdExponent arg => mkIgd (m_gd m) (m_igd m) (m_gdp m) (m_igdp m) (m_igdplus m) (m_hausdorff m) (Z.to_nat (atoi arg mod uint_size))
  | IgdQuiet => m
  end.

Variable fmt : ext R -> text.
Definition tab : ascii := "009"%char.
(** igd.c:199-205 print_value_if: the text and the new separator *)
Definition print_value_if (flag : bool) (value : ext R) (line : text * text) : text * text :=
  if flag then (fst line ++ snd line ++ fmt value, [tab]) else line.
(** igd.c:193-236 *)
Definition igd_body (m : igd_mode) (outfile : ofile) (nobj : nat) (minmax : list Z) (reference pts : list point) : prog unit :=
  let line := ([], []) in
  let line := print_value_if (m_gd m) (gd_common nobj minmax pts reference false false 1) line in
  let line := print_value_if (m_igd m) (gd_common nobj minmax reference pts false false 1) line in
  let line := print_value_if (m_gdp m) (gd_common nobj minmax pts reference false true (m_exponent m)) line in
  let line := print_value_if (m_igdp m) (gd_common nobj minmax reference pts false true (m_exponent m)) line in
  let line := print_value_if (m_igdplus m) (gd_common nobj minmax reference pts true true 1) line in
  let line := print_value_if (m_hausdorff m)
                (emax Rleb (gd_common nobj minmax pts reference false true (m_exponent m))
                           (gd_common nobj minmax reference pts false true (m_exponent m))) line in
  fwrite outfile (fst line ++ [nl]).
End Igd.
Definition igd_main can_create junk junk_int scan data_inc atoi uint_size fmt :=
  ind_main can_create junk junk_int scan data_inc igd_option igd_mode (igd_other atoi uint_size) igd_mode0 (igd_body fmt).
