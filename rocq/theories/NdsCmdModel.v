(** Model of the ndsort program: main of c/ndsort.c, around the computation of
    NdsortModel.

    Not modelled: getopt (the options are given in the order in which getopt
    returns them), --help, --version, standard error, and the deallocation.
    Numbers are integers, in a unit small enough for the data. *)
From Coq Require Import Ascii String List ZArith QArith Lia Bool Arith.
From Verif Require Import Base NondomModel IoModel OptModel ParetoRankModel HvModel HvShiftModel NdsortModel CmdModel.
Import ListNotations.
Local Open Scope list_scope.
Open Scope Z_scope.

(** the options: ndsort.c:153-199.  [NsUnknown]: getopt returns '?'. *)
Inductive ns_option : Type := NsQuiet | NsVerbose | NsRank | NsKeep | NsObj (arg : text) | NsUnknown.
(** ndsort.c:76, 129-132: verbose_flag, only_rank_flag, minmax, dim *)
Record ns_opts : Type := mkNs { s_verbose : bool; s_rank : bool; s_minmax : option (list Z); s_dim : nat }.
Definition ns_opts0 : ns_opts := mkNs false false None 0.

Section Ns.
Variable sort2d : list point -> list nat.
Variable sortd : (nat -> Z) -> list nat -> list nat.
Variable dbl_max : Z.
Variable g : hvst.
Variable garbage : nat.
Variable debug : bool.
(** sqrt (DBL_EPSILON) *)
Variable tolerance : Q.
Variable junk : Z.
Variable junk_int : nat.
Variable scan : text -> option (Z * text).
Variable data_inc : nat.
(** "%d" and "%g" *)
Variable fmt_int : nat -> text.
Variable fmt : Q -> text.

Definition ns_option_step (o : ns_opts) (opt : ns_option) : prog ns_opts :=
  match opt with
  | NsQuiet => pret (mkNs false (s_rank o) (s_minmax o) (s_dim o))
  | NsVerbose => pret (mkNs true (s_rank o) (s_minmax o) (s_dim o))
  | NsRank => pret (mkNs (s_verbose o) true (s_minmax o) (s_dim o))
  | NsKeep => exit_ EXIT_FAILURE                       (* "not implemented yet" *)
  | NsObj arg =>
      r <~ lift (read_minmax junk arg (s_dim o)) ;;
      match r with
      | Parsed buf len => pret (mkNs (s_verbose o) (s_rank o) (Some buf) len)
      | ParsedNull => exit_ EXIT_FAILURE
      | ParsedExit => exit_ EXIT_SUCCESS              (* io.h:102-105 *)
      end
  | NsUnknown => exit_ EXIT_FAILURE
  end.
Fixpoint ns_options (o : ns_opts) (opts : list ns_option) : prog ns_opts :=
  match opts with
  | [] => pret o
  | opt :: opts => o <~ ns_option_step o opt ;; ns_options o opts
  end.

(** ndsort.c:78-91 fprint_rank, fprint_vector_double *)
Definition column {A} (f : A -> text) (l : list A) : text := concat (map (fun x => f x ++ [nl]) l).

(** ndsort.c:123-301; [normalise] reads no direction, as agree is AGREE_NONE *)
Definition ns_main (opts : list ns_option) (filenames : list string) : prog unit :=
  o <~ ns_options ns_opts0 opts ;;
  filename <~ match filenames with
              | [] => pret None
              | [f] => pret (Some f)
              | _ => exit_ EXIT_FAILURE
              end ;;
  ds <~ read_input junk junk_int scan data_inc filename (s_dim o) ;;
  let dim := ds_nobjs _ ds in
  size <~ lift (rd (ds_cumsizes _ ds) (ds_nsets _ ds - 1)) ;;
  minmax <~ match s_minmax o with
            | None => lift (default_minmax dim (-1))
            | Some m => pret m
            end ;;
  _ <~ (if s_verbose o
        then fwrite Stdout (list_ascii_of_string "# file: " ++ list_ascii_of_string (match filename with None => "<stdin>" | Some f => f end) ++ [nl] ++
                            list_ascii_of_string "# points: " ++ fmt_int size ++ [nl])
        else pret tt) ;;
  points <~ lift (rows_at (ds_data _ ds) dim 0 size) ;;
  _ <~ (if s_rank o then
          rank <~ lift (ndsort_rank sort2d garbage debug points dim minmax) ;;
          fwrite Stdout (column fmt_int rank)
        else
          order <~ lift (ndsort_order sort2d sortd dbl_max g garbage debug tolerance points dim minmax) ;;
          fwrite Stdout (column fmt order)) ;;
  exit_ EXIT_SUCCESS.
End Ns.
