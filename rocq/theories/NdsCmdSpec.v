(** Specification for C65: what the ndsort program prints.
    Nothing here refers to the modelled main function, except for the names of its options. *)
From Coq Require Import Ascii String List ZArith QArith Lia Bool Arith.
From Verif Require Import Base Spec HvSpec NdsortSpec IoModel CmdModel NdsCmdModel.
Import ListNotations.
Local Open Scope list_scope.
Open Scope Z_scope.

(** ** Options *)
Definition directions_char (ch : ascii) : Prop := In ch ["+"; "-"; "0"; "i"]%char.
(** --obj: one of + - 0 i for each of the [d] objectives, not all of them 0 or i *)
Definition ns_usable (d : nat) (o : ns_option) : Prop :=
  match o with
  | NsObj a => length a = d /\ (forall ch, In ch a -> directions_char ch) /\ exists ch, In ch a /\ (ch = "+"%char \/ ch = "-"%char)
  | NsKeep | NsUnknown => False
  | _ => True
  end.
Definition ns_refused (o : ns_option) (status : Z) : Prop :=
  match o with
  | NsObj a => (exists ch, In ch a /\ ~ directions_char ch) /\ status = EXIT_FAILURE \/
               (forall ch, In ch a -> ch = "0"%char \/ ch = "i"%char) /\ status = EXIT_SUCCESS
  | NsKeep | NsUnknown => status = EXIT_FAILURE
  | _ => False
  end.
Definition rank_on (opts : list ns_option) : bool := existsb (fun o => match o with NsRank => true | _ => false end) opts.
(** the last of --verbose and --quiet counts *)
Definition chatty (opts : list ns_option) : bool :=
  fold_left (fun b o => match o with NsVerbose => true | NsQuiet => false | _ => b end) opts false.

(** ** Output *)
(** one line for each element *)
Definition one_per_line {A} (f : A -> text) (l : list A) : text := concat (map (fun x => f x ++ [nl]) l).
Definition title (fmt_int : nat -> text) (opts : list ns_option) (name : string) (npoints : nat) : text :=
  if chatty opts then list_ascii_of_string "# file: " ++ list_ascii_of_string name ++ [nl] ++
                      list_ascii_of_string "# points: " ++ fmt_int npoints ++ [nl]
  else [].

(** the front of each point, counted from 1 (all objectives minimised) *)
Definition fronts (d : nat) (pts : list point) (ranks : list nat) : Prop :=
  length ranks = length pts /\ forall k, (k < length pts)%nat -> is_rank (minimise d) pts k (nth k ranks 0%nat).
(** the sort key of each point: the number of its front; for the first front, 2 minus
    the contribution of the point to the hypervolume of the front, where contributions
    below [tolerance] count as zero *)
Definition sort_keys (d : nat) (tolerance : Q) (pts : list point) (keys : list Q) : Prop :=
  length keys = length pts /\
  exists F, first_front (minimise d) pts F /\
  forall k r, (k < length pts)%nat -> is_rank (minimise d) pts k r ->
    if (r =? 1)%nat
    then exists c, front_contribution d F (row pts k) c /\
           ((tolerance <= c)%Q /\ (nth k keys 0 == 2 - c)%Q \/ (c < tolerance)%Q /\ (nth k keys 0 == 2)%Q)
    else (nth k keys 0 == inject_Z (Z.of_nat r))%Q.
