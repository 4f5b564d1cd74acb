(** Specification of the hv program: what its options ask for. *)
From Coq Require Import Ascii String List ZArith Lia Bool Arith.
From Verif Require Import Base IoModel CmdModel CmdSpec HvCmdModel.
Import ListNotations.
Local Open Scope list_scope.
Open Scope Z_scope.

(** of several options of the same kind the last one counts *)
Definition reference_arg (opts : list hv_option) : option text :=
  fold_left (fun acc o => match o with HvReference a => Some a | _ => acc end) opts None.
Definition suffix_arg (opts : list hv_option) : option string :=
  fold_left (fun acc o => match o with HvSuffix a => Some a | _ => acc end) opts None.
Definition union_asked (opts : list hv_option) : bool :=
  existsb (fun o => match o with HvUnion => true | _ => false end) opts.
Definition shift_asked (opts : list hv_option) : bool :=
  existsb (fun o => match o with HvShift => true | _ => false end) opts.
(** every argument of --reference is a point *)
Definition references_valid (strtod : text -> option (Z * text)) (opts : list hv_option) : Prop :=
  forall a, In (HvReference a) opts -> exists xs, xs <> [] /\ point_text strtod a xs.

Definition least (i : nat) (pts : list point) (v : Z) : Prop :=
  (exists p, In p pts /\ coord p i = v) /\ forall p, In p pts -> v <= coord p i.
Definition greatest (i : nat) (pts : list point) (v : Z) : Prop :=
  (exists p, In p pts /\ coord p i = v) /\ forall p, In p pts -> coord p i <= v.
(** max + 0.1 * (max - min) for each coordinate *)
Definition default_reference (d : nat) (pts : list point) (ref : point) : Prop :=
  length ref = d /\
  forall i, (i < d)%nat -> exists mn mx, least i pts mn /\ greatest i pts mx /\ 10 * coord ref i = 10 * mx + (mx - mn).
(** the reference point: the one given, or the default for all the input points *)
Definition reference_point (strtod : text -> option (Z * text)) (d : nat) (opts : list hv_option) (pts : list point)
  (ref : point) : Prop :=
  match reference_arg opts with
  | Some a => point_text strtod a ref /\ length ref = d
  | None => default_reference d pts ref
  end.

(** the sets of a file: with --union, the file is one set *)
Definition sets_of (opts : list hv_option) (sets : list (list point)) : list (list point) :=
  if union_asked opts then [concat sets] else sets.
(** some point of the set strictly dominates the reference point *)
Definition has_volume (d : nat) (ref : point) (S : list point) : Prop :=
  exists p, In p S /\ forall i, (i < d)%nat -> coord p i < coord ref i.
