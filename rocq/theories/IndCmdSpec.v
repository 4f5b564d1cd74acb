(** Specification of the epsilon and igd programs: what their options ask for and
    what the printed numbers mean. *)
From Coq Require Import Ascii String List ZArith QArith Reals Lia Bool Arith.
From Verif Require Import Base Spec IndSpec IgdSpec PropIgd IoModel CmdModel CmdSpec IndCmdModel.
Import ListNotations.
Local Open Scope list_scope.
Open Scope Z_scope.

Section O.
Context {X : Type}.
(** of several options of the same kind the last one counts *)
Definition obj_arg (opts : list (ind_option X)) : option text :=
  fold_left (fun acc o => match o with OptObj a => Some a | _ => acc end) opts None.
Definition reference_file (opts : list (ind_option X)) : option string :=
  fold_left (fun acc o => match o with OptReference f => Some f | _ => acc end) opts None.
Definition suffix_asked (opts : list (ind_option X)) : option string :=
  fold_left (fun acc o => match o with OptSuffix s => Some s | _ => acc end) opts None.
(** the options of the particular program, in order *)
Definition others (opts : list (ind_option X)) : list X :=
  flat_map (fun o => match o with OptOther x => [x] | _ => [] end) opts.

(** the argument of --obj: + for a maximised, - for a minimised objective *)
Definition asks (arg : text) (mx : list bool) : Prop :=
  Forall2 (fun ch (b : bool) => ch = if b then "+"%char else "-"%char) arg mx.
(** by default all the objectives are minimised *)
Definition directions (d : nat) (opts : list (ind_option X)) (mx : list bool) : Prop :=
  match obj_arg opts with
  | Some a => asks a mx /\ length mx = d
  | None => mx = repeat false d
  end.

(** an option that is usable for [d] objectives: --obj with [d] directions, or
    --reference with a file that contains one set with [d] columns *)
Definition usable (scan : text -> option (Z * text)) (w : world) (d : nat) (o : ind_option X) : Prop :=
  match o with
  | OptObj a => exists mx, asks a mx /\ length mx = d
  | OptReference f => exists R, contains scan w d f [R]
  | OptSuffix _ | OptOther _ => True
  | OptUnknown | OptDefault => False
  end.
Definition reference_is (scan : text -> option (Z * text)) (w : world) (d : nat) (opts : list (ind_option X)) (R : list point) : Prop :=
  exists f, reference_file opts = Some f /\ contains scan w d f [R].

(** an option that determines the number of columns *)
Definition fixes_columns (pre : list (ind_option X)) : Prop :=
  exists o, In o pre /\ match o with OptObj _ | OptReference _ => True | _ => False end.
(** an option with which the program ends at once, after the options [pre]: a
    character of --obj that means nothing; no direction other than "ignored"; a
    reference file that cannot be read or has another number of columns *)
Definition refused (scan : text -> option (Z * text)) (w : world) (d : nat) (pre : list (ind_option X)) (o : ind_option X) (status : Z) : Prop :=
  match o with
  | OptObj a => (exists ch, In ch a /\ ~ In ch ["+"; "-"; "0"; "i"]%char) /\ status = EXIT_FAILURE \/
                (forall ch, In ch a -> ch = "0"%char \/ ch = "i"%char) /\ status = EXIT_SUCCESS
  | OptReference f => (forall t, w_files w f = Some t -> ~ In vt t /\ ~ In ff t) /\
                      (forall d' sets, contains scan w d' f sets -> fixes_columns pre /\ d' <> d) /\ status = EXIT_FAILURE
  | OptUnknown => status = EXIT_FAILURE
  | _ => False
  end.
End O.

(** ** epsilon *)
Definition additive_asked (opts : list (ind_option eps_option)) : bool :=
  fold_left (fun acc x => match x with EpsAdditive => true | EpsMultiplicative => false | EpsQuiet => acc end) (others opts) true.
(** [R] is weakly dominated by [A] after an improvement of [A] by [e] (IndSpec.v) *)
Definition covers (additive : bool) (mx : list bool) (A R : list point) (e : Q) : Prop :=
  if additive then covers_add mx A R e else covers_mult mx A R e.
(** the indicator: the smallest such [e] *)
Definition epsilon_is (additive : bool) (mx : list bool) (A R : list point) (v : Q) : Prop :=
  covers additive mx A R v /\ forall e, covers additive mx A R e -> (v <= e)%Q.
(** the value of no improvement *)
Definition neutral (additive : bool) : Q := if additive then 0%Q else 1%Q.
(** the set remains as good as the reference set when it is made worse *)
Definition better_than (additive : bool) (mx : list bool) (A R : list point) : Prop :=
  exists e, covers additive mx A R e /\ (e < neutral additive)%Q.
Definition positive (d : nat) (S : list point) : Prop := forall p, In p S -> pos_point d p.

(** ** igd *)
Inductive metric : Type := MGD | MIGD | MGDp | MIGDp | MIGDplus | MHausdorff.
Definition all_metrics : list metric := [MGD; MIGD; MGDp; MIGDp; MIGDplus; MHausdorff].
(** IGD_p is always printed, the others if they are asked for *)
Definition metric_option (m : metric) (x : igd_option) : bool :=
  match m, x with
  | _, IgdAll => true
  | MGD, IgdGD | MIGD, IgdIGD | MGDp, IgdGDp | MIGDp, IgdIGDp | MIGDplus, IgdPlus | MHausdorff, IgdHausdorff => true
  | _, _ => false
  end.
Definition metric_asked (opts : list (ind_option igd_option)) (m : metric) : bool :=
  match m with MIGDp => true | _ => existsb (metric_option m) (others opts) end.
(** the exponent: 1, or the number of the last --exponent-p *)
Definition exponent_is (atoi : text -> Z) (opts : list (ind_option igd_option)) (p : nat) : Prop :=
  Z.of_nat p = fold_left (fun acc x => match x with IgdExponent a => atoi a | _ => acc end) (others opts) 1.
Local Open Scope R_scope.
(** the mean of the distances of the points of [A] to the nearest points of [S] *)
Definition mean_nearest (dist : point -> point -> R) (A S : list point) (v : R) : Prop :=
  exists ms, nearest_dists dist A S ms /\ v = rlist_sum ms / INR (length A).
Definition metric_is (mx : list bool) (p : nat) (A S : list point) (m : metric) (v : R) : Prop :=
  match m with
  | MGD => mean_nearest (euclid (length mx)) A S v
  | MIGD => mean_nearest (euclid (length mx)) S A v
  | MGDp => p_mean_nearest (length mx) A S p v
  | MIGDp => p_mean_nearest (length mx) S A p v
  | MIGDplus => mean_nearest (fun r a => dist_plus mx a r) S A v
  | MHausdorff => exists g i, p_mean_nearest (length mx) A S p g /\ p_mean_nearest (length mx) S A p i /\ v = Rmax g i
  end.
Local Open Scope Z_scope.
(** the numbers of a line, separated by tabs *)
Fixpoint tabbed (l : list text) : text :=
  match l with
  | [] => []
  | [a] => a
  | a :: l => a ++ tab :: tabbed l
  end.
