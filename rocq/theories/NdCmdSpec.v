(** Specification of the nondominated program: what its options ask for, and what
    is written for a file. *)
From Coq Require Import Ascii String List ZArith Lia Bool Arith.
From Verif Require Import Base Spec IoModel FbSpec CmdModel CmdSpec HvCmdSpec IndCmdSpec NdCmdModel.
Import ListNotations.
Local Open Scope list_scope.
Open Scope Z_scope.

(** ** The options *)
Definition asked (P : nd_option -> bool) (opts : list nd_option) : bool := existsb P opts.
Definition filter_on := asked (fun o => match o with NdFilter => true | _ => false end).
Definition no_check_on := asked (fun o => match o with NdNoCheck => true | _ => false end).
Definition force_on := asked (fun o => match o with NdForce => true | _ => false end).
Definition union_on := asked (fun o => match o with NdUnion => true | _ => false end).
(** options that determine the number of columns *)
Definition columns_fixed := asked (fun o => match o with NdObj _ | NdLower _ | NdUpper _ | NdLog _ => true | _ => false end).
Definition maximise_on := asked (fun o => match o with NdMaximise => true | _ => false end).
(** of several options of the same kind the last one counts *)
Definition obj_of (opts : list nd_option) : option text :=
  fold_left (fun acc o => match o with NdObj a => Some a | _ => acc end) opts None.
Definition lower_of (opts : list nd_option) : option text :=
  fold_left (fun acc o => match o with NdLower a => Some a | _ => acc end) opts None.
Definition upper_of (opts : list nd_option) : option text :=
  fold_left (fun acc o => match o with NdUpper a => Some a | _ => acc end) opts None.
Definition range_of (opts : list nd_option) : option text :=
  fold_left (fun acc o => match o with NdNormalise a => Some a | _ => acc end) opts None.
Definition log_of (opts : list nd_option) : option text :=
  fold_left (fun acc o => match o with NdLog a => Some a | _ => acc end) opts None.
Definition suffix_of (opts : list nd_option) : string :=
  fold_left (fun acc o => match o with NdSuffix s => s | _ => acc end) opts "_dat"%string.
Definition verbose_on (opts : list nd_option) : bool :=
  fold_left (fun acc o => match o with NdVerbose => true | NdQuiet => false | _ => acc end) opts false.
(** --agree: all the objectives are to be maximised ([Some true]) or minimised *)
Definition agree_of (opts : list nd_option) : option bool :=
  fold_left (fun acc o => match o with
                          | NdAgree a => if list_eq_dec ascii_dec a (list_ascii_of_string "max") then Some true else Some false
                          | _ => acc
                          end) opts None.
(** the sets are checked unless --no-check is given without --filter *)
Definition check_on (opts : list nd_option) : bool := filter_on opts || negb (no_check_on opts).
(** something is written *)
Definition writes (opts : list nd_option) : bool :=
  filter_on opts || force_on opts || match agree_of opts with Some _ => true | None => false end ||
  match range_of opts with Some _ => true | None => false end ||
  match log_of opts with Some a => existsb (Ascii.eqb "1") a | None => false end.

Definition goals (d : nat) (opts : list nd_option) (mx : list bool) : Prop :=
  match obj_of opts with
  | Some a => asks a mx /\ length mx = d
  | None => mx = repeat (maximise_on opts) d
  end.

Section S.
Variable strtod : text -> option (Z * text).
(** a text that starts with two numbers, followed by nothing but white space *)
Definition range_text (a : text) (lo hi : Z) : Prop :=
  exists r1 r2, strtod a = Some (lo, r1) /\ strtod r1 = Some (hi, r2) /\ forall c, In c r2 -> isspace c = true.
(** the argument of --normalise *)
Definition range_is (opts : list nd_option) (rg : option (Z * Z)) : Prop :=
  match range_of opts with
  | None => rg = None
  | Some a => exists lo hi, range_text a lo hi /\ rg = Some (lo, hi)
  end.
(** an option that is usable for [d] objectives *)
Definition nd_usable (d : nat) (o : nd_option) : Prop :=
  match o with
  | NdObj a => exists mx, asks a mx /\ length mx = d
  | NdLower a | NdUpper a => exists xs, point_text strtod a xs /\ length xs = d
  | NdAgree a => a = list_ascii_of_string "max" \/ a = list_ascii_of_string "min"
  | NdNormalise a => exists lo hi, range_text a lo hi /\ lo < hi
  | NdLog a => (forall ch, In ch a -> ch = "0"%char \/ ch = "1"%char) /\ length a = d
  | NdUnknown => False
  | _ => True
  end.
(** an option with which the program ends at once *)
Definition nd_refused (o : nd_option) (status : Z) : Prop :=
  match o with
  | NdObj a => (exists ch, In ch a /\ ~ In ch ["+"; "-"; "0"; "i"]%char) /\ status = EXIT_FAILURE \/
               (forall ch, In ch a -> ch = "0"%char \/ ch = "i"%char) /\ status = EXIT_SUCCESS
  | NdLower a | NdUpper a => ~ (exists xs, xs <> [] /\ point_text strtod a xs) /\ status = EXIT_FAILURE
  | NdAgree a => a <> list_ascii_of_string "max" /\ a <> list_ascii_of_string "min" /\ status = EXIT_FAILURE
  | NdNormalise a => (forall lo hi, range_text a lo hi -> hi <= lo) /\ status = EXIT_FAILURE
  | NdLog a => (exists ch, In ch a /\ ch <> "0"%char /\ ch <> "1"%char) /\ status = EXIT_FAILURE
  | NdUnknown => status = EXIT_FAILURE
  | _ => False
  end.

(** a bound: the one given, or else the best possible one for the points *)
Definition bound_is (d : nat) (arg : option text) (best : nat -> list point -> Z -> Prop) (pts : list point) (b : point) : Prop :=
  length b = d /\
  match arg with
  | Some a => point_text strtod a b
  | None => forall i, (i < d)%nat -> best i pts (coord b i)
  end.
Definition bounds_are (d : nat) (opts : list nd_option) (pts : list point) (lb ub : point) : Prop :=
  bound_is d (lower_of opts) least pts lb /\ bound_is d (upper_of opts) greatest pts ub.
(** the bounds given do not contradict each other *)
Definition bounds_ordered (d : nat) (opts : list nd_option) : Prop :=
  forall a b lb ub, lower_of opts = Some a -> upper_of opts = Some b -> point_text strtod a lb -> point_text strtod b ub ->
    forall i, (i < d)%nat -> coord lb i <= coord ub i.
End S.

(** ** What is written *)
Definition united (opts : list nd_option) (sets : list (list point)) : list (list point) :=
  if union_on opts then [concat sets] else sets.
(** with --force-bounds the points outside the bounds are removed *)
Definition bounded (d : nat) (opts : list nd_option) (lb ub : point) (sets sets' : list (list point)) : Prop :=
  if force_on opts then Forall2 (selected (inside d lb ub)) sets sets' else sets' = sets.

Inductive sublist {A} : list A -> list A -> Prop :=
| sub_nil : sublist [] []
| sub_keep : forall x l l', sublist l l' -> sublist (x :: l) (x :: l')
| sub_drop : forall x l l', sublist l l' -> sublist l (x :: l').
(** [T] is what is left of [S] after removing dominated and duplicated points *)
Definition nondominated_part (mx : list bool) (S T : list point) : Prop :=
  sublist T S /\ NoDup T /\
  (forall p, In p T -> ~ exists q, In q S /\ dom mx q p) /\
  (forall p, In p S -> exists q, In q T /\ wdom mx q p).
Definition filtered (opts : list nd_option) (mx : list bool) (sets sets' : list (list point)) : Prop :=
  if filter_on opts then Forall2 (nondominated_part mx) sets sets' else sets' = sets.

(** the point when all the objectives are maximised ([Some true]) or minimised *)
Fixpoint turned (agree : option bool) (mx : list bool) (p : point) : point :=
  match agree, mx, p with
  | Some a, b :: mx, x :: p => (if Bool.eqb a b then x else - x) :: turned agree mx p
  | _, _, _ => p
  end.

(** what the objectives are to be after --agree *)
Definition aims (agree : option bool) (mx : list bool) : list bool :=
  match agree with
  | None => mx
  | Some b => map (fun _ => b) mx
  end.
Definition flips (agree : option bool) (b : bool) : bool :=
  match agree with
  | None => false
  | Some a => negb (Bool.eqb a b)
  end.

(** a set contains a point that is dominated by, or equal to, another one *)
Definition redundant (mx : list bool) (S : list point) : Prop :=
  exists i j, (i < length S)%nat /\ (j < length S)%nat /\ i <> j /\ wdom mx (row S i) (row S j).

Section Image.
Variable divide : Z -> Z -> Z.
Variable log10 : Z -> Z.
Variable one : Z.
(** the logarithm of the coordinates that --log marks with a 1 *)
Definition logged (opts : list nd_option) (p : point) : point :=
  match log_of opts with
  | None => p
  | Some a => map (fun i => if Ascii.eqb (nth i a "0"%char) "1" then log10 (coord p i) else coord p i) (seq 0 (length p))
  end.
(** a coordinate [x] between the bounds [l] and [u] in the range [lo, hi]; if the
    objective is turned around, the upper bound becomes the low end *)
Definition placed (rg : option (Z * Z)) (flip : bool) (l u x : Z) : Z :=
  match rg with
  | None => if flip then - x else x
  | Some (lo, hi) => lo + divide ((hi - lo) * (if flip then u - x else x - l)) (if u =? l then one else u - l)
  end.
(** a point as it is written *)
Definition image (d : nat) (opts : list nd_option) (mx : list bool) (rg : option (Z * Z)) (lb ub p : point) : point :=
  map (fun i => placed rg (flips (agree_of opts) (nth i mx false)) (coord (logged opts lb) i) (coord (logged opts ub) i) (coord (logged opts p) i))
    (seq 0 d).

(** the points and sets that are written for the sets of a file *)
Definition result (d : nat) (opts : list nd_option) (mx : list bool) (rg : option (Z * Z)) (lb ub : point) (sets sets' : list (list point)) : Prop :=
  exists s1, bounded d opts lb ub (united opts sets) s1 /\
    filtered opts (aims (agree_of opts) mx) (map (map (image d opts mx rg lb ub)) s1) sets'.
Definition some_redundant (d : nat) (opts : list nd_option) (mx : list bool) (rg : option (Z * Z)) (lb ub : point) (sets : list (list point)) : Prop :=
  exists s1 S, bounded d opts lb ub (united opts sets) s1 /\ In S s1 /\ redundant (aims (agree_of opts) mx) (map (image d opts mx rg lb ub) S).
End Image.

Section T.
Variable fmt : Z -> text.
Variable fmt_int : nat -> text.
(** numbers separated by spaces *)
Fixpoint spaced (p : point) : text :=
  match p with
  | [] => []
  | [x] => fmt x
  | x :: p => fmt x ++ " "%char :: spaced p
  end.
(** one line per point, an empty line after each set *)
Definition sets_lines (sets : list (list point)) : text :=
  concat (map (fun S => concat (map (fun p => spaced p ++ [nl]) S) ++ [nl]) sets).
Definition str := list_ascii_of_string.
Definition heading (log10 : Z -> Z) (name : string) (opts : list nd_option) (mx : list bool) (rg : option (Z * Z)) (lb ub : point) : text :=
  str "# file: " ++ str name ++ [nl] ++
  str "# objectives (" ++ fmt_int (length mx) ++ str "): " ++ map (fun b : bool => if b then "+"%char else "-"%char) mx ++ [nl] ++
  str "# agree: " ++ str (match agree_of opts with None => "no" | Some true => "max" | Some false => "min" end) ++ [nl] ++
  match log_of opts with Some a => str "# logarithm: " ++ a ++ [nl] | None => [] end ++
  match rg with Some (lo, hi) => str "# range: " ++ spaced [lo; hi] ++ [nl] | None => [] end ++
  str "# lower bound: " ++ spaced (logged log10 opts lb) ++ [nl] ++
  str "# upper bound: " ++ spaced (logged log10 opts ub) ++ [nl].
(** the outputs for the files: name of the input file and text *)
Definition nd_outputs (log10 : Z -> Z) (opts : list nd_option) (mx : list bool) (rg : option (Z * Z)) (lb ub : point) (names : list string) (outs : list (list (list point)))
  : list (string * text) :=
  if writes opts then map (fun x => (fst x, heading log10 (fst x) opts mx rg lb ub ++ sets_lines (snd x))) (combine names outs) else [].
Definition total_lines (n : nat) (mn mx : point) (dominated : bool) : text :=
  str "# Total files: " ++ fmt_int n ++ [nl] ++
  str "# Total minimum:" ++ spaced mn ++ [nl] ++
  str "# Total maximum:" ++ spaced mx ++ [nl] ++
  str "# Nondominated: " ++ str (if dominated then "FALSE" else "TRUE") ++ [nl].
End T.
