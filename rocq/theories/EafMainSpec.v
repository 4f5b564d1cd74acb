(** Specification of what the eaf program prints and how it understands its
    options.  Nothing here refers to the modelled code. *)
From Coq Require Import Ascii String List ZArith Lia Bool Arith QArith.
From Verif Require Import Base.
Import ListNotations.
Local Open Scope list_scope.
Open Scope Z_scope.

Definition text := list ascii.

(** ** Lists of integers *)

(** white space and digits of the C locale *)
Definition isspace (c : ascii) : bool :=
  let n := nat_of_ascii c in ((n =? 32) || ((9 <=? n) && (n <=? 13)))%nat.
Definition isdigit (c : ascii) : bool :=
  let n := nat_of_ascii c in ((48 <=? n) && (n <=? 57))%nat.
Definition digit (c : ascii) : Z := Z.of_nat (nat_of_ascii c - 48).
Definition decimal (ds : text) : Z := fold_left (fun a c => 10 * a + digit c) ds 0.
(** no sign, "+" or "-" *)
Definition sign_value (sg : text) : option Z :=
  match sg with
  | [] => Some 1
  | [c] => if ascii_dec c "+" then Some 1 else if ascii_dec c "-" then Some (-1) else None
  | _ => None
  end.
Definition separator (c : ascii) : Prop := c = ","%char \/ c = ";"%char.
Definition starts_with_digit (s : text) : bool := match s with [] => false | c :: _ => isdigit c end.

(** [int_list s xs]: the text [s] is a list of decimal integers, whose values are
    [xs].  White space may precede a number or end the text; separators may
    precede the white space. *)
Inductive int_list : text -> list Z -> Prop :=
| IL_end : forall w, forallb isspace w = true -> int_list w []
| IL_sep : forall c s xs, separator c -> int_list s xs -> int_list (c :: s) xs
| IL_num : forall w sg sv ds r xs, forallb isspace w = true -> sign_value sg = Some sv ->
    ds <> [] -> forallb isdigit ds = true -> starts_with_digit r = false -> int_list r xs ->
    int_list (w ++ sg ++ ds ++ r) (sv * decimal ds :: xs).

(** ** Levels *)

(** a value of --percentile: strtod also accepts "nan" *)
Inductive pct : Type := PQ (q : Q) | PNan.

(** [l] is the level of the percentile [p] of [n] sets: the smallest positive
    integer not below n * p / 100, up to a tolerance *)
Definition level_of_percentile (tol : Q) (n : nat) (p : Q) (l : nat) : Prop :=
  (1 <= l <= n)%nat /\
  forall m : nat, ((l <= m)%nat <-> (1 <= m)%nat /\ (inject_Z (Z.of_nat n) * p / 100 - tol <= inject_Z (Z.of_nat m))%Q).

(** the levels asked for: --best, --median and --worst come first, then
    --percentile, then --level; all levels by default *)
Definition asked_levels (tol : Q) (best median worst : bool) (ps : list pct) (levels : list Z) (n : nat) (ls : list nat) : Prop :=
  if best then ls = [1%nat]
  else if median then ls = [((n + 1) / 2)%nat]
  else if worst then ls = [n]
  else match ps, levels with
       | _ :: _, _ => Forall2 (fun p l => match p with PQ q => (0 < q <= 100)%Q /\ level_of_percentile tol n q l | PNan => False end) ps ls
       | [], _ :: _ => levels = map Z.of_nat ls /\ Forall (fun l => (1 <= l <= n)%nat) ls
       | [], [] => ls = seq 1 n
       end.

(** ** Output streams *)
Inductive stream : Type := Stdin | Stdout | File (name : string).
(** --output FILE, --indices[=FILE], --diff[=FILE] *)
Inductive fileopt : Type := OptO (arg : string) | OptI (arg : option string) | OptD (arg : option string).

Definition named (a : string) : stream := if String.eqb a "-" then Stdout else File a.
(** the last option of each kind counts *)
Definition output_stream (opts : list fileopt) : stream :=
  fold_left (fun acc o => match o with OptO a => named a | _ => acc end) opts Stdout.
Definition last_indices (opts : list fileopt) : option (option string) :=
  fold_left (fun acc o => match o with OptI a => Some a | _ => acc end) opts None.
Definition last_diff (opts : list fileopt) : option (option string) :=
  fold_left (fun acc o => match o with OptD a => Some a | _ => acc end) opts None.
(** without a file name, the same stream as the output *)
Definition requested (out : stream) (o : option (option string)) : option stream :=
  match o with
  | None => None
  | Some None => Some out
  | Some (Some a) => Some (named a)
  end.

(** ** Output *)

(** a coordinate, an integer, and the characters space, tab and newline *)
Inductive token : Type := TNum (x : Z) | TInt (n : Z) | TSp | TTab | TNl.

Fixpoint join (sep : token) (cs : list (list token)) : list token :=
  match cs with
  | [] => []
  | [c] => c
  | c :: cs => c ++ sep :: join sep cs
  end.
Definition coordinates (p : point) : list token := join TSp (map (fun x => [TNum x]) p).
(** the indices: 1 for the sets that attain the point *)
Definition indices (flags : list bool) : list token := join TSp (map (fun b : bool => [TInt (if b then 1 else 0)]) flags).
Fixpoint ones (flags : list bool) : Z :=
  match flags with [] => 0 | b :: flags => (if b then 1 else 0) + ones flags end.
(** how many of the first half of the sets and of the others attain the point *)
Definition counts (flags : list bool) : list token :=
  let h := (List.length flags / 2)%nat in [TInt (ones (firstn h flags)); TSp; TInt (ones (skipn h flags))].

Definition stream_eqb (a b : stream) : bool :=
  match a, b with
  | Stdin, Stdin | Stdout, Stdout => true
  | File x, File y => String.eqb x y
  | _, _ => false
  end.
Definition is_stream (f : stream) (g : option stream) : bool :=
  match g with None => false | Some g => stream_eqb f g end.
(** what a stream gets for a point: the requested columns, separated by tabs *)
Definition line (f : stream) (cf inf df : option stream) (p : point) (flags : list bool) : list token :=
  match (if is_stream f cf then [coordinates p] else []) ++
        (if is_stream f inf then [indices flags] else []) ++ (if is_stream f df then [counts flags] else []) with
  | [] => []
  | cs => join TTab cs ++ [TNl]
  end.
(** the end of a level *)
Definition level_end (f : stream) (cf : option stream) : list token := if is_stream f cf then [TNl] else [].
(** what was written to a stream *)
Definition written_to (f : stream) (w : list (stream * token)) : list token :=
  map snd (filter (fun x => stream_eqb f (fst x)) w).
