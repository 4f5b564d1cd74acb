(** Specification of the dominatedsets program: what its options ask for, the
    comparison of the sets of two files, and what is printed. *)
From Coq Require Import Ascii String List ZArith Lia Bool Arith.
From Verif Require Import Base Spec IndSpec IoModel CmdModel CmdSpec IndCmdSpec DsCmdModel.
Import ListNotations.
Local Open Scope list_scope.
Open Scope Z_scope.

(** ** The options *)
Definition percent_on (opts : list ds_option) : bool := existsb (fun o => match o with DsPercentages => true | _ => false end) opts.
Definition unchecked (opts : list ds_option) : bool := existsb (fun o => match o with DsNoCheck => true | _ => false end) opts.
(** of several --obj options the last one counts *)
Definition obj_arg (opts : list ds_option) : option text :=
  fold_left (fun acc o => match o with DsObj a => Some a | _ => acc end) opts None.
(** the directions of the objectives: maximised or not; by default, all minimised *)
Definition aims (d : nat) (opts : list ds_option) (mx : list bool) : Prop :=
  match obj_arg opts with
  | Some a => asks a mx /\ length mx = d
  | None => mx = repeat false d
  end.
Definition ds_usable (d : nat) (o : ds_option) : Prop :=
  match o with
  | DsObj a => exists mx, asks a mx /\ length mx = d
  | DsUnknown => False
  | _ => True
  end.
Definition ds_refused (o : ds_option) (status : Z) : Prop :=
  match o with
  | DsObj a => (exists ch, In ch a /\ ~ In ch ["+"; "-"; "0"; "i"]%char) /\ status = EXIT_FAILURE \/
               (forall ch, In ch a -> ch = "0"%char \/ ch = "i"%char) /\ status = EXIT_SUCCESS
  | DsUnknown => status = EXIT_FAILURE
  | _ => False
  end.

(** ** The comparison *)
(** A covers B but not the other way round *)
Definition better_set (mx : list bool) (A B : list point) : Prop := set_wdom mx A B /\ ~ set_wdom mx B A.
(** [n] is the number of pairs (set of the first file, set of the second file) in which
    the set of the first file is better *)
Definition wins (mx : list bool) (As Bs : list (list point)) (n : Z) : Prop :=
  exists l : list (nat * nat), NoDup l /\ n = Z.of_nat (length l) /\
    forall a b, In (a, b) l <-> (a < length As)%nat /\ (b < length Bs)%nat /\ better_set mx (nth a As []) (nth b Bs []).

(** ** The output *)
Section T.
Variable fmt_int : Z -> text.
Variable fmt_percent : Z -> Z -> text.
Definition st := list_ascii_of_string.
(** the text on the right of a column *)
Definition right (width : nat) (s : text) : text := repeat " "%char (width - length s) ++ s.
(** the k-th file (from 0) is called f(k+1) *)
Definition short (k : nat) : text := "f"%char :: fmt_int (Z.of_nat k + 1).
Definition shorts (n : nat) : list text := map short (seq 0 n).
Definition name_lines (names : list string) : text :=
  concat (map (fun x => st "# " ++ short (fst x) ++ st ": " ++ st (snd x) ++ [nl]) (combine (seq 0 (length names)) names)).
(** numbers separated by a comma and a space *)
Fixpoint commas (l : list text) : text :=
  match l with
  | [] => []
  | [t] => t
  | t :: l => t ++ st ", " ++ commas l
  end.
(** number of sets, and the numbers of points up to and including each set *)
Definition totals_so_far (sets : list (list point)) : list nat := map (fun k => length (concat (firstn k sets))) (seq 1 (length sets)).
Definition size_lines (contents : list (list (list point))) : text :=
  concat (map (fun x => st "# " ++ short (fst x) ++ st ": " ++ fmt_int (Z.of_nat (length (snd x))) ++ st " (" ++
                        commas (map (fun c => fmt_int (Z.of_nat c)) (totals_so_far (snd x))) ++ st ")" ++ [nl])
              (combine (seq 0 (length contents)) contents)).
Definition ds_heading (mx : list bool) (names : list string) (contents : list (list (list point))) : text :=
  name_lines names ++ [nl] ++ size_lines contents ++
  st "# objectives (" ++ fmt_int (Z.of_nat (length mx)) ++ st "): " ++ map (fun b : bool => if b then "+"%char else "-"%char) mx ++ [nl].

(** a table with row and column titles, and "--" on the diagonal *)
Definition table (titles : list text) (title_width col_width : nat) (cell : nat -> nat -> text) : text :=
  [nl] ++ right title_width [] ++ concat (map (fun t => st " " ++ right col_width t) titles) ++
  concat (map (fun k => [nl] ++ right title_width (nth k titles []) ++
                        concat (map (fun j => st " " ++ right col_width (if (k =? j)%nat then st "--" else cell k j)) (seq 0 (length titles))))
              (seq 0 (length titles))).
Definition others (n k : nat) : list nat := filter (fun j => negb (k =? j)%nat) (seq 0 n).
Definition total (l : list Z) : Z := fold_right Z.add 0 l.
Definition largest (l : list Z) : Z := fold_right Z.max 0 l.
(** [count k j]: in how many pairs file k is better than file j *)
Definition results_text (percent : bool) (nsets : list nat) (count : nat -> nat -> Z) : text :=
  let n := length nsets in
  let title_width := list_max (map (@length ascii) (shorts n)) in
  let col_width := Nat.max title_width (length (fmt_int (largest (concat (map (fun k => map (count k) (others n k)) (seq 0 n)))))) in
  [nl; nl] ++ st "Number of times that <row> is better than <column>:" ++ [nl] ++
  table (shorts n) title_width col_width (fun k j => fmt_int (count k j)) ++ [nl] ++
  (if percent then
     [nl; nl] ++ st "Percentage of times that <row> is better than <column>:" ++ [nl] ++
     table (shorts n) title_width (Nat.max col_width 5) (fun k j => fmt_percent (count k j) (Z.of_nat (nth k nsets 0%nat) * Z.of_nat (nth j nsets 0%nat)))
   else []) ++ [nl; nl] ++
  st "Ranks:" ++ concat (map (fun k => st " " ++ right 3 (fmt_int (total (map (fun j => count j k) (others n k))))) (seq 0 n)) ++ [nl].
End T.
