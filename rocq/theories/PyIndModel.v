(** Model of the Python functions for one data set: python/src/moocore/_moocore.py,
    hypervolume, Hypervolume, pareto_rank, is_nondominated, filter_dominated,
    filter_dominated_within_sets, igd, igd_plus, avg_hausdorff_dist, epsilon_additive,
    epsilon_mult and whv_rect, with the memory of the arrays.

    An exception is [AssertFailed].  Arrays have two dimensions; the arguments ref and
    maximise are numbers or vectors (a number is a vector of length one, as
    np.atleast_1d makes it). *)
From Coq Require Import List ZArith QArith Qround Reals Lia Bool Arith.
From Verif Require Import Base NondomModel ParetoRankModel GroupModel HvModel HvShiftModel EpsModel IgdModel RectSpec WhvModel RMatModel RWhvModel.
Import ListNotations.
Open Scope Z_scope.

(** ** numpy *)
(** an array of floats: its number of columns, its rows, and whether they are stored one
    after the other (C order) *)
Record array : Type := mkArray { a_contiguous : bool; a_ncol : nat; a_rows : list point }.
(** the arrays in memory, by their address *)
Definition memory : Type := list array.
(** the argument data: a list of lists; an array of numbers of another type (integers, say);
    an array of floats in memory; or an object of another class whose floats are in memory,
    such as a pandas data frame of floats or a numpy matrix *)
Inductive py_data : Type := Nested (x : array) | Converted (x : array) | Array (a : nat) | Shared (a : nat).

(** np.asarray (x, dtype=float): a new array, or the array itself, or a new object for the
    same memory *)
Definition np_asarray (m : memory) (x : py_data) : memory * nat :=
  match x with
  | Nested x | Converted x => (m ++ [mkArray true (a_ncol x) (a_rows x)], length m)
  | Array a | Shared a => (m, a)
  end.
(** _utils.py:5-12 asarray_maybe_copy: the flag says whether the object is another one *)
Definition asarray_maybe_copy (m : memory) (x : py_data) : memory * nat * bool :=
  (np_asarray m x, match x with Array _ => false | _ => true end).
(** data.copy () *)
Definition np_copy (m : memory) (a : nat) : outcome (memory * nat) :=
  x <- rd m a ;; Ret (m ++ [mkArray true (a_ncol x) (a_rows x)], length m).
(** data[:, maximise] = -data[:, maximise] *)
Definition np_negate (m : memory) (a : nat) (maximise : list bool) : outcome memory :=
  x <- rd m a ;; wr m a (mkArray (a_contiguous x) (a_ncol x) (map (negate_cols maximise) (a_rows x))).
(** _utils.py:49-57 atleast_1d_of_length_n; _moocore.py:155-157 _parse_maximise *)
Definition of_length {A} (l : list A) (n : nat) : outcome (list A) :=
  match l with
  | [a] => Ret (repeat a n)
  | _ => if (length l =? n)%nat then Ret l else AssertFailed
  end.
(** _moocore.py:425-428, 512-515 and 961-965: the data with the maximised objectives negated *)
Definition negate_data (m : memory) (a : nat) (copied : bool) (maximise : list bool) : outcome (memory * nat) :=
  if any maximise then
    ma <- (if copied then Ret (m, a) else np_copy m a) ;;
    m <- np_negate (fst ma) (snd ma) maximise ;;
    Ret (m, snd ma)
  else Ret (m, a).

Section Ind.
Variable sort2d : list point -> list nat.
Variable sortd : (nat -> Z) -> list nat -> list nat.
Variable dbl_max : Z.
Variable g : hvst.
Variable garbage : nat.
Variable debug : bool.
Variable argsort : list nat -> list nat.
Variable sortp : list point -> list point.
Variable sortr : list crect -> list crect.
Variable junk : nat -> crect.

(** ** hypervolume *)
(** _moocore.py:329-333 _hypervolume *)
Definition hypervolume_of (m : memory) (a : nat) (ref : list Z) : outcome Z :=
  x <- rd m a ;; fpli_hv sort2d sortd dbl_max g (a_rows x) (a_ncol x) ref.
(** _moocore.py:336-432 *)
Definition py_hypervolume (m : memory) (data : py_data) (ref : list Z) (maximise : list bool) : outcome (Z * memory) :=
  let '(m, a, copied) := asarray_maybe_copy m data in
  x <- rd m a ;;
  ref <- of_length ref (a_ncol x) ;;
  maximise <- of_length maximise (a_ncol x) ;;
  ma <- negate_data m a copied maximise ;;
  hv <- hypervolume_of (fst ma) (snd ma) (if any maximise then negate_cols maximise ref else ref) ;;
  Ret (hv, fst ma).

(** _moocore.py:435-517: the class Hypervolume; an object has a reference point, flags and
    a number of objectives *)
Record hv_object : Type := mkHv { o_ref : list Z; o_maximise : list bool; o_nobj : nat }.
(** _moocore.py:461-481; the vectors of ref[maximise] must have the same length *)
Definition hv_init (ref : list Z) (maximise : list bool) : outcome hv_object :=
  let n := length maximise in
  r <- (if (n =? 1)%nat then
          let n := length ref in
          Ret (ref, if (1 <? n)%nat then repeat (nth 0 maximise false) n else maximise, n)
        else if (length ref =? 1)%nat then Ret (repeat (nth 0 ref 0) n, maximise, n)
        else if negb (n =? length ref)%nat then AssertFailed
        else Ret (ref, maximise, n)) ;;
  let '(ref, maximise, n) := r in
  if any maximise then
    _ <- assert_ (length ref =? length maximise)%nat ;; Ret (mkHv (negate_cols maximise ref) maximise n)
  else Ret (mkHv ref maximise n).
(** _moocore.py:483-517 *)
Definition hv_call (o : hv_object) (m : memory) (data : py_data) : outcome (Z * memory) :=
  let '(m, a, copied) := asarray_maybe_copy m data in
  x <- rd m a ;;
  r <- (if (o_nobj o =? 1)%nat then
          r0 <- rd (o_ref o) 0 ;;
          m0 <- rd (o_maximise o) 0 ;;
          Ret (repeat r0 (a_ncol x), repeat m0 (a_ncol x))
        else if negb (o_nobj o =? a_ncol x)%nat then AssertFailed
        else Ret (o_ref o, o_maximise o)) ;;
  ma <- negate_data m a copied (snd r) ;;
  hv <- hypervolume_of (fst ma) (snd ma) (fst r) ;;
  Ret (hv, fst ma).

(** ** ranks and nondominated points *)
(** _moocore.py:958-972 *)
Definition py_pareto_rank (m : memory) (data : py_data) (maximise : list bool) : outcome (list nat * memory) :=
  let '(m, a, copied) := asarray_maybe_copy m data in
  x <- rd m a ;;
  maximise <- of_length maximise (a_ncol x) ;;
  ma <- negate_data m a copied maximise ;;
  x <- rd (fst ma) (snd ma) ;;
  ranks <- pareto_rank sort2d garbage debug (a_rows x) (a_ncol x) ;;
  Ret (ranks, fst ma).
(** _moocore.py:697-707 *)
Definition py_is_nondominated (m : memory) (data : py_data) (maximise : list bool) (keep_weakly : bool) : outcome (list bool * memory) :=
  let '(m, a) := np_asarray m data in
  x <- rd m a ;;
  maximise <- of_length maximise (a_ncol x) ;;
  flags <- is_nondominated sort2d (a_rows x) maximise keep_weakly ;;
  Ret (flags, m).
(** _moocore.py:806-818; [data[flags]] of a list of lists is a TypeError *)
Definition py_filter_dominated (m : memory) (data : py_data) (maximise : list bool) (keep_weakly : bool) : outcome (list point * memory) :=
  r <- py_is_nondominated m data maximise keep_weakly ;;
  let '(flags, m') := r in
  match data with
  | Nested _ => AssertFailed
  | Converted x => Ret (mask_select (a_rows x) flags, m')
  | Array a | Shared a => x <- rd m' a ;; Ret (mask_select (a_rows x) flags, m')
  end.
(** _moocore.py:886-898; maximise is parsed once instead of once for each set (there is
    at least one set, or the result is an exception) *)
Definition py_filter_dominated_within_sets (m : memory) (data : py_data) (maximise : list bool) (keep_weakly : bool) : outcome (list point * memory) :=
  let '(m, a) := np_asarray m data in
  x <- rd m a ;;
  _ <- assert_ (3 <=? a_ncol x)%nat ;;
  maximise <- of_length maximise (a_ncol x - 1) ;;
  flags <- is_nondominated_within_sets argsort sort2d (map (firstn (a_ncol x - 1)) (a_rows x)) (map (fun r => coord r (a_ncol x - 1)) (a_rows x)) maximise keep_weakly ;;
  Ret (mask_select (a_rows x) flags, m).

(** ** indicators with a reference set *)
(** _moocore.py:160-176 _unary_refset_common, for a metric given as a function *)
Definition py_unary {B} (m : memory) (data ref : py_data) (maximise : list bool) (metric : list point -> list point -> list bool -> outcome B) : outcome (B * memory) :=
  let '(m, a) := np_asarray m data in
  let '(m, b) := np_asarray m ref in
  x <- rd m a ;;
  y <- rd m b ;;
  _ <- assert_ (a_ncol x =? a_ncol y)%nat ;;
  maximise <- of_length maximise (a_ncol x) ;;
  v <- metric (a_rows x) (a_rows y) maximise ;;
  Ret (v, m).
(** _moocore.py:179-326 *)
Definition py_epsilon_additive (m : memory) (data ref : py_data) (maximise : list bool) : outcome (ext Z * memory) :=
  py_unary m data ref maximise (fun A R mx => Ret (epsilon_additive A R mx)).
Definition py_epsilon_mult (m : memory) (data ref : py_data) (maximise : list bool) : outcome (ext Q * memory) :=
  py_unary m data ref maximise epsilon_mult.
Definition py_igd (m : memory) (data ref : py_data) (maximise : list bool) : outcome (ext R * memory) :=
  py_unary m data ref maximise (fun A R mx => Ret (IGD A R mx)).
Definition py_igd_plus (m : memory) (data ref : py_data) (maximise : list bool) : outcome (ext R * memory) :=
  py_unary m data ref maximise (fun A R mx => Ret (IGD_plus A R mx)).
(** _moocore.py:258-266; ffi.cast ("unsigned int", p) of a float drops the fraction and
    keeps 32 bits *)
Definition cast_unsigned (p : Q) : nat := Z.to_nat (Qfloor p mod 2 ^ 32).
Definition py_avg_hausdorff_dist (m : memory) (data ref : py_data) (maximise : list bool) (p : Q) : outcome (ext R * memory) :=
  _ <- assert_ (negb (Qle_bool p 0)) ;;
  py_unary m data ref maximise (fun A R mx => Ret (avg_Hausdorff_dist A R mx (cast_unsigned p))).

(** ** weighted hypervolume *)
(** _moocore.py:1571-1613 (RWhvModel.py_whv_rect) with the memory: C sorts the array that it
    is given, which is the one of the caller unless np.asarray or np.ascontiguousarray made
    another one *)
Definition py_whv_rect_mem (m : memory) (data : py_data) (rectangles : list (list bound)) (width : nat) (ref : list Z) (maximise : py_flag) : outcome (Z * memory) :=
  let '(m, a) := np_asarray m data in
  x <- rd m a ;;
  r <- py_whv_rect sortp sortr junk (a_rows x) (a_ncol x) rectangles width ref maximise ;;
  m <- (if a_contiguous x then wr m a (mkArray true (a_ncol x) (snd r)) else Ret m) ;;
  Ret (fst r, m).
End Ind.
