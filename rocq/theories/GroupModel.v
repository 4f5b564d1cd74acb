(** Model of the Python functions that split a data set into its sets:
    python/src/moocore/_moocore.py, apply_within_sets (1985-2013) and
    is_nondominated_within_sets (783-803), and _utils.py unique_nosort.
    A label is an integer (numpy floats that are not NaN: only comparisons
    are used).  An exception is [AssertFailed] (ValueError) or [OutOfBounds]
    (IndexError of [take]). *)
From Coq Require Import List ZArith Lia Bool Arith Permutation Sorted.
From Verif Require Import Base NondomModel.
Import ListNotations.
Open Scope Z_scope.

(** numpy [np.unique(a)]: the distinct values in increasing order. *)
Definition np_unique (a : list Z) : list Z := sort_by Z.leb (nodup Z.eq_dec a).

(** Position of the first occurrence of [v] ([length a] if there is none). *)
Fixpoint first_pos (v : Z) (a : list Z) : nat :=
  match a with
  | [] => 0
  | x :: a' => if x =? v then 0 else S (first_pos v a')
  end.

(** numpy [np.unique(a, return_index=True)], second result. *)
Definition unique_index (a : list Z) : list nat :=
  map (fun v => first_pos v a) (np_unique a).

(** numpy [np.unique(a, return_inverse=True)], third result. *)
Definition unique_inverse (a : list Z) : list nat :=
  map (fun v => first_pos v (np_unique a)) a.

(** numpy [np.unique(a, return_counts=True)], second result. *)
Definition unique_counts (a : list Z) : list nat :=
  map (fun v => countb (Z.eqb v) a) (np_unique a).

(** numpy [np.flatnonzero]. *)
Definition flatnonzero (bs : list bool) : list nat :=
  filter (fun i => nth i bs false) (seq 0 (length bs)).

(** numpy [argsort] is an arbitrary sorting permutation of the indices (the
    default kind, quicksort, is not stable). *)
Definition valid_argsort {A} (le : A -> A -> Prop) (argsort : list A -> list nat) : Prop :=
  forall l, Permutation (seq 0 (length l)) (argsort l) /\
    forall d, StronglySorted le (map (fun i => nth i l d) (argsort l)).

(** numpy [x.take(idx, axis=0)]: IndexError when an index is too large. *)
Fixpoint take {A} (x : list A) (idx : list nat) : outcome (list A) :=
  match idx with
  | [] => Ret []
  | i :: idx' => v <- rd x i ;; vs <- take x idx' ;; Ret (v :: vs)
  end.

(** numpy [np.concatenate(l)]: ValueError for an empty list of arrays. *)
Definition np_concatenate {A} (l : list (list A)) : outcome (list A) :=
  match l with [] => AssertFailed | _ => Ret (concat l) end.

(** _moocore.py:1994-1996 (same as 789-791):
<<
    _, idx, inv = np.unique(sets, return_index=True, return_inverse=True)
    idx = [np.flatnonzero(inv == i) for i in idx.argsort()]
>> *)
Definition group_indices (argsort : list nat -> list nat) (sets : list Z)
  : list (list nat) :=
  let idx := unique_index sets in
  let inv := unique_inverse sets in
  map (fun i => flatnonzero (map (fun v => Nat.eqb v i) inv)) (argsort idx).

(** _moocore.py:1999-2008, the loop of apply_within_sets.  Accumulates the
    results and the flag [shorter]. *)
Fixpoint apply_loop {A B} (func : list A -> outcome (list B)) (x : list A)
         (idx : list (list nat)) (shorter : bool) : outcome (list (list B) * bool) :=
  match idx with
  | [] => Ret ([], shorter)
  | g :: idx' =>
    rows <- take x g ;;
    z <- func rows ;;
    sh <- (if negb (length z =? length g)%nat then
             _ <- assert_ (length z =? 1)%nat ;; Ret true
           else Ret shorter) ;;
    r <- apply_loop func x idx' sh ;;
    Ret (z :: fst r, snd r)
  end.

(** _moocore.py:1993-2013 [apply_within_sets].  [func] includes the
    [np.atleast_1d] of its result. *)
Definition apply_within_sets {A B} (argsort : list nat -> list nat)
           (func : list A -> outcome (list B)) (x : list A) (sets : list Z)
  : outcome (list B) :=
  let idx := group_indices argsort sets in
  r <- apply_loop func x idx false ;;
  res <- np_concatenate (fst r) ;;
  if snd r then Ret res
  else ci <- np_concatenate idx ;; take res (argsort ci).

(** _moocore.py:792-801, the list comprehension. *)
Fixpoint map_groups {A B} (func : list A -> outcome (list B)) (x : list A)
         (idx : list (list nat)) : outcome (list (list B)) :=
  match idx with
  | [] => Ret []
  | g :: idx' =>
    rows <- take x g ;; z <- func rows ;; r <- map_groups func x idx' ;; Ret (z :: r)
  end.

(** _moocore.py:783-803 [is_nondominated_within_sets]; the number of columns
    is the length of [maximise] (after _parse_maximise). *)
Definition is_nondominated_within_sets (argsort : list nat -> list nat)
           (sort2d : list point -> list nat) (data : list point) (sets : list Z)
           (maximise : list bool) (keep_weakly : bool) : outcome (list bool) :=
  _ <- assert_ (2 <=? length maximise)%nat ;;
  let idx := group_indices argsort sets in
  zs <- map_groups (fun rows => is_nondominated sort2d rows maximise keep_weakly) data idx ;;
  res <- np_concatenate zs ;;
  ci <- np_concatenate idx ;;
  take res (argsort ci).

(** filter_dominated_within_sets (_moocore.py, "return data[is_nondominated_...]"):
    boolean-mask selection of whole rows. *)
Fixpoint mask_select {A} (x : list A) (m : list bool) : list A :=
  match x, m with
  | a :: x', b :: m' => if b then a :: mask_select x' m' else mask_select x' m'
  | _, _ => []
  end.

(** _utils.py:16-23 [unique_nosort] (1-D; the axis=0 version compares rows
    instead of values). *)
Definition unique_nosort (argsort : list nat -> list nat) (a : list Z) : outcome (list Z) :=
  take (np_unique a) (argsort (unique_index a)).

(** An executable [argsort], for the examples: stable insertion sort. *)
Definition argsort_exec (l : list nat) : list nat :=
  sort_by (fun i j => nth i l 0 <=? nth j l 0)%nat (seq 0 (length l)).
