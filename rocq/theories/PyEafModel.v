(** Model of the Python functions eaf and eafdiff
    (python/src/moocore/_moocore.py:1211-1249 and 1470-1529) for two
    objectives and rectangles=False.  A data set is given as its rows of
    objective values and the column of set labels.  Percentiles and colours
    are exact rationals. *)
From Coq Require Import List ZArith Lia Bool Arith QArith.
From Verif Require Import Base EafModel EafStoreModel GroupModel.
Import ListNotations.
Open Scope Z_scope.

(** numpy [np.cumsum]. *)
Fixpoint cumsum_from (acc : nat) (l : list nat) : list nat :=
  match l with [] => [] | x :: l' => (acc + x)%nat :: cumsum_from (acc + x) l' end.
Definition np_cumsum := cumsum_from 0.

(** numpy [np.unique] of a float array (here rationals). *)
Fixpoint qnodup (l : list Q) : list Q :=
  match l with
  | [] => []
  | q :: l' => if existsb (Qeq_bool q) l' then qnodup l' else q :: qnodup l'
  end.
Definition np_unique_q (l : list Q) : list Q := sort_by Qle_bool (qnodup l).

(** _moocore.py:1211-1249 [eaf].  The rows are passed to C in the given order;
    only the sizes of the sets are computed from the labels. *)
Definition py_eaf (sortx sorty : list point -> list nat) (junk : nat -> Z) (grow : nat -> nat -> nat)
  (data : list point) (labels : list Z) (percentiles : list Q) : outcome (list (point * Q)) :=
  let cs := np_cumsum (unique_counts labels) in
  let nsets := length cs in
  let ps := match percentiles with [] => all_percentiles nsets | _ => np_unique_q percentiles end in
  eaf_compute_matrix_2d sortx sorty junk grow data cs nsets (Some ps) (length ps).

(** data[:, maximise] = -data[:, maximise] on one row. *)
Fixpoint neg_cols (maximise : list bool) (p : point) : point :=
  match maximise, p with
  | m :: mx, c :: p' => (if m then - c else c) :: neg_cols mx p'
  | _, _ => p
  end.

(** Equality of two rows of the result (coordinates and colour). *)
Definition row_eqb (a b : point * Q) : bool :=
  (if list_eq_dec Z.eq_dec (fst a) (fst b) then true else false) && Qeq_bool (snd a) (snd b).

(** _utils.py:16-23 [unique_nosort] with axis=0.  Simplification: np.unique
    over rows followed by the argsort of the first indices is modelled by its
    effect, keeping the first occurrence of every row in order (for one
    dimension this is proved, C38_unique_nosort). *)
Fixpoint unique_rows (l : list (point * Q)) : list (point * Q) :=
  match l with
  | [] => []
  | r :: l' => r :: filter (fun w => negb (row_eqb w r)) (unique_rows l')
  end.

(** _moocore.py:1470-1529 [eafdiff] with rectangles=False. *)
Definition py_eafdiff (argsort : list Z -> list nat) (sortx sorty : list point -> list nat)
  (junk : nat -> Z) (grow : nat -> nat -> nat)
  (x : list point) (lx : list Z) (y : list point) (ly : list Z)
  (intervals : option nat) (maximise : list bool) : outcome (list (point * Q)) :=
  let ix := argsort lx in let iy := argsort ly in
  x' <- take x ix ;; lx' <- take lx ix ;;
  y' <- take y iy ;; ly' <- take ly iy ;;
  let cx := np_cumsum (unique_counts lx') in
  let cy := np_cumsum (unique_counts ly') in
  lastx <- rd cx (length cx - 1) ;;
  let cs := cx ++ map (fun c => (lastx + c)%nat) cy in
  let nsets := length cs in
  let data := map (neg_cols maximise) (x' ++ y') in
  let iv := match intervals with None => (nsets / 2)%nat | Some i => Nat.min i (nsets / 2) end in
  out <- eafdiff_compute_matrix_2d sortx sorty junk grow data cs nsets iv ;;
  Ret (map (fun r => (neg_cols maximise (fst r), snd r)) (unique_rows out)).
