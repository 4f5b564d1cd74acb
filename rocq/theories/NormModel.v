(** Model of normalisation: c/nondominated.h agree_objectives, normalise,
    agree_normalise and the Python wrapper normalise.

    Values are rational numbers (exact arithmetic); a point is a row of [dim]
    values.  The C loops run over k*dim+d; here over rows and columns. *)
From Coq Require Import List ZArith Lia Bool Arith QArith.
From Verif Require Import Base.
Import ListNotations.
Open Scope Q_scope.

Notation qpoint := (list Q).
Definition qcoord (p : qpoint) (d : nat) : Q := nth d p 0.

(** common.h: AGREE_MINIMISE = -1, AGREE_NONE = 0, AGREE_MAXIMISE = 1 *)
Definition AGREE_MINIMISE : Z := -1.
Definition AGREE_NONE : Z := 0.
Definition AGREE_MAXIMISE : Z := 1.

(** common.h:160-170 minmax_from_bool *)
Definition minmax_from_bool (maximise : list bool) : list Z :=
  map (fun b : bool => if b then AGREE_MAXIMISE else AGREE_MINIMISE) maximise.

(** the condition shared by agree_objectives and normalise *)
Definition must_flip (minmax : list Z) (agree : Z) (d : nat) : bool :=
  ((0 <? agree)%Z && (nth d minmax 0 <? 0)%Z) || ((agree <? 0)%Z && (0 <? nth d minmax 0)%Z).

(** nondominated.h:328-337 agree_objectives, one row *)
Definition agree_row (dim : nat) (minmax : list Z) (agree : Z) (p : qpoint) : qpoint :=
  map (fun d => if must_flip minmax agree d then - qcoord p d else qcoord p d) (seq 0 dim).

(** nondominated.h:349-353 *)
Definition norm_diff (lbound ubound : qpoint) (d : nat) : Q :=
  let diff := qcoord ubound d - qcoord lbound d in
  if Qeq_bool diff 0 then 1 else diff.
(** nondominated.h:355-364, one row *)
Definition normalise_row (dim : nat) (minmax : list Z) (agree : Z) (lower_range upper_range : Q)
           (lbound ubound : qpoint) (p : qpoint) : qpoint :=
  let range := upper_range - lower_range in
  map (fun d =>
         if must_flip minmax agree d
         then lower_range + range * (qcoord ubound d + qcoord p d) / norm_diff lbound ubound d
         else lower_range + range * (qcoord p d - qcoord lbound d) / norm_diff lbound ubound d)
      (seq 0 dim).
(** nondominated.h:340-367 normalise *)
Definition c_normalise (dim : nat) (minmax : list Z) (agree : Z) (lower_range upper_range : Q)
           (lbound ubound : qpoint) (points : list qpoint) : list qpoint :=
  map (normalise_row dim minmax agree lower_range upper_range lbound ubound) points.

(** nondominated.h:369-382 agree_normalise *)
Definition agree_normalise (dim : nat) (maximise : list bool) (lower_range upper_range : Q)
           (lbound ubound : qpoint) (points : list qpoint) : list qpoint :=
  let minmax := minmax_from_bool maximise in
  let points := map (agree_row dim minmax AGREE_MINIMISE) points in
  c_normalise dim minmax AGREE_MINIMISE lower_range upper_range lbound ubound points.

(** data.min(axis=0), data.max(axis=0) *)
Definition qmin (a b : Q) : Q := if Qle_bool a b then a else b.
Definition qmax (a b : Q) : Q := if Qle_bool a b then b else a.
Definition col_min (points : list qpoint) (d : nat) : Q :=
  match points with [] => 0 | p :: ps => fold_left (fun m q => qmin m (qcoord q d)) ps (qcoord p d) end.
Definition col_max (points : list qpoint) (d : nat) : Q :=
  match points with [] => 0 | p :: ps => fold_left (fun m q => qmax m (qcoord q d)) ps (qcoord p d) end.

(** python/src/moocore/_moocore.py:1063-1097 normalise; a bound that is NaN is
    [None].  numpy raises ValueError for min() of an empty array: [AssertFailed]. *)
Definition py_bound (given : list (option Q)) (dflt : nat -> Q) (dim : nat) : qpoint :=
  map (fun d => match nth d given None with Some v => v | None => dflt d end) (seq 0 dim).
Definition py_normalise (dim : nat) (maximise : list bool) (to_range : Q * Q)
           (lower upper : list (option Q)) (points : list qpoint) : outcome (list qpoint) :=
  _ <- assert_ (negb (dim =? 1)%nat) ;;
  let has_nan := fun l => existsb (fun d => match nth d l None with Some _ => false | None => true end) (seq 0 dim) in
  _ <- assert_ (negb ((has_nan lower || has_nan upper) && (length points =? 0)%nat)) ;;
  Ret (agree_normalise dim maximise (fst to_range) (snd to_range)
         (py_bound lower (col_min points) dim) (py_bound upper (col_max points) dim) points).
