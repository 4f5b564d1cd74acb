(** Model of the command-line tool ndsort (c/ndsort.c: calculate_uev and the part of
    main after the data have been read).

    The points are integers.  main copies the first front, normalises it to
    [0, 0.9] and computes hypervolume contributions with the reference point
    (1, ..., 1).  Exact arithmetic is modelled: the normalised value of objective
    [d] is multiplied by 10 * diff(d), which is an integer, and the reference
    point as well; the contributions computed on this grid by the model of
    hv_contributions are divided by the product of the factors.
    [PropNdsort.C43_scaled_is_normalised] proves that the grid values are
    those of the model of normalise (NormModel.v). *)
From Coq Require Import List ZArith Lia Bool Arith QArith Qround.
From Verif Require Import Base NondomModel ParetoRankModel HvModel HvShiftModel.
From Verif Require NormModel.
Import ListNotations.
Open Scope Z_scope.

(** ndsort.c:261-265: rows whose rank is [i], in order *)
Fixpoint front_rows (i : nat) (rank : list nat) (points : list point) : list point :=
  match rank, points with
  | r :: rank', p :: points' =>
    if (r =? i)%nat then p :: front_rows i rank' points' else front_rows i rank' points'
  | _, _ => []
  end.

(** ndsort.c:256-259, 266-269: [None] is the initial INFINITY / -INFINITY *)
Definition lower_step (b : option Z) (x : Z) : option Z :=
  match b with None => Some x | Some m => if m >? x then Some x else b end.
Definition upper_step (b : option Z) (x : Z) : option Z :=
  match b with None => Some x | Some m => if m <? x then Some x else b end.
Definition lower_bounds (dim : nat) (front : list point) : list (option Z) :=
  map (fun d => fold_left lower_step (map (fun p => coord p d) front) None) (seq 0 dim).
Definition upper_bounds (dim : nat) (front : list point) : list (option Z) :=
  map (fun d => fold_left upper_step (map (fun p => coord p d) front) None) (seq 0 dim).

(** ndsort.c:107-112 and 113-118: mark the first row equal to the bound *)
Fixpoint mark_first (x : Z) (d : nat) (front : list point) (j : nat) (uev : list bool)
  : outcome (list bool) :=
  match front with
  | [] => Ret uev
  | p :: front' => if coord p d =? x then wr uev j true else mark_first x d front' (S j) uev
  end.
(** ndsort.c:104-119 *)
Fixpoint uev_loop (ds : list nat) (front : list point) (lbound ubound : list (option Z))
         (uev : list bool) : outcome (list bool) :=
  match ds with
  | [] => Ret uev
  | d :: ds' =>
    match nth d lbound None, nth d ubound None with
    | Some l, Some u =>
      uev <- mark_first u d front 0 uev ;;
      uev <- mark_first l d front 0 uev ;;
      uev_loop ds' front lbound ubound uev
    | _, _ => AssertFailed            (* ndsort.c:105-106 *)
    end
  end.
(** ndsort.c:93-121; the array is allocated by the call (it is NULL before) *)
Definition calculate_uev (dim : nat) (front : list point) (lbound ubound : list (option Z))
  : outcome (list bool) :=
  uev_loop (seq 0 dim) front lbound ubound (repeat false (length front)).

Definition zbound (b : list (option Z)) (d : nat) : Z :=
  match nth d b None with Some x => x | None => 0 end.
(** nondominated.h:349-353 *)
Definition zdiff (lbound ubound : list (option Z)) (d : nat) : Z :=
  let diff := zbound ubound d - zbound lbound d in if diff =? 0 then 1 else diff.
(** nondominated.h:355-364 with lower_range = 0.0, upper_range = 0.9 and
    agree = AGREE_NONE, multiplied by 10 * diff *)
Definition scaled_row (dim : nat) (minmax : list Z) (lbound ubound : list (option Z)) (p : point)
  : point :=
  map (fun d => if NormModel.must_flip minmax NormModel.AGREE_NONE d
                then 9 * (zbound ubound d + coord p d)
                else 9 * (coord p d - zbound lbound d)) (seq 0 dim).
(** ndsort.c:251-252, multiplied likewise *)
Definition scaled_ref (dim : nat) (lbound ubound : list (option Z)) : point :=
  map (fun d => 10 * zdiff lbound ubound d) (seq 0 dim).
Definition scale (dim : nat) (lbound ubound : list (option Z)) : Z :=
  fold_right Z.mul 1 (scaled_ref dim lbound ubound).

(** ndsort.c:281-284 *)
Fixpoint add_contributions (i : nat) (rank : list nat) (order hvc : list Q) : outcome (list Q) :=
  match rank, order with
  | r :: rank', o :: order' =>
    if (r =? i)%nat then
      match hvc with
      | [] => OutOfBounds
      | h :: hvc' => rest <- add_contributions i rank' order' hvc' ;; Ret ((o + (1 - h))%Q :: rest)
      end
    else rest <- add_contributions i rank' order' hvc ;; Ret (o :: rest)
  | _, _ => Ret []
  end.

Definition divide_by (s : Z) (v : Z) : Q := (inject_Z v / inject_Z s)%Q.

(** ndsort.c:255-286, iteration [i]; [tolerance] is sqrt(DBL_EPSILON) of
    hv_contributions *)
Definition ndsort_front (sort2d : list point -> list nat)
           (sortd : (nat -> Z) -> list nat -> list nat) (dbl_max : Z) (g : hvst)
           (tolerance : Q) (points : list point) (dim : nat) (minmax : list Z)
           (rank : list nat) (i : nat) (order : list Q) : outcome (list Q) :=
  let front := front_rows i rank points in
  let lbound := lower_bounds dim front in
  let ubound := upper_bounds dim front in
  _ <- calculate_uev dim front lbound ubound ;;
  let s := scale dim lbound ubound in
  r <- hv_contributions sort2d sortd dbl_max g (Qceiling (tolerance * inject_Z s))
         (map (scaled_row dim minmax lbound ubound) front) dim (scaled_ref dim lbound ubound) ;;
  add_contributions i rank order (map (divide_by s) (fst r)).

(** ndsort.c:254-255: for (i = 1; i <= max_rank; i++), where [max_rank] has been
    set to 1 in line 254 *)
Definition max_rank : nat := 1.
Fixpoint ndsort_loop (step : nat -> list Q -> outcome (list Q)) (is : list nat) (order : list Q)
  : outcome (list Q) :=
  match is with
  | [] => Ret order
  | i :: is' => order <- step i order ;; ndsort_loop step is' order
  end.

(** ndsort.c:227, 234-293 without --rank: the printed column *)
Definition ndsort_order (sort2d : list point -> list nat)
           (sortd : (nat -> Z) -> list nat -> list nat) (dbl_max : Z) (g : hvst)
           (garbage : nat) (debug : bool) (tolerance : Q)
           (points : list point) (dim : nat) (minmax : list Z) : outcome (list Q) :=
  rank <- pareto_rank sort2d garbage debug points dim ;;
  ndsort_loop (ndsort_front sort2d sortd dbl_max g tolerance points dim minmax rank)
              (seq 1 max_rank) (map (fun r => inject_Z (Z.of_nat r)) rank).

(** ndsort.c:227-232 with --rank: the printed column *)
Definition ndsort_rank (sort2d : list point -> list nat) (garbage : nat) (debug : bool)
           (points : list point) (dim : nat) (minmax : list Z) : outcome (list nat) :=
  pareto_rank sort2d garbage debug points dim.
