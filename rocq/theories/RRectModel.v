(** Model of the R layer, part 7: eafdiff (..., rectangles = TRUE) (r/R/eafdiff.R),
    choose_eafdiff and largest_eafdiff (r/R/largest_eafdiff.R), and
    compute_eafdiff_rectangles_C in r/src/Rmoocore.c.

    The values of a matrix of rectangles are rational numbers, Inf and -Inf. *)
From Coq Require Import List ZArith QArith Qabs Lia Bool Arith.
From Verif Require Import Base EafModel EafStoreModel EafMainModel RectSpec RectModel NondomModel GroupModel PyEafModel CmdModel MtModel HvModel WhvModel
  RMatModel RIndModel REafModel RFileModel RWhvModel RRectSpec.
Import ListNotations.
Open Scope Z_scope.

(** ** arithmetic *)
Definition xopp (a : xnum) : xnum := match a with Fin q => Fin (- q) | PosInf => NegInf | NegInf => PosInf end.
Definition xabs (a : xnum) : xnum := match a with Fin q => Fin (Qabs q) | _ => PosInf end.
Definition xeqb (a b : xnum) : bool :=
  match a, b with Fin p, Fin q => Qeq_bool p q | PosInf, PosInf | NegInf, NegInf => true | _, _ => false end.
(** a >= q, a <= q, a > q, a < q *)
Definition xge (a : xnum) (q : Q) : bool := match a with Fin p => Qle_bool q p | PosInf => true | NegInf => false end.
Definition xle (a : xnum) (q : Q) : bool := match a with Fin p => Qle_bool p q | PosInf => false | NegInf => true end.
Definition xgt (a : xnum) (q : Q) : bool := negb (xle a q).
Definition xlt (a : xnum) (q : Q) : bool := negb (xge a q).
Local Notation x0 := (Fin 0).

(** ** matrices *)
(** without drop=FALSE a selection of one row is a vector: eafdiff.R:121 *)
Inductive xvalue : Type := XMatrix (m : rmat xnum) | XVector (v : list xnum).
Fixpoint xs_eqb (a b : list xnum) : bool :=
  match a, b with
  | [], [] => true
  | x :: a, y :: b => xeqb x y && xs_eqb a b
  | _, _ => false
  end.
Definition xrow (x : rmat xnum) (i : nat) : list xnum := map (cell x0 x i) (seq 0 (ncol x)).
(** !duplicated(x) *)
Definition x_not_duplicated (x : rmat xnum) : list bool :=
  map (fun i => negb (existsb (fun k => xs_eqb (xrow x k) (xrow x i)) (seq 0 i))) (seq 0 (nrow x)).
Definition x_unique_rows (x : rmat xnum) : xvalue :=
  let y := r_rows x0 x (which (x_not_duplicated x)) in
  if (nrow y =? 1)%nat then XVector (values y) else XMatrix y.
(** x[, -ncol(x)] <- y *)
Definition x_set_init (x y : rmat xnum) : rmat xnum := mkMat (nrow x) (ncol x) (values y ++ skipn (nrow x * (ncol x - 1)) (values x)).
(** x[, ncol(x)] <- f (x[, ncol(x)]) *)
Definition x_set_last (x : rmat xnum) (f : xnum -> xnum) : rmat xnum :=
  mkMat (nrow x) (ncol x) (firstn (nrow x * (ncol x - 1)) (values x) ++ map f (r_col x0 x (ncol x - 1))).
(** x[p (x[, j]), , drop=FALSE] *)
Definition x_select (x : rmat xnum) (j : nat) (p : xnum -> bool) : rmat xnum := r_rows x0 x (which (map p (r_col x0 x j))).

Section Rect.
Variables (sortx sorty sortz : list point -> list nat) (junk : nat -> Z) (grow : nat -> nat -> nat) (lo hi : Z).
(** order () *)
Variable order : list Z -> list nat.

(** ** r/src/Rmoocore.c *)
(** the array rects->xy: four numbers for each rectangle (c/eaf.c:962-981 rectangle_add) *)
Definition xbound (b : bound) : xnum := match b with At x => Fin (inject_Z x) | Infty => PosInf end.
Definition rect_xy (rs : list (rect Z)) : list xnum :=
  concat (map (fun r => [Fin (inject_Z (r_lx r)); Fin (inject_Z (r_ly r)); xbound (r_ux r); xbound (r_uy r)]) rs).
(** Rmoocore.c:127-165.  With three objectives C would read six numbers for each rectangle:
    OutOfBounds (also in the case, not modelled, that there is no rectangle) *)
Definition compute_eafdiff_rectangles_C (data : rmat Z) (cumsizes : list nat) (intervals : nat) : outcome (rmat xnum) :=
  let nobj := nrow data in
  let nruns := length cumsizes in
  eaf <- compute_eaf_helper sortx sorty sortz junk grow lo hi data cumsizes None nruns ;;
  if negb (nobj =? 2)%nat then OutOfBounds else
  rs <- eaf_compute_rectangles eaf ;;
  let xy := rect_xy rs in
  let division := (nruns / 2)%nat in
  Ret (matrix_of (length rs) (2 * nobj + 1) (fun k i =>
    if (i <? 2 * nobj)%nat then nth (k * (2 * nobj) + i) xy x0
    else Fin (inject_Z (Z.of_nat intervals) * inject_Z (nth k (map RectSpec.r_col rs) 0) / inject_Z (Z.of_nat division)))).

(** ** r/R/eafdiff.R *)
(** eafdiff.R:122-126 *)
Definition x_undo_maximise (x : rmat xnum) (maximise : list bool) : outcome (rmat xnum) :=
  if any maximise then
    let maximise := if negb (length maximise =? 1)%nat then maximise ++ maximise else maximise in
    y <- transform_maximise x0 xopp (r_init x0 x) maximise ;;
    Ret (x_set_init x y)
  else Ret x.
(** eafdiff.R:85-131 and compute_eafdiff_call (144-152), rectangles = TRUE *)
Definition r_eafdiff_rect (x y : rmat Z) (intervals : option Q) (maximise : list bool) : outcome xvalue :=
  _ <- assert_ (ncol x =? ncol y)%nat ;;
  let sets_x := r_col 0 x (ncol x - 1) in
  let cumsizes_x := np_cumsum (unique_counts sets_x) in
  x <- r_take x (order sets_x) ;;
  x <- as_double_matrix (r_init 0 x) ;;
  let sets_y := r_col 0 y (ncol y - 1) in
  let cumsizes_y := np_cumsum (unique_counts sets_y) in
  y <- r_take y (order sets_y) ;;
  y <- as_double_matrix (r_init 0 y) ;;
  let iv := r_intervals intervals (length cumsizes_x + length cumsizes_y) in
  x <- transform_maximise 0 Z.opp x maximise ;;
  y <- transform_maximise 0 Z.opp y maximise ;;
  last <- rd cumsizes_x (length cumsizes_x - 1) ;;
  DIFF <- compute_eafdiff_rectangles_C (r_cbind (r_t 0 x) (r_t 0 y)) (cumsizes_x ++ map (fun c => last + c)%nat cumsizes_y) iv ;;
  match x_unique_rows DIFF with
  | XMatrix m => m <- x_undo_maximise m maximise ;; Ret (XMatrix m)
  | XVector v => if any maximise then AssertFailed else Ret (XVector v)   (* DIFF[, -ncol(DIFF)] of a vector *)
  end.

(** ** r/R/largest_eafdiff.R *)
(** largest_eafdiff.R:114-121; x[, ncol(x)] of a vector is an error *)
Definition r_choose_eafdiff (x : xvalue) (left : bool) : outcome (rmat xnum) :=
  match x with
  | XVector _ => AssertFailed
  | XMatrix x =>
      if left then Ret (x_select x (ncol x - 1) (fun v => xgt v 0))
      else Ret (x_set_last (x_select x (ncol x - 1) (fun v => xlt v 0)) xabs)
  end.

(** the numbers that whv_rect accepts in this model: integers in the unit, or Inf *)
Definition to_bound (a : xnum) : outcome bound :=
  match a with
  | Fin (n # 1) => Ret (At n)
  | PosInf => Ret Infty
  | _ => OutOfBounds
  end.
Fixpoint to_bounds (l : list xnum) : outcome (list bound) :=
  match l with
  | [] => Ret []
  | a :: l => b <- to_bound a ;; bs <- to_bounds l ;; Ret (b :: bs)
  end.

Variable sortp : list point -> list point.
Variable sortr : list crect -> list crect.
Variable junkr : nat -> crect.
Local Notation r_whv_rect := (r_whv_rect sortp sortr junkr).

(** largest_eafdiff.R:57-60 and 62-64: whv_rect of the selected rectangles with colour 1.
    The first assert_ is that of whv_rect (whv.R:44), which comes before the rectangles are
    read: with maximise they may have sides -Inf *)
Definition side_value (DIFF : rmat xnum) (p : xnum -> bool) (ideal : rmat Z) (reference : list Z) (maximise : list bool) : outcome Z :=
  let rectangles := x_set_last (x_select DIFF 4 p) (fun _ => Fin 1) in
  _ <- assert_ (negb (any maximise)) ;;
  bs <- to_bounds (values rectangles) ;;
  r_whv_rect ideal (mkMat (nrow rectangles) (ncol rectangles) bs) reference maximise.
(** largest_eafdiff.R:54-65: DIFF[, 5] of a vector is an error *)
Definition pair_value (xa xb : rmat Z) (intervals : option Q) (ideal : rmat Z) (reference : list Z) (maximise : list bool) : outcome Z :=
  DIFF <- r_eafdiff_rect xa xb intervals maximise ;;
  match DIFF with
  | XVector _ => AssertFailed
  | XMatrix DIFF =>
      a_value <- side_value DIFF (fun v => xge v 1) ideal reference maximise ;;
      b_value <- side_value DIFF (fun v => xle v (-1)) ideal reference maximise ;;
      Ret (Z.min a_value b_value)
  end.
(** largest_eafdiff.R:52-53: the pairs (a, b), counted from 0 *)
Definition pairs (n : nat) : list (nat * nat) := concat (map (fun a => map (fun b => (a, b)) (seq (S a) (n - S a))) (seq 0 (n - 1))).
(** largest_eafdiff.R:66-69 *)
Fixpoint best_of (x : list (rmat Z)) (intervals : option Q) (ideal : rmat Z) (reference : list Z) (maximise : list bool)
         (ps : list (nat * nat)) (best_pair : option (nat * nat)) (best_value : Z) : outcome (option (nat * nat) * Z) :=
  match ps with
  | [] => Ret (best_pair, best_value)
  | (a, b) :: ps =>
      xa <- rd x a ;;
      xb <- rd x b ;;
      value <- pair_value xa xb intervals ideal reference maximise ;;
      if best_value <? value
      then best_of x intervals ideal reference maximise ps (Some (a, b)) value
      else best_of x intervals ideal reference maximise ps best_pair best_value
  end.
(** utils.R:1-5 range_df_list; the values exist for matrices with rows *)
Definition range_df_list (x : list (rmat Z)) (col : nat) : option Z * option Z :=
  let v := concat (map (fun m => r_col 0 m col) x) in (r_min v, r_max v).
Definition or0 (v : option Z) : Z := match v with Some v => v | None => 0 end.
(** largest_eafdiff.R:30-73; [ideal]: a vector, which becomes a matrix of one row (its
    length must be 2).  The data are in the unit of the areas. *)
Definition r_largest_eafdiff (x : list (rmat Z)) (maximise : list bool) (intervals : option Q) (reference : list Z) (ideal : option (list Z))
  : outcome (option (nat * nat) * Z) :=
  let maximise := rep_len true maximise 2 in
  let n := length x in
  _ <- assert_ (1 <? n)%nat ;;
  let ideal := match ideal with
               | Some i => i
               | None => map (fun j => let r := range_df_list x j in or0 (if nth j maximise false then snd r else fst r)) (seq 0 2)
               end in
  _ <- assert_ (length ideal =? 2)%nat ;;
  best_of x intervals (mkMat 1 2 ideal) reference maximise (pairs n) None 0.
End Rect.
