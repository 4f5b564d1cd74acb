(** [rect_weighted_hv2d] (c/whv.c:74-181) with the weighted area accumulated in
    IEEE 754 binary64 arithmetic.  A coordinate or weight [m : Z] stands for the
    double [dval m = m * 2^-1074]; every finite double has this form.
    Comparisons, minima and maxima are exact, so the preprocessing, the sorting
    and the choice of the next point are those of WhvModel.  Overflow to infinity
    and fused multiply-add are not modelled. *)
From Coq Require Import List ZArith Lia Bool Arith Reals.
From Flocq Require Import Core.
From Verif Require Import Base RectSpec WhvSpec WhvModel PctFloatModel HvFloatModel.
Import ListNotations.
Open Scope Z_scope.

(** whv.c:158, the term added for one point and one rectangle; the product is
    evaluated from left to right *)
Definition whv_term_d (c : crect) (p : point) (top : Z) : R :=
  rnd (rnd (rnd (dval (c_u0 c) - dval (Z.max (coord p 0) (c_l0 c))) *
            rnd (dval (Z.min top (c_u1 c)) - dval (Z.max (coord p 1) (c_l1 c)))) * dval (c_col c)).

(** whv.c:151-165, the loop over rectangles for the current point *)
Fixpoint rect_do_d (fuel r : nat) (c : crect) (rects : list crect) (p : point) (top : Z) (whv : R) : outcome R :=
  match fuel with
  | O => OutOfFuel
  | S fuel =>
      whv <- (if (coord p 0 <? c_u0 c) && (c_l1 c <? top) then
                _ <- assert_ ((coord p 0 <? c_u0 c) && (coord p 1 <? c_u1 c)) ;;
                _ <- assert_ (c_l1 c <? top) ;;
                _ <- assert_ (coord p 1 <? top) ;;
                Ret (rnd (whv + whv_term_d c p top))
              else Ret whv) ;;
      let r1 := S r in
      if (length rects <=? r1)%nat then Ret whv
      else c <- get_rectangle rects r1 ;;
           if coord p 1 <? c_u1 c then rect_do_d fuel r1 c rects p top whv else Ret whv
  end.

(** whv.c:149-174 *)
Fixpoint whv_loop_d (fuel : nat) (data : list point) (rects : list crect) (last_top last_right : Z)
         (pk : nat) (top : Z) (whv : R) : outcome R :=
  match fuel with
  | O => OutOfFuel
  | S fuel =>
      p <- rd data pk ;;
      c <- get_rectangle rects 0 ;;
      _ <- assert_ (coord p 1 <? c_u1 c) ;;
      whv <- rect_do_d (length rects) 0 c rects p top whv ;;
      o <- next_useful (S (length data)) data last_top last_right (c_u1 c) pk ;;
      match o with
      | None => Ret whv
      | Some (pk, top) => whv_loop_d fuel data rects last_top last_right pk top whv
      end
  end.

(** whv.c:74-181 rect_weighted_hv2d; also returns the sorted data array *)
Definition rect_weighted_hv2d_d (sortd : list point -> list point) (sortr : list crect -> list crect)
           (junk : nat -> crect) (data : list point) (rs : list (rect Z)) (ref : point)
  : outcome (R * list point) :=
  if (length rs =? 0)%nat || (length data =? 0)%nat then Ret (0%R, data)
  else
    rects <- whv_preprocess junk rs ref ;;
    if (length rects =? 0)%nat then Ret (0%R, data)
    else
      let data := sortd data in
      let rects := sortr rects in
      c <- get_rectangle rects 0 ;;
      last <- rd rects (length rects - 1) ;;
      let last_top := c_u1 last in
      let last_right := max_right rects in
      o <- find_first (S (length data)) data last_top last_right (c_u1 c) 0 (c_u1 c) ;;
      match o with
      | None => Ret (0%R, data)
      | Some (pk, top) =>
          whv <- whv_loop_d (S (length data)) data rects last_top last_right pk top 0%R ;;
          Ret (whv, data)
      end.
