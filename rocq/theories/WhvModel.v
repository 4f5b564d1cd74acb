(** Model of c/whv.c (rectangle-weighted hypervolume) and of the Python wrappers
    whv_rect and total_whv_rect.

    Coordinates and weights are integers (exact arithmetic).  Upper sides of
    rectangles may be +infinity; they are clipped to the reference point first.
    qsort is an oracle. *)
From Coq Require Import List ZArith Lia Bool Arith.
From Verif Require Import Base RectSpec WhvSpec.
Import ListNotations.
Open Scope Z_scope.

(** a row of the clipped array of rectangles *)
Record crect : Type := mkC { c_l0 : Z; c_l1 : Z; c_u0 : Z; c_u1 : Z; c_col : Z }.
Definition c_zero : crect := mkC 0 0 0 0 0.

(** whv.c:7-15 cmp_data_y_desc, 17-26 cmp_rectangles_y_desc: "a may be before b" *)
Definition cmp_data_y_desc (a b : point) : Z :=
  if coord b 1 <? coord a 1 then -1 else if coord a 1 <? coord b 1 then 1 else
  if coord a 0 <? coord b 0 then -1 else if coord b 0 <? coord a 0 then 1 else 0.
Definition cmp_rectangles_y_desc (a b : crect) : Z :=
  if c_u1 b <? c_u1 a then -1 else if c_u1 a <? c_u1 b then 1 else
  if c_u0 a <? c_u0 b then -1 else if c_u0 b <? c_u0 a then 1 else 0.

(** whv.c:33-38, MIN(x, reference) *)
Definition clip_rect (ref : point) (r : rect Z) : crect :=
  mkC (Z.min (r_lx r) (coord ref 0)) (Z.min (r_ly r) (coord ref 1))
      (clip (r_ux r) (coord ref 0)) (clip (r_uy r) (coord ref 1)) (r_col r).

(** whv.c:39-45: rows to skip *)
Definition degenerate (c : crect) : bool := (c_l0 c =? c_u0 c) || (c_l1 c =? c_u1 c).
Fixpoint find_skips (k : nat) (cs : list crect) : list nat :=
  match cs with
  | [] => []
  | c :: cs => if degenerate c then k :: find_skips (S k) cs else find_skips (S k) cs
  end.
(** whv.c:62-66 *)
Fixpoint copy_while (fuel k lim j : nat) (src dest : list crect) : outcome (nat * list crect) :=
  match fuel with
  | O => OutOfFuel
  | S fuel =>
      if (k <? lim)%nat then
        c <- rd src k ;; dest <- wr dest j c ;; copy_while fuel (S k) lim (S j) src dest
      else Ret (j, dest)
  end.
(** whv.c:60-68 *)
Fixpoint copy_skips (skips : list nat) (k j : nat) (src dest : list crect) : outcome (list crect) :=
  match skips with
  | [] => Ret dest
  | s :: skips =>
      r <- copy_while (S (length src)) k s j src dest ;;
      copy_skips skips (s + 1) (fst r) src (snd r)
  end.
(** whv.c:28-72 whv_preprocess_rectangles; [junk] is the contents of fresh memory.
    skip[] has nrow elements, so that skip[skip_nrow] = nrow needs skip_nrow < nrow,
    which the early return guarantees. *)
Definition whv_preprocess (junk : nat -> crect) (rs : list (rect Z)) (ref : point) : outcome (list crect) :=
  let cs := map (clip_rect ref) rs in
  let skips := find_skips 0 cs in
  if (length skips =? 0)%nat then Ret cs
  else
    let new_nrow := (length cs - length skips)%nat in
    if (new_nrow =? 0)%nat then Ret []
    else
      _ <- assert_ (length skips <? length cs)%nat ;;
      copy_skips (skips ++ [length cs]) 0 0 cs (map junk (seq 0 new_nrow)).

(** whv.c:89-97 get_rectangle *)
Definition get_rectangle (rects : list crect) (r : nat) : outcome crect :=
  c <- rd rects r ;;
  _ <- assert_ (c_l0 c <? c_u0 c) ;;
  _ <- assert_ (c_l1 c <? c_u1 c) ;;
  _ <- assert_ (0 <=? c_col c) ;;
  Ret c.

(** whv.c:99-106 next_point: [None] is "goto return_whv" *)
Definition next_point (data : list point) (last_top last_right : Z) (pk : nat) : outcome (option (nat * Z)) :=
  p <- rd data pk ;;
  let top := coord p 1 in
  let pk1 := S pk in
  if (length data <=? pk1)%nat || (top =? last_top) || (last_right <=? coord p 0)
  then Ret None else Ret (Some (pk1, top)).

(** whv.c:141-146 find the first useful point *)
Fixpoint find_first (fuel : nat) (data : list point) (last_top last_right upper1 : Z) (pk : nat) (top : Z)
  : outcome (option (nat * Z)) :=
  match fuel with
  | O => OutOfFuel
  | S fuel =>
      p <- rd data pk ;;
      if upper1 <=? coord p 1 then
        o <- next_point data last_top last_right pk ;;
        match o with
        | None => Ret None
        | Some (pk, top) => find_first fuel data last_top last_right upper1 pk top
        end
      else Ret (Some (pk, top))
  end.

(** whv.c:151-165, the loop over rectangles for the current point; [c] is
    rectangle [r] *)
Fixpoint rect_do (fuel r : nat) (c : crect) (rects : list crect) (p : point) (top whv : Z) : outcome Z :=
  match fuel with
  | O => OutOfFuel
  | S fuel =>
      whv <- (if (coord p 0 <? c_u0 c) && (c_l1 c <? top) then
                _ <- assert_ ((coord p 0 <? c_u0 c) && (coord p 1 <? c_u1 c)) ;;
                _ <- assert_ (c_l1 c <? top) ;;
                _ <- assert_ (coord p 1 <? top) ;;
                Ret (whv + (c_u0 c - Z.max (coord p 0) (c_l0 c)) *
                           (Z.min top (c_u1 c) - Z.max (coord p 1) (c_l1 c)) * c_col c)
              else Ret whv) ;;
      let r1 := S r in
      if (length rects <=? r1)%nat then Ret whv
      else c <- get_rectangle rects r1 ;;
           if coord p 1 <? c_u1 c then rect_do fuel r1 c rects p top whv else Ret whv
  end.

(** whv.c:169-173, next point, skipping repeated ones above the first rectangle *)
Fixpoint next_useful (fuel : nat) (data : list point) (last_top last_right upper1 : Z) (pk : nat)
  : outcome (option (nat * Z)) :=
  match fuel with
  | O => OutOfFuel
  | S fuel =>
      o <- next_point data last_top last_right pk ;;
      match o with
      | None => Ret None
      | Some (pk, top) =>
          p <- rd data pk ;;
          if (top =? coord p 1) && (upper1 <=? coord p 1)
          then next_useful fuel data last_top last_right upper1 pk
          else Ret (Some (pk, top))
      end
  end.

(** whv.c:149-174 *)
Fixpoint whv_loop (fuel : nat) (data : list point) (rects : list crect) (last_top last_right : Z)
         (pk : nat) (top whv : Z) : outcome Z :=
  match fuel with
  | O => OutOfFuel
  | S fuel =>
      p <- rd data pk ;;
      c <- get_rectangle rects 0 ;;
      _ <- assert_ (coord p 1 <? c_u1 c) ;;
      whv <- rect_do (length rects) 0 c rects p top whv ;;
      o <- next_useful (S (length data)) data last_top last_right (c_u1 c) pk ;;
      match o with
      | None => Ret whv
      | Some (pk, top) => whv_loop fuel data rects last_top last_right pk top whv
      end
  end.

(** whv.c:136-139; last_right starts at -DBL_MAX, which no upper0 is below *)
Definition max_right (rects : list crect) : Z :=
  match rects with
  | [] => 0
  | c :: cs => fold_left (fun m c => Z.max m (c_u0 c)) cs (c_u0 c)
  end.

(** whv.c:74-181 rect_weighted_hv2d; also returns the data array, which is sorted
    in place *)
Definition rect_weighted_hv2d (sortd : list point -> list point) (sortr : list crect -> list crect)
           (junk : nat -> crect) (data : list point) (rs : list (rect Z)) (ref : point)
  : outcome (Z * list point) :=
  if (length rs =? 0)%nat || (length data =? 0)%nat then Ret (0, data)
  else
    rects <- whv_preprocess junk rs ref ;;
    if (length rects =? 0)%nat then Ret (0, data)
    else
      let data := sortd data in
      let rects := sortr rects in
      c <- get_rectangle rects 0 ;;
      last <- rd rects (length rects - 1) ;;
      let last_top := c_u1 last in
      let last_right := max_right rects in
      o <- find_first (S (length data)) data last_top last_right (c_u1 c) 0 (c_u1 c) ;;
      match o with
      | None => Ret (0, data)
      | Some (pk, top) =>
          whv <- whv_loop (S (length data)) data rects last_top last_right pk top 0 ;;
          Ret (whv, data)
      end.
