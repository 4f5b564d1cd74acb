(** Model of eaf_compute_rectangles (c/eaf.c:962-1067) and
    eafdiff_compute_rectangles (c/eafdiff.c:5-36).

    objective_MAX is INFINITY (c/eaf.h:50).  A pointer into the data of a surface
    is the row it points to; reading a row is bounds-checked ([read_point]).  The
    vectors xy and col are one list of rectangles (cvector.h is modelled in
    CvectorModel.v). *)
From Coq Require Import List ZArith Lia Bool Arith QArith.
From Verif Require Import Base RectSpec BitArrayModel EafModel EafStoreModel.
Import ListNotations.
Open Scope Z_scope.

(** x < b *)
Definition belowb (x : Z) (b : bound) : bool := match b with At y => x <? y | Infty => true end.

(** c/eaf.c:962-981 rectangle_add *)
Definition rectangle_add (regions : list (rect Z)) (lx ly : Z) (ux uy : bound) (color : Z)
  : outcome (list (rect Z)) :=
  _ <- assert_ (belowb lx ux) ;;
  _ <- assert_ (belowb ly uy) ;;
  Ret (regions ++ [mkRect lx ly ux uy color]).

(** c/eaf.c:456-463 eaf_diff_color *)
Definition eaf_diff_color (e : eaf_t) (k nruns : nat) : outcome Z :=
  lr <- attained_left_right (e_bits e) (bit_array_offset 0 k nruns) (nruns / 2) nruns ;;
  Ret (fst lr - snd lr).
(** c/eaf.c:465-471 init_colors (color has max_size >= size entries) *)
Definition init_colors (e : eaf_t) (nruns : nat) : outcome (list Z) :=
  collect (fun k => eaf_diff_color e k nruns) 0 (e_size e).

Section Pair.
Variables (ea eb : eaf_t) (color : list Z).

(** c/eaf.c:1021-1029: while (pka[1] < pkb[1]); the flag of the result says
    whether the loop was left by [goto close_eaf] *)
Fixpoint rect_while (fuel ka kb : nat) (pka pkb : point) (top : bound) (rs : list (rect Z))
  : outcome (bool * nat * point * bound * list (rect Z)) :=
  match fuel with
  | O => OutOfFuel
  | S fuel =>
    if coord pka 1 <? coord pkb 1 then
      rs <- (if coord pka 0 <? coord pkb 0
             then c <- rd color ka ;;
                  rectangle_add rs (coord pka 0) (coord pkb 1) (At (coord pkb 0)) top c
             else Ret rs) ;;
      let top := At (coord pkb 1) in
      let kb := S kb in
      if (e_size eb <=? kb)%nat then Ret (true, kb, pkb, top, rs)
      else pkb <- read_point eb 2 kb ;; rect_while fuel ka kb pka pkb top rs
    else Ret (false, kb, pkb, top, rs)
  end.

(** c/eaf.c:1051-1061: close_eaf *)
Fixpoint rect_close (fuel ka : nat) (pka pkb : point) (top : bound) (rs : list (rect Z))
  : outcome (list (rect Z)) :=
  match fuel with
  | O => OutOfFuel
  | S fuel =>
    _ <- assert_ (coord pka 1 <? coord pkb 1) ;;
    c <- rd color ka ;;
    rs <- rectangle_add rs (coord pka 0) (coord pka 1) Infty top c ;;
    let top := At (coord pka 1) in
    let ka := S ka in
    if (e_size ea <=? ka)%nat then Ret rs
    else pka <- read_point ea 2 ka ;; rect_close fuel ka pka pkb top rs
  end.

(** c/eaf.c:1019-1050: the main loop for one pair of levels *)
Fixpoint rect_loop (fuel ka kb : nat) (pka pkb : point) (top : bound) (rs : list (rect Z))
  : outcome (list (rect Z)) :=
  match fuel with
  | O => OutOfFuel
  | S fuel =>
    w <- rect_while (S (e_size eb)) ka kb pka pkb top rs ;;
    match w with
    | (closed, kb, pkb, top, rs) =>
      if closed : bool then rect_close (S (e_size ea)) ka pka pkb top rs else
      rs <- (if coord pka 0 <? coord pkb 0
             then c <- rd color ka ;;
                  rectangle_add rs (coord pka 0) (coord pka 1) (At (coord pkb 0)) top c
             else _ <- assert_ ((coord pka 0 =? coord pkb 0) && (coord pka 1 =? coord pkb 1)) ;;
                  Ret rs) ;;
      let t := coord pka 1 in
      let ka := S ka in
      if (e_size ea <=? ka)%nat then Ret rs else
      pka <- read_point ea 2 ka ;;
      if coord pkb 1 =? t then
        let kb := S kb in
        if (e_size eb <=? kb)%nat then rect_close (S (e_size ea)) ka pka pkb (At t) rs
        else pkb <- read_point eb 2 kb ;; rect_loop fuel ka kb pka pkb (At t) rs
      else rect_loop fuel ka kb pka pkb (At t) rs
    end
  end.
End Pair.

(** c/eaf.c:1006-1063: one iteration of the loop over b *)
Definition rect_pair (ea eb : eaf_t) (nruns : nat) (rs : list (rect Z)) : outcome (list (rect Z)) :=
  if (e_size ea =? 0)%nat || (e_size eb =? 0)%nat then Ret rs else
  color <- init_colors ea nruns ;;
  pkb <- read_point eb 2 0 ;;
  pka <- read_point ea 2 0 ;;
  rect_loop ea eb color (S (e_size ea)) 0 0 pka pkb Infty rs.

(** c/eaf.c:983-1066 eaf_compute_rectangles *)
Fixpoint rect_levels (eafs : list eaf_t) (nruns : nat) (rs : list (rect Z)) : outcome (list (rect Z)) :=
  match eafs with
  | ea :: ((eb :: _) as rest) => rs <- rect_pair ea eb nruns rs ;; rect_levels rest nruns rs
  | _ => Ret rs
  end.
Definition eaf_compute_rectangles (eafs : list eaf_t) : outcome (list (rect Z)) :=
  e0 <- rd eafs 0 ;;
  _ <- assert_ (e_nruns e0 mod 2 =? 0)%nat ;;
  rect_levels eafs (e_nruns e0) [].

(** c/eafdiff.c:5-36 eafdiff_compute_rectangles, for nobj = 2 *)
Definition eafdiff_compute_rectangles (sortx sorty : list point -> list nat) (junk : nat -> Z) (grow : nat -> nat -> nat)
  (data : list point) (cumsizes : list nat) (nruns intervals : nat) : outcome (list (rect Q)) :=
  level <- levels_from_percentiles None nruns nruns ;;
  ss <- eaf2d sortx sorty data cumsizes nruns level ;;
  eafs <- store_surfaces junk grow 2 nruns (length data) ss ;;
  rs <- eaf_compute_rectangles eafs ;;
  let division := (nruns / 2)%nat in
  Ret (map (fun r => mkRect (r_lx r) (r_ly r) (r_ux r) (r_uy r)
         (inject_Z (Z.of_nat intervals) * inject_Z (r_col r) / inject_Z (Z.of_nat division))%Q) rs).

(** ** python/src/moocore/_moocore.py:1470-1529 eafdiff(x, y), all objectives minimised.
    [xs], [ys] are the sets of x and y, already grouped by set number (lines 1477-1481;
    the grouping is modelled in PySetsModel.v).  np.concatenate/np.vstack put the
    sets of y after those of x. *)
Definition py_cumsizes (xs ys : list nat) : list nat :=
  xs ++ map (fun c => last xs 0 + c)%nat ys.
(** lines 1492-1496 *)
Definition py_intervals (intervals : option nat) (nsets : nat) : nat :=
  match intervals with None => (nsets / 2)%nat | Some i => Nat.min i (nsets / 2) end.
(** unique_nosort (_utils.py): keep the first of equal rows *)
Fixpoint unique_nosort {A} (eqb : A -> A -> bool) (seen l : list A) : list A :=
  match l with
  | [] => []
  | x :: l => if existsb (eqb x) seen then unique_nosort eqb seen l
              else x :: unique_nosort eqb (x :: seen) l
  end.
Definition bound_eqb (a b : bound) : bool :=
  match a, b with At x, At y => x =? y | Infty, Infty => true | _, _ => false end.
Definition rect_eqb (r s : rect Q) : bool :=
  (r_lx r =? r_lx s) && (r_ly r =? r_ly s) && bound_eqb (r_ux r) (r_ux s) && bound_eqb (r_uy r) (r_uy s)
  && Qeq_bool (r_col r) (r_col s).
Definition py_eafdiff_rectangles sortx sorty junk grow (x y : list point) (cx cy : list nat)
  (intervals : option nat) : outcome (list (rect Q)) :=
  let cs := py_cumsizes cx cy in
  let nsets := length cs in
  rs <- eafdiff_compute_rectangles sortx sorty junk grow (x ++ y) cs nsets (py_intervals intervals nsets) ;;
  Ret (unique_nosort rect_eqb [] rs).
Definition row_eqb (r s : point * Q) : bool :=
  (coord (fst r) 0 =? coord (fst s) 0) && (coord (fst r) 1 =? coord (fst s) 1) && Qeq_bool (snd r) (snd s).
Definition py_eafdiff_points sortx sorty junk grow (x y : list point) (cx cy : list nat)
  (intervals : option nat) : outcome (list (point * Q)) :=
  let cs := py_cumsizes cx cy in
  let nsets := length cs in
  rs <- eafdiff_compute_matrix_2d sortx sorty junk grow (x ++ y) cs nsets (py_intervals intervals nsets) ;;
  Ret (unique_nosort row_eqb [] rs).
