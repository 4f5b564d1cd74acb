(** Model of eaf_compute_polygon (c/eaf.c:595-805) and of the assignment of the
    polygons to the two sides in the R interface (r/src/Rmoocore.c:103-258).

    objective_MAX is +infinity.  A pointer into the data of a surface is the row it
    points to; reading a row is bounds-checked ([read_point]).  The vector xy is a
    list with one entry per pushed pair: [Some v] for a vertex, [None] for the
    terminator (objective_MIN, objective_MIN).  last_b, an int that starts at -1,
    is kept as [lb] = last_b + 1. *)
From Coq Require Import List ZArith Lia Bool Arith.
From Verif Require Import Base RectSpec PolySpec BitArrayModel EafModel EafStoreModel RectModel.
Import ListNotations.
Open Scope Z_scope.

(** x <= b *)
Definition leb_bound (x : Z) (b : bound) : bool := match b with At y => x <=? y | Infty => true end.

Section Pair.
Variables (ea eb : eaf_t) (color : list Z).
Notation na := (e_size ea). Notation nb := (e_size eb).

(** c/eaf.c:645-667: skip the points of a that overlap in x with a point of b; on
    entry kb = last_b + 1, and every iteration that goes on sets last_b to kb and
    increments kb, so kb is [lb] throughout *)
Fixpoint poly_skip (fuel ka lb : nat) (top : bound) : outcome (nat * nat * bound) :=
  match fuel with
  | O => OutOfFuel
  | S fuel =>
    if (ka <? na)%nat && (lb <? nb)%nat then
      pka <- read_point ea 2 ka ;;
      pkb <- read_point eb 2 lb ;;
      if negb (coord pkb 0 =? coord pka 0) then Ret (ka, lb, top)
      else
        let top := At (coord pkb 1) in
        let lb := S lb in
        if coord pkb 1 =? coord pka 1 then poly_skip fuel (S ka) lb top
        else _ <- assert_ (coord pka 1 <? coord pkb 1) ;; Ret (ka, lb, top)
    else Ret (ka, lb, top)
  end.

(** c/eaf.c:679-685: find the first point of b, from kb on, that is not above pka *)
Fixpoint poly_adv (fuel kb : nat) (pka : point) : outcome nat :=
  match fuel with
  | O => OutOfFuel
  | S fuel =>
    if (kb <? nb)%nat then
      pkb <- read_point eb 2 kb ;;
      _ <- assert_ (coord pka 0 <? coord pkb 0) ;;
      if coord pkb 1 <=? coord pka 1 then Ret kb else poly_adv fuel (S kb) pka
    else Ret kb
  end.

(** c/eaf.c:676-705: the do-while loop that goes down the left side.  [cur] are the
    vertices pushed for the current polygon.  After the inner loop, pkb is the point
    at kb whenever kb < eaf_b_size. *)
Fixpoint poly_chain (fuel ka kb : nat) (c0 : Z) (prev : bound) (cur : list vertex)
  : outcome (nat * nat * point * list vertex) :=
  match fuel with
  | O => OutOfFuel
  | S fuel =>
    pka <- read_point ea 2 ka ;;
    kb <- poly_adv (S nb) kb pka ;;
    _ <- assert_ (belowb (coord pka 1) prev) ;;
    let cur := cur ++ [(At (coord pka 0), prev); (At (coord pka 0), At (coord pka 1))] in
    let prev := coord pka 1 in
    let ka := S ka in
    stop <- (if (kb <? nb)%nat && (ka <? na)%nat then
               pka_next <- read_point ea 2 ka ;;
               pkb <- read_point eb 2 kb ;;
               _ <- assert_ (coord pka 0 <? coord pkb 0) ;;
               _ <- assert_ (coord pkb 1 <=? coord pka 1) ;;
               if coord pkb 0 <=? coord pka_next 0 then
                 _ <- assert_ ((coord pkb 1 =? coord pka 1) || (coord pkb 0 =? coord pka_next 0)) ;;
                 _ <- assert_ (coord pkb 1 <=? prev) ;;
                 Ret true
               else Ret false
             else Ret false) ;;
    if stop : bool then Ret (ka, kb, pka, cur) else
    if (ka <? na)%nat then
      c <- rd color ka ;;
      if c0 =? c then poly_chain fuel ka kb c0 (At prev) cur else Ret (ka, kb, pka, cur)
    else Ret (ka, kb, pka, cur)
  end.

(** c/eaf.c:738-747 and 775-785: back along b, from kb = lb + n down to last_b + 1;
    [pkb] is the last point visited, its first coordinate is prev_pkb_x *)
Fixpoint poly_back (n lb : nat) (pka pkb : point) (cur : list vertex) : outcome (point * list vertex) :=
  match n with
  | O => Ret (pkb, cur)
  | S n =>
    p <- read_point eb 2 (lb + n) ;;
    _ <- assert_ (coord pka 1 <? coord p 1) ;;
    poly_back n lb pka p
      (cur ++ [(At (coord pkb 0), At (coord p 1)); (At (coord p 0), At (coord p 1))])
  end.

(** c/eaf.c:600-603, 618-622: polygon_close and POLY_SIZE_CHECK *)
Definition poly_close (xy : list (option vertex)) (col : list Z) (cur : list vertex) (c : Z)
  : outcome (list (option vertex) * list Z) :=
  _ <- assert_ (4 <=? length cur)%nat ;;
  _ <- assert_ (length cur mod 2 =? 0)%nat ;;
  Ret (xy ++ map Some cur ++ [None], col ++ [c]).

(** c/eaf.c:709-753: the end of a was reached; the vertices that go back *)
Definition poly_end (lb : nat) (pka : point) (top : bound) (cur : list vertex) : outcome (list vertex) :=
  if (lb =? nb)%nat then
    _ <- assert_ (belowb (coord pka 1) top) ;;
    Ret (cur ++ [(Infty, At (coord pka 1)); (Infty, top)])
  else
    pkb <- read_point eb 2 (nb - 1) ;;
    _ <- assert_ (coord pka 1 <=? coord pkb 1) ;;
    cur <- (if coord pka 1 <? coord pkb 1 then
              _ <- assert_ (leb_bound (coord pkb 1) top) ;;
              Ret (cur ++ [(Infty, At (coord pka 1)); (Infty, At (coord pkb 1))])
            else _ <- assert_ (coord pka 0 <? coord pkb 0) ;; Ret cur) ;;
    r <- poly_back (nb - 1 - lb) lb pka pkb (cur ++ [(At (coord pkb 0), At (coord pkb 1))]) ;;
    _ <- assert_ (belowb (coord (fst r) 1) top) ;;
    Ret (snd r ++ [(At (coord (fst r) 0), top)]).

(** c/eaf.c:757-790: the polygon ends before the end of a; the vertices that go
    back and the new last_b + 1 *)
Definition poly_turn (lb kb : nat) (pka : point) (top : bound) (cur : list vertex)
  : outcome (list vertex * nat) :=
  if (kb =? nb)%nat then
    _ <- assert_ (belowb (coord pka 1) top) ;;
    Ret (cur ++ [(Infty, At (coord pka 1)); (Infty, top)], nb)
  else
    pkb <- read_point eb 2 kb ;;
    _ <- assert_ (coord pkb 1 <=? coord pka 1) ;;
    _ <- assert_ (negb (coord pkb 0 =? coord pka 0)) ;;
    let save := if coord pkb 1 =? coord pka 1 then S kb else kb in
    r <- poly_back (kb - lb) lb pka pkb (cur ++ [(At (coord pkb 0), At (coord pka 1))]) ;;
    _ <- assert_ (belowb (coord (fst r) 1) top) ;;
    Ret (snd r ++ [(At (coord (fst r) 0), top)], save).

(** c/eaf.c:640-797: the main loop for one pair of levels *)
Fixpoint poly_loop (fuel ka lb : nat) (top : bound) (xy : list (option vertex)) (col : list Z)
  : outcome (list (option vertex) * list Z) :=
  match fuel with
  | O => OutOfFuel
  | S fuel =>
    s <- poly_skip (S na) ka lb top ;;
    match s with
    | (ka, lb, top) =>
      if (ka =? na)%nat then Ret (xy, col) else
      c0 <- rd color ka ;;
      w <- poly_chain (S na) ka lb c0 top [] ;;
      match w with
      | (ka, kb, pka, cur) =>
        if (ka =? na)%nat then
          cur <- poly_end lb pka top cur ;;
          poly_close xy col cur c0
        else
          r <- poly_turn lb kb pka top cur ;;
          x <- poly_close xy col (fst r) c0 ;;
          _ <- assert_ (leb_bound (coord pka 1) top) ;;
          poly_loop fuel ka (snd r) (At (coord pka 1)) (fst x) (snd x)
      end
    end
  end.
End Pair.

(** c/eaf.c:634-798: one iteration of the loop over b *)
Definition poly_pair (ea eb : eaf_t) (nruns : nat) (s : list (option vertex) * list Z)
  : outcome (list (option vertex) * list Z) :=
  color <- init_colors ea nruns ;;
  poly_loop ea eb color (S (e_size ea)) 0 0 Infty (fst s) (snd s).

(** c/eaf.c:595-805 eaf_compute_polygon; eaf_compute_area is this function
    (c/eaf.h:230) *)
Fixpoint poly_levels (eafs : list eaf_t) (nruns : nat) (s : list (option vertex) * list Z)
  : outcome (list (option vertex) * list Z) :=
  match eafs with
  | ea :: ((eb :: _) as rest) => s <- poly_pair ea eb nruns s ;; poly_levels rest nruns s
  | _ => Ret s
  end.
Definition eaf_compute_polygon (eafs : list eaf_t) : outcome (list (option vertex) * list Z) :=
  e0 <- rd eafs 0 ;;
  _ <- assert_ (e_nruns e0 mod 2 =? 0)%nat ;;
  poly_levels eafs (e_nruns e0) ([], []).

(** c/eaf.h:108-127 attsurf for two objectives, followed by eaf_compute_polygon: what
    eaf_main.c:435-438 does for --polygons with the attainment levels [level], and
    r/src/Rmoocore.c:174-175 with all levels *)
Definition eaf_polygons (sortx sorty : list point -> list nat) (junk : nat -> Z) (grow : nat -> nat -> nat)
  (data : list point) (cumsizes : list nat) (nruns : nat) (level : list Z)
  : outcome (list (option vertex) * list Z) :=
  ss <- eaf2d sortx sorty data cumsizes nruns level ;;
  eafs <- store_surfaces junk grow 2 nruns (length data) ss ;;
  eaf_compute_polygon eafs.

(** ** The R interface *)

(** r/src/Rmoocore.c:103-110 polygon_len: entries up to and including the next
    terminator, read from position [i]; running off the end is out of bounds *)
Fixpoint polygon_len (fuel i : nat) (xy : list (option vertex)) : outcome nat :=
  match fuel with
  | O => OutOfFuel
  | S fuel =>
    v <- rd xy i ;;
    match v with
    | None => Ret 1%nat
    | Some _ => n <- polygon_len fuel (S i) xy ;; Ret (S n)
    end
  end.

(** r/src/Rmoocore.c:112-125 polygon_copy: the same walk, writing the vertices and
    then (NA, NA) into the matrix [dest] of nrows rows from row [len] on *)
Fixpoint polygon_copy (fuel i len : nat) (xy dest : list (option vertex)) : outcome (list (option vertex) * nat) :=
  match fuel with
  | O => OutOfFuel
  | S fuel =>
    v <- rd xy i ;;
    dest <- wr dest len v ;;
    match v with
    | None => Ret (dest, S len)
    | Some _ => polygon_copy fuel (S i) (S len) xy dest
    end
  end.

(** r/src/Rmoocore.c:189-205: the adjusted colours and the room needed on each
    side.  (int) (col * intervals / (double) division) truncates towards zero.  The
    branch order is that of the code: the second test is color <= 1. *)
Definition adjust (division intervals : nat) (c : Z) : Z :=
  Z.quot (c * Z.of_nat intervals) (Z.of_nat division).
Fixpoint poly_room (division intervals : nat) (xy : list (option vertex)) (i : nat) (cols : list Z)
  (ll rl : nat) : outcome (list Z * nat * nat) :=
  match cols with
  | [] => Ret ([], ll, rl)
  | c :: cols =>
    let color := adjust division intervals c in
    len <- polygon_len (S (length xy)) i xy ;;
    let ll' := if 1 <=? color then (ll + len)%nat else ll in
    let rl' := if 1 <=? color then rl else if color <=? 1 then (rl + len)%nat else rl in
    r <- poly_room division intervals xy (i + len) cols ll' rl' ;;
    match r with (cs, ll, rl) => Ret (color :: cs, ll, rl) end
  end.

(** r/src/Rmoocore.c:219-238: copy each polygon to its side *)
Fixpoint poly_assign (xy : list (option vertex)) (i : nat) (cols : list Z)
  (left right : list (option vertex)) (ll rl : nat) (lc rc : list Z)
  : outcome (list (option vertex) * list Z * (list (option vertex) * list Z)) :=
  match cols with
  | [] => Ret (left, lc, (right, rc))
  | color :: cols =>
    if 1 <=? color then
      r <- polygon_copy (S (length xy)) i ll xy left ;;
      poly_assign xy (i + (snd r - ll)) cols (fst r) right (snd r) rl (lc ++ [color + 1]) rc
    else if color <=? 1 then
      r <- polygon_copy (S (length xy)) i rl xy right ;;
      poly_assign xy (i + (snd r - rl)) cols left (fst r) ll (snd r) lc (rc ++ [1 - color])
    else
      len <- polygon_len (S (length xy)) i xy ;;
      poly_assign xy (i + len) cols left right ll rl lc rc
  end.

(** r/src/Rmoocore.c:166-258 compute_eafdiff_polygon_C for two objectives; [garbage]
    is the initial content of the two new matrices *)
Definition compute_eafdiff_polygon (sortx sorty : list point -> list nat) (junk : nat -> Z) (grow : nat -> nat -> nat)
  (garbage : nat -> option vertex)
  (data : list point) (cumsizes : list nat) (nruns intervals : nat)
  : outcome (list (option vertex) * list Z * (list (option vertex) * list Z)) :=
  level <- levels_from_percentiles None nruns nruns ;;
  p <- eaf_polygons sortx sorty junk grow data cumsizes nruns level ;;
  let division := (nruns / 2)%nat in
  r <- poly_room division intervals (fst p) 0 (snd p) 0 0 ;;
  match r with (cols, ll, rl) =>
    poly_assign (fst p) 0 cols (map garbage (seq 0 ll)) (map garbage (seq 0 rl)) 0 0 [] []
  end.
