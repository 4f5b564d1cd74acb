(** Model of eaf --polygons: eaf_print_polygon (c/eaf.c:941-960), the self-check of
    debug builds (c/eaf.c:473-591, called at 802-804 if DEBUG >= 1), and the branch of
    main (c/eaf_main.c:435-439).

    The vector xy is the list of PolyModel.v, one entry per row: [Some v] for a
    vertex, [None] for the terminator (objective_MIN, objective_MIN).  A pointer into
    xy is the index of a row, and reading a row is bounds-checked.  The test
    v[k] != objective_MIN is the test for the terminator: no coordinate of a vertex
    is objective_MIN.  Two objectives only: the loop of eaf_compute_polygon is not
    modelled for three.  The formatting of numbers is not modelled. *)
From Coq Require Import Ascii String List ZArith Lia Bool Arith QArith.
From Verif Require Import Base RectSpec PolySpec BitArrayModel EafModel EafStoreModel RectModel PolyModel
  EafMainSpec EafMainModel PolyMainSpec.
Import ListNotations.
Local Open Scope list_scope.
Open Scope Z_scope.

(** ** The self-check *)

(** a < b and a <= b, where objective_MAX is +infinity *)
Definition bltb (a b : bound) : bool :=
  match a, b with At x, At y => x <? y | At _, Infty => true | Infty, _ => false end.
Definition bleb (a b : bound) : bool := negb (bltb b a).
(** p[k] *)
Definition vcoord (v : vertex) (k : nat) : bound := match k with O => fst v | _ => snd v end.

Section Check.
Variable xy : list (option vertex).

(** c/eaf.c:473-480 next_polygon *)
Fixpoint next_polygon (fuel src : nat) : outcome nat :=
  match fuel with
  | O => OutOfFuel
  | S fuel =>
    if (src <? List.length xy)%nat then
      v <- rd xy src ;;
      match v with
      | Some _ => next_polygon fuel (S src)
      | None => Ret (S src)
      end
    else Ret (S src)
  end.

(** c/eaf.c:490-498: the loop of min_max_in_objective *)
Fixpoint min_max_loop (fuel v k : nat) (mn mx : bound) : outcome (bound * bound) :=
  match fuel with
  | O => OutOfFuel
  | S fuel =>
    r <- rd xy v ;;
    match r with
    | None => Ret (mn, mx)
    | Some w =>
      let mn := if bltb (vcoord w k) mn then vcoord w k else mn in
      let mx := if bltb mx (vcoord w k) then vcoord w k else mx in
      min_max_loop fuel (S v) k mn mx
    end
  end.
(** c/eaf.c:482-501 min_max_in_objective *)
Definition min_max_in_objective (v k : nat) : outcome (bound * bound) :=
  _ <- assert_ (k <? 2)%nat ;;
  r <- rd xy v ;;
  match r with
  | None => AssertFailed
  | Some w => min_max_loop (S (List.length xy)) (S v) k (vcoord w k) (vcoord w k)
  end.

(** c/eaf.c:502-518 polygon_dominates_point; the loop over p *)
Fixpoint polygon_dominates_point (fuel p : nat) (x : vertex) : outcome bool :=
  match fuel with
  | O => OutOfFuel
  | S fuel =>
    r <- rd xy p ;;
    match r with
    | None => Ret false
    | Some w => if bltb (fst w) (fst x) && bltb (snd w) (snd x) then Ret true
                else polygon_dominates_point fuel (S p) x
    end
  end.
(** c/eaf.c:519-528 polygon_dominates_any_point; the loop over b *)
Fixpoint polygon_dominates_any_point (fuel a b : nat) : outcome bool :=
  match fuel with
  | O => OutOfFuel
  | S fuel =>
    r <- rd xy b ;;
    match r with
    | None => Ret false
    | Some x =>
      d <- polygon_dominates_point (S (List.length xy)) a x ;;
      if d : bool then Ret true else polygon_dominates_any_point fuel a (S b)
    end
  end.

(** c/eaf.c:532-539: a line separates the polygons in the k-th axis *)
Definition separated (a b k : nat) : outcome bool :=
  ma <- min_max_in_objective a k ;;
  mb <- min_max_in_objective b k ;;
  Ret (bleb (snd ma) (fst mb) || bleb (snd mb) (fst ma)).
(** c/eaf.c:529-544 polygons_intersect *)
Definition polygons_intersect (a b : nat) : outcome bool :=
  s0 <- separated a b 0 ;;
  if s0 : bool then Ret false else
  s1 <- separated a b 1 ;;
  if s1 : bool then Ret false else
  d <- polygon_dominates_any_point (S (List.length xy)) a b ;;
  if d : bool then polygon_dominates_any_point (S (List.length xy)) b a else Ret false.

(** c/eaf.c:573-584: the inner loop *)
Fixpoint check_inner (fuel pi pj : nat) : outcome unit :=
  match fuel with
  | O => OutOfFuel
  | S fuel =>
    if (pj <? List.length xy)%nat then
      i <- polygons_intersect pi pj ;;
      _ <- assert_ (negb i) ;;
      pj <- next_polygon (S (List.length xy)) pj ;;
      check_inner fuel pi pj
    else Ret tt
  end.
(** c/eaf.c:570-586: the outer loop *)
Fixpoint check_outer (fuel pi : nat) : outcome unit :=
  match fuel with
  | O => OutOfFuel
  | S fuel =>
    if (pi <? List.length xy)%nat then
      next <- next_polygon (S (List.length xy)) pi ;;
      _ <- check_inner (S (List.length xy)) pi next ;;
      check_outer fuel next
    else Ret tt
  end.
(** c/eaf.c:559-591 eaf_check_polygons *)
Definition eaf_check_polygons : outcome unit := check_outer (S (List.length xy)) 0.
End Check.

(** ** Printing *)

Definition ptoken_of_bound (b : bound) : ptoken := match b with At x => PTok (TNum x) | Infty => PInf end.
Definition pput (f : option stream) (ts : list ptoken) : list (stream * ptoken) :=
  match f with None => [] | Some f => map (fun t => (f, t)) ts end.

(** c/eaf.c:946-950: one row *)
Definition print_row (r : option vertex) : list ptoken :=
  match r with
  | Some (x, y) => [ptoken_of_bound x; PTok TSp; ptoken_of_bound y; PTok TNl]
  | None => [PMinusInf; PTok TSp; PMinusInf; PTok TNl]
  end.
(** c/eaf.c:941-960 eaf_print_polygon *)
Definition eaf_print_polygon (f : option stream) (xy : list (option vertex)) (col : list Z) : list (stream * ptoken) :=
  pput f (concat (map print_row xy)) ++
  pput f [PText "# col ="] ++
  pput f (concat (map (fun c => [PTok TSp; PTok (TInt c)]) col)) ++
  pput f [PTok TNl].

(** ** The program *)
Section Program.
Variables (sortx sorty sortz : list point -> list nat) (junk : nat -> Z) (grow : nat -> nat -> nat) (lo hi : Z).
(** DEBUG >= 1 *)
Variable debug : bool.

(** c/eaf.c:595-805 with the self-check at 802-804 *)
Definition eaf_compute_area (es : list eaf_t) : outcome (list (option vertex) * list Z) :=
  p <- eaf_compute_polygon es ;;
  _ <- (if debug then eaf_check_polygons (fst p) else Ret tt) ;;
  Ret p.

(** c/eaf_main.c:185-455 main with --polygons, after data with two objectives was
    read; up to attsurf it is EafMainModel.eaf_main.  --indices and --diff open their
    files, but nothing is written to them. *)
Definition eaf_main_polygons (strtod : text -> option (pct * text)) (openable : string -> bool) (o : options)
  (data : list point) (cumsizes : list nat) (nruns : nat) : outcome (option (list (stream * ptoken))) :=
  lv <- read_all_options Z 0 strtol_int (o_levels o) ;;
  pc <- read_all_options pct (PQ 0) strtod (o_percentiles o) ;;
  match lv, pc, open_files openable (fold_left opt_file (o_files o) init_files) with
  | Some lv, Some pc, Some (cf, _, _) =>
    level <- choose_levels (o_best o) (o_median o) (o_worst o) pc lv (Z.of_nat nruns) ;;
    match level with
    | None => Ret None
    | Some level =>
      _ <- (if o_verbose o then (if (nruns =? 0)%nat then OutOfBounds else rd cumsizes (nruns - 1)) else Ret 0%nat) ;;
      es <- attsurf sortx sorty sortz junk grow lo hi data 2 cumsizes nruns level ;;
      match es with
      | None => Ret None
      | Some es => p <- eaf_compute_area es ;; Ret (Some (eaf_print_polygon cf (fst p) (snd p)))
      end
    end
  | _, _, _ => Ret None
  end.
End Program.
