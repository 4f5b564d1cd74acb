(** Model of the R layer, part 3: eaf and eafdiff (r/R/eaf.R, r/R/eafdiff.R) and the
    functions of r/src/Rmoocore.c that they call.

    The values of a result are rationals: coordinates are integers, percentiles and
    differences exact rationals.  The sets are numbered by integers (only compared).
    NA is not modelled. *)
From Coq Require Import List ZArith QArith Qround Lia Bool Arith.
From Verif Require Import Base EafModel EafStoreModel Eaf3dModel EafMainModel NondomModel GroupModel PyEafModel CmdModel RMatModel.
Import ListNotations.
Open Scope Z_scope.

Section Eaf.
Variables (sortx sorty sortz : list point -> list nat) (junk : nat -> Z) (grow : nat -> nat -> nat) (lo hi : Z).
(** contents of a fresh R matrix *)
Variable fresh : nat -> Q.
(** order () *)
Variable order : list Z -> list nat.

(** ** r/src/Rmoocore.c *)
(** c/eaf.h:88-94 eaf_totalpoints *)
Definition eaf_totalpoints (eafs : list eaf_t) : nat := fold_right Nat.add 0%nat (map e_size eafs).

(** rmat[pos + j * totalpoints] = ..., for the coordinates j = 0, ..., nobj - 1 and the
    last column: c/eaf.c:230-233, Rmoocore.c:81-86 and 90-95.  Simplification: compute_eafdiff_C
    fills the last column in a second pass. *)
Fixpoint put_row (mat : list Q) (totalpoints pos j : nat) (r : list Q) : outcome (list Q) :=
  match r with
  | [] => Ret mat
  | v :: r => mat <- wr mat (pos + j * totalpoints) v ;; put_row mat totalpoints pos (S j) r
  end.
Fixpoint put_rows (mat : list Q) (totalpoints pos : nat) (rows : list (point * Q)) : outcome (list Q) :=
  match rows with
  | [] => Ret mat
  | r :: rows => mat <- put_row mat totalpoints pos 0 (map inject_Z (fst r) ++ [snd r]) ;;
                 put_rows mat totalpoints (S pos) rows
  end.
Definition result_matrix (totalpoints nobj : nat) (rows : list (point * Q)) : outcome (rmat Q) :=
  mat <- put_rows (map fresh (seq 0 (totalpoints * (nobj + 1)))) totalpoints 0 rows ;;
  Ret (mkMat totalpoints (nobj + 1) mat).

(** Rmoocore.c:8-41 compute_eaf_helper; attsurf stops with an error unless there are two
    or three objectives *)
Definition compute_eaf_helper (data : rmat Z) (cumsizes : list nat) (percentile : option (list Q)) (nlevels : nat) : outcome (list eaf_t) :=
  let nobj := nrow data in
  let nruns := length cumsizes in
  level <- levels_from_percentiles percentile nlevels nruns ;;
  pts <- c_rows data ;;
  r <- attsurf sortx sorty sortz junk grow lo hi pts nobj cumsizes nruns level ;;
  match r with Some eaf => Ret eaf | None => AssertFailed end.
(** Rmoocore.c:43-59 compute_eaf_C and c/eaf.c:221-237 eaf2matrix_R, which runs through the
    surfaces like eaf2matrix and differs in the positions of the values *)
Definition compute_eaf_C (data : rmat Z) (cumsizes : list nat) (percentile : option (list Q)) : outcome (rmat Q) :=
  let nlevels := match percentile with Some ps => length ps | None => length cumsizes end in
  eaf <- compute_eaf_helper data cumsizes percentile nlevels ;;
  rows <- eaf2matrix eaf (nrow data) 0 percentile nlevels ;;
  result_matrix (eaf_totalpoints eaf) (nrow data) rows.
(** Rmoocore.c:61-99 compute_eafdiff_C *)
Definition compute_eafdiff_C (data : rmat Z) (cumsizes : list nat) (intervals : nat) : outcome (rmat Q) :=
  let nruns := length cumsizes in
  eaf <- compute_eaf_helper data cumsizes None nruns ;;
  rows <- eafdiff_rows eaf (nrow data) (nruns / 2) nruns intervals ;;
  result_matrix (eaf_totalpoints eaf) (nrow data) rows.

(** ** r/R/eaf.R *)
(** x[idx, , drop=FALSE]: a subscript that is too large is an error *)
Definition r_take (x : rmat Z) (idx : list nat) : outcome (rmat Z) :=
  _ <- assert_ (forallb (fun i => i <? nrow x)%nat idx) ;; Ret (r_rows 0 x idx).
(** x[, -ncol(x)] <- y *)
Definition r_set_init (x y : rmat Q) : rmat Q := mkMat (nrow x) (ncol x) (values y ++ skipn (nrow x * (ncol x - 1)) (values x)).
(** eaf.R:134-135, eafdiff.R:122-126 *)
Definition undo_maximise (x : rmat Q) (maximise : list bool) : outcome (rmat Q) :=
  if any maximise then
    y <- transform_maximise 0%Q Qopp (r_init 0%Q x) maximise ;;
    Ret (r_set_init x y)
  else Ret x.
(** unique.default(sort.int(l)), eaf.R:72 *)
Fixpoint r_unique (l : list Q) : list Q :=
  match l with
  | [] => []
  | q :: l => q :: filter (fun v => negb (Qeq_bool v q)) (r_unique l)
  end.
Definition sort_percentiles (l : list Q) : list Q := r_unique (sort_by Qle_bool l).

(** eaf.R:119-137; table () counts each value, in increasing order of the values *)
Definition compute_1_eaf (x : rmat Z) (sets : list Z) (percentiles : option (list Q)) (maximise : list bool) : outcome (rmat Q) :=
  let order_sets := order sets in
  let sets := map (fun i => nth i sets 0) order_sets in
  x <- r_take x order_sets ;;
  x <- compute_eaf_C (r_t 0 x) (np_cumsum (unique_counts sets)) percentiles ;;
  undo_maximise x maximise.

(** eaf.R:60-63: [None]: sets is missing *)
Definition r_sets (x : rmat Z) (sets : option (list Z)) : rmat Z * list Z :=
  match sets with
  | None => (r_init 0 x, r_col 0 x (ncol x - 1))
  | Some s => (x, s)
  end.
(** eaf.R:59-76, without groups *)
Definition r_eaf (x : rmat Z) (sets : option (list Z)) (percentiles : option (list Q)) (maximise : list bool) : outcome (rmat Q) :=
  let p := r_sets x sets in
  x <- as_double_matrix (fst p) ;;
  x <- transform_maximise 0 Z.opp x maximise ;;
  compute_1_eaf x (snd p) (option_map sort_percentiles percentiles) maximise.
(** eaf.R:78-84, with groups: the levels of the factor are the different values in
    increasing order; the result has the group as an additional column (here a list
    beside the matrix) *)
Fixpoint eaf_groups (x : rmat Z) (sets : list Z) (percentiles : option (list Q)) (maximise : list bool) (groups : list Z) (levels : list Z)
  : outcome (rmat Q * list Z) :=
  match levels with
  | [] => Ret (mkMat 0 (ncol x + 1) [], [])
  | g :: levels =>
      let sel := map (Z.eqb g) groups in
      x' <- r_take x (which sel) ;;
      one <- compute_1_eaf x' (map (fun i => nth i sets 0) (which sel)) percentiles maximise ;;
      rest <- eaf_groups x sets percentiles maximise groups levels ;;
      Ret (r_rbind 0%Q one (fst rest), repeat g (nrow one) ++ snd rest)
  end.
Definition r_eaf_groups (x : rmat Z) (sets : option (list Z)) (percentiles : option (list Q)) (maximise : list bool) (groups : list Z)
  : outcome (rmat Q * list Z) :=
  let p := r_sets x sets in
  x <- as_double_matrix (fst p) ;;
  x <- transform_maximise 0 Z.opp x maximise ;;
  eaf_groups x (snd p) (option_map sort_percentiles percentiles) maximise groups (np_unique groups).

(** ** r/R/eafdiff.R, for points *)
(** without drop=FALSE a selection of one row is a vector: eafdiff.R:121 *)
Inductive rvalue : Type := RMatrix (m : rmat Q) | RVector (v : list Q).
Definition row_of (x : rmat Q) (i : nat) : list Q := map (cell 0%Q x i) (seq 0 (ncol x)).
Fixpoint qs_eqb (a b : list Q) : bool :=
  match a, b with
  | [], [] => true
  | x :: a, y :: b => Qeq_bool x y && qs_eqb a b
  | _, _ => false
  end.
(** !duplicated(x): no equal row before *)
Definition not_duplicated (x : rmat Q) : list bool :=
  map (fun i => negb (existsb (fun k => qs_eqb (row_of x k) (row_of x i)) (seq 0 i))) (seq 0 (nrow x)).
Definition r_unique_rows (x : rmat Q) : rvalue :=
  let y := r_rows 0%Q x (which (not_duplicated x)) in
  if (nrow y =? 1)%nat then RVector (values y) else RMatrix y.
(** eafdiff.R:102-108 and 148: [None] is the default; a negative number is not modelled *)
Definition r_intervals (intervals : option Q) (nsets : nat) : nat :=
  let half := (inject_Z (Z.of_nat nsets) / 2)%Q in
  Z.to_nat (Qfloor (match intervals with
                    | None => half
                    | Some q => if Qle_bool q half then q else half
                    end)).
(** eafdiff.R:85-131 and compute_eafdiff_call (144-152), rectangles = FALSE *)
Definition r_eafdiff (x y : rmat Z) (intervals : option Q) (maximise : list bool) : outcome rvalue :=
  _ <- assert_ (ncol x =? ncol y)%nat ;;
  let sets_x := r_col 0 x (ncol x - 1) in
  let cumsizes_x := np_cumsum (unique_counts sets_x) in
  x <- r_take x (order sets_x) ;;
  x <- as_double_matrix (r_init 0 x) ;;
  let sets_y := r_col 0 y (ncol y - 1) in
  let cumsizes_y := np_cumsum (unique_counts sets_y) in
  y <- r_take y (order sets_y) ;;
  y <- as_double_matrix (r_init 0 y) ;;
  let iv := r_intervals intervals (length cumsizes_x + length cumsizes_y) in
  x <- transform_maximise 0 Z.opp x maximise ;;
  y <- transform_maximise 0 Z.opp y maximise ;;
  last <- rd cumsizes_x (length cumsizes_x - 1) ;;
  DIFF <- compute_eafdiff_C (r_cbind (r_t 0 x) (r_t 0 y)) (cumsizes_x ++ map (fun c => last + c)%nat cumsizes_y) iv ;;
  match r_unique_rows DIFF with
  | RMatrix m => m <- undo_maximise m maximise ;; Ret (RMatrix m)
  | RVector v => if any maximise then AssertFailed else Ret (RVector v)   (* DIFF[, -ncol(DIFF)] of a vector *)
  end.
End Eaf.
