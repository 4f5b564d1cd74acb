(** Model of the R layer, part 2: r/R/hv.R, nondominated.R, epsilon.R, igd.R and the
    functions of r/src/Rmoocore.c that they call.

    The arguments maximise and keep_weakly are vectors of TRUE and FALSE, reference is
    numeric.  Conversions with as.double, as.logical and as.integer keep them. *)
From Coq Require Import List ZArith QArith Reals Lia Bool Arith.
From Verif Require Import Base NondomModel ParetoRankModel HvModel HvShiftModel EpsModel IgdModel CmdModel RMatModel.
Import ListNotations.
Open Scope Z_scope.

Section Ind.
Variable sort2d : list point -> list nat.
Variable sortd : (nat -> Z) -> list nat -> list nat.
Variable dbl_max : Z.
Variable g : hvst.
Variable garbage : nat.
Variable debug : bool.
(** hv_contrib.c: contributions below it are rounded to zero *)
Variable tol : Z.

(** ** r/src/Rmoocore.c *)
(** Rmoocore.c:354-363 *)
Definition hypervolume_C (data : rmat Z) (reference : list Z) : outcome Z :=
  _ <- assert_ (nrow data =? length reference)%nat ;;
  pts <- c_rows data ;;
  fpli_hv sort2d sortd dbl_max g pts (nrow data) reference.
(** Rmoocore.c:365-376 *)
Definition hv_contributions_C (data : rmat Z) (reference : list Z) : outcome (list Z) :=
  _ <- assert_ (nrow data =? length reference)%nat ;;
  pts <- c_rows data ;;
  r <- hv_contributions sort2d sortd dbl_max g tol pts (nrow data) reference ;;
  Ret (fst r).
(** Rmoocore.c:313-331 *)
Definition is_nondominated_C (data : rmat Z) (maximise : list bool) (keep_weakly : bool) : outcome (list bool) :=
  _ <- assert_ (nrow data =? length maximise)%nat ;;
  pts <- c_rows data ;;
  is_nondominated sort2d pts maximise keep_weakly.
(** Rmoocore.c:333-349 *)
Definition pareto_ranking_C (data : rmat Z) : outcome (list nat) :=
  pts <- c_rows data ;;
  pareto_rank sort2d garbage debug pts (nrow data).
(** Rmoocore.c:434-471 unary_metric_ref, for a metric given as a function; the number of
    rows of REFERENCE is not read *)
Definition unary_metric_ref {B} (data reference : rmat Z) (maximise : list bool) (metric : list point -> list point -> list bool -> outcome B) : outcome B :=
  _ <- assert_ (nrow data =? length maximise)%nat ;;
  pts <- c_rows data ;;
  ref <- rows_at (values reference) (nrow data) 0 (ncol reference) ;;
  metric pts ref maximise.

(** ** r/R *)
(** hv.R:42 and 99, 45-50 and 103-108: the reference point.  In [reference[maximise] <-
    -reference[maximise]] a vector of flags that is too short is recycled; if it selects
    an element after the end of reference, R appends NA: not modelled, OutOfBounds. *)
Definition full_reference (reference : list Z) (nobjs : nat) : list Z :=
  if (length reference =? 1)%nat then rep_len 0 reference nobjs else reference.
Definition negate_flagged (reference : list Z) (maximise : list bool) : outcome (list Z) :=
  if forallb (fun k => negb (nth k maximise false)) (seq (length reference) (length maximise - length reference))
  then Ret (map (fun k => if nth (k mod length maximise) maximise false then - nth k reference 0 else nth k reference 0) (seq 0 (length reference)))
  else OutOfBounds.
Definition transform_both (x : rmat Z) (reference : list Z) (maximise : list bool) : outcome (rmat Z * list Z) :=
  if any maximise then
    x <- transform_maximise 0 Z.opp x maximise ;;
    reference <- (if all maximise then Ret (map Z.opp reference) else negate_flagged reference maximise) ;;
    Ret (x, reference)
  else Ret (x, reference).
(** hv.R:37-55 *)
Definition r_hypervolume (x : rmat Z) (reference : list Z) (maximise : list bool) : outcome Z :=
  x <- as_double_matrix x ;;
  p <- transform_both x (full_reference reference (ncol x)) maximise ;;
  hypervolume_C (r_t 0 (fst p)) (snd p).
(** hv.R:95-113 *)
Definition r_hv_contributions (x : rmat Z) (reference : list Z) (maximise : list bool) : outcome (list Z) :=
  x <- as_double_matrix x ;;
  p <- transform_both x (full_reference reference (ncol x)) maximise ;;
  hv_contributions_C (r_t 0 (fst p)) (snd p).
(** nondominated.R:47-55; NA (an empty vector recycled) is TRUE in C *)
Definition r_is_nondominated (x : rmat Z) (maximise : list bool) (keep_weakly : bool) : outcome (list bool) :=
  x <- as_double_matrix x ;;
  is_nondominated_C (r_t 0 x) (rep_len true maximise (ncol x)) keep_weakly.
(** nondominated.R:61-62 *)
Definition r_filter_dominated (x : rmat Z) (maximise : list bool) (keep_weakly : bool) : outcome (rmat Z) :=
  flags <- r_is_nondominated x maximise keep_weakly ;;
  Ret (r_rows 0 x (which flags)).
(** nondominated.R:90-95 *)
Definition r_pareto_rank (x : rmat Z) (maximise : list bool) : outcome (list nat) :=
  x <- as_double_matrix x ;;
  x <- transform_maximise 0 Z.opp x maximise ;;
  pareto_ranking_C (r_t 0 x).
(** epsilon.R:102-111 *)
Definition unary_common {B} (data reference : rmat Z) (maximise : list bool) (metric : list point -> list point -> list bool -> outcome B) : outcome B :=
  data <- as_double_matrix data ;;
  let nobjs := ncol data in
  reference <- as_double_matrix reference ;;
  _ <- assert_ (ncol reference =? nobjs)%nat ;;
  unary_metric_ref (r_t 0 data) (r_t 0 reference) (rep_len true maximise nobjs) metric.
(** epsilon.R:91-100, igd.R:124-141 *)
Definition r_epsilon_additive (x reference : rmat Z) (maximise : list bool) : outcome (ext Z) :=
  unary_common x reference maximise (fun A R mx => Ret (epsilon_additive A R mx)).
Definition r_epsilon_mult (x reference : rmat Z) (maximise : list bool) : outcome (ext Q) :=
  unary_common x reference maximise epsilon_mult.
Definition r_igd (x reference : rmat Z) (maximise : list bool) : outcome (ext R) :=
  unary_common x reference maximise (fun A S mx => Ret (IGD A S mx)).
Definition r_igd_plus (x reference : rmat Z) (maximise : list bool) : outcome (ext R) :=
  unary_common x reference maximise (fun A S mx => Ret (IGD_plus A S mx)).
Definition r_avg_hausdorff_dist (x reference : rmat Z) (maximise : list bool) (p : nat) : outcome (ext R) :=
  unary_common x reference maximise (fun A S mx => Ret (avg_Hausdorff_dist A S mx p)).
End Ind.
