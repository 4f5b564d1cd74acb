(** Model of the R layer, part 6: r/R/normalise.R and r/R/whv.R, with the functions of
    r/src/Rmoocore.c that they call, and of whv_rect and total_whv_rect in Python.

    normalise and whv_hype work on rational numbers.  In whv_rect and total_whv_rect the
    values are integers: coordinates in the unit [u], weights in the unit [wu].  In the
    matrix of rectangles a number may also be +Inf. *)
From Coq Require Import List ZArith QArith Qabs Lia Bool Arith.
From Verif Require Import Base RectSpec NormModel MtModel HypeModel HvModel WhvModel RMatModel RIndModel RFileModel.
Import ListNotations.
Open Scope Z_scope.

(** C reads an array as rows of [nrow] numbers, since the matrix has been transposed *)
Definition read_rows {A} (x : rmat A) : outcome (list (list A)) :=
  if (nrow x * ncol x <=? length (values x))%nat
  then Ret (map (fun i => firstn (nrow x) (skipn (nrow x * i) (values x))) (seq 0 (ncol x)))
  else OutOfBounds.

(** ** r/R/normalise.R *)
(** colRanges(x): the minimum and the maximum of each column, of at least one row *)
Definition fold1 (f : Q -> Q -> Q) (l : list Q) : Q := match l with [] => 0%Q | a :: l => fold_left f l a end.
Definition col_ranges (x : rmat Q) : list (Q * Q) :=
  map (fun j => (fold1 qmin (r_col 0%Q x j), fold1 qmax (r_col 0%Q x j))) (seq 0 (ncol x)).
(** normalise.R:41-42: bound[is.na(bound)] <- values[is.na(bound)]; NA is [None] *)
Definition fill_na (given : list (option Q)) (dflt : list Q) : list Q :=
  map (fun k => match nth k given None with Some v => v | None => nth k dflt 0%Q end) (seq 0 (length given)).
(** Rmoocore.c:290-311; the array is changed in place *)
Definition normalise_C (data : rmat Q) (range lbound ubound : list Q) (maximise : list bool) : outcome (rmat Q) :=
  _ <- assert_ (nrow data =? length lbound)%nat ;;
  _ <- assert_ (nrow data =? length ubound)%nat ;;
  _ <- assert_ (nrow data =? length maximise)%nat ;;
  _ <- assert_ (length range =? 2)%nat ;;
  pts <- read_rows data ;;
  Ret (mkMat (nrow data) (ncol data)
        (concat (agree_normalise (nrow data) maximise (nth 0 range 0%Q) (nth 1 range 0%Q) lbound ubound pts))).
(** normalise.R:31-55; NA in maximise (an empty vector recycled) is TRUE in C *)
Definition r_normalise (x : rmat Q) (to_range : list Q) (lower upper : list (option Q)) (maximise : list bool) : outcome (rmat Q) :=
  x <- as_double_matrix x ;;
  let nobjs := ncol x in
  let minmax := col_ranges x in
  let lower := fill_na (rep_len None lower nobjs) (map fst minmax) in
  let upper := fill_na (rep_len None upper nobjs) (map snd minmax) in
  let maximise := rep_len true maximise nobjs in
  _ <- assert_ (length to_range =? 2)%nat ;;
  x <- normalise_C (r_t 0%Q x) to_range lower upper maximise ;;
  Ret (r_t 0%Q x).

(** ** r/R/whv.R: rectangles *)
(** a row of the array of rectangles.  Infinite lower sides and weights are not modelled:
    OutOfBounds *)
Definition rect_of (l : list bound) : outcome (rect Z) :=
  match l with
  | [At lx; At ly; ux; uy; At c] => Ret (mkRect lx ly ux uy c)
  | _ => OutOfBounds
  end.
Fixpoint rects_of (ls : list (list bound)) : outcome (list (rect Z)) :=
  match ls with
  | [] => Ret []
  | l :: ls => r <- rect_of l ;; rs <- rects_of ls ;; Ret (r :: rs)
  end.

Section Whv.
Variable sort2d : list point -> list nat.
Variable sortd : (nat -> Z) -> list nat -> list nat.
Variable dbl_max : Z.
Variable g : hvst.
Variable sortp : list point -> list point.
Variable sortr : list crect -> list crect.
Variable junk : nat -> crect.

(** Rmoocore.c:380-391 *)
Definition rect_weighted_hv2d_C (data : rmat Z) (rectangles : rmat bound) (reference : list Z) : outcome Z :=
  _ <- assert_ (nrow rectangles =? 5)%nat ;;
  _ <- assert_ (length reference =? 2)%nat ;;
  pts <- c_rows data ;;
  ls <- read_rows rectangles ;;
  rs <- rects_of ls ;;
  r <- rect_weighted_hv2d sortp sortr junk pts rs reference ;;
  Ret (fst r).
(** whv.R:35-60 *)
Definition r_whv_rect (x : rmat Z) (rectangles : rmat bound) (reference : list Z) (maximise : list bool) : outcome Z :=
  x <- as_double_matrix x ;;
  let nobjs := ncol x in
  _ <- assert_ (nobjs =? 2)%nat ;;
  _ <- assert_ (ncol rectangles =? 5)%nat ;;
  let reference := full_reference reference nobjs in
  _ <- assert_ (negb (any maximise)) ;;
  rect_weighted_hv2d_C (r_t 0 x) (r_t Infty rectangles) reference.

(** utils.R:7-14 get_ideal *)
Definition get_ideal (x : rmat Z) (maximise : list bool) : list Z :=
  map (fun j => match (if nth j maximise false then r_max (r_col 0 x j) else r_min (r_col 0 x j)) with Some v => v | None => 0 end)
      (seq 0 (ncol x)).
Variables u wu : Q.
(** whv.R:78-99, with the units: hv is an area, beta an area, whv an area times a weight *)
Definition total (hv whv : Z) (reference ideal : list Z) (scalefactor : Q) : Q :=
  let beta := (scalefactor * Qabs (fold_left Qmult (map (fun k => u * inject_Z (nth k reference 0 - nth k ideal 0)%Z) (seq 0 2)) 1))%Q in
  (u * u * inject_Z hv + beta * (wu * u * u * inject_Z whv))%Q.
Definition r_total_whv_rect (x : rmat Z) (rectangles : rmat bound) (reference : list Z) (maximise : list bool)
           (ideal : option (list Z)) (scalefactor : Q) : outcome Q :=
  let nobjs := ncol x in
  let maximise := rep_len true maximise nobjs in
  _ <- assert_ (nobjs =? 2)%nat ;;
  _ <- assert_ (ncol rectangles =? 5)%nat ;;
  _ <- assert_ (negb (Qle_bool scalefactor 0 || negb (Qle_bool scalefactor 1))) ;;
  hv <- r_hypervolume sort2d sortd dbl_max g x reference maximise ;;
  whv <- r_whv_rect x rectangles reference maximise ;;
  let ideal := match ideal with Some i => i | None => get_ideal x maximise end in
  _ <- assert_ (length ideal =? nobjs)%nat ;;
  Ret (total hv whv (full_reference reference nobjs) ideal scalefactor).

(** ** python/src/moocore/_moocore.py *)
(** the argument maximise: a bool, or a list of bools *)
Inductive py_flag : Type := Flag (b : bool) | Flags (l : list bool).
(** bool(maximise); a list is true unless it is empty *)
Definition truth (m : py_flag) : bool := match m with Flag b => b | Flags l => negb (length l =? 0)%nat end.
(** _utils.py:49-57 atleast_1d_of_length_n *)
Definition of_length_n (l : list Z) (n : nat) : outcome (list Z) :=
  if (length l =? 1)%nat then Ret (repeat (nth 0 l 0) n) else if (length l =? n)%nat then Ret l else AssertFailed.
(** _moocore.py:1571-1613 whv_rect; [x]: the rows, [nobj]: x.shape[1].  Also returns the
    rows after the call: C sorts them *)
Definition py_whv_rect (x : list point) (nobj : nat) (rectangles : list (list bound)) (width : nat) (ref : list Z) (maximise : py_flag)
  : outcome (Z * list point) :=
  _ <- assert_ (nobj =? 2)%nat ;;
  _ <- assert_ (width =? 5)%nat ;;
  ref <- of_length_n ref nobj ;;
  _ <- assert_ (negb (truth maximise)) ;;
  rs <- rects_of rectangles ;;
  rect_weighted_hv2d sortp sortr junk x rs ref.
(** _moocore.py:1616-1620 get_ideal; the condition of np.where is one flag or a list of flags *)
Definition py_get_ideal (x : list point) (nobj : nat) (maximise : py_flag) : list Z :=
  map (fun j => let c := map (fun p => coord p j) x in
                let f := match maximise with Flag b => b | Flags l => nth j l false end in
                match (if f then r_max c else r_min c) with Some v => v | None => 0 end) (seq 0 nobj).
(** _moocore.py:1702-1723 total_whv_rect; [shared]: np.asarray (x, dtype=float) made no copy
    that is private to whv_rect, so that the rows seen afterwards are the sorted ones.
    hypervolume is called without maximise. *)
Definition py_total_whv_rect (shared : bool) (x : list point) (nobj : nat) (rectangles : list (list bound)) (width : nat) (ref : list Z)
           (maximise : py_flag) (ideal : option (list Z)) (scalefactor : Q) : outcome Q :=
  _ <- assert_ (nobj =? 2)%nat ;;
  _ <- assert_ (width =? 5)%nat ;;
  _ <- assert_ (negb (Qle_bool scalefactor 0 || negb (Qle_bool scalefactor 1))) ;;
  ref <- of_length_n ref nobj ;;
  r <- py_whv_rect x nobj rectangles width ref maximise ;;
  let x := if shared then snd r else x in
  hv <- fpli_hv sort2d sortd dbl_max g x nobj ref ;;
  ideal <- match ideal with Some i => of_length_n i nobj | None => Ret (py_get_ideal x nobj maximise) end ;;
  Ret (total hv (fst r) ref ideal scalefactor).
End Whv.

(** ** r/R/whv.R: whv_hype *)
(** whv.R:156-179: the data, ideal and reference given to C *)
Definition full_vector (l : list Q) (n : nat) : list Q := if (length l =? 1)%nat then rep_len 0%Q l n else l.
Definition negate_some (l : list Q) (maximise : list bool) : outcome (list Q) :=
  if forallb (fun k => negb (nth k maximise false)) (seq (length l) (length maximise - length l))
  then Ret (map (fun k => if nth (k mod length maximise) maximise false then (- nth k l 0)%Q else nth k l 0%Q) (seq 0 (length l)))
  else OutOfBounds.
Definition hype_args (x : rmat Q) (reference ideal : list Q) (maximise : list bool) : outcome (rmat Q * list Q * list Q) :=
  x <- as_double_matrix x ;;
  let nobjs := ncol x in
  let reference := full_vector reference nobjs in
  let ideal := full_vector ideal nobjs in
  _ <- assert_ (nobjs =? 2)%nat ;;
  if any maximise then
    x <- transform_maximise 0%Q Qopp x maximise ;;
    reference <- (if all maximise then Ret (map Qopp reference) else negate_some reference maximise) ;;
    ideal <- (if all maximise then Ret (map Qopp ideal) else negate_some ideal maximise) ;;
    Ret (x, ideal, reference)
  else Ret (x, ideal, reference).
(** Rmoocore.c:396-422 whv_hype_C, with a function that draws the samples *)
Definition whv_hype_C {B} (data : rmat Q) (ideal reference : list Q) (run : list qpoint -> qpoint -> qpoint -> outcome B) : outcome B :=
  _ <- assert_ (length reference =? length ideal)%nat ;;
  _ <- assert_ (length reference =? 2)%nat ;;
  pts <- read_rows data ;;
  run pts ideal reference.
(** whv.R:153-193: dist = "uniform" *)
Definition r_whv_hype_unif (key0 : list Z) (x : rmat Q) (reference ideal : list Q) (maximise : list bool) (nsamples : nat) (seed : Z) : outcome Q :=
  p <- hype_args x reference ideal maximise ;;
  let '(x, ideal, reference) := p in
  whv_hype_C (r_t 0%Q x) ideal reference (fun pts ideal ref => whv_hype_unif key0 pts ideal ref nsamples seed).
(** the same for given samples: any distribution *)
Definition r_whv_hype_value (x : rmat Q) (reference ideal : list Q) (maximise : list bool) (samples : list qpoint) : outcome Q :=
  p <- hype_args x reference ideal maximise ;;
  let '(x, ideal, reference) := p in
  whv_hype_C (r_t 0%Q x) ideal reference (fun pts ideal ref => whv_hype_value pts ideal ref samples).
(** dist = "point": the centre in the normalised coordinates (whv_hype.c:285-298).  C reads
    mu[0] and mu[1] whatever the length of mu *)
Definition r_gauss_centre (x : rmat Q) (mu : option (list Q)) (reference ideal : list Q) (maximise : list bool) : outcome qpoint :=
  p <- hype_args x reference ideal maximise ;;
  let '(x, ideal, reference) := p in
  match mu with
  | None => AssertFailed
  | Some mu =>
      whv_hype_C (r_t 0%Q x) ideal reference (fun _ ideal ref =>
        m0 <- rd mu 0 ;; m1 <- rd mu 1 ;;
        Ret (nth 0 (normalise01 [[m0; m1]] 2 ideal ref) []))
  end.
