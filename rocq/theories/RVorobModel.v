(** Model of the R layer, part 4: vorobT and vorobDev (r/R/vorob.R).

    Volumes are exact integers, means exact rationals.  The thresholds are doubles,
    represented by elements of [C] as in VorobModel.v. *)
From Coq Require Import List ZArith QArith Qround Lia Bool Arith.
From Verif Require Import Base HvModel GroupModel PyEafModel VorobModel RMatModel RIndModel REafModel.
Import ListNotations.
Open Scope Z_scope.

Section Vorob.
Variable sort2d : list point -> list nat.
Variable sortd : (nat -> Z) -> list nat -> list nat.
Variable g : hvst.
Variables (sortx sorty sortz : list point -> list nat) (junk : nat -> Z) (grow : nat -> nat -> nat) (dbl_max : Z).
Variable fresh : nat -> Q.
Variable order : list Z -> list nat.
Local Notation r_hypervolume := (r_hypervolume sort2d sortd dbl_max g).
Local Notation r_eaf := (r_eaf sortx sorty sortz junk grow (- dbl_max) dbl_max fresh order).

(** sapply(l, f), up to the first error *)
Fixpoint r_sapply {A B} (f : A -> outcome B) (l : list A) : outcome (list B) :=
  match l with
  | [] => Ret []
  | a :: l => b <- f a ;; bs <- r_sapply f l ;; Ret (b :: bs)
  end.
(** split.data.frame(x, sets): the rows of every set, in increasing order of the sets;
    set numbers are recycled *)
Definition r_split (x : rmat Z) (sets : list Z) : list (rmat Z) :=
  let sets := rep_len 0 sets (nrow x) in
  map (fun v => r_rows 0 x (which (map (Z.eqb v) sets))) (np_unique sets).

(** vorob.R:63-64: the surface and its hypervolume.  Without drop=FALSE a surface of one
    point becomes a vector, and hypervolume stops with an error (utils.R:57-58).  The
    coordinates are integers, read back from the values of the matrix. *)
Definition surface_hv {C} (toQ : C -> Q) (x : rmat Z) (sets : list Z) (reference : list Z) (c : C) : outcome (rmat Z * Z) :=
  m <- r_eaf x (Some sets) (Some [toQ c]) [false] ;;
  let y := r_init 0%Q m in
  let VE := mkMat (nrow y) (ncol y) (map Qfloor (values y)) in
  _ <- assert_ (negb (nrow VE =? 1)%nat) ;;
  v <- r_hypervolume VE reference [false] ;;
  Ret (VE, v).

(** vorob.R:37-71: threshold, VE and avg_hyp; [zero] and [hundred] are the doubles 0 and 100 *)
Definition r_vorobT {C} (mid : C -> C -> C) (toQ : C -> Q) (zero hundred : C) (fuel : nat)
  (x : rmat Z) (sets : option (list Z)) (reference : list Z) (maximise : list bool) : outcome (C * rmat Z * Q) :=
  let p := r_sets x sets in
  let sets := snd p in
  x <- as_double_matrix (fst p) ;;
  p <- transform_both x reference maximise ;;
  let x := fst p in let reference := snd p in
  hs <- r_sapply (fun y => r_hypervolume y reference [false]) (r_split x sets) ;;
  let avg_hyp := np_mean hs in
  r <- vorob_loop mid (surface_hv toQ x sets reference) avg_hyp fuel zero hundred None ;;
  VE <- transform_maximise 0 Z.opp (snd r) maximise ;;
  Ret (fst r, VE, avg_hyp).

(** vorob.R:93-114, the rest of vorobDev *)
Definition r_deviation (x : rmat Z) (sets : list Z) (reference : list Z) (VE : rmat Z) (maximise : list bool) : outcome Q :=
  p <- transform_both x reference maximise ;;
  VE <- (if any maximise then transform_maximise 0 Z.opp VE maximise else Ret VE) ;;
  let x := fst p in let reference := snd p in
  H2 <- r_hypervolume VE reference [false] ;;
  let x_split := r_split x sets in
  hs <- r_sapply (fun y => r_hypervolume y reference [false]) x_split ;;
  us <- r_sapply (fun y => _ <- assert_ (ncol y =? ncol VE)%nat ;; r_hypervolume (r_rbind 0 y VE) reference [false]) x_split ;;
  Ret (2 * inject_Z (zsum us) / inject_Z (Z.of_nat (length x_split)) - np_mean hs - inject_Z H2)%Q.
(** vorob.R:78-115; [None] is NULL *)
Definition r_vorobDev {C} (mid : C -> C -> C) (toQ : C -> Q) (zero hundred : C) (fuel : nat)
  (x : rmat Z) (sets : option (list Z)) (reference : list Z) (VE : option (rmat Z)) (maximise : list bool) : outcome Q :=
  let p := r_sets x sets in
  let x := fst p in let sets := snd p in
  match VE with
  | None =>
      r <- r_vorobT mid toQ zero hundred fuel x (Some sets) reference maximise ;;
      r_deviation x sets reference (snd (fst r)) maximise
  | Some VE => x <- as_double_matrix x ;; r_deviation x sets reference VE maximise
  end.
End Vorob.
