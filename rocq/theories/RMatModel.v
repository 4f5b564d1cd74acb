(** Model of the R layer, part 1: matrices, and the helpers of r/R/utils.R.

    An R matrix stores its values by columns.  NA, names and attributes are not
    modelled; numbers are of any type, the integers in most functions (in a unit
    small enough for the data).  AssertFailed stands for an R error: stop (),
    stopifnot (), Rf_error () and assert (), which calls Rf_error () in the R
    package (c/common.h:9-11).  OutOfBounds stands for an access outside an array
    in C. *)
From Coq Require Import List ZArith Lia Bool Arith.
From Verif Require Import Base CmdModel.
Import ListNotations.
Open Scope Z_scope.

Record rmat (A : Type) : Type := mkMat { nrow : nat; ncol : nat; values : list A }.
Arguments mkMat {A}.
Arguments nrow {A}.
Arguments ncol {A}.
Arguments values {A}.

Section Mat.
Context {A : Type}.
Variable na : A.

(** x[i, j], counted from 0 *)
Definition cell (x : rmat A) (i j : nat) : A := nth (j * nrow x + i) (values x) na.
(** the matrix with these elements *)
Definition matrix_of (r c : nat) (f : nat -> nat -> A) : rmat A :=
  mkMat r c (concat (map (fun j => map (fun i => f i j) (seq 0 r)) (seq 0 c))).
(** t(x), t.default(x) *)
Definition r_t (x : rmat A) : rmat A := matrix_of (ncol x) (nrow x) (fun i j => cell x j i).
(** x[idx, , drop=FALSE] *)
Definition r_rows (x : rmat A) (idx : list nat) : rmat A :=
  matrix_of (length idx) (ncol x) (fun i j => cell x (nth i idx 0%nat) j).
(** x[flags, , drop=FALSE] with one flag for each row *)
Definition which (flags : list bool) : list nat := filter (fun i => nth i flags false) (seq 0 (length flags)).
(** x[, j] *)
Definition r_col (x : rmat A) (j : nat) : list A := map (fun i => cell x i j) (seq 0 (nrow x)).
(** x[, -ncol(x), drop=FALSE] *)
Definition r_init (x : rmat A) : rmat A := matrix_of (nrow x) (ncol x - 1) (cell x).
(** rbind(x, y) of matrices with the same number of columns *)
Definition r_rbind (x y : rmat A) : rmat A :=
  matrix_of (nrow x + nrow y) (ncol x) (fun i j => if (i <? nrow x)%nat then cell x i j else cell y (i - nrow x) j).
(** cbind(x, y) of matrices with the same number of rows *)
Definition r_cbind (x y : rmat A) : rmat A := mkMat (nrow x) (ncol x + ncol y) (values x ++ values y).
End Mat.

(** rep_len(l, n); for an empty vector the result is filled with [dflt] *)
Definition rep_len {A} (dflt : A) (l : list A) (n : nat) : list A := map (fun k => nth (k mod length l) l dflt) (seq 0 n).

(** ** r/R/utils.R *)
(** utils.R:54-69 *)
Definition as_double_matrix {A} (x : rmat A) : outcome (rmat A) :=
  _ <- assert_ (1 <=? nrow x)%nat ;;
  _ <- assert_ (2 <=? ncol x)%nat ;;
  Ret x.

Definition any (l : list bool) : bool := existsb (fun b => b) l.
Definition all (l : list bool) : bool := forallb (fun b => b) l.

(** utils.R:37-47; negative numbers of the elements of type [A] by [opp] *)
Definition transform_maximise {A} (na : A) (opp : A -> A) (x : rmat A) (maximise : list bool) : outcome (rmat A) :=
  if any maximise then
    if all maximise then Ret (mkMat (nrow x) (ncol x) (map opp (values x)))
    else if (length maximise =? ncol x)%nat
         then Ret (matrix_of (nrow x) (ncol x) (fun i j => if nth j maximise false then opp (cell na x i j) else cell na x i j))
         else AssertFailed
  else Ret x.

(** The array that C receives for a matrix: &values[0], which C reads as rows of
    [nrow] numbers, since the matrix has been transposed. *)
Definition c_rows (x : rmat Z) : outcome (list point) := rows_at (values x) (nrow x) 0 (ncol x).
