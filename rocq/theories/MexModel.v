(** Model of c/Hypervolume_MEX.c, the function Hypervolume_MEX of MATLAB.

    A MATLAB matrix is stored by columns; [mxGetM], [mxGetN] are [nrow], [ncol] of its
    [rmat], and [values] are the doubles that start at the address of mxGetPr: for a
    full matrix of doubles all the elements, for a sparse one only those that are not
    zero.  The conversion of the sizes to int, and the printing, are not modelled. *)
From Coq Require Import List ZArith Lia Bool Arith.
From Verif Require Import Base HvModel CmdModel RMatModel.
Import ListNotations.
Open Scope Z_scope.

(** what mxIsChar and mxIsNumeric distinguish, and whether the elements are doubles *)
Inductive mxclass := Char | Double | OtherNumeric | NotNumeric.
Record mxarray := mkMx { mxclassof : mxclass; matrix : rmat Z }.
Definition mxIsChar (a : mxarray) : bool := match mxclassof a with Char => true | _ => false end.
Definition mxIsNumeric (a : mxarray) : bool := match mxclassof a with Double | OtherNumeric => true | _ => false end.
(** mxGetPr: the doubles that can be read from there; elements of another type, which
    would be misread or are shorter, count as memory that must not be read *)
Definition mxGetPr (a : mxarray) : list Z :=
  match mxclassof a with Double => values (matrix a) | _ => [] end.
(** the [n] doubles that fpli_hv reads from an address *)
Definition first_doubles (pr : list Z) (n : nat) : outcome (list Z) :=
  if (n <=? length pr)%nat then Ret (firstn n pr) else OutOfBounds.

(** what the call does: help is printed and nothing returned, mexErrMsgTxt stops the
    function, or a number is returned *)
Inductive mexresult := Help | Error (msg : nat) | Volume (v : Z).

Section Mex.
Variable sort2d : list point -> list nat.
Variable sortd : (nat -> Z) -> list nat -> list nat.
Variable dbl_max : Z.
Variable g : hvst.
(** a new block of that many doubles, with its contents *)
Variable fresh : nat -> list Z.

(** Hypervolume_MEX.c:274-277: the matrix is copied by rows *)
Fixpoint copy_row (pr : list Z) (popsize i : nat) (js : list nat) (k : nat) (data : list Z) : outcome (nat * list Z) :=
  match js with
  | [] => Ret (k, data)
  | j :: js' =>
      v <- rd pr (i + j * popsize) ;;
      data <- wr data k v ;;
      copy_row pr popsize i js' (S k) data
  end.
Fixpoint copy_rows (pr : list Z) (popsize nobj : nat) (is : list nat) (k : nat) (data : list Z) : outcome (nat * list Z) :=
  match is with
  | [] => Ret (k, data)
  | i :: is' =>
      r <- copy_row pr popsize i (seq 0 nobj) k data ;;
      copy_rows pr popsize nobj is' (fst r) (snd r)
  end.

(** Hypervolume_MEX.c:232-233 *)
Fixpoint first_row (data : list Z) (ks : list nat) (vector : list Z) : outcome (list Z) :=
  match ks with
  | [] => Ret vector
  | k :: ks' =>
      v <- rd data k ;;
      vector <- wr vector k v ;;
      first_row data ks' vector
  end.
(** Hypervolume_MEX.c:236-239 *)
Fixpoint max_row (data : list Z) (ns : list nat) (k : nat) (vector : list Z) : outcome (nat * list Z) :=
  match ns with
  | [] => Ret (k, vector)
  | n :: ns' =>
      x <- rd vector n ;;
      y <- rd data k ;;
      vector <- (if x <? y then wr vector n y else Ret vector) ;;
      max_row data ns' (S k) vector
  end.
(** Hypervolume_MEX.c:235-240 *)
Fixpoint max_rows (data : list Z) (nobj : nat) (rs : list nat) (k : nat) (vector : list Z) : outcome (list Z) :=
  match rs with
  | [] => Ret vector
  | _ :: rs' =>
      r <- max_row data (seq 0 nobj) k vector ;;
      max_rows data nobj rs' (fst r) (snd r)
  end.
(** Hypervolume_MEX.c:225-242 *)
Definition data_maximum (data : list Z) (nobj rows : nat) : outcome (list Z) :=
  vector <- first_row data (seq 0 nobj) (fresh nobj) ;;
  max_rows data nobj (seq 1 (rows - 1)) nobj vector.

(** Hypervolume_MEX.c:245-304; the arguments are a list (nrhs is its length).  fpli_hv
    (hv.c:1136-1138) does not read the reference point if there are no points. *)
Definition mexFunction (prhs : list mxarray) : outcome mexresult :=
  match prhs with
  | [] => Ret Help
  | a :: rest =>
      if mxIsChar a then Ret Help else
      if negb (mxIsNumeric a) then Ret (Error 1) else
      let nobj := ncol (matrix a) in
      let popsize := nrow (matrix a) in
      r <- copy_rows (mxGetPr a) popsize nobj (seq 0 popsize) 0 (fresh (nobj * popsize)) ;;
      let data := snd r in
      let go reference :=
        pts <- rows_at data nobj 0 popsize ;;
        v <- fpli_hv sort2d sortd dbl_max g pts nobj reference ;;
        Ret (Volume v) in
      match rest with
      | [] => reference <- data_maximum data nobj popsize ;; go reference
      | b :: _ =>
          if negb (mxIsNumeric b) then Ret (Error 2) else
          if negb (nobj =? nrow (matrix b) * ncol (matrix b))%nat then Ret (Error 3) else
          reference <- (if (popsize =? 0)%nat then Ret [] else first_doubles (mxGetPr b) nobj) ;; go reference
      end
  end.
End Mex.
