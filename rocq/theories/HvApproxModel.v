(** hv_approx (python/src/moocore/_moocore.py:520-645), the Monte-Carlo
    approximation of the hypervolume (method DZ2019).

    The model is parametric in
    - [rd], the rounding of one floating-point operation: [rnd] of PctFloatModel for
      IEEE doubles, the identity for exact arithmetic;
    - [normals], the vectors drawn by seed.normal(size=nobj), one per sample (the
      random number generator is outside the model: any sequence);
    - [norm], numpy.linalg.norm, any function;
    - [pw], [mean] and [c], the operations of lines 643-645 (numpy power with the
      exponent nobj, numpy mean, the constant of the dimension).
    Infinite and not-a-number inputs and overflow are not modelled.  A Python
    exception is [AssertFailed]. *)
From Coq Require Import List ZArith Reals Bool Arith.
From Flocq Require Import Core.
From Verif Require Import Base EpsModel EpsFloatModel.
Import ListNotations.
Open Scope R_scope.

(** _moocore.py:619-622: data = ref - data, then times -1 for the maximised
    objectives (a change of sign, never rounded) *)
Definition gain (rd : R -> R) (mx : list bool) (ref p : rpoint) : rpoint :=
  map (fun d => let v := rd (rcoord ref d - rcoord p d) in if nth d mx false then - v else v)
      (seq 0 (length mx)).

(** _moocore.py:626: (data > 0).all(axis=1) *)
Definition all_positive (q : rpoint) : bool := forallb (fun v => negb (Rle_bool v 0)) q.
Definition gains (rd : R -> R) (mx : list bool) (ref : rpoint) (data : list rpoint) : list rpoint :=
  filter all_positive (map (gain rd mx ref) data).

(** _moocore.py:635-636: the direction of one sample *)
Definition direction (rd : R -> R) (norm : list R -> R) (g : rpoint) : rpoint :=
  let w := map Rabs g in let n := norm w in map (fun x => rd (x / n)) w.

(** one element of data / w; a division of a positive number by zero is +inf *)
Definition quotient (rd : R -> R) (x w : R) : ext R :=
  if Req_bool w 0 then PosInf else Fin (rd (x / w)).
(** _moocore.py:637: (data / w).min(axis=1) of one row *)
Definition reach (rd : R -> R) (w q : rpoint) : ext R :=
  fold_left (fun m d => emin Rle_bool m (quotient rd (rcoord q d) (rcoord w d))) (seq 0 (length q)) PosInf.
(** _moocore.py:637-638: s_w.max(); numpy raises ValueError for an empty array *)
Definition sample (rd : R -> R) (w : rpoint) (rows : list rpoint) : outcome (ext R) :=
  match rows with
  | [] => AssertFailed
  | _ => Ret (fold_left (fun m q => emax Rle_bool m (reach rd w q)) rows NegInf)
  end.

(** _moocore.py:633-638: the loop over the samples *)
Fixpoint samples (rd : R -> R) (ws rows : list rpoint) : outcome (list (ext R)) :=
  match ws with
  | [] => Ret []
  | w :: ws' => s <- sample rd w rows ;; l <- samples rd ws' rows ;; Ret (s :: l)
  end.

(** a value that is not a number (all components of w zero: 0/0 in line 636, hence
    NaN) is reported as [OutOfBounds] *)
Fixpoint finite (l : list (ext R)) : outcome (list R) :=
  match l with
  | [] => Ret []
  | Fin v :: l' => r <- finite l' ;; Ret (v :: r)
  | _ => OutOfBounds
  end.

(** _moocore.py:601-643; [mx] is the parsed maximise argument, its length the number
    of columns; ValueError when ref has another length (lines 606-609); at least one
    sample (mean of an empty array is NaN) *)
Definition hv_approx (rd : R -> R) (norm : list R -> R) (pw : R -> R) (mean : list R -> R) (c : R)
    (normals : list rpoint) (data : list rpoint) (ref : rpoint) (mx : list bool) : outcome R :=
  _ <- assert_ (length ref =? length mx)%nat ;;
  e <- samples rd (map (direction rd norm) normals) (gains rd mx ref data) ;;
  l <- finite e ;;
  Ret (rd (c * mean (map pw l))).

(** exact versions of the power and of the mean *)
Definition power (dim : nat) (x : R) : R := x ^ dim.
Definition rsum (l : list R) : R := fold_right Rplus 0 l.
Definition average (l : list R) : R := rsum l / INR (length l).

(** _moocore.py:644: the constant of the dimension, in exact arithmetic.
    [gamma_half k] is math.gamma (k / 2): gamma (1/2) = sqrt pi, gamma 1 = 1 and
    gamma (x + 1) = x * gamma x *)
Fixpoint gamma_half (k : nat) : R :=
  match k with
  | O => 0
  | S O => sqrt PI
  | S (S k') => match k' with O => 1 | _ => INR k' / 2 * gamma_half k' end
  end.
Definition constant (n : nat) : R := Rpower PI (INR n / 2) / (2 ^ n * gamma_half (n + 2)).
