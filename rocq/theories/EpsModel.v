(** Model of the epsilon indicators (c/epsilon.h) and of the set comparison of
    c/dominatedsets.c.

    The C loops run over row indices of flat arrays; here they run over the
    list of rows (a row [p] of the list is points[a*dim .. a*dim+dim-1]), in the
    same order and with the same accumulators.  Doubles: the additive indicator
    only subtracts and compares, so it is modelled over [ext Z]; the
    multiplicative one divides, so it is modelled over [ext Q] (exact division
    instead of the rounded one). *)
From Coq Require Import List ZArith QArith Lia Bool Arith.
From Verif Require Import Base NondomModel.
Import ListNotations.
Open Scope Z_scope.

(** A number, -INFINITY or INFINITY. *)
Inductive ext (T : Type) : Type := NegInf | Fin (x : T) | PosInf.
Arguments NegInf {T}. Arguments Fin {T} x. Arguments PosInf {T}.

(** [x <= y] of doubles that may be infinite *)
Definition eleb {T} (leb : T -> T -> bool) (x y : ext T) : bool :=
  match x, y with
  | NegInf, _ => true | _, NegInf => false
  | _, PosInf => true | PosInf, _ => false
  | Fin a, Fin b => leb a b
  end.

(** MAX and MIN of c/common.h:72-84: [x > y ? x : y] and [x < y ? x : y] *)
Definition emax {T} leb (x y : ext T) : ext T := if eleb leb x y then y else x.
Definition emin {T} leb (x y : ext T) : ext T := if eleb leb y x then y else x.

(** c/epsilon.h:82-87: epsilon_temp of the additive indicator *)
Definition eps_temp_add (minmax : list Z) (a b : point) (d : nat) : Z :=
  if coord minmax d <? 0 then coord a d - coord b d
  else if 0 <? coord minmax d then coord b d - coord a d
  else 0.

(** c/epsilon.h:79-89: the loop over d *)
Definition eps_max_add (dim : nat) (minmax : list Z) (a b : point) : ext Z :=
  fold_left (fun m d => emax Z.leb m (Fin (eps_temp_add minmax a b d))) (seq 0 dim) NegInf.

(** c/epsilon.h:77-91: the loop over a *)
Definition eps_min_add dim minmax (A : list point) (b : point) : ext Z :=
  fold_left (fun m a => emin Z.leb m (eps_max_add dim minmax a b)) A PosInf.

(** c/epsilon.h:69-96: epsilon_additive_minmax *)
Definition epsilon_additive_minmax dim minmax (A B : list point) : ext Z :=
  fold_left (fun e b => emax Z.leb e (eps_min_add dim minmax A b)) B NegInf.

(** c/epsilon.h:98-106: epsilon_additive (data, ref, maximise) *)
Definition epsilon_additive (A B : list point) (mx : list bool) : ext Z :=
  epsilon_additive_minmax (length mx) (minmax_from_bool mx) A B.

(** c/epsilon.h:119-137: epsilon_additive_ind *)
Definition epsilon_additive_ind dim minmax (A B : list point) : Z :=
  let eps_ab := epsilon_additive_minmax dim minmax A B in
  let eps_ba := epsilon_additive_minmax dim minmax B A in
  let le0 x := eleb Z.leb x (Fin 0) in
  if le0 eps_ab && negb (le0 eps_ba) then -1
  else if negb (le0 eps_ab) && le0 eps_ba then 1
  else 0.

(** ** Multiplicative indicator *)

(** c/epsilon.h:49-54: epsilon_temp (exact quotient) *)
Definition eps_temp_mult (minmax : list Z) (a b : point) (d : nat) : Q :=
  if coord minmax d <? 0 then (inject_Z (coord a d) / inject_Z (coord b d))%Q
  else if 0 <? coord minmax d then (inject_Z (coord b d) / inject_Z (coord a d))%Q
  else 1%Q.

(** c/epsilon.h:44-60: the loop over d, starting from 0; [fatal_error] =
    [AssertFailed] *)
Fixpoint eps_max_mult (minmax : list Z) (a b : point) (ds : list nat) (m : ext Q)
  : outcome (ext Q) :=
  match ds with
  | [] => Ret m
  | d :: ds =>
      if (coord a d <=? 0) || (coord b d <=? 0) then AssertFailed
      else let t := eps_temp_mult minmax a b d in
           if negb (Qle_bool 0 t) then AssertFailed
           else eps_max_mult minmax a b ds (emax Qle_bool m (Fin t))
  end.

(** c/epsilon.h:42-62: the loop over a *)
Fixpoint eps_min_mult dim minmax (A : list point) (b : point) (m : ext Q)
  : outcome (ext Q) :=
  match A with
  | [] => Ret m
  | a :: A => x <- eps_max_mult minmax a b (seq 0 dim) (Fin 0%Q) ;;
              eps_min_mult dim minmax A b (emin Qle_bool m x)
  end.

(** c/epsilon.h:40-64: the loop over b *)
Fixpoint eps_loop_mult dim minmax (A B : list point) (e : ext Q) : outcome (ext Q) :=
  match B with
  | [] => Ret e
  | b :: B => x <- eps_min_mult dim minmax A b PosInf ;;
              eps_loop_mult dim minmax A B (emax Qle_bool e x)
  end.

(** c/epsilon.h:33-67: epsilon_mult_minmax *)
Definition epsilon_mult_minmax dim minmax (A B : list point) : outcome (ext Q) :=
  eps_loop_mult dim minmax A B (Fin 0%Q).

(** c/epsilon.h:107-115: epsilon_mult *)
Definition epsilon_mult (A B : list point) (mx : list bool) : outcome (ext Q) :=
  epsilon_mult_minmax (length mx) (minmax_from_bool mx) A B.

(** ** dominatedsets *)

(** c/dominatedsets.c:174-198: dominance *)
Definition dominance (dim : nat) (minmax : list Z) (a b : point) : Z :=
  if existsb (fun d => (coord minmax d <? 0) && (coord b d <? coord a d)
                    || (0 <? coord minmax d) && (coord a d <? coord b d)) (seq 0 dim)
  then -1
  else if existsb (fun d => (coord minmax d <? 0) && (coord a d <? coord b d)
                    || (0 <? coord minmax d) && (coord b d <? coord a d)) (seq 0 dim)
  then 1 else 0.

(** c/dominatedsets.c:209-229: the loop over x for one y; returns
    (x_weakly_dominates_y, x_dominates_y) *)
Fixpoint set_dom_x dim minmax (X : list point) (y : point) (xd : bool) : bool * bool :=
  match X with
  | [] => (false, xd)
  | x :: X => let r := dominance dim minmax x y in
              if r =? 1 then (true, true)
              else if r =? 0 then (true, xd)
              else set_dom_x dim minmax X y xd
  end.

(** c/dominatedsets.c:207-232: the loop over y, stopping at the first y that is
    not weakly dominated *)
Fixpoint set_dom_y dim minmax (X Y : list point) (xw xd : bool) : bool * bool :=
  match Y with
  | [] => (xw, xd)
  | y :: Y => let (w, xd') := set_dom_x dim minmax X y xd in
              if w then set_dom_y dim minmax X Y true xd' else (false, xd')
  end.

(** c/dominatedsets.c:200-240: set_dominates *)
Definition set_dominates dim minmax (X Y : list point) : Z :=
  let (xw, xd) := set_dom_y dim minmax X Y false false in
  if negb xw then 1
  else if negb (length X =? length Y)%nat || xd then -1
  else 0.

(** c/dominatedsets.c:242-274: pareto_better; the abort() of line 271 is
    [AssertFailed] *)
Definition pareto_better dim minmax (A B : list point) : outcome Z :=
  let result := set_dominates dim minmax A B in
  let result := if result =? 1
                then let r := - set_dominates dim minmax B A in
                     if negb (r =? 1) then 0 else r
                else result in
  let result2 := epsilon_additive_ind dim minmax A B in
  if negb (result =? result2) then AssertFailed else Ret result.

(** c/dominatedsets.c:291-304: the loop over the runs of B for one run of A *)
Fixpoint cmp_bs dim minmax (a : list point) (Bs : list (list point)) (na nb : Z)
  : outcome (Z * Z) :=
  match Bs with
  | [] => Ret (na, nb)
  | b :: Bs => r <- pareto_better dim minmax a b ;;
      if r <? 0 then cmp_bs dim minmax a Bs (na + 1) nb
      else if 0 <? r then cmp_bs dim minmax a Bs na (nb + 1)
      else cmp_bs dim minmax a Bs na nb
  end.

(** c/dominatedsets.c:276-307: cmpparetos; the runs are given as lists of rows
    instead of cumulative sizes *)
Fixpoint cmpparetos dim minmax (As Bs : list (list point)) (na nb : Z)
  : outcome (Z * Z) :=
  match As with
  | [] => Ret (na, nb)
  | a :: As => r <- cmp_bs dim minmax a Bs na nb ;;
               cmpparetos dim minmax As Bs (fst r) (snd r)
  end.
