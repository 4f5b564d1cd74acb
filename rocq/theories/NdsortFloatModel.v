(** The order that ndsort (c/ndsort.c:246-286) gives to the first front, for two
    objectives and in IEEE 754 binary64 arithmetic.  Overflow is not modelled. *)
From Coq Require Import List ZArith Reals Bool Arith.
From Flocq Require Import Core.
From Verif Require Import Base NondomModel PctFloatModel EpsFloatModel NormFloatModel HvFloatModel HvContribFloatModel.
Import ListNotations.
Open Scope R_scope.

(** the number [m] of the double [x = m * 2^-1074], the representation of
    [HvFloatModel] *)
Definition dnum (x : R) : Z := Zfloor (x * bpow radix2 1074).

(** ndsort.c:257-258, 267-268; the first value replaces the infinity *)
Definition lower_bound_d (front : list rpoint) (d : nat) : R :=
  match front with
  | [] => 0
  | p :: ps => fold_left (fun b q => if Rlt_bool (rcoord q d) b then rcoord q d else b) ps (rcoord p d)
  end.
Definition upper_bound_d (front : list rpoint) (d : nat) : R :=
  match front with
  | [] => 0
  | p :: ps => fold_left (fun b q => if Rlt_bool b (rcoord q d) then rcoord q d else b) ps (rcoord p d)
  end.

(** ndsort.c:236-237, 274-276: normalise with AGREE_NONE (no objective is negated), the range
    is 0.0 to 0.9 *)
Definition normalised_front_d (front : list rpoint) : list rpoint :=
  map (normalise_row_d 2 [false; false] 0 (rnd (9 / 10))
         (map (lower_bound_d front) [0%nat; 1%nat]) (map (upper_bound_d front) [0%nat; 1%nat])) front.

(** ndsort.c:251-252, 278-279: the contributions with respect to (1, 1) *)
Definition ndsort_hvc_d (ndebug : bool) (sort2d : list point -> list nat) (front : list rpoint) : outcome (list R) :=
  r <- hv_contributions_d ndebug sort2d (map (map dnum) (normalised_front_d front)) (map dnum [1; 1]) ;;
  Ret (fst r).

(** ndsort.c:243, 281-284: order[k] = rank[k]; order[k] += (1 - hvc[j]) for rank 1 *)
Definition order_d (h : R) : R := rnd (1 + rnd (1 - h)).

(** the orders printed for the first front *)
Definition ndsort_first_d (ndebug : bool) (sort2d : list point -> list nat) (front : list rpoint) : outcome (list R) :=
  hvc <- ndsort_hvc_d ndebug sort2d front ;; Ret (map order_d hvc).
