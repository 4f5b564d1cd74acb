(** Model of [hv2d] in c/hv.c. *)
From Coq Require Import List ZArith Lia Bool Arith.
From Verif Require Import Base NondomModel.
Import ListNotations.
Open Scope Z_scope.

(** hv.c:843-851 [compare_x_asc_y_asc] is identical to nondominated.h:44-52,
    so the sorted array [p] (hv.c:855-860) is [sort2d pts]. *)

(** hv.c:867-868: [while (j < n && p[j][1] >= prev_j) j++]. *)
Fixpoint hv2d_skip (fuel : nat) (pts : list point) (pp : list nat) (prev_j : Z) (j : nat)
  : outcome nat :=
  match fuel with
  | O => OutOfFuel
  | S fuel' =>
    if (j <? length pts)%nat then
      pj <- deref pts pp j ;;
      if prev_j <=? coord pj 1 then hv2d_skip fuel' pts pp prev_j (S j) else Ret j
    else Ret j
  end.

(** hv.c:865-875: the [do ... while] loop. *)
Fixpoint hv2d_do (fuel : nat) (pts : list point) (pp : list nat) (ref : point)
         (hyperv prev_j : Z) (j : nat) : outcome Z :=
  match fuel with
  | O => OutOfFuel
  | S fuel' =>
    j <- hv2d_skip (S (length pts)) pts pp prev_j j ;;
    if (j =? length pts)%nat then Ret hyperv else
    pj <- deref pts pp j ;;
    if coord ref 0 <=? coord pj 0 then Ret hyperv else
    let hyperv := hyperv + (coord ref 0 - coord pj 0) * (prev_j - coord pj 1) in
    let prev_j := coord pj 1 in
    let j := S j in
    if (j <? length pts)%nat then
      pj <- deref pts pp j ;;
      if coord pj 0 <? coord ref 0 then hv2d_do fuel' pts pp ref hyperv prev_j j
      else Ret hyperv
    else Ret hyperv
  end.

(** hv.c:853-879 [hv2d]. *)
Definition hv2d (sort2d : list point -> list nat) (pts : list point) (ref : point) : outcome Z :=
  hv2d_do (S (length pts)) pts (sort2d pts) ref 0 (coord ref 1) 0.
