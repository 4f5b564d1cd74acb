(** Model of the Python functions vorobT and vorobDev
    (python/src/moocore/_moocore.py:1301-1319 and 1352-1378) for two
    objectives.  Volumes are exact integers, means are exact rationals.  The
    thresholds a, b, c are doubles: they are represented by elements of [C],
    with [mid] the computed midpoint and [toQ] the value. *)
From Coq Require Import List ZArith Lia Bool Arith QArith.
From Verif Require Import Base EafModel EafStoreModel GroupModel PyEafModel Hv2dModel.
Import ListNotations.
Open Scope Z_scope.

(** np.mean *)
Definition np_mean (l : list Z) : Q := (inject_Z (zsum l) / inject_Z (Z.of_nat (length l)))%Q.

Definition Qgtb (x y : Q) : bool := negb (Qle_bool x y).

(** _moocore.py:1306-1317, the loop; [H c] is the surface and its hypervolume,
    [prev] the hypervolume of the previous step (None = infinity).  [diff != 0]
    iff the two hypervolumes differ (IEEE subtraction with subnormals). *)
Fixpoint vorob_loop {C V} (mid : C -> C -> C) (H : C -> outcome (V * Z)) (avg : Q)
         (fuel : nat) (a b : C) (prev : option Z) : outcome (C * V) :=
  match fuel with
  | O => OutOfFuel
  | S fuel =>
    let c := mid a b in
    r <- H c ;;
    let tmp := snd r in
    let ab := if Qgtb (inject_Z tmp) avg then (c, b) else (a, c) in
    if match prev with Some p => p =? tmp | None => false end
    then Ret (c, fst r)
    else vorob_loop mid H avg fuel (fst ab) (snd ab) (Some tmp)
  end.

(** lines 1309-1310: eaf(data, percentiles=c)[:, :nobj] and its hypervolume *)
Definition eaf_hv {C} (toQ : C -> Q) sort2d sortx sorty junk grow
           (data : list point) (labels : list Z) (ref : point) (c : C)
  : outcome (list point * Z) :=
  m <- py_eaf sortx sorty junk grow data labels [toQ c] ;;
  h <- hv2d sort2d (map fst m) ref ;;
  Ret (map fst m, h).

(** lines 1301-1304: the mean of the hypervolumes of the sets *)
Definition mean_hv argsort sort2d (data : list point) (labels : list Z) (ref : point) : outcome Q :=
  hs <- apply_within_sets argsort (fun g => h <- hv2d sort2d g ref ;; Ret [h]) data labels ;;
  Ret (np_mean hs).

(** _moocore.py:1295-1319 [vorobT]; [zero] and [hundred] are the doubles 0 and 100 *)
Definition vorobT {C} (mid : C -> C -> C) (toQ : C -> Q) (zero hundred : C)
  argsort sort2d sortx sorty junk grow (fuel : nat)
  (data : list point) (labels : list Z) (ref : point) : outcome (C * list point * Q) :=
  avg <- mean_hv argsort sort2d data labels ref ;;
  r <- vorob_loop mid (eaf_hv toQ sort2d sortx sorty junk grow data labels ref) avg fuel zero hundred None ;;
  Ret (fst r, snd r, avg).

(** _moocore.py:1352-1378 [vorobDev] with VE given *)
Definition vorobDev argsort sort2d (x : list point) (labels : list Z) (ref : point) (VE : list point)
  : outcome Q :=
  h2 <- hv2d sort2d VE ref ;;
  h1 <- mean_hv argsort sort2d x labels ref ;;
  vs <- apply_within_sets argsort (fun g => h <- hv2d sort2d (g ++ VE) ref ;; Ret [h]) x labels ;;
  Ret (2 * np_mean vs - h1 - inject_Z h2)%Q.
