(** Model of the "shifted" hypervolume entry point (c/hv.c:593-803, 818-841,
    881-922), of the hypervolume contributions (c/hv_contrib.c) and of the
    Python wrapper (python/src/moocore/_moocore.py:329-432). *)
From Coq Require Import List ZArith Lia Bool Arith.
From Verif Require Import Base NondomModel ParetoRankModel Hv2dModel HvModel.
Import ListNotations.
Open Scope Z_scope.

(** ** Three objectives, reference point at the origin *)

(** hv.c:657-677: the loop removing dominated nodes and the update after it. *)
Fixpoint hv3d0_pop (data : list point) (x0 x1 nxt0 : Z) (cur : nat) (bf : list nat)
         (hypera : Z) : Z * list nat :=
  match bf with
  | [] =>
    let hypera := hypera - (- node_x data 1 cur) * (nxt0 - node_x data 0 cur) in
    (hypera + (- x1) * (nxt0 - x0), [])
  | q :: bf' =>
    let hypera := hypera - (node_x data 1 q - node_x data 1 cur) * (nxt0 - node_x data 0 cur) in
    if node_x data 0 q <? x0
    then (hypera + (node_x data 1 q - x1) * (nxt0 - x0), bf)
    else hv3d0_pop data x0 x1 nxt0 q bf' hypera
  end.

(** hv.c:636-690: one point ([hv3d_split] as in HvModel.v). *)
Definition hv3d0_step (data : list point) (st : hvst)
           (pp : nat) (T : list nat) (hypera hyperv height : Z)
  : outcome (hvst * list nat * Z * Z) :=
  if (2 <=? ign st pp)%nat then Ret (st, T, hypera, hyperv + hypera * height)
  else
    x <- getx data pp 0 ;;
    y <- getx data pp 1 ;;
    let '(bf, af) := hv3d_split data pp T [] in
    let nxt0 := match af with [] => 0 | e :: _ => node_x data 0 e end in
    let '(st, T, hypera) :=
      if x <? nxt0 then
        match bf with
        | [] => (st, rev bf ++ pp :: af, hypera + (- y) * (nxt0 - x))
        | q :: bf' =>
          if x <? node_x data 0 q
          then let '(hypera, bf) := hv3d0_pop data x y nxt0 q bf' hypera in
               (st, rev bf ++ pp :: af, hypera)
          else (st, rev bf ++ pp :: af, hypera + (node_x data 1 q - y) * (nxt0 - x))
        end
      else (set_ign pp 2 st, T, hypera) in
    Ret (st, T, hypera, if 0 <? height then hyperv + hypera * height else hyperv).

(** hv.c:632-692. *)
Fixpoint hv3d0_loop (fuel : nat) (data : list point) (st : hvst)
         (pp : nat) (T : list nat) (hypera hyperv : Z) : outcome (Z * hvst) :=
  match fuel with
  | O => OutOfFuel
  | S fuel' =>
    z <- getx data pp 2 ;;
    height <- (if (pp =? prv st 2 0)%nat then Ret (- z)
               else zn <- getx data (nxt st 2 pp) 2 ;; Ret (zn - z)) ;;
    r <- hv3d0_step data st pp T hypera hyperv height ;;
    let '(st, T, hypera, hyperv) := r in
    let pp := nxt st 2 pp in
    if (pp =? 0)%nat then Ret (hyperv, st)
    else hv3d0_loop fuel' data st pp T hypera hyperv
  end.

(** hv.c:615-696 [fpli_hv3d]. *)
Definition fpli_hv3d (data : list point) (st : hvst) (c : nat) : outcome (Z * hvst) :=
  let pp := nxt st 2 0 in
  x <- getx data pp 0 ;;
  y <- getx data pp 1 ;;
  z <- getx data pp 2 ;;
  let hypera := x * y in
  height <- (if (c =? 1)%nat then Ret (- z)
             else zn <- getx data (nxt st 2 pp) 2 ;; Ret (zn - z)) ;;
  let hyperv := hypera * height in
  if (nxt st 2 pp =? 0)%nat then Ret (hyperv, st)
  else hv3d0_loop (length data) data st (nxt st 2 pp) [pp] hypera hyperv.

(** ** General dimension: [hv_recursive] (hv.c:713-801).  The loops that do not
    mention the reference point are those of HvModel.v. *)

(** hv.c:748-749: [area[i] = area[i-1] * -x[i-1]]. *)
Fixpoint area0_prefix (data : list point) (p : nat) (is : list nat) (st : hvst) : outcome hvst :=
  match is with
  | [] => Ret st
  | i :: is' =>
    x <- getx data p (i - 1) ;;
    area0_prefix data p is' (set_area i p (area st (i - 1) p * (- x)) st)
  end.

(** hv.c:720-766. *)
Definition hv0_rec_step (rec : hvst -> nat -> outcome (Z * hvst))
           (data : list point) (dim : nat) (st : hvst) (c : nat) : outcome (Z * hvst) :=
  let n := length data in
  let p0 := 0%nat in
  let p1 := prv st dim 0 in
  st <- reset_ignore (S n) dim p1 st ;;
  r <- hv_delete_while (S n) data dim p0 p1 c st ;;
  let '(p0, p1, c, st) := r in
  r <- (if (1 <? c)%nat then
          let pr := prv st dim p1 in
          x1 <- getx data p1 dim ;;
          xp <- getx data pr dim ;;
          let hyperv := vol st dim pr + area st dim pr * (x1 - xp) in
          Ret (hyperv, set_vol dim p1 hyperv st)
        else
          st <- area0_prefix data p1 (seq 1 dim) (set_area 0 p1 1 st) ;;
          Ret (0, set_vol dim p1 0 st)) ;;
  let '(hyperv, st) := r in
  st <- skip_or_recurse rec dim p1 c st ;;
  r <- hv_reinsert_while (S n) rec data dim p0 p1 c hyperv st ;;
  let '(p1, hyperv, st) := r in
  x1 <- getx data p1 dim ;;
  Ret (hyperv + area st dim p1 * (- x1), st).

(** hv.c:713-801 [hv_recursive], [dim = k + 2]. *)
Fixpoint hv_recursive (k : nat) (data : list point) (st : hvst) (c : nat) : outcome (Z * hvst) :=
  match k with
  | O => fpli_hv3d data st c
  | S k' => hv0_rec_step (fun st c => hv_recursive k' data st c) data (k + 2) st c
  end.

(** hv.c:831-837: inner loop of [filter]. *)
Fixpoint filter0_inner (m : nat) (data : list point) (d i aux n : nat) (st : hvst)
  : outcome (nat * hvst) :=
  match m with
  | O => Ret (n, st)
  | S m' =>
    x <- getx data aux i ;;
    if x <? 0 then Ret (n, st)
    else
      let st := filter_delete_node aux d st in
      filter0_inner m' data d i (prv st i aux) (n - 1) st
  end.

(** hv.c:823-841 [filter]. *)
Fixpoint filter0 (data : list point) (d : nat) (is : list nat) (n : nat) (st : hvst)
  : outcome (nat * hvst) :=
  match is with
  | [] => Ret (n, st)
  | i :: is' =>
    r <- filter0_inner n data d i (prv st i 0) n st ;;
    filter0 data d is' (fst r) (snd r)
  end.

(** hv.c:907-909. *)
Fixpoint box0_loop (data : list point) (p : nat) (is : list nat) (acc : Z) : outcome Z :=
  match is with
  | [] => Ret acc
  | i :: is' => x <- getx data p i ;; box0_loop data p is' (acc * (- x))
  end.

(** hv.c:881-887 [shift_reference]: [data[i*d+k] -= ref[k]], [k < d]. *)
Definition shift_row (d : nat) (ref p : point) : point :=
  map (fun k => coord p k - coord ref k) (seq 0 d).
Definition shift_reference (d : nat) (ref : point) (data : list point) : list point :=
  map (shift_row d ref) data.

(** hv.c:889-922 [fpli_hv_shift].  Result: the value and the final contents of
    the caller's array.  The branch [dim == 0] of [hv_recursive] (hv.c:792-794),
    reached for one objective, is inlined; [d = 0] is undefined in C. *)
Definition fpli_hv_shift (sort2d : list point -> list nat) (sortd : (nat -> Z) -> list nat -> list nat)
           (dbl_max : Z) (g : hvst) (data : list point) (d : nat) (ref : point)
  : outcome (Z * list point) :=
  let n := length data in
  if (n =? 0)%nat then Ret (0, data) else
  if (d =? 2)%nat then v <- hv2d sort2d data ref ;; Ret (v, data) else
  let data := shift_reference d ref data in
  let st := setup_cdllist sortd data d g in
  r <- filter0 data d (seq 0 d) n st ;;
  let '(n, st) := r in
  if (n =? 0)%nat then Ret (0, data)
  else if (n =? 1)%nat then v <- box0_loop data (nxt st 0 0) (seq 0 d) 1 ;; Ret (v, data)
  else if (d =? 3)%nat then r <- fpli_hv3d data st n ;; Ret (fst r, data)
  else
    let st := mkst (nxt st) (prv st) (ign st) (area st) (vol st)
                   (fun i => if (i <? d)%nat then - dbl_max else bnd st i) in
    if (d =? 1)%nat then x <- getx data (nxt st 0 0) 0 ;; Ret (- x, data)
    else r <- hv_recursive (d - 3) data st n ;; Ret (fst r, data).

(** ** hv_contrib.c *)

(** hv_contrib.c:25-32: iterations [i, i+1, ...] of [hv_1point_diffs] (with
    [uev == NULL], the only call); [hv] is [fpli_hv] on the current array.
    Result: the values and the array. *)
Fixpoint hv_1point_diffs (hv : list point -> outcome Z) (ref : point) (is : list nat)
         (points : list point) : outcome (list Z * list point) :=
  match is with
  | [] => Ret ([], points)
  | i :: is' =>
    tmp <- rd points i ;;
    points <- wr points i ref ;;
    v <- hv points ;;
    points <- wr points i tmp ;;
    r <- hv_1point_diffs hv ref is' points ;;
    Ret (v :: fst r, snd r)
  end.

(** hv_contrib.c:43-48; [tol] is [sqrt(DBL_EPSILON)] in units of the integer
    grid. *)
Fixpoint contrib_loop (tol total : Z) (hvc : list Z) : outcome (list Z) :=
  match hvc with
  | [] => Ret []
  | h :: t =>
    let c := total - h in
    let c := if tol <=? Z.abs c then c else 0 in
    _ <- assert_ (0 <=? c) ;;
    r <- contrib_loop tol total t ;;
    Ret (c :: r)
  end.

(** hv_contrib.c:37-49 [hv_contributions].  Result: [hvc] and the final
    contents of the caller's array. *)
Definition hv_contributions (sort2d : list point -> list nat)
           (sortd : (nat -> Z) -> list nat -> list nat) (dbl_max : Z) (g : hvst) (tol : Z)
           (points : list point) (d : nat) (ref : point) : outcome (list Z * list point) :=
  let hv pts := fpli_hv sort2d sortd dbl_max g pts d ref in
  total <- hv points ;;
  r <- hv_1point_diffs hv ref (seq 0 (length points)) points ;;
  hvc <- contrib_loop tol total (fst r) ;;
  Ret (hvc, snd r).

(** ** Python [hypervolume] (python/src/moocore/_moocore.py:411-432) *)

(** [x[maximise] = -x[maximise]] *)
Definition negate_cols (maximise : list bool) (p : point) : point :=
  map (fun k => if nth k maximise false then - coord p k else coord p k) (seq 0 (length p)).

(** The shape checks ([ValueError]) are modelled by [AssertFailed]. *)
Definition hypervolume_py (sort2d : list point -> list nat)
           (sortd : (nat -> Z) -> list nat -> list nat) (dbl_max : Z) (g : hvst)
           (data : list point) (nobj : nat) (ref : point) (maximise : list bool) : outcome Z :=
  _ <- assert_ (length ref =? nobj)%nat ;;
  _ <- assert_ (length maximise =? nobj)%nat ;;
  if existsb (fun b => b) maximise
  then fpli_hv sort2d sortd dbl_max g (map (negate_cols maximise) data) nobj (negate_cols maximise ref)
  else fpli_hv sort2d sortd dbl_max g data nobj ref.

(** ** Python [vorobDev] (python/src/moocore/_moocore.py:1365-1378): the summand
    for one set, [2 * hv_ind(vstack(g, VE)) - hv_ind(g) - hv_ind(VE)].  The means
    over the sets are sums of these divided by their number. *)
Definition hv_symdiff (hv : list point -> outcome Z) (A VE : list point) : outcome Z :=
  h2 <- hv VE ;;
  h1 <- hv A ;;
  hu <- hv (A ++ VE) ;;
  Ret (2 * hu - h1 - h2).

(** ** Python [pareto_rank] (python/src/moocore/_moocore.py:958-972); the number
    of objectives is the length of the parsed [maximise]. *)
Definition pareto_rank_py (sort2d : list point -> list nat) (garbage : nat) (debug : bool)
           (data : list point) (maximise : list bool) : outcome (list nat) :=
  if existsb (fun b => b) maximise
  then pareto_rank sort2d garbage debug (map (negate_cols maximise) data) (length maximise)
  else pareto_rank sort2d garbage debug data (length maximise).
