(** Model of c/pareto.c (nondominated sorting). *)
From Coq Require Import List ZArith Lia Bool Arith.
From Verif Require Import Base NondomModel.
Import ListNotations.
Open Scope Z_scope.

(** pareto.c:9-31 [point_2d_front_cmp] is the lexicographic comparison already
    modelled by [compare_x_asc_y_asc]; the sorted array [data] (pareto.c:48-72)
    is therefore [sort2d pts]: [data[k].i = nth k (sort2d pts)] and
    [data[k].p = deref pts (sort2d pts) k].  The field [f] is a separate array. *)

(** pareto.c:93-107: binary search over the last members of the fronts. *)
Fixpoint rank2d_search (fuel : nat) (pts : list point) (pp front_last : list nat)
         (n_front : nat) (p : point) (low high : nat) : outcome nat :=
  match fuel with
  | O => OutOfFuel
  | S fuel' =>
    let mid := (low + (high - low) / 2)%nat in
    _ <- assert_ (mid <=? n_front)%nat ;;
    fl <- rd front_last mid ;;
    pmid <- deref pts pp fl ;;
    if coord p 1 <? coord pmid 1 then
      if (low <? mid)%nat
      then rank2d_search fuel' pts pp front_last n_front p low mid
      else Ret low
    else if (coord pmid 1 <? coord p 1)
            || ((coord p 1 =? coord pmid 1) && (coord pmid 0 <? coord p 0)) then
      if (mid + 1 <? high)%nat
      then rank2d_search fuel' pts pp front_last n_front p (mid + 1) high
      else Ret (mid + 1)%nat
    else Ret mid
  end.

(** pareto.c:90-123: the loop over [k]; [ks] is the list of the remaining
    values of [k]; [f] is the field [data[.].f]. *)
Fixpoint rank2d_loop (pts : list point) (pp : list nat) (ks : list nat)
         (front_last : list nat) (n_front : nat) (f : list nat) : outcome (list nat) :=
  match ks with
  | [] => Ret f
  | k :: ks' =>
    p <- deref pts pp k ;;
    fl <- rd front_last n_front ;;
    q <- deref pts pp fl ;;
    if coord p 1 <? coord q 1 then
      low <- rank2d_search (S n_front) pts pp front_last n_front p 0 (n_front + 1) ;;
      _ <- assert_ (low <=? n_front)%nat ;;
      ll <- rd front_last low ;;
      pl <- deref pts pp ll ;;
      _ <- assert_ ((coord p 1 <? coord pl 1)
                    || ((coord p 1 =? coord pl 1) && (coord p 0 =? coord pl 0))) ;;
      front_last' <- wr front_last low k ;;
      f' <- wr f k low ;;
      rank2d_loop pts pp ks' front_last' n_front f'
    else if (coord p 1 =? coord q 1) && (coord p 0 =? coord q 0) then
      front_last' <- wr front_last n_front k ;;
      f' <- wr f k n_front ;;
      rank2d_loop pts pp ks' front_last' n_front f'
    else
      front_last' <- wr front_last (S n_front) k ;;
      f' <- wr f k (S n_front) ;;
      rank2d_loop pts pp ks' front_last' (S n_front) f'
  end.

(** pareto.c:175-178: [rank[data[k].i] = data[k].f + 1]. *)
Fixpoint scatter_ranks (pp f : list nat) (k : nat) (rank : list nat) : outcome (list nat) :=
  match pp with
  | [] => Ret rank
  | i :: pp' =>
    v <- rd f k ;;
    rank' <- wr rank i (v + 1)%nat ;;
    scatter_ranks pp' f (S k) rank'
  end.

(** pareto.c:42-181 [pareto_rank_2D].  [garbage] is the content of the
    uninitialised arrays [front_last] and [rank]. *)
Definition pareto_rank_2D (sort2d : list point -> list nat) (garbage : nat)
           (pts : list point) : outcome (list nat) :=
  let size := length pts in
  let pp := sort2d pts in
  front_last <- wr (repeat garbage size) 0 0%nat ;;
  f <- wr (repeat 0%nat size) 0 0%nat ;;
  f' <- rank2d_loop pts pp (seq 1 (size - 1)) front_last 0 f ;;
  scatter_ranks pp f' 0 (repeat garbage size).

(** pareto.c:183-191 [dominates] (it tests weak dominance). *)
Definition dominates (dim : nat) (pj pk : point) : bool :=
  fold_left (fun acc d => acc && (coord pj d <=? coord pk d)) (seq 0 dim) true.

(** pareto.c:224-239: inner loop over [k].  Result: ranks and [nothing_new]. *)
Fixpoint rank_inner (pts : list point) (dim level j : nat) (ks : list nat)
         (rank : list nat) (nothing_new : bool) : outcome (list nat * bool) :=
  match ks with
  | [] => Ret (rank, nothing_new)
  | k :: ks' =>
    if (k =? j)%nat then rank_inner pts dim level j ks' rank nothing_new else
    rk <- rd rank k ;;
    if negb (rk =? level - 1)%nat then rank_inner pts dim level j ks' rank nothing_new else
    pj <- rd pts j ;;
    pk <- rd pts k ;;
    let j_leq_k := dominates dim pj pk in
    let k_leq_j := dominates dim pk pj in
    if j_leq_k && negb k_leq_j then
      rank' <- wr rank k (rk + 1)%nat ;;
      rank_inner pts dim level j ks' rank' false
    else if negb j_leq_k && k_leq_j then
      rj <- rd rank j ;;
      rank' <- wr rank j (rj + 1)%nat ;;
      Ret (rank', false)
    else rank_inner pts dim level j ks' rank nothing_new
  end.

(** pareto.c:219-240: loop over [j]. *)
Fixpoint rank_middle (pts : list point) (dim level : nat) (js : list nat)
         (rank : list nat) (nothing_new : bool) : outcome (list nat * bool) :=
  match js with
  | [] => Ret (rank, nothing_new)
  | j :: js' =>
    rj <- rd rank j ;;
    _ <- assert_ (rj <=? level)%nat ;;
    if negb (rj =? level - 1)%nat then rank_middle pts dim level js' rank nothing_new
    else
      r <- rank_inner pts dim level j (seq 0 (length pts)) rank nothing_new ;;
      rank_middle pts dim level js' (fst r) (snd r)
  end.

(** pareto.c:217-242: [do ... while (!nothing_new)]. *)
Fixpoint rank_do (fuel : nat) (pts : list point) (dim level : nat) (rank : list nat)
  : outcome (list nat) :=
  match fuel with
  | O => OutOfFuel
  | S fuel' =>
    r <- rank_middle pts dim level (seq 0 (length pts)) rank true ;;
    if snd r then Ret (fst r) else rank_do fuel' pts dim (S level) (fst r)
  end.

(** pareto.c:210-242: the general algorithm. *)
Definition pareto_rank_nd (pts : list point) (dim : nat) : outcome (list nat) :=
  rank_do (S (length pts)) pts dim 2 (repeat 1%nat (length pts)).

(** pareto.c:199-251 [pareto_rank].  [debug] is the compile-time switch
    [DEBUG != 0] (pareto.c:205-207, 244-249). *)
Definition pareto_rank (sort2d : list point -> list nat) (garbage : nat) (debug : bool)
           (pts : list point) (dim : nat) : outcome (list nat) :=
  if (dim =? 2)%nat then
    rank2 <- pareto_rank_2D sort2d garbage pts ;;
    if negb debug then Ret rank2
    else
      rank <- pareto_rank_nd pts dim ;;
      _ <- assert_ (forallb (fun k => (nth k rank 0 =? nth k rank2 0)%nat)
                            (seq 0 (length pts))) ;;
      Ret rank
  else pareto_rank_nd pts dim.
