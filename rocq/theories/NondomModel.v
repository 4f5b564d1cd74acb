(** Model of c/nondominated.h (nondominated filtering). *)
From Coq Require Import List ZArith Lia Bool Arith.
From Verif Require Import Base.
Import ListNotations.
Open Scope Z_scope.

(** nondominated.h:7-14 [nondom_init]: an array of [true]. *)
Definition nondom_init (size : nat) : list bool := repeat true size.

(** common.h:158 [enum objs_agree_t]. *)
Definition AGREE_MINIMISE : Z := -1.
Definition AGREE_NONE : Z := 0.
Definition AGREE_MAXIMISE : Z := 1.

(** common.h:161-170 [minmax_from_bool]. *)
Definition minmax_from_bool (maximise : list bool) : list Z :=
  map (fun b : bool => if b then AGREE_MAXIMISE else AGREE_MINIMISE) maximise.

(** One row of [pnew] in nondominated.h:35-40: negate the columns with
    [minmax[d] > 0]. *)
Fixpoint negate_max (mm : list Z) (p : point) : point :=
  match mm, p with
  | m :: mm', x :: p' => (if 0 <? m then - x else x) :: negate_max mm' p'
  | _, _ => p
  end.

(** nondominated.h:16-42 [force_agree_minimize].  Simplification: the matrix
    is a list of rows, so negating column [d] of every row is a [map]. *)
Definition force_agree_minimize (pts : list point) (mm : list Z) (agree : Z)
  : outcome (list point) :=
  _ <- assert_ (negb (agree =? AGREE_MINIMISE)) ;;
  if existsb (fun m => 0 <? m) mm then
    _ <- assert_ (forallb (fun m => negb (m =? 0)) mm) ;;
    Ret (map (negate_max mm) pts)
  else Ret pts.

(** nondominated.h:44-52 [compare_x_asc_y_asc]. *)
Definition compare_x_asc_y_asc (p q : point) : Z :=
  if coord p 0 <? coord q 0 then -1
  else if coord q 0 <? coord p 0 then 1
  else if coord p 1 <? coord q 1 then -1
  else if coord q 1 <? coord p 1 then 1 else 0.

(** nondominated.h:54-63 [generate_sorted_pp_2d].  The array of pointers into
    [points] is a list of row indices.  [qsort] is a parameter [sort2d] of all
    functions below; [valid_sort2d] is the only thing known about it. *)
Definition valid_sort2d (sort2d : list point -> list nat) : Prop :=
  forall pts,
    is_qsort_of (fun i j => compare_x_asc_y_asc (row pts i) (row pts j) <= 0)
                (seq 0 (length pts)) (sort2d pts).

(** dereference of the pointer [p[j]] *)
Definition deref (pts : list point) (pp : list nat) (j : nat) : outcome point :=
  i <- rd pp j ;; rd pts i.

(** nondominated.h:75-82: inner [while] of [find_dominated_2d_].
    Result: [inl pos] for [goto early_end], [inr j] when the loop ends. *)
Fixpoint find_dom_2d_while (fuel : nat) (pts : list point) (pp : list nat)
         (kw : bool) (k j : nat) : outcome (nat + nat) :=
  match fuel with
  | O => OutOfFuel
  | S fuel' =>
    if (j <? length pts)%nat then
      pj <- deref pts pp j ;;
      pk <- deref pts pp k ;;
      if coord pk 1 <=? coord pj 1 then
        if negb kw || negb (coord pj 0 =? coord pk 0) || negb (coord pj 1 =? coord pk 1)
        then (i <- rd pp j ;; Ret (inl i))
        else find_dom_2d_while fuel' pts pp kw k (S j)
      else Ret (inr j)
    else Ret (inr j)
  end.

(** nondominated.h:74-85: the [do ... while (j < size)] of [find_dominated_2d_]. *)
Fixpoint find_dom_2d_do (fuel : nat) (pts : list point) (pp : list nat)
         (kw : bool) (k j : nat) : outcome Z :=
  match fuel with
  | O => OutOfFuel
  | S fuel' =>
    r <- find_dom_2d_while (S (length pts)) pts pp kw k j ;;
    match r with
    | inl pos => Ret (Z.of_nat pos)
    | inr j' => if (S j' <? length pts)%nat
                then find_dom_2d_do fuel' pts pp kw j' (S j')
                else Ret (-1)
    end
  end.

(** nondominated.h:68-92 [find_dominated_2d_]. *)
Definition find_dominated_2d_ (sort2d : list point -> list nat)
           (pts : list point) (kw : bool) : outcome Z :=
  find_dom_2d_do (S (length pts)) pts (sort2d pts) kw 0 1.

(** nondominated.h:106-110 and 132-138: inner [while] of the two functions
    [find_nondominated_set_delete_weakly_2d_] ([kw = false]) and
    [find_nondominated_set_keep_weakly_2d_] ([kw = true]); they differ only in
    the test guarding [nondom[j] = false; n_dominated++]. *)
Fixpoint nondom_2d_while (fuel : nat) (pts : list point) (pp : list nat)
         (kw : bool) (k j : nat) (nd : list bool) (n_dom : nat)
  : outcome (nat * list bool * nat) :=
  match fuel with
  | O => OutOfFuel
  | S fuel' =>
    if (j <? length pts)%nat then
      pj <- deref pts pp j ;;
      pk <- deref pts pp k ;;
      if coord pk 1 <=? coord pj 1 then
        if negb kw || (negb (coord pj 0 =? coord pk 0) || negb (coord pj 1 =? coord pk 1))
        then (nd' <- wr nd j false ;;
              nondom_2d_while fuel' pts pp kw k (S j) nd' (S n_dom))
        else nondom_2d_while fuel' pts pp kw k (S j) nd n_dom
      else Ret (j, nd, n_dom)
    else Ret (j, nd, n_dom)
  end.

(** nondominated.h:105-113 and 131-141: the [do ... while (j < size)]. *)
Fixpoint nondom_2d_do (fuel : nat) (pts : list point) (pp : list nat)
         (kw : bool) (k j : nat) (nd : list bool) (n_dom : nat)
  : outcome (list bool * nat) :=
  match fuel with
  | O => OutOfFuel
  | S fuel' =>
    r <- nondom_2d_while (S (length pts)) pts pp kw k j nd n_dom ;;
    let '(j', nd', n_dom') := r in
    if (S j' <? length pts)%nat
    then nondom_2d_do fuel' pts pp kw j' (S j') nd' n_dom'
    else Ret (nd', n_dom')
  end.

(** nondominated.h:115-118 and 143-146: scatter the flags back to input order.
    [nondom_new] is uninitialised memory in C; [fresh] is its arbitrary content. *)
Fixpoint scatter_flags (pp : list nat) (nd : list bool) (k : nat) (dst : list bool)
  : outcome (list bool) :=
  match pp with
  | [] => Ret dst
  | i :: pp' =>
    v <- rd nd k ;;
    dst' <- wr dst i v ;;
    scatter_flags pp' nd (S k) dst'
  end.

(** nondominated.h:99-123 [find_nondominated_set_delete_weakly_2d_] ([kw=false])
    and 125-150 [find_nondominated_set_keep_weakly_2d_] ([kw=true]).
    Returns the flags and the C return value, which is [n_dominated]. *)
Definition find_nondominated_set_2d_ (sort2d : list point -> list nat)
           (pts : list point) (kw : bool) (nd : list bool)
  : outcome (list bool * nat) :=
  let pp := sort2d pts in
  r <- nondom_2d_do (S (length pts)) pts pp kw 0 1 nd 0 ;;
  let '(nd', n_dom) := r in
  nd'' <- scatter_flags pp nd' 0 (repeat false (length pts)) ;;
  Ret (nd'', n_dom).

(** nondominated.h:187-218: the loop over [d] computing [j_leq_k] and [k_leq_j]. *)
Fixpoint leq_pair (agree : Z) (mm : list Z) (pj pk : point) (d dims : nat)
         (j_leq_k k_leq_j : bool) : bool * bool :=
  match dims with
  | O => (j_leq_k, k_leq_j)
  | S dims' =>
    let xj := coord pj d in
    let xk := coord pk d in
    if agree <? 0 then
      leq_pair agree mm pj pk (S d) dims' (j_leq_k && (xj <=? xk)) (k_leq_j && (xk <=? xj))
    else if 0 <? agree then
      leq_pair agree mm pj pk (S d) dims' (j_leq_k && (xk <=? xj)) (k_leq_j && (xj <=? xk))
    else if coord mm d <? 0 then
      leq_pair agree mm pj pk (S d) dims' (j_leq_k && (xj <=? xk)) (k_leq_j && (xk <=? xj))
    else if 0 <? coord mm d then
      leq_pair agree mm pj pk (S d) dims' (j_leq_k && (xk <=? xj)) (k_leq_j && (xj <=? xk))
    else leq_pair agree mm pj pk (S d) dims' j_leq_k k_leq_j
  end.

(** nondominated.h:182-230: the loop over [j] for a fixed [k]; [js] is the list
    of remaining values of [j].  [Some pos] is the early [return] of line 228. *)
Fixpoint nd_inner (pts : list point) (dim : nat) (mm : list Z) (agree : Z)
         (find_dominated_p keep_weakly : bool) (k : nat) (js : list nat)
         (nd : list bool) : outcome (list bool * option nat) :=
  match js with
  | [] => Ret (nd, None)
  | j :: js' =>
    nk <- rd nd k ;;
    if negb nk then Ret (nd, None) else
    nj <- rd nd j ;;
    if negb nj then
      nd_inner pts dim mm agree find_dominated_p keep_weakly k js' nd
    else
      pk <- rd pts k ;;
      pj <- rd pts j ;;
      let '(j_leq_k, k_leq_j) := leq_pair agree mm pj pk 0 dim true true in
      nd1 <- wr nd k (negb j_leq_k || (keep_weakly && k_leq_j)) ;;
      nd2 <- wr nd1 j (negb k_leq_j || j_leq_k) ;;
      nk' <- rd nd2 k ;;
      nj' <- rd nd2 j ;;
      _ <- assert_ (nk' || nj') ;;
      if find_dominated_p && (negb nk' || negb nj')
      then Ret (nd2, Some (if nk' then j else k))
      else nd_inner pts dim mm agree find_dominated_p keep_weakly k js' nd2
  end.

(** nondominated.h:181-231: the loop over [k]; [ks] is the list of remaining
    values of [k] (from 0 to size-2). *)
Fixpoint nd_outer (pts : list point) (dim : nat) (mm : list Z) (agree : Z)
         (find_dominated_p keep_weakly : bool) (ks : list nat)
         (nd : list bool) : outcome (list bool * option nat) :=
  match ks with
  | [] => Ret (nd, None)
  | k :: ks' =>
    r <- nd_inner pts dim mm agree find_dominated_p keep_weakly k
           (seq (S k) (length pts - S k)) nd ;;
    match r with
    | (nd', Some pos) => Ret (nd', Some pos)
    | (nd', None) => nd_outer pts dim mm agree find_dominated_p keep_weakly ks' nd'
    end
  end.

(** nondominated.h:159-239 [find_nondominated_set_].  Returns the final content
    of [nondom] and the C return value. *)
Definition find_nondominated_set_ (sort2d : list point -> list nat)
           (pts : list point) (dim : nat) (mm : list Z) (agree : Z)
           (nd : list bool) (find_dominated_p keep_weakly : bool)
  : outcome (list bool * Z) :=
  let size := length pts in
  if (size <? 2)%nat then Ret (nd, Z.of_nat size)
  else if (dim =? 2)%nat then
    pp <- force_agree_minimize pts mm agree ;;
    if find_dominated_p then
      (r <- find_dominated_2d_ sort2d pp keep_weakly ;; Ret (nd, r))
    else
      (r <- find_nondominated_set_2d_ sort2d pp keep_weakly nd ;;
       Ret (fst r, Z.of_nat (snd r)))
  else
    r <- nd_outer pts dim mm agree find_dominated_p keep_weakly (seq 0 (size - 1)) nd ;;
    match r with
    | (nd', Some pos) => Ret (nd', Z.of_nat pos)
    | (nd', None) =>
      if find_dominated_p then Ret (nd', -1)
      else Ret (nd', Z.of_nat (countb (fun b => b) nd'))
    end.

(** nondominated.h:241-253 [find_dominated_point]. *)
Definition find_dominated_point (sort2d : list point -> list nat)
           (pts : list point) (dim : nat) (mm : list Z) : outcome Z :=
  r <- find_nondominated_set_ sort2d pts dim mm AGREE_NONE
         (nondom_init (length pts)) true false ;;
  Ret (snd r).

(** nondominated.h:255-263 [find_nondominated_set_agree]. *)
Definition find_nondominated_set_agree sort2d pts dim mm agree nd :=
  find_nondominated_set_ sort2d pts dim mm agree nd false false.

(** nondominated.h:265-272 [find_nondominated_set]. *)
Definition find_nondominated_set sort2d pts dim mm nd :=
  find_nondominated_set_ sort2d pts dim mm AGREE_NONE nd false false.

(** nondominated.h:274-281 [find_weak_nondominated_set]. *)
Definition find_weak_nondominated_set sort2d pts dim mm nd :=
  find_nondominated_set_ sort2d pts dim mm AGREE_NONE nd false true.

(** nondominated.h:305-309: copy the flagged rows.  [cap] is the number of rows
    that fit in [pareto_set]; writing row [k >= cap] is out of bounds. *)
Fixpoint copy_flagged (pts : list point) (nd : list bool) (cap k : nat)
  : outcome (list point) :=
  match pts, nd with
  | p :: pts', b :: nd' =>
    if negb b then copy_flagged pts' nd' cap k
    else if (k <? cap)%nat then
      (rest <- copy_flagged pts' nd' cap (S k) ;; Ret (p :: rest))
    else OutOfBounds
  | _, _ => Ret []
  end.

(** nondominated.h:283-314 [get_nondominated_set]: the rows written and the
    return value. *)
Definition get_nondominated_set (sort2d : list point -> list nat)
           (pts : list point) (dim : nat) (mm : list Z) : outcome (list point * Z) :=
  r <- find_nondominated_set sort2d pts dim mm (nondom_init (length pts)) ;;
  let '(nd, new_size) := r in
  _ <- assert_ (new_size <=? Z.of_nat (length pts)) ;;
  rows <- copy_flagged pts nd (Z.to_nat new_size) 0 ;;
  _ <- assert_ (Z.of_nat (length rows) =? new_size) ;;
  Ret (rows, new_size).

(** nondominated.h:316-326 [is_nondominated]. *)
Definition is_nondominated (sort2d : list point -> list nat)
           (pts : list point) (maximise : list bool) (keep_weakly : bool)
  : outcome (list bool) :=
  r <- find_nondominated_set_ sort2d pts (length maximise)
         (minmax_from_bool maximise) AGREE_NONE
         (nondom_init (length pts)) false keep_weakly ;;
  Ret (fst r).

(** nondominated.h:328-337 [agree_objectives] on one row. *)
Fixpoint agree_row (mm : list Z) (agree : Z) (p : point) : point :=
  match mm, p with
  | m :: mm', x :: p' =>
    (if ((0 <? agree) && (m <? 0)) || ((agree <? 0) && (0 <? m)) then - x else x)
      :: agree_row mm' agree p'
  | _, _ => p
  end.
Definition agree_objectives (pts : list point) (mm : list Z) (agree : Z) : list point :=
  map (agree_row mm agree) pts.

(** nondominated.c:332-363: the loop over the sets in [check_nondominated].
    Each set is filtered separately; the flags of the sets are concatenated.
    [sets] are the input sets (the slices of [points] given by [cumsizes]). *)
Fixpoint check_nondominated (sort2d : list point -> list nat)
         (sets : list (list point)) (dim : nat) (mm : list Z) (agree : Z)
  : outcome (list bool * bool) :=
  match sets with
  | [] => Ret ([], false)
  | s :: sets' =>
    r <- find_nondominated_set_agree sort2d s dim mm agree (nondom_init (length s)) ;;
    let '(nd, new_size) := r in
    _ <- assert_ (new_size <=? Z.of_nat (length s)) ;;
    rest <- check_nondominated sort2d sets' dim mm agree ;;
    let '(nds, found) := rest in
    Ret (nd ++ nds, (new_size <? Z.of_nat (length s)) || found)
  end.

(** Executable instance of [qsort] for examples: indices sorted by insertion. *)
Definition sort2d_exec (pts : list point) : list nat :=
  sort_by (fun i j => compare_x_asc_y_asc (row pts i) (row pts j) <=? 0)
          (seq 0 (length pts)).
