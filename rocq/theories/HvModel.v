(** Model of the hypervolume computation of c/hv.c for three or more objectives
    (the functions with suffix [_ref], which [fpli_hv] uses). *)
From Coq Require Import List ZArith Lia Bool Arith.
From Verif Require Import Base NondomModel Hv2dModel.
Import ListNotations.
Open Scope Z_scope.

(** ** State

    hv.c:493-502 [struct dlnode].  Nodes are numbered as in the array
    allocated by [setup_cdllist]: 0 is the list head, node [i] (1 <= i <= n)
    holds row [i-1] of the data.  The pointer fields are finite maps from node
    numbers to node numbers, one per objective.  The field [tnode] is not
    needed because the AVL tree is represented by its in-order sequence (see
    [hv3d_split] below). *)
Record hvst := mkst {
  nxt : nat -> nat -> nat;  (* nxt j i = node i ->next[j] *)
  prv : nat -> nat -> nat;  (* prv j i = node i ->prev[j] *)
  ign : nat -> nat;         (* node i ->ignore *)
  area : nat -> nat -> Z;   (* area j i = node i ->area[j] *)
  vol : nat -> nat -> Z;    (* vol j i = node i ->vol[j] *)
  bnd : nat -> Z            (* the array bound[] *)
}.

Definition fupd {A} (f : nat -> A) (k : nat) (v : A) : nat -> A :=
  fun i => if (i =? k)%nat then v else f i.
Definition fupd2 {A} (f : nat -> nat -> A) (j k : nat) (v : A) : nat -> nat -> A :=
  fun j' i => if (j' =? j)%nat && (i =? k)%nat then v else f j' i.

Definition set_nxt j i v st := mkst (fupd2 (nxt st) j i v) (prv st) (ign st) (area st) (vol st) (bnd st).
Definition set_prv j i v st := mkst (nxt st) (fupd2 (prv st) j i v) (ign st) (area st) (vol st) (bnd st).
Definition set_ign i v st := mkst (nxt st) (prv st) (fupd (ign st) i v) (area st) (vol st) (bnd st).
Definition set_area j i v st := mkst (nxt st) (prv st) (ign st) (fupd2 (area st) j i v) (vol st) (bnd st).
Definition set_vol j i v st := mkst (nxt st) (prv st) (ign st) (area st) (fupd2 (vol st) j i v) (bnd st).
Definition set_bnd j v st := mkst (nxt st) (prv st) (ign st) (area st) (vol st) (fupd (bnd st) j v).

(** [node->x[j]]: dereferencing the head's NULL pointer is an error. *)
Definition getx (data : list point) (i j : nat) : outcome Z :=
  match i with
  | O => OutOfBounds
  | S i' => p <- rd data i' ;; rd p j
  end.

(** ** The circular doubly linked lists *)

(** hv.c:561-568: link the sorted array [scratch] into the list of objective
    [j]; [a] is the last linked node. *)
Fixpoint link_chain (j a : nat) (scratch : list nat) (st : hvst) : hvst :=
  match scratch with
  | [] => set_prv j 0 a (set_nxt j a 0 st)
  | b :: l => link_chain j b l (set_prv j b a (set_nxt j a b st))
  end.

(** The oracle for [qsort(scratch, n, ..., compare_node)]: sorts the nodes [l]
    on [key]. *)
Definition valid_sort (sortd : (nat -> Z) -> list nat -> list nat) : Prop :=
  forall key l, is_qsort_of (fun a b => key a <= key b) l (sortd key l).

(** [qsort] implementations that are stable (e.g. the merge sort of glibc):
    elements with equal keys keep their relative order. *)
Definition stable_sort (sortd : (nat -> Z) -> list nat -> list nat) : Prop :=
  valid_sort sortd /\
  forall key l v, filter (fun a => key a =? v) (sortd key l) = filter (fun a => key a =? v) l.

(** coordinate [j] of node [i] (only used for nodes [1..n]) *)
Definition node_x (data : list point) (j i : nat) : Z := coord (row data (i - 1)) j.

(** hv.c:553-569: contents of [scratch] after the iterations [d-1, ..., j]. *)
Fixpoint scratch_after (sortd : (nat -> Z) -> list nat -> list nat) (data : list point)
         (iters j : nat) : list nat :=
  match iters with
  | O => seq 1 (length data)
  | S k => sortd (node_x data j) (scratch_after sortd data k (S j))
  end.

(** order of objective [j] in a problem with [d] objectives *)
Definition order_of sortd (data : list point) (d j : nat) : list nat :=
  scratch_after sortd data (d - j) j.

(** hv.c:527-581 [setup_cdllist]; [g] is the uninitialised memory. *)
Fixpoint link_all sortd (data : list point) (d : nat) (js : list nat) (st : hvst) : hvst :=
  match js with
  | [] => st
  | j :: js' => link_all sortd data d js' (link_chain j 0 (order_of sortd data d j) st)
  end.
Definition setup_cdllist sortd (data : list point) (d : nat) (g : hvst) : hvst :=
  let st := mkst (nxt g) (prv g) (fun _ => 0%nat) (area g) (vol g) (bnd g) in
  let st := link_all sortd data d (rev (seq 0 d)) st in
  fold_left (fun s j => set_area j 0 0 s) (seq 0 d) st.

(** hv.c:593-603 [delete]: loop over [i = STOP_DIMENSION .. dim-1]. *)
Fixpoint delete_loop (data : list point) (p : nat) (is : list nat) (st : hvst) : outcome hvst :=
  match is with
  | [] => Ret st
  | i :: is' =>
    let st := set_nxt i (prv st i p) (nxt st i p) st in
    let st := set_prv i (nxt st i p) (prv st i p) st in
    x <- getx data p i ;;
    let st := if x <? bnd st i then set_bnd i x st else st in
    delete_loop data p is' st
  end.
Definition delete (data : list point) (p dim : nat) (st : hvst) : outcome hvst :=
  delete_loop data p (seq 2 (dim - 2)) st.

(** hv.c:605-613 [reinsert]. *)
Fixpoint reinsert_loop (data : list point) (p : nat) (is : list nat) (st : hvst) : outcome hvst :=
  match is with
  | [] => Ret st
  | i :: is' =>
    let st := set_nxt i (prv st i p) p st in
    let st := set_prv i (nxt st i p) p st in
    x <- getx data p i ;;
    let st := if x <? bnd st i then set_bnd i x st else st in
    reinsert_loop data p is' st
  end.
Definition reinsert (data : list point) (p dim : nat) (st : hvst) : outcome hvst :=
  reinsert_loop data p (seq 2 (dim - 2)) st.

(** ** Three objectives: [fpli_hv3d_ref] *)

(** hv.c:514-521 [compare_tree_asc] applied to nodes. *)
Definition compare_tree_asc (data : list point) (a b : nat) : Z :=
  if node_x data 1 b <? node_x data 1 a then -1
  else if node_x data 1 a <? node_x data 1 b then 1
  else if node_x data 0 b <=? node_x data 0 a then -1 else 1.

(** Simplification: the AVL tree is represented by its in-order sequence of
    nodes [T] ([tnode->prev]/[tnode->next] are the neighbours in [T]).
    hv.c:950-957: [avl_search_closest] followed by the normalisation to "the
    last node before [pp] and the first node after [pp]".  Result: the nodes
    before [pp], nearest first, and the nodes after [pp].  HvAvlModel.v
    models the same function on the pointer tree and HvAvlProofs.v proves that it
    gives the same results. *)
Fixpoint hv3d_split (data : list point) (pp : nat) (T before : list nat) : list nat * list nat :=
  match T with
  | [] => (before, [])
  | e :: T' => if compare_tree_asc data pp e <=? 0 then (before, T)
               else hv3d_split data pp T' (e :: before)
  end.

(** hv.c:966-985: remove the nodes dominated by [pp].  [cur] is [tnode], [bf]
    are the nodes before it, nearest first.  Result: [hypera], the y-coordinate
    of the final [prv_ip], and the remaining nodes before [pp]. *)
Fixpoint hv3d_pop (data : list point) (ref : point) (x0 nxt0 : Z) (cur : nat) (bf : list nat)
         (hypera : Z) : Z * Z * list nat :=
  match bf with
  | [] => (hypera - (coord ref 1 - node_x data 1 cur) * (nxt0 - node_x data 0 cur),
           coord ref 1, [])
  | q :: bf' =>
    let hypera := hypera - (node_x data 1 q - node_x data 1 cur) * (nxt0 - node_x data 0 cur) in
    if node_x data 0 q <? x0 then (hypera, node_x data 1 q, bf)
    else hv3d_pop data ref x0 nxt0 q bf' hypera
  end.

(** hv.c:945-997: one point.  Result: the state, the tree, [hypera], [hyperv]. *)
Definition hv3d_step (data : list point) (ref : point) (st : hvst)
           (pp : nat) (T : list nat) (hypera hyperv height : Z)
  : outcome (hvst * list nat * Z * Z) :=
  if (2 <=? ign st pp)%nat then Ret (st, T, hypera, hyperv + hypera * height)
  else
    x <- getx data pp 0 ;;
    y <- getx data pp 1 ;;
    let '(bf, af) := hv3d_split data pp T [] in
    let nxt0 := match af with [] => coord ref 0 | e :: _ => node_x data 0 e end in
    let '(st, T, hypera) :=
      if x <? nxt0 then
        let '(hypera, prv1, bf) :=
          match bf with
          | [] => (hypera, coord ref 1, bf)
          | q :: bf' =>
            if x <? node_x data 0 q
            then hv3d_pop data ref x nxt0 q bf' hypera
            else (hypera, node_x data 1 q, bf)
          end in
        (st, rev bf ++ pp :: af, hypera + (prv1 - y) * (nxt0 - x))
      else (set_ign pp 2 st, T, hypera) in
    Ret (st, T, hypera, if 0 <? height then hyperv + hypera * height else hyperv).

(** hv.c:941-999: the loop over the points in increasing third objective. *)
Fixpoint hv3d_loop (fuel : nat) (data : list point) (ref : point) (st : hvst)
         (pp : nat) (T : list nat) (hypera hyperv : Z) : outcome (Z * hvst) :=
  match fuel with
  | O => OutOfFuel
  | S fuel' =>
    z <- getx data pp 2 ;;
    height <- (if (pp =? prv st 2 0)%nat then Ret (coord ref 2 - z)
               else zn <- getx data (nxt st 2 pp) 2 ;; Ret (zn - z)) ;;
    r <- hv3d_step data ref st pp T hypera hyperv height ;;
    let '(st, T, hypera, hyperv) := r in
    let pp := nxt st 2 pp in
    if (pp =? 0)%nat then Ret (hyperv, st)
    else hv3d_loop fuel' data ref st pp T hypera hyperv
  end.

(** hv.c:924-1003 [fpli_hv3d_ref]. *)
Definition fpli_hv3d_ref (data : list point) (ref : point) (st : hvst) (c : nat)
  : outcome (Z * hvst) :=
  let pp := nxt st 2 0 in
  x <- getx data pp 0 ;;
  y <- getx data pp 1 ;;
  z <- getx data pp 2 ;;
  let hypera := (coord ref 0 - x) * (coord ref 1 - y) in
  height <- (if (c =? 1)%nat then Ret (coord ref 2 - z)
             else zn <- getx data (nxt st 2 pp) 2 ;; Ret (zn - z)) ;;
  let hyperv := hypera * height in
  if (nxt st 2 pp =? 0)%nat then Ret (hyperv, st)
  else hv3d_loop (length data) data ref st (nxt st 2 pp) [pp] hypera hyperv.

(** ** General dimension: [hv_recursive_ref] *)

(** hv.c:1033-1036: [for (pp = p1; pp->x; pp = pp->prev[dim])]. *)
Fixpoint reset_ignore (fuel dim pp : nat) (st : hvst) : outcome hvst :=
  match fuel with
  | O => OutOfFuel
  | S fuel' =>
    if (pp =? 0)%nat then Ret st
    else
      let st := if (ign st pp <? dim)%nat then set_ign pp 0 st else st in
      reset_ignore fuel' dim (prv st dim pp) st
  end.

(** hv.c:1037-1048: the deletion loop.  Result: p0, p1, c. *)
Fixpoint hv_delete_while (fuel : nat) (data : list point) (dim p0 p1 c : nat) (st : hvst)
  : outcome (nat * nat * nat * hvst) :=
  match fuel with
  | O => OutOfFuel
  | S fuel' =>
    if (1 <? c)%nat then
      x1 <- getx data p1 dim ;;
      b <- (if bnd st dim <? x1 then Ret true
            else xp <- getx data (prv st dim p1) dim ;; Ret (bnd st dim <=? xp)) ;;
      if b : bool then
        st <- delete data p1 dim st ;;
        hv_delete_while fuel' data dim p1 (prv st dim p1) (c - 1) st
      else Ret (p0, p1, c, st)
    else Ret (p0, p1, c, st)
  end.

(** hv.c:1055-1057: [area[i] = area[i-1] * (ref[i-1] - x[i-1])], [i = 1..dim]. *)
Fixpoint area_prefix (data : list point) (ref : point) (p : nat) (is : list nat) (st : hvst)
  : outcome hvst :=
  match is with
  | [] => Ret st
  | i :: is' =>
    x <- getx data p (i - 1) ;;
    area_prefix data ref p is' (set_area i p (area st (i - 1) p * (coord ref (i - 1) - x)) st)
  end.

(** hv.c:1009-1019 [skip_or_recurse_ref]; [rec] is [hv_recursive_ref] for
    [dim - 1]. *)
Definition skip_or_recurse (rec : hvst -> nat -> outcome (Z * hvst))
           (dim p c : nat) (st : hvst) : outcome hvst :=
  if (dim <=? ign st p)%nat then Ret (set_area dim p (area st dim (prv st dim p)) st)
  else
    r <- rec st c ;;
    let st := set_area dim p (fst r) (snd r) in
    Ret (if area st dim p <=? area st dim (prv st dim p) then set_ign p dim st else st).

(** hv.c:1062-1071: the loop reinserting the deleted nodes. *)
Fixpoint hv_reinsert_while (fuel : nat) (rec : hvst -> nat -> outcome (Z * hvst))
         (data : list point) (dim p0 p1 c : nat) (hyperv : Z) (st : hvst)
  : outcome (nat * Z * hvst) :=
  match fuel with
  | O => OutOfFuel
  | S fuel' =>
    if (p0 =? 0)%nat then Ret (p1, hyperv, st)
    else
      x0 <- getx data p0 dim ;;
      x1 <- getx data p1 dim ;;
      let hyperv := hyperv + area st dim p1 * (x0 - x1) in
      let st := set_bnd dim x0 st in
      st <- reinsert data p0 dim st ;;
      let p1 := p0 in
      let p0 := nxt st dim p0 in
      let st := set_vol dim p1 hyperv st in
      let c := S c in
      st <- skip_or_recurse rec dim p1 c st ;;
      hv_reinsert_while fuel' rec data dim p0 p1 c hyperv st
  end.

(** hv.c:1028-1074: [hv_recursive_ref] for [dim > STOP_DIMENSION]. *)
Definition hv_rec_step (rec : hvst -> nat -> outcome (Z * hvst))
           (data : list point) (ref : point) (dim : nat) (st : hvst) (c : nat)
  : outcome (Z * hvst) :=
  let n := length data in
  let p0 := 0%nat in
  let p1 := prv st dim 0 in
  st <- reset_ignore (S n) dim p1 st ;;
  r <- hv_delete_while (S n) data dim p0 p1 c st ;;
  let '(p0, p1, c, st) := r in
  r <- (if (1 <? c)%nat then
          let pr := prv st dim p1 in
          x1 <- getx data p1 dim ;;
          xp <- getx data pr dim ;;
          let hyperv := vol st dim pr + area st dim pr * (x1 - xp) in
          Ret (hyperv, set_vol dim p1 hyperv st)
        else
          st <- area_prefix data ref p1 (seq 1 dim) (set_area 0 p1 1 st) ;;
          Ret (0, set_vol dim p1 0 st)) ;;
  let '(hyperv, st) := r in
  st <- skip_or_recurse rec dim p1 c st ;;
  r <- hv_reinsert_while (S n) rec data dim p0 p1 c hyperv st ;;
  let '(p1, hyperv, st) := r in
  x1 <- getx data p1 dim ;;
  Ret (hyperv + area st dim p1 * (coord ref dim - x1), st).

(** hv.c:1021-1109 [hv_recursive_ref] with [dim = k + 2].  The branches for
    [dim < STOP_DIMENSION] are unreachable from [fpli_hv] and are not modelled. *)
Fixpoint hv_recursive_ref (k : nat) (data : list point) (ref : point) (st : hvst) (c : nat)
  : outcome (Z * hvst) :=
  match k with
  | O => fpli_hv3d_ref data ref st c
  | S k' => hv_rec_step (fun st c => hv_recursive_ref k' data ref st c) data ref (k + 2) st c
  end.

(** ** Top level *)

(** hv.c:807-816 [filter_delete_node]. *)
Definition filter_delete_node (p d : nat) (st : hvst) : hvst :=
  fold_left (fun st i =>
     let st := set_prv i (nxt st i p) (prv st i p) st in
     set_nxt i (prv st i p) (nxt st i p) st) (seq 0 d) st.

(** hv.c:1124-1130: the inner loop of [filter_ref]; [m] is the number of
    remaining iterations ([np - j]). *)
Fixpoint filter_inner (m : nat) (data : list point) (ref : point) (d i aux n : nat) (st : hvst)
  : outcome (nat * hvst) :=
  match m with
  | O => Ret (n, st)
  | S m' =>
    x <- getx data aux i ;;
    if x <? coord ref i then Ret (n, st)
    else
      let st := filter_delete_node aux d st in
      filter_inner m' data ref d i (prv st i aux) (n - 1) st
  end.

(** hv.c:1116-1134 [filter_ref]. *)
Fixpoint filter_ref (data : list point) (ref : point) (d : nat) (is : list nat) (n : nat) (st : hvst)
  : outcome (nat * hvst) :=
  match is with
  | [] => Ret (n, st)
  | i :: is' =>
    r <- filter_inner n data ref d i (prv st i 0) n st ;;
    filter_ref data ref d is' (fst r) (snd r)
  end.

(** hv.c:1152-1155: product of the edge lengths of a single box. *)
Fixpoint box_loop (data : list point) (ref : point) (p : nat) (is : list nat) (acc : Z) : outcome Z :=
  match is with
  | [] => Ret acc
  | i :: is' => x <- getx data p i ;; box_loop data ref p is' (acc * (coord ref i - x))
  end.

(** hv.c:1136-1167 [fpli_hv].  [dbl_max] stands for DBL_MAX.  [ASSUME(d > 2)]
    (common.h) is undefined behaviour when violated: it is modelled as
    [AssertFailed].  [rec] is the call of hv_recursive_ref in line 1157. *)
Definition fpli_hv_with (rec : hvst -> nat -> outcome (Z * hvst))
           (sort2d : list point -> list nat) (sortd : (nat -> Z) -> list nat -> list nat)
           (dbl_max : Z) (g : hvst) (data : list point) (d : nat) (ref : point) : outcome Z :=
  let n := length data in
  if (n =? 0)%nat then Ret 0 else
  if (d =? 2)%nat then hv2d sort2d data ref else
  _ <- assert_ (2 <? d)%nat ;;
  let st := setup_cdllist sortd data d g in
  r <- filter_ref data ref d (seq 0 d) n st ;;
  let '(n, st) := r in
  if (n =? 0)%nat then Ret 0
  else if (n =? 1)%nat then box_loop data ref (nxt st 0 0) (seq 0 d) 1
  else
    let st := mkst (nxt st) (prv st) (ign st) (area st) (vol st)
                   (fun i => if (i <? d)%nat then - dbl_max else bnd st i) in
    r <- rec st n ;;
    Ret (fst r).

Definition fpli_hv (sort2d : list point -> list nat) (sortd : (nat -> Z) -> list nat -> list nat)
           (dbl_max : Z) (g : hvst) (data : list point) (d : nat) (ref : point) : outcome Z :=
  fpli_hv_with (hv_recursive_ref (d - 3) data ref) sort2d sortd dbl_max g data d ref.

(** Executable stand-ins used in examples. *)
Definition sortd_exec (key : nat -> Z) (l : list nat) : list nat :=
  sort_by (fun a b => key a <=? key b) l.
(** an unstable but valid sort: insertion that reverses equal keys *)
Definition sortd_rev (key : nat -> Z) (l : list nat) : list nat :=
  sort_by (fun a b => key a <=? key b) (rev l).
Definition st0 : hvst :=
  mkst (fun _ _ => 0%nat) (fun _ _ => 0%nat) (fun _ => 0%nat) (fun _ _ => 0) (fun _ _ => 0) (fun _ => 0).
