(** fpli_hv3d_ref (c/hv.c:924-1003) on the pointer AVL tree of AvlModel.v.  HvModel.v
    models the same function with the sequence of tree nodes instead of the tree. *)
From Coq Require Import List ZArith Lia Bool Arith.
From Verif Require Import Base AvlModel HvModel.
Import ListNotations.
Open Scope Z_scope.

(** hv.c:968-981: the while loop.  [tnode] is the tree node, [cur] the node whose
    item is cur_ip, [prv_ip] the y-coordinate of prv_ip.  Result: tnode, cur_ip,
    prv_ip, hypera and the tree when the loop ends. *)
Fixpoint pop_loop_avl (fuel : nat) (data : list point) (x0 nxt0 : Z) (tnode cur : nat) (prv_ip hypera : Z) (tr : avl)
  : outcome (nat * nat * Z * Z * avl) :=
  match fuel with
  | O => OutOfFuel
  | S fuel =>
      match AvlModel.prv tr tnode with
      | None => Ret (tnode, cur, prv_ip, hypera, tr)
      | Some p =>
          let prv_ip := node_x data 1 p in
          let hypera := hypera - (prv_ip - node_x data 1 cur) * (nxt0 - node_x data 0 cur) in
          if node_x data 0 p <? x0 then Ret (tnode, cur, prv_ip, hypera, tr)
          else
            let cur := p in
            tr <- avl_unlink_node tnode tr ;;
            t <- deref (AvlModel.prv tr tnode) ;;
            pop_loop_avl fuel data x0 nxt0 t cur prv_ip hypera tr
      end
  end.

(** hv.c:945-997: one point; pp->tnode is the tree node with the number of pp *)
Definition hv3d_step_avl (data : list point) (ref : point) (st : hvst)
           (pp : nat) (tr : avl) (hypera hyperv height : Z) : outcome (hvst * avl * Z * Z) :=
  if (2 <=? ign st pp)%nat then Ret (st, tr, hypera, hyperv + hypera * height)
  else
    x <- getx data pp 0 ;;
    y <- getx data pp 1 ;;
    r <- avl_search_closest (compare_tree_asc data pp) tr ;;
    t <- deref (fst r) ;;
    let '(nxt0, tnode) :=
      if snd r <=? 0 then (node_x data 0 t, AvlModel.prv tr t)
      else (match AvlModel.nxt tr t with Some e => node_x data 0 e | None => coord ref 0 end, Some t) in
    r <- (if x <? nxt0 then
            tr <- avl_insert_after tnode pp tr ;;
            r <- (match tnode with
                  | Some t =>
                      let prv_ip := node_x data 1 t in
                      if x <? node_x data 0 t then
                        t <- deref (AvlModel.prv tr pp) ;;
                        r <- pop_loop_avl (length data) data x nxt0 t t prv_ip hypera tr ;;
                        let '(t, cur, prv_ip, hypera, tr) := r in
                        tr <- avl_unlink_node t tr ;;
                        match AvlModel.prv tr t with
                        | None => Ret (coord ref 1, hypera - (coord ref 1 - node_x data 1 cur) * (nxt0 - node_x data 0 cur), tr)
                        | Some _ => Ret (prv_ip, hypera, tr)
                        end
                      else Ret (prv_ip, hypera, tr)
                  | None => Ret (coord ref 1, hypera, tr)
                  end) ;;
            let '(prv_ip, hypera, tr) := r in
            Ret (st, tr, hypera + (prv_ip - y) * (nxt0 - x))
          else Ret (set_ign pp 2 st, tr, hypera)) ;;
    let '(st, tr, hypera) := r in
    Ret (st, tr, hypera, if 0 <? height then hyperv + hypera * height else hyperv).

(** hv.c:940-1001: the loop over the points and avl_clear_tree *)
Fixpoint hv3d_loop_avl (fuel : nat) (data : list point) (ref : point) (st : hvst)
         (pp : nat) (tr : avl) (hypera hyperv : Z) : outcome (Z * hvst * avl) :=
  match fuel with
  | O => OutOfFuel
  | S fuel' =>
    z <- getx data pp 2 ;;
    height <- (if (pp =? prv st 2 0)%nat then Ret (coord ref 2 - z)
               else zn <- getx data (nxt st 2 pp) 2 ;; Ret (zn - z)) ;;
    r <- hv3d_step_avl data ref st pp tr hypera hyperv height ;;
    let '(st, tr, hypera, hyperv) := r in
    let pp := nxt st 2 pp in
    if (pp =? 0)%nat then Ret (hyperv, st, avl_clear_tree tr)
    else hv3d_loop_avl fuel' data ref st pp tr hypera hyperv
  end.

(** hv.c:924-1003 [fpli_hv3d_ref] *)
Definition fpli_hv3d_ref_avl (data : list point) (ref : point) (st : hvst) (c : nat) (tr : avl)
  : outcome (Z * hvst * avl) :=
  let pp := nxt st 2 0 in
  x <- getx data pp 0 ;;
  y <- getx data pp 1 ;;
  z <- getx data pp 2 ;;
  let hypera := (coord ref 0 - x) * (coord ref 1 - y) in
  height <- (if (c =? 1)%nat then Ret (coord ref 2 - z)
             else zn <- getx data (nxt st 2 pp) 2 ;; Ret (zn - z)) ;;
  let hyperv := hypera * height in
  if (nxt st 2 pp =? 0)%nat then Ret (hyperv, st, tr)
  else
    tr <- avl_insert_top pp tr ;;
    hv3d_loop_avl (length data) data ref st (nxt st 2 pp) tr hypera hyperv.

(** hv.c:1009-1019 [skip_or_recurse_ref], with the tree *)
Definition skip_or_recurse_avl (rec : hvst -> nat -> avl -> outcome (Z * hvst * avl))
           (dim p c : nat) (st : hvst) (tr : avl) : outcome (hvst * avl) :=
  if (dim <=? ign st p)%nat then Ret (set_area dim p (area st dim (prv st dim p)) st, tr)
  else
    r <- rec st c tr ;;
    let '(a, st, tr) := r in
    let st := set_area dim p a st in
    Ret (if area st dim p <=? area st dim (prv st dim p) then set_ign p dim st else st, tr).

(** hv.c:1062-1071, with the tree *)
Fixpoint hv_reinsert_while_avl (fuel : nat) (rec : hvst -> nat -> avl -> outcome (Z * hvst * avl))
         (data : list point) (dim p0 p1 c : nat) (hyperv : Z) (st : hvst) (tr : avl)
  : outcome (nat * Z * hvst * avl) :=
  match fuel with
  | O => OutOfFuel
  | S fuel' =>
    if (p0 =? 0)%nat then Ret (p1, hyperv, st, tr)
    else
      x0 <- getx data p0 dim ;;
      x1 <- getx data p1 dim ;;
      let hyperv := hyperv + area st dim p1 * (x0 - x1) in
      let st := set_bnd dim x0 st in
      st <- reinsert data p0 dim st ;;
      let p1 := p0 in
      let p0 := nxt st dim p0 in
      let st := set_vol dim p1 hyperv st in
      let c := S c in
      r <- skip_or_recurse_avl rec dim p1 c st tr ;;
      let '(st, tr) := r in
      hv_reinsert_while_avl fuel' rec data dim p0 p1 c hyperv st tr
  end.

(** hv.c:1028-1074, with the tree *)
Definition hv_rec_step_avl (rec : hvst -> nat -> avl -> outcome (Z * hvst * avl))
           (data : list point) (ref : point) (dim : nat) (st : hvst) (c : nat) (tr : avl)
  : outcome (Z * hvst * avl) :=
  let n := length data in
  let p0 := 0%nat in
  let p1 := prv st dim 0 in
  st <- reset_ignore (S n) dim p1 st ;;
  r <- hv_delete_while (S n) data dim p0 p1 c st ;;
  let '(p0, p1, c, st) := r in
  r <- (if (1 <? c)%nat then
          let pr := prv st dim p1 in
          x1 <- getx data p1 dim ;;
          xp <- getx data pr dim ;;
          let hyperv := vol st dim pr + area st dim pr * (x1 - xp) in
          Ret (hyperv, set_vol dim p1 hyperv st)
        else
          st <- area_prefix data ref p1 (seq 1 dim) (set_area 0 p1 1 st) ;;
          Ret (0, set_vol dim p1 0 st)) ;;
  let '(hyperv, st) := r in
  r <- skip_or_recurse_avl rec dim p1 c st tr ;;
  let '(st, tr) := r in
  r <- hv_reinsert_while_avl (S n) rec data dim p0 p1 c hyperv st tr ;;
  let '(p1, hyperv, st, tr) := r in
  x1 <- getx data p1 dim ;;
  Ret (hyperv + area st dim p1 * (coord ref dim - x1), st, tr).

(** hv.c:1021-1109 [hv_recursive_ref] with [dim = k + 2], on the pointer tree *)
Fixpoint hv_recursive_ref_avl (k : nat) (data : list point) (ref : point) (st : hvst) (c : nat) (tr : avl)
  : outcome (Z * hvst * avl) :=
  match k with
  | O => fpli_hv3d_ref_avl data ref st c tr
  | S k' => hv_rec_step_avl (fun st c tr => hv_recursive_ref_avl k' data ref st c tr) data ref (k + 2) st c tr
  end.

(** hv.c:180-189 [avl_init_tree]: the tree is empty; [mem] is the uninitialised memory
    of the nodes (malloc in setup_cdllist, hv.c:536) *)
Definition avl_init_tree (mem : avl) : avl :=
  set_tp None (set_tl None (set_hd None mem)).

(** hv.c:1136-1167 [fpli_hv] on the pointer tree *)
Definition fpli_hv_avl (mem : avl) (sort2d : list point -> list nat) (sortd : (nat -> Z) -> list nat -> list nat)
           (dbl_max : Z) (g : hvst) (data : list point) (d : nat) (ref : point) : outcome Z :=
  fpli_hv_with (fun st c => r <- hv_recursive_ref_avl (d - 3) data ref st c (avl_init_tree mem) ;; Ret (fst r))
    sort2d sortd dbl_max g data d ref.
