(** The 3-objective EAF (c/eaf3d.c) on pointers: all the trees live in one memory of
    AVL nodes (c/avl.c), the items are allocated and freed, the output lists and the list
    of removed nodes are threaded through the nodes that left their trees.

    - A node is a number: 2 i for the i-th node made for a level, an odd number for the
      sentinels and for the nodes of the sets.  The fields that link nodes are those of
      the record [avl] of AvlModel.v, whose functions are, line by line, those of c/avl.c
      compiled with AVL_DEPTH (c/avl.h:33): avl_search_closest 134-166, avl_clear_node
      224-232, avl_insert_top 242-247, avl_insert_before 249-273, avl_insert_after
      275-299, avl_unlink_node 341-393, avl_rebalance 456-590.  The tree structures
      (head, tail, top) are kept apart in [hdr].
    - [item a] is the item of node a, or [None] when it has been freed or never set;
      reading it then is the outcome [OutOfBounds].
    - The content of a node that has been freed is replaced by the arbitrary [wipe], and
      the memory is arbitrary at the start.
    - The fields set, promoter, remover and equal are kept, for the nodes of the levels,
      in [fields], with the numbers i in place of the addresses 2 i (c/avl.h:67-83).
    - Addresses are never used again after free.
    - freetree2, free_removed and freeoutput (c/eaf3d.c:199-231, 701-735) are not modelled. *)
From Coq Require Import List ZArith Lia Bool Arith QArith.
From Verif Require Import Base EafModel EafStoreModel AvlModel Eaf3dModel.
Import ListNotations.
Open Scope Z_scope.

(** c/avl.h:85-91 avl_tree_t: head, tail, top *)
Definition hdr : Type := (option nat * option nat * option nat)%type.
Definition view (m : avl) (h : hdr) : avl :=
  mkAvl (AvlModel.nxt m) (AvlModel.prv m) (par m) (lft m) (rgt m) (dep m) (fst (fst h)) (snd (fst h)) (snd h).
Definition hdr_of (s : avl) : hdr := (hd_ s, tl_ s, tp s).
(** c/avl.c:178-187 avl_init_tree *)
Definition empty_hdr : hdr := (None, None, None).

Definition xyz : Type := (Z * Z * Z)%type.
Definition px (p : xyz) : Z := fst (fst p).
Definition py (p : xyz) : Z := snd (fst p).
Definition pz (p : xyz) : Z := snd p.

(** [mem]: the nodes; the head, tail and top of [mem] itself are not used *)
Record pst : Type := mkP {
  mem : avl; item : nat -> option xyz;
  psets : list hdr; plevs : list hdr; pouts : list hdr;
  removed : option nat;      (* removed_list->head *)
  fields : list info;
  fresh : nat                (* number of odd nodes allocated so far *)
}.
Definition level_addr (i : nat) : nat := (2 * i)%nat.
Definition other_addr (j : nat) : nat := (2 * j + 1)%nat.
Definition addr_id (a : nat) : outcome nat := if Nat.even a then Ret (Nat.div2 a) else OutOfBounds.

Definition set_mem m st := mkP m (item st) (psets st) (plevs st) (pouts st) (removed st) (fields st) (fresh st).
Definition set_item a v st := mkP (mem st) (fset (item st) a v) (psets st) (plevs st) (pouts st) (removed st) (fields st) (fresh st).
Definition set_psets v st := mkP (mem st) (item st) v (plevs st) (pouts st) (removed st) (fields st) (fresh st).
Definition set_plevs v st := mkP (mem st) (item st) (psets st) v (pouts st) (removed st) (fields st) (fresh st).
Definition set_pouts v st := mkP (mem st) (item st) (psets st) (plevs st) v (removed st) (fields st) (fresh st).
Definition set_removed v st := mkP (mem st) (item st) (psets st) (plevs st) (pouts st) v (fields st) (fresh st).
Definition set_fields v st := mkP (mem st) (item st) (psets st) (plevs st) (pouts st) (removed st) v (fresh st).
Definition set_fresh v st := mkP (mem st) (item st) (psets st) (plevs st) (pouts st) (removed st) (fields st) v.

(** node_point (a) *)
Definition pt (st : pst) (a : nat) : outcome xyz := match item st a with Some p => Ret p | None => OutOfBounds end.

(** c/avl.c:134-166 avl_search_closest, and c/eaf3d.c:152-185 avl_search_closest_y, which
    is the same with a fixed comparison; here the comparison reads the item of a node,
    which must not have been freed *)
Fixpoint psearch_loop (fuel : nat) (cmp : nat -> outcome Z) (s : avl) (n : nat) : outcome (nat * Z) :=
  match fuel with
  | O => OutOfFuel
  | S fuel =>
      c <- cmp n ;;
      if c <? 0 then match lft s n with Some m => psearch_loop fuel cmp s m | None => Ret (n, -1) end
      else if 0 <? c then match rgt s n with Some m => psearch_loop fuel cmp s m | None => Ret (n, 1) end
      else Ret (n, 0)
  end.
Definition psearch (cmp : nat -> outcome Z) (s : avl) : outcome (option nat * Z) :=
  match tp s with
  | None => Ret (None, 0)
  | Some n => r <- psearch_loop FUEL cmp s n ;; Ret (Some (fst r), snd r)
  end.
(** c/eaf3d.c:136-142 compare_tree_asc_x, 144-150 compare_tree_desc_y *)
Definition cmp_asc (a b : Z) : Z := if a <? b then -1 else if b <? a then 1 else 0.
Definition cmp_x (st : pst) (x : Z) (n : nat) : outcome Z := p <- pt st n ;; Ret (cmp_asc x (px p)).
Definition cmp_y (st : pst) (y : Z) (n : nat) : outcome Z := p <- pt st n ;; Ret (cmp_asc (py p) y).

(** c/eaf3d.c:500-508 find_point_at_left *)
Definition p_at_left (st : pst) (h : hdr) (x : Z) : outcome nat :=
  r <- psearch (cmp_x st x) (view (mem st) h) ;;
  n <- deref (fst r) ;;
  if snd r <? 0 then deref (AvlModel.prv (mem st) n) else Ret n.
(** c/eaf3d.c:511-520 find_point_below *)
Definition p_below (st : pst) (h : hdr) (y : Z) : outcome nat :=
  r <- psearch (cmp_y st y) (view (mem st) h) ;;
  n <- deref (fst r) ;;
  if 0 <=? snd r then deref (AvlModel.nxt (mem st) n) else Ret n.

Section Ptr.
Variables (lo hi : Z) (wipe : avl).

(** free (node) *)
Definition free_node (a : nat) (s : avl) : avl :=
  set_nxt a (AvlModel.nxt wipe a) (set_prv a (AvlModel.prv wipe a) (set_par a (par wipe a)
    (set_lft a (lft wipe a) (set_rgt a (rgt wipe a) (set_dep a (dep wipe a) s))))).

(** c/eaf3d.c:409-416: the loop of add2set *)
Fixpoint p_drop_above (fuel : nat) (st : pst) (h : hdr) (y : Z) (n : nat) : outcome (pst * hdr) :=
  p <- pt st n ;;
  if y <=? py p then
    match fuel with
    | O => OutOfFuel
    | S fuel =>
      s <- avl_unlink_node n (view (mem st) h) ;;
      n' <- deref (AvlModel.nxt s n) ;;
      p_drop_above fuel (set_item n None (set_mem (free_node n s) st)) (hdr_of s) y n'
    end
  else Ret (st, h).

(** c/eaf3d.c:664-666 and 398-417: a node for [new] is allocated and added to set k *)
Definition p_add2set (st : pst) (k : nat) (prevnode : nat) (new : xyz) : outcome pst :=
  h <- rd (psets st) k ;;
  let n := other_addr (fresh st) in
  let st := set_fresh (S (fresh st)) (set_item n (Some new) (set_mem (avl_clear_node n (mem st)) st)) in
  p <- pt st prevnode ;;
  let prevnode := if px p =? px new then AvlModel.prv (mem st) prevnode else Some prevnode in
  s <- avl_insert_after prevnode n (view (mem st) h) ;;
  n' <- deref (AvlModel.nxt s n) ;;
  r <- p_drop_above (S (fresh st)) (set_mem s st) (hdr_of s) (py new) n' ;;
  l <- wr (psets (fst r)) k (snd r) ;;
  Ret (set_psets l (fst r)).

(** c/eaf3d.c:361-370 add2output *)
Definition p_add2output (s : avl) (o : hdr) (n : nat) : outcome (avl * hdr) :=
  match snd o with
  | Some _ => t <- deref (snd (fst o)) ;;
              Ret (set_nxt t (Some n) s, (fst (fst o), Some n, snd o))
  | None => s' <- avl_insert_top n (view s o) ;; Ret (s', hdr_of s')
  end.

(** c/eaf3d.c:464-480: the loop of add2level; [new]: the number of newnode *)
Fixpoint p_remove_left (fuel : nat) (st : pst) (h o : hdr) (it : xyz) (new : nat) (n : nat) : outcome (pst * hdr * hdr) :=
  p <- pt st n ;;
  if px it <=? px p then
    match fuel with
    | O => OutOfFuel
    | S fuel =>
      s <- avl_unlink_node n (view (mem st) h) ;;
      n' <- deref (AvlModel.prv s n) ;;
      r <- (if pz p <? pz it then
              r <- p_add2output s o n ;; Ret (set_mem (fst r) st, snd r)
            else
              i <- addr_id n ;; f <- rd (fields st) i ;;
              fs <- wr (fields st) i (mkInfo (iset f) (iprom f) (Some new) (ieq f)) ;;
              Ret (set_removed (Some n) (set_fields fs (set_item n None (set_mem (set_nxt n (removed st) s) st))), o)) ;;
      p_remove_left fuel (fst r) (hdr_of s) (snd r) it new n'
    end
  else Ret (st, h, o).

(** c/eaf3d.c:435-486 add2level, with avl_add_promoter (420-426); the result is the number
    of the new node, if any *)
Definition p_add2level (st : pst) (k : nat) (it : xyz) (set : nat) (prom : option nat) : outcome (pst * option nat) :=
  h <- rd (plevs st) k ;; o <- rd (pouts st) k ;;
  r <- psearch (cmp_y st (py it)) (view (mem st) h) ;;
  m <- deref (fst r) ;;
  prevnode <- (if snd r <? 0 then deref (AvlModel.prv (mem st) m)
               else if 0 <? snd r then Ret m
               else q <- pt st m ;; if px it <? px q then Ret m else deref (AvlModel.prv (mem st) m)) ;;
  aux <- deref (AvlModel.nxt (mem st) prevnode) ;;
  a <- pt st aux ;;
  if px it <? px a then
    let id := length (fields st) in
    let n := level_addr id in
    pid <- match prom with None => Ret None | Some q => i <- addr_id q ;; Ret (Some i) end ;;
    let st := set_fields (fields st ++ [mkInfo set pid None None]) (set_item n (Some it) (set_mem (avl_clear_node n (mem st)) st)) in
    s <- avl_insert_after (Some prevnode) n (view (mem st) h) ;;
    n' <- deref (AvlModel.prv s n) ;;
    r <- p_remove_left (2 + length (fields st)) (set_mem s st) (hdr_of s) o it id n' ;;
    let '(st, h, o) := r in
    l <- wr (plevs st) k h ;; os <- wr (pouts st) k o ;;
    Ret (set_pouts os (set_plevs l st), Some id)
  else Ret (st, None).
(** if (tnode != NULL && cond) promoter->equal = tnode; *)
Definition p_link (r : pst * option nat) (prom : nat) (cond : outcome bool) : outcome pst :=
  match snd r with
  | None => Ret (fst r)
  | Some id =>
    b <- cond ;;
    if b then i <- addr_id prom ;; f <- rd (fields (fst r)) i ;;
              fs <- wr (fields (fst r)) i (mkInfo (iset f) (iprom f) (irem f) (Some id)) ;;
              Ret (set_fields fs (fst r))
    else Ret (fst r)
  end.

(** aux[k].levelNode: a node, or aux[k].intersectNode with its coordinates, its next and
    aux[k].promoter (c/eaf3d.c:540-549) *)
Inductive pcursor : Type := PAt (a : nat) | PCross (x y : Z) (next : option nat) (left : nat).
Definition p_promoter (c : pcursor) : nat := match c with PAt a => a | PCross _ _ _ a => a end.
Definition p_cursor_xy (st : pst) (c : pcursor) : outcome (Z * Z) :=
  match c with PAt a => p <- pt st a ;; Ret (px p, py p) | PCross x y _ _ => Ret (x, y) end.
Definition p_cursor_next (st : pst) (c : pcursor) : outcome pcursor :=
  match c with
  | PAt a => b <- deref (AvlModel.nxt (mem st) a) ;; Ret (PAt b)
  | PCross _ _ nx _ => b <- deref nx ;; Ret (PAt b)
  end.
Definition p_cursor_z (st : pst) (c : pcursor) : outcome Z :=
  match c with PAt a => p <- pt st a ;; Ret (pz p) | PCross _ _ _ _ => OutOfBounds end.

(** c/eaf3d.c:585-616, first part *)
Fixpoint p_part1 (st : pst) (new : node) (newPrevY : Z) (k : nat) : outcome (nat * option nat * list pcursor) :=
  h <- rd (plevs st) k ;;
  left <- p_at_left st h (nx new) ;;
  p <- pt st left ;;
  if py p <=? ny new then Ret (S k, Some left, [])
  else
    c <- (if py p <? newPrevY then
            Ret (PCross (nx new) (py p) (AvlModel.nxt (mem st) left) left)
          else q <- p_below st h newPrevY ;; Ret (PAt q)) ;;
    r <- match k with O => Ret (O, None, []) | S k' => p_part1 st new newPrevY k' end ;;
    Ret (fst r, c :: snd r).

(** c/eaf3d.c:628-645: the inner while loop for level k *)
Fixpoint p_promote (fuel : nat) (st : pst) (k : nat) (new : node) (set : nat) (setNode : xyz) (lbound : Z) (c : pcursor)
  : outcome (pst * pcursor) :=
  xy <- p_cursor_xy st c ;;
  if (lbound <=? snd xy) && ((lbound <? snd xy) || (ny new <? lbound)) then
    match fuel with
    | O => OutOfFuel
    | S fuel =>
      if px setNode <=? fst xy then
        h <- rd (plevs st) k ;;
        q <- p_below st h (py setNode) ;;
        p_promote fuel st k new set setNode lbound (PAt q)
      else
        let prom := p_promoter c in
        r <- p_add2level st (S k) (fst xy, snd xy, nz new) set (Some prom) ;;
        st' <- p_link r prom (q <- pt (fst r) prom ;; Ret ((nz new =? pz q) && (fst xy =? px q))) ;;
        c' <- p_cursor_next st' c ;;
        p_promote fuel st' k new set setNode lbound c'
    end
  else Ret (st, c).
(** c/eaf3d.c:627-646 *)
Fixpoint p_promote_all (st : pst) (k : nat) (new : node) (set : nat) (setNode : xyz) (lbound : Z) (cs : list pcursor)
  : outcome (pst * list pcursor) :=
  match cs with
  | [] => Ret (st, [])
  | c :: cs =>
    r <- p_promote (4 + length (fields st)) st k new set setNode lbound c ;;
    r' <- p_promote_all (fst r) (k - 1) new set setNode lbound cs ;;
    Ret (fst r', snd r :: snd r')
  end.
(** c/eaf3d.c:619-648, second part *)
Fixpoint p_part2 (fuel : nat) (setNode : nat) (st : pst) (start_at : nat) (new : node) (set : nat) (cs : list pcursor)
  : outcome (pst * list pcursor * nat) :=
  match fuel with
  | O => OutOfFuel
  | S fuel =>
    setNode <- deref (AvlModel.nxt (mem st) setNode) ;;
    w <- pt st setNode ;;
    r <- p_promote_all st start_at new set w (Z.max (py w) (ny new)) cs ;;
    w' <- pt (fst r) setNode ;;
    if ny new <? py w' then p_part2 fuel setNode (fst r) start_at new set (snd r)
    else Ret (fst r, snd r, setNode)
  end.
(** c/eaf3d.c:650-662, third part *)
Fixpoint p_part3 (st : pst) (k : nat) (new : node) (set : nat) (setNode : nat) (cs : list pcursor) : outcome pst :=
  match cs with
  | [] => Ret st
  | c :: cs =>
    xy <- p_cursor_xy st c ;;
    w <- pt st setNode ;;
    st' <- (if fst xy <? px w then
              r <- p_add2level st (S k) (fst xy, ny new, nz new) set (Some (p_promoter c)) ;;
              p_link r (p_promoter c) (z <- p_cursor_z (fst r) c ;; Ret ((nz new =? z) && (ny new =? snd xy)))
            else Ret st) ;;
    p_part3 st' (k - 1) new set setNode cs
  end.

(** the state of eaf3df with start_at and mask[] *)
Record pstate : Type := mkPState { ps : pst; pstart : nat; pmask : list bool }.

(** c/eaf3d.c:573-680: one iteration *)
Definition p_step (nset : nat) (s : pstate) (new : node) (k : nat) : outcome pstate :=
  let st := ps s in
  h <- rd (psets st) k ;;
  newPrev <- p_at_left st h (nx new) ;;
  pp <- pt st newPrev ;;
  if py pp <=? ny new then Ret s
  else
    p1 <- p_part1 st new (py pp) (pstart s) ;;
    let '(stop_at, dom_new, cs1) := p1 in
    p2 <- p_part2 (S (fresh st)) newPrev st (pstart s) new k cs1 ;;
    let '(st2, cs, setNode) := p2 in
    st3 <- p_part3 st2 (pstart s) new k setNode cs ;;
    st3' <- p_add2set st3 k newPrev (nx new, ny new, nz new) ;;
    r <- p_add2level st3' stop_at (nx new, ny new, nz new) k dom_new ;;
    st4 <- (if (0 <? stop_at)%nat then
              match dom_new with
              | None => match snd r with None => Ret (fst r) | Some _ => OutOfBounds end
              | Some q => p_link r q (p <- pt (fst r) q ;; Ret ((nz new =? pz p) && (ny new =? py p) && (nx new =? px p)))
              end
            else Ret (fst r)) ;;
    m <- rd (pmask s) k ;;
    if m then Ret (mkPState st4 (pstart s) (pmask s))
    else
      mask' <- wr (pmask s) k true ;;
      Ret (mkPState st4 (if (pstart s + 2 <? nset)%nat then S (pstart s) else pstart s) mask').
Fixpoint p_loop (nset : nat) (s : pstate) (l : list (node * nat)) : outcome pstate :=
  match l with
  | [] => Ret s
  | (new, k) :: l => s' <- p_step nset s new k ;; p_loop nset s' l
  end.

(** c/eaf3d.c:535-571 eaf3df: the first point *)
Definition p_eaf3df (nset : nat) (st : pst) (l : list (node * nat)) : outcome pstate :=
  match l with
  | [] => OutOfBounds
  | (new, k) :: l =>
    let v := (nx new, ny new, nz new) in
    h <- rd (psets st) k ;;
    let n := other_addr (fresh st) in
    let st := set_fresh (S (fresh st)) (set_item n (Some v) (set_mem (avl_clear_node n (mem st)) st)) in
    s <- avl_insert_after (fst (fst h)) n (view (mem st) h) ;;
    ss <- wr (psets st) k (hdr_of s) ;;
    let st := set_psets ss (set_mem s st) in
    h0 <- rd (plevs st) 0 ;;
    let n := level_addr (length (fields st)) in
    let st := set_fields (fields st ++ [mkInfo k None None None]) (set_item n (Some v) (set_mem (avl_clear_node n (mem st)) st)) in
    s <- avl_insert_after (fst (fst h0)) n (view (mem st) h0) ;;
    ls <- wr (plevs st) 0 (hdr_of s) ;;
    let st := set_plevs ls (set_mem s st) in
    mask <- wr (repeat false nset) k true ;;
    p_loop nset (mkPState st 0 mask) l
  end.

(** c/eaf3d.c:748-764 add_sentinels; [z]: their uninitialised third coordinate *)
Definition p_add_sentinels (st : pst) (z : Z) : outcome (pst * hdr) :=
  let n1 := other_addr (fresh st) in
  let n2 := other_addr (S (fresh st)) in
  let st := set_item n1 (Some (lo, hi, z)) (set_mem (avl_clear_node n1 (mem st)) st) in
  s <- avl_insert_top n1 (view (mem st) empty_hdr) ;;
  let h := hdr_of s in
  let st := set_item n2 (Some (hi, lo, z)) (set_mem (avl_clear_node n2 s) st) in
  s <- avl_insert_after (Some n1) n2 (view (mem st) h) ;;
  Ret (set_fresh (S (S (fresh st))) (set_mem s st), hdr_of s).
(** c/eaf3d.c:797-805 *)
Fixpoint p_alloc (n : nat) (junk : nat -> Z) (i : nat) (st : pst) : outcome pst :=
  match n with
  | O => Ret st
  | S n =>
    r1 <- p_add_sentinels st (junk i) ;;
    let st := set_psets (psets (fst r1) ++ [snd r1]) (fst r1) in
    r2 <- p_add_sentinels st (junk i) ;;
    let st := set_pouts (pouts (fst r2) ++ [empty_hdr]) (set_plevs (plevs (fst r2) ++ [snd r2]) (fst r2)) in
    p_alloc n junk (S i) st
  end.

(** c/eaf3d.c:372-391 add2output_all; the result is the head of the output list *)
Definition p_add2output_all (st : pst) (o h : hdr) : outcome (pst * option nat) :=
  n1 <- deref (fst (fst h)) ;;
  s <- avl_unlink_node n1 (view (mem st) h) ;;
  let st := set_item n1 None (set_mem (free_node n1 s) st) in
  let h := hdr_of s in
  n2 <- deref (snd (fst h)) ;;
  s <- avl_unlink_node n2 (view (mem st) h) ;;
  let st := set_item n2 None (set_mem (free_node n2 s) st) in
  let h := hdr_of s in
  match fst (fst h) with
  | None => Ret (st, fst (fst o))
  | Some a => match snd (fst o) with
              | Some t => Ret (set_mem (set_nxt t (Some a) (mem st)) st, fst (fst o))
              | None => Ret (st, Some a)
              end
  end.
Fixpoint p_outputs (st : pst) (os hs : list hdr) : outcome (pst * list (option nat)) :=
  match os, hs with
  | [], [] => Ret (st, [])
  | o :: os, h :: hs => x <- p_add2output_all st o h ;; rest <- p_outputs (fst x) os hs ;; Ret (fst rest, snd x :: snd rest)
  | _, _ => OutOfBounds
  end.

(** c/eaf3d.c:829-841: while (aux) *)
Fixpoint p_flag_points (fuel : nat) (st : pst) (nruns : nat) (a : option nat) : outcome (list (point * list bool)) :=
  match a with
  | None => Ret []
  | Some a =>
    match fuel with
    | O => OutOfFuel
    | S fuel =>
      p <- pt st a ;; i <- addr_id a ;;
      fl <- find_all_promoters (fields st) nruns (mkNode (px p) (py p) (pz p) (Some i)) ;;
      rest <- p_flag_points fuel st nruns (AvlModel.nxt (mem st) a) ;;
      Ret (([px p; py p; pz p], fl) :: rest)
    end
  end.
Fixpoint p_select_levels (st : pst) (nruns : nat) (os : list (option nat)) (attlevel : list Z)
  : outcome (list (list (point * list bool))) :=
  match attlevel with
  | [] => Ret []
  | l :: ls => _ <- (if l <=? 0 then OutOfBounds else Ret tt) ;;
               o <- rd os (Z.to_nat l - 1) ;;
               s <- p_flag_points (3 + length (fields st)) st nruns o ;;
               rest <- p_select_levels st nruns os ls ;; Ret (s :: rest)
  end.

(** c/eaf3d.c:779-844 eaf3d; [start]: the memory before, [junk]: uninitialised items *)
Definition p_eaf3d (start : avl) (sortz : list point -> list nat) (junk : nat -> Z)
  (data : list point) (cumsize : list nat) (nruns : nat) (attlevel : list Z)
  : outcome (list (list (point * list bool))) :=
  st <- p_alloc nruns junk 0 (mkP start (fun _ => None) [] [] [] None [] 0) ;;
  l <- setup_cdllist sortz data cumsize ;;
  s <- p_eaf3df nruns st l ;;
  r <- p_outputs (ps s) (pouts (ps s)) (plevs (ps s)) ;;
  p_select_levels (fst r) nruns (snd r) attlevel.
End Ptr.
