(** Model of the 3-objective EAF computation (c/eaf3d.c).

    An AVL tree is modelled by the list of its nodes in tree order (the linked
    list head..tail, with the two sentinels).  Eaf3dPtrModel.v models the same code
    with pointers in one memory and is proved to give the same results (C59), so
    the first two simplifications are not assumptions.  Simplifications:
    - the binary searches avl_search_closest and avl_search_closest_y are
      replaced by their effect on a sorted tree: the neighbours of the searched
      value (for avl_search_closest this is C37_search_closest); insertion and
      unlinking act on the list as proved for the pointer tree in C36;
    - a pointer to a node is the node's point and its number in [heap]; following
      the list pointers of a node that is no longer in its tree is the outcome
      [OutOfBounds];
    - the fields set/promoter/remover/equal of the nodes of the levels are kept
      in [heap]; the sentinels and the nodes of the sets have no such fields, and
      using theirs (uninitialised in the code) is the outcome [OutOfBounds];
    - [lo] and [hi] stand for objective_MIN and objective_MAX. *)
From Coq Require Import List ZArith Lia Bool Arith QArith.
From Verif Require Import Base EafModel EafStoreModel.
Import ListNotations.
Open Scope Z_scope.

(** a node of a tree: its item (objective_t[3]) and its number in the heap *)
Record node : Type := mkNode { nx : Z; ny : Z; nz : Z; nid : option nat }.
Definition node_of (p : point) : node := mkNode (coord p 0) (coord p 1) (coord p 2) None.
Definition point_of (q : node) : point := [nx q; ny q; nz q].
Definition id_eqb (a b : option nat) : bool :=
  match a, b with Some i, Some j => (i =? j)%nat | None, None => true | _, _ => false end.
Definition node_eqb (a b : node) : bool :=
  (nx a =? nx b) && (ny a =? ny b) && (nz a =? nz b) && id_eqb (nid a) (nid b).
Definition with_id (q : node) (i : nat) : node := mkNode (nx q) (ny q) (nz q) (Some i).

(** c/avl.h: the fields set, promoter, remover and equal of a node *)
Record info : Type := mkInfo { iset : nat; iprom : option nat; irem : option nat; ieq : option nat }.
Definition id_of (q : node) : outcome nat := match nid q with Some i => Ret i | None => OutOfBounds end.

(** c/eaf3d.c:71-77 compare_node: by the third coordinate *)
Definition le_z (data : list point) (i j : nat) : Prop :=
  coord (row data i) 2 <= coord (row data j) 2.
Definition is_dataz (data : list point) (dz : list nat) : Prop :=
  is_qsort_of (le_z data) (seq 0 (length data)) dz.

(** c/eaf3d.c:84-132 setup_cdllist: the points with their set numbers, sorted.
    The set numbers are computed like runtab (c/eaf3d.c:92-95). *)
Fixpoint sorted_list (data : list point) (tab : list nat) (dz : list nat) : outcome (list (node * nat)) :=
  match dz with
  | [] => Ret []
  | i :: dz => p <- rd data i ;; k <- rd tab i ;;
               rest <- sorted_list data tab dz ;; Ret ((node_of p, k) :: rest)
  end.
Definition setup_cdllist (sortz : list point -> list nat) (data : list point) (cumsize : list nat)
  : outcome (list (node * nat)) :=
  tab <- runtab_loop cumsize (length data) 0 0 ;;
  sorted_list data tab (sortz data).

Section Trees.
Variables lo hi : Z.

(** c/eaf3d.c:748-764 add_sentinels; the third coordinate is not initialised *)
Definition sentinels (z1 z2 : Z) : list node := [mkNode lo hi z1 None; mkNode hi lo z2 None].

(** node->next *)
Fixpoint next_of (t : list node) (q : node) : outcome node :=
  match t with
  | [] => OutOfBounds
  | a :: t' => if node_eqb a q then match t' with b :: _ => Ret b | [] => OutOfBounds end
               else next_of t' q
  end.

(** c/eaf3d.c:500-508 find_point_at_left: the last node with x <= item's x *)
Fixpoint find_left_from (t : list node) (x : Z) (cur : option node) : option node :=
  match t with
  | [] => cur
  | a :: t' => if nx a <=? x then find_left_from t' x (Some a) else cur
  end.
Definition find_point_at_left (t : list node) (x : Z) : outcome node :=
  match find_left_from t x None with Some q => Ret q | None => OutOfBounds end.

(** c/eaf3d.c:511-520 find_point_below: the first node with y < item's y *)
Fixpoint find_point_below (t : list node) (y : Z) : outcome node :=
  match t with
  | [] => OutOfBounds
  | a :: t' => if ny a <? y then Ret a else find_point_below t' y
  end.

Fixpoint span (f : node -> bool) (t : list node) : list node * list node :=
  match t with
  | [] => ([], [])
  | a :: t' => if f a then let '(p, s) := span f t' in (a :: p, s) else ([], t)
  end.

(** c/eaf3d.c:398-417 add2set: the list is cut behind [prevnode] (the node
    before it if x is the same), nodes above [item] that follow are removed *)
Fixpoint cut_after (t : list node) (q : node) : outcome (list node * list node) :=
  match t with
  | [] => OutOfBounds
  | a :: t' => if node_eqb a q then Ret ([a], t')
               else r <- cut_after t' q ;; Ret (a :: fst r, snd r)
  end.
Fixpoint cut_before (t : list node) (q : node) : outcome (list node * list node) :=
  match t with
  | [] => OutOfBounds
  | a :: t' => if node_eqb a q then Ret ([], t)
               else r <- cut_before t' q ;; Ret (a :: fst r, snd r)
  end.
Fixpoint drop_above (t : list node) (y : Z) : outcome (list node) :=
  match t with
  | [] => OutOfBounds
  | a :: t' => if y <=? ny a then drop_above t' y else Ret t
  end.
Definition add2set (t : list node) (prevnode item : node) : outcome (list node) :=
  r <- (if nx prevnode =? nx item then
          c <- cut_before t prevnode ;;
          match fst c with [] => OutOfBounds | _ => Ret c end
        else cut_after t prevnode) ;;
  post <- drop_above (snd r) (ny item) ;;
  Ret (fst r ++ item :: post).

(** c/eaf3d.c:435-486 add2level.  [before]: the nodes up to prevnode, i.e. those
    with larger y, and one with the same y if its x is larger. *)
Definition before (item q : node) : bool :=
  (ny item <? ny q) || ((ny q =? ny item) && (nx item <? nx q)).
(** the loop c/eaf3d.c:464-480 on the reversed list of nodes to the left:
    (remaining nodes, nodes moved to the output, nodes removed) *)
Fixpoint remove_left (r : list node) (item : node) : outcome (list node * list node * list node) :=
  match r with
  | [] => OutOfBounds
  | a :: r' => if nx item <=? nx a then
                 s <- remove_left r' item ;;
                 let '(rest, o, d) := s in
                 Ret (if nz a <? nz item then (rest, a :: o, d) else (rest, o, a :: d))
               else Ret (r, [], [])
  end.
(** the tree, the output and, if [item] was inserted, the removed nodes *)
Definition add2level (t out : list node) (item : node) : outcome (list node * list node * option (list node)) :=
  let '(pre, post) := span (before item) t in
  match pre, post with
  | [], _ | _, [] => OutOfBounds
  | _, aux :: _ =>
      if nx item <? nx aux then
        s <- remove_left (rev pre) item ;;
        let '(rest, o, d) := s in
        Ret (rev rest ++ item :: post, out ++ o, Some d)
      else Ret (t, out, None)
  end.

(** aux[k].levelNode: a node of level k, which is also aux[k].promoter, or the
    intersection node with its own coordinates, its stored next pointer, and the
    promoter *)
Inductive cursor : Type := At (q : node) | Cross (x y : Z) (next left : node).
Definition promoter_of (c : cursor) : node := match c with At q => q | Cross _ _ _ q => q end.

(** node_point(levelNode)[0..1]; the node must still be in its tree *)
Definition cursor_xy (t : list node) (c : cursor) : outcome (Z * Z) :=
  match c with
  | At q => if existsb (node_eqb q) t then Ret (nx q, ny q) else OutOfBounds
  | Cross x y _ _ => Ret (x, y)
  end.
Definition cursor_next (t : list node) (c : cursor) : outcome cursor :=
  match c with
  | At q => q' <- next_of t q ;; Ret (At q')
  | Cross _ _ q' _ => Ret (At q')
  end.
(** node_point(levelNode)[2]; the intersection node has no third coordinate *)
Definition cursor_z (c : cursor) : outcome Z :=
  match c with At q => Ret (nz q) | Cross _ _ _ _ => OutOfBounds end.

(** c/eaf3d.c:585-616, first part: for (k = start_at; k >= stop_at; k--); the
    result is stop_at, dom_new and the cursors from the highest level down *)
Fixpoint part1 (levels : list (list node)) (new newPrev : node) (k : nat)
  : outcome (nat * option node * list cursor) :=
  t <- rd levels k ;;
  left <- find_point_at_left t (nx new) ;;
  if ny left <=? ny new then Ret (S k, Some left, [])
  else
    c <- (if ny left <? ny newPrev then
            q <- next_of t left ;; Ret (Cross (nx new) (ny left) q left)
          else q <- find_point_below t (ny newPrev) ;; Ret (At q)) ;;
    r <- match k with O => Ret (O, None, []) | S k' => part1 levels new newPrev k' end ;;
    Ret (fst r, c :: snd r).

(** level[], output[] and the fields of their nodes *)
Record trees : Type := mkTrees { lev : list (list node); out : list (list node); heap : list info }.

(** aux->remover = newnode *)
Fixpoint set_removers (h : list info) (rems : list node) (id : nat) : outcome (list info) :=
  match rems with
  | [] => Ret h
  | q :: rems => i <- id_of q ;; f <- rd h i ;;
                 h' <- wr h i (mkInfo (iset f) (iprom f) (Some id) (ieq f)) ;;
                 set_removers h' rems id
  end.
(** promoter->equal = tnode *)
Definition set_equal (s : trees) (q : node) (id : nat) : outcome trees :=
  i <- id_of q ;; f <- rd (heap s) i ;;
  h' <- wr (heap s) i (mkInfo (iset f) (iprom f) (irem f) (Some id)) ;;
  Ret (mkTrees (lev s) (out s) h').

(** add2level (level[k], item, output[k], set, promoter), with avl_add_promoter
    (c/eaf3d.c:420-426); the result is the number of the new node, if any *)
Definition add_at (s : trees) (k : nat) (item : node) (set : nat) (prom : option node)
  : outcome (trees * option nat) :=
  t <- rd (lev s) k ;; o <- rd (out s) k ;;
  r <- add2level t o (with_id item (length (heap s))) ;;
  let '(t', o', ins) := r in
  match ins with
  | None => Ret (s, None)
  | Some rems =>
    p <- match prom with None => Ret None | Some q => i <- id_of q ;; Ret (Some i) end ;;
    l' <- wr (lev s) k t' ;; os' <- wr (out s) k o' ;;
    h <- set_removers (heap s) rems (length (heap s)) ;;
    Ret (mkTrees l' os' (h ++ [mkInfo set p None None]), Some (length (heap s)))
  end.
(** if (tnode != NULL && cond) promoter->equal = tnode; *)
Definition link (r : trees * option nat) (prom : node) (cond : outcome bool) : outcome trees :=
  match snd r with
  | None => Ret (fst r)
  | Some id => b <- cond ;; if b then set_equal (fst r) prom id else Ret (fst r)
  end.

(** node_point(promoter)[..] is read: its item has not been freed, i.e. the node is
    still in its tree *)
Definition in_tree (t : list node) (q : node) : outcome unit :=
  if existsb (node_eqb q) t then Ret tt else OutOfBounds.

(** c/eaf3d.c:628-645: the inner while loop for level k *)
Fixpoint promote (fuel : nat) (s : trees) (k : nat) (new : node) (set : nat) (setNode : node) (lbound : Z) (c : cursor)
  : outcome (trees * cursor) :=
  t <- rd (lev s) k ;;
  xy <- cursor_xy t c ;;
  if (lbound <=? snd xy) && ((lbound <? snd xy) || (ny new <? lbound)) then
    match fuel with
    | O => OutOfFuel
    | S fuel =>
      if nx setNode <=? fst xy then
        q <- find_point_below t (ny setNode) ;;
        promote fuel s k new set setNode lbound (At q)
      else
        let prom := promoter_of c in
        r <- add_at s (S k) (mkNode (fst xy) (snd xy) (nz new) None) set (Some prom) ;;
        s' <- link r prom (_ <- in_tree t prom ;; Ret ((nz new =? nz prom) && (fst xy =? nx prom))) ;;
        t' <- rd (lev s') k ;;
        c' <- cursor_next t' c ;;
        promote fuel s' k new set setNode lbound c'
    end
  else Ret (s, c).

(** c/eaf3d.c:627-646: for (k = start_at; k >= stop_at; k--) *)
Fixpoint promote_all (s : trees) (k : nat) (new : node) (set : nat) (setNode : node) (lbound : Z) (cs : list cursor)
  : outcome (trees * list cursor) :=
  match cs with
  | [] => Ret (s, [])
  | c :: cs =>
    t <- rd (lev s) k ;;
    r <- promote (2 + length t) s k new set setNode lbound c ;;
    r' <- promote_all (fst r) (k - 1) new set setNode lbound cs ;;
    Ret (fst r', snd r :: snd r')
  end.

(** c/eaf3d.c:622-648, second part; [rest]: the nodes of the set behind newPrev *)
Fixpoint part2 (rest : list node) (s : trees) (start_at : nat) (new : node) (set : nat) (cs : list cursor)
  : outcome (trees * list cursor * node) :=
  match rest with
  | [] => OutOfBounds
  | setNode :: rest =>
    r <- promote_all s start_at new set setNode (Z.max (ny setNode) (ny new)) cs ;;
    if ny new <? ny setNode then part2 rest (fst r) start_at new set (snd r)
    else Ret (fst r, snd r, setNode)
  end.

(** c/eaf3d.c:650-662, third part *)
Fixpoint part3 (s : trees) (k : nat) (new : node) (set : nat) (setNode : node) (cs : list cursor) : outcome trees :=
  match cs with
  | [] => Ret s
  | c :: cs =>
    t <- rd (lev s) k ;;
    xy <- cursor_xy t c ;;
    s' <- (if fst xy <? nx setNode then
             r <- add_at s (S k) (mkNode (fst xy) (ny new) (nz new) None) set (Some (promoter_of c)) ;;
             link r (promoter_of c) (z <- cursor_z c ;; Ret ((nz new =? z) && (ny new =? snd xy)))
           else Ret s) ;;
    part3 s' (k - 1) new set setNode cs
  end.

(** the variables of eaf3df: set[], level[], output[], start_at, mask[] *)
Record state : Type := mkState { sets : list (list node); tr : trees; start_at : nat; mask : list bool }.

(** c/eaf3d.c:573-680: one iteration *)
Definition eaf3df_step (nset : nat) (st : state) (new : node) (k : nat) : outcome state :=
  t <- rd (sets st) k ;;
  newPrev <- find_point_at_left t (nx new) ;;
  if ny newPrev <=? ny new then Ret st
  else
    p1 <- part1 (lev (tr st)) new newPrev (start_at st) ;;
    let '(stop_at, dom_new, cs1) := p1 in
    c <- cut_after t newPrev ;;
    p2 <- part2 (snd c) (tr st) (start_at st) new k cs1 ;;
    let '(s2, cs, setNode) := p2 in
    s3 <- part3 s2 (start_at st) new k setNode cs ;;
    t' <- add2set t newPrev new ;;
    sets' <- wr (sets st) k t' ;;
    r <- add_at s3 stop_at new k dom_new ;;
    s4 <- (if (0 <? stop_at)%nat then
             match dom_new with
             | None => match snd r with None => Ret (fst r) | Some _ => OutOfBounds end
             | Some q => link r q (Ret ((nz new =? nz q) && (ny new =? ny q) && (nx new =? nx q)))
             end
           else Ret (fst r)) ;;
    m <- rd (mask st) k ;;
    if m then Ret (mkState sets' s4 (start_at st) (mask st))
    else
      mask' <- wr (mask st) k true ;;
      Ret (mkState sets' s4 (if (start_at st + 2 <? nset)%nat then S (start_at st) else start_at st) mask').

Fixpoint eaf3df_loop (nset : nat) (st : state) (l : list (node * nat)) : outcome state :=
  match l with
  | [] => Ret st
  | (new, k) :: l => st' <- eaf3df_step nset st new k ;; eaf3df_loop nset st' l
  end.

(** avl_insert_after (tree, tree->head, new) *)
Definition insert_after_head (t : list node) (new : node) : outcome (list node) :=
  match t with [] => OutOfBounds | a :: t' => Ret (a :: new :: t') end.

(** c/eaf3d.c:535-693 eaf3df; the first point is treated specially *)
Definition eaf3df (nset : nat) (st : state) (l : list (node * nat)) : outcome state :=
  match l with
  | [] => OutOfBounds
  | (new, k) :: l =>
    t <- rd (sets st) k ;;
    t' <- insert_after_head t new ;;
    sets' <- wr (sets st) k t' ;;
    t0 <- rd (lev (tr st)) 0 ;;
    t0' <- insert_after_head t0 (with_id new (length (heap (tr st)))) ;;
    lev' <- wr (lev (tr st)) 0 t0' ;;
    mask' <- wr (mask st) k true ;;
    eaf3df_loop nset (mkState sets' (mkTrees lev' (out (tr st)) (heap (tr st) ++ [mkInfo k None None None])) 0 mask') l
  end.

(** c/eaf3d.c:372-391 add2output_all: the level without its sentinels is
    appended to the output *)
Definition add2output_all (o t : list node) : outcome (list node) :=
  match t with
  | _ :: t' => match rev t' with _ :: r => Ret (o ++ rev r) | [] => OutOfBounds end
  | [] => OutOfBounds
  end.
Fixpoint outputs (os ts : list (list node)) : outcome (list (list node)) :=
  match os, ts with
  | [], [] => Ret []
  | o :: os, t :: ts => x <- add2output_all o t ;; rest <- outputs os ts ;; Ret (x :: rest)
  | _, _ => OutOfBounds
  end.

(** c/eaf3d.c:203-206: the nodes linked by equal *)
Fixpoint mark_equals (fuel : nat) (h : list info) (n : option nat) (dom : list bool) : outcome (list bool) :=
  match n with
  | None => Ret dom
  | Some i => match fuel with
              | O => OutOfFuel
              | S fuel => f <- rd h i ;; dom <- wr dom (iset f) true ;; mark_equals fuel h (ieq f) dom
              end
  end.
(** c/eaf3d.c:194-199: the node and the nodes linked by promoter; the recursive
    call of find_all_promoters for the remover is written out *)
Fixpoint mark_promoters (fuel : nat) (h : list info) (n : option nat) (dom : list bool) : outcome (list bool) :=
  match n with
  | None => Ret dom
  | Some i =>
    match fuel with
    | O => OutOfFuel
    | S fuel =>
      f <- rd h i ;; dom <- wr dom (iset f) true ;;
      dom <- match irem f with
             | None => Ret dom
             | Some r => dom <- mark_promoters fuel h (Some r) dom ;;
                         g <- rd h r ;; mark_equals (length h) h (ieq g) dom
             end ;;
      mark_promoters fuel h (iprom f) dom
    end
  end.
(** c/eaf3d.c:189-207 find_all_promoters, on a cleared array (c/eaf3d.c:835-837) *)
Definition find_all_promoters (h : list info) (nruns : nat) (q : node) : outcome (list bool) :=
  i <- id_of q ;;
  dom <- mark_promoters (S nruns * S (length h)) h (Some i) (repeat false nruns) ;;
  f <- rd h i ;; mark_equals (length h) h (ieq f) dom.

(** c/eaf3d.c:829-841: the points of the requested levels with their flags *)
Fixpoint flag_points (h : list info) (nruns : nat) (o : list node) : outcome (list (point * list bool)) :=
  match o with
  | [] => Ret []
  | q :: o => fl <- find_all_promoters h nruns q ;; rest <- flag_points h nruns o ;; Ret ((point_of q, fl) :: rest)
  end.
Fixpoint select_levels (h : list info) (nruns : nat) (os : list (list node)) (attlevel : list Z)
  : outcome (list (list (point * list bool))) :=
  match attlevel with
  | [] => Ret []
  | l :: ls => _ <- (if l <=? 0 then OutOfBounds else Ret tt) ;;
               o <- rd os (Z.to_nat l - 1) ;;
               s <- flag_points h nruns o ;;
               rest <- select_levels h nruns os ls ;; Ret (s :: rest)
  end.

(** c/eaf3d.c:779-844 eaf3d.  [junk]: the third coordinate of the sentinels. *)
Definition eaf3d (sortz : list point -> list nat) (junk : nat -> Z)
  (data : list point) (cumsize : list nat) (nruns : nat) (attlevel : list Z)
  : outcome (list (list (point * list bool))) :=
  l <- setup_cdllist sortz data cumsize ;;
  let fresh := map (fun i => sentinels (junk i) (junk i)) (seq 0 nruns) in
  st <- eaf3df nruns (mkState fresh (mkTrees fresh (repeat [] nruns) []) 0 (repeat false nruns)) l ;;
  os <- outputs (out (tr st)) (lev (tr st)) ;;
  select_levels (heap (tr st)) nruns os attlevel.
End Trees.

(** c/eaf3d.c:829-842: the points of a level are stored with their flags.  There
    is no final adjustment of the memory as in eaf2d. *)
Fixpoint store_surfaces_3d (junk : nat -> Z) (grow : nat -> nat -> nat)
  (nruns npoints : nat) (ss : list (list (point * list bool))) : outcome (list eaf_t) :=
  match ss with
  | [] => Ret []
  | s :: ss => e <- store_points junk grow (eaf_create junk 3 nruns npoints) 3 s ;;
               rest <- store_surfaces_3d junk grow nruns npoints ss ;; Ret (e :: rest)
  end.

(** c/eaf.c:258-272 eaf_compute_matrix, for nobj = 3 *)
Definition eaf_compute_matrix_3d (lo hi : Z) (sortz : list point -> list nat) (junk : nat -> Z) (grow : nat -> nat -> nat)
  (data : list point) (cumsizes : list nat) (nruns : nat) (percentile : option (list Q)) (nlevels : nat)
  : outcome (list (point * Q)) :=
  level <- levels_from_percentiles percentile nlevels nruns ;;
  ss <- eaf3d lo hi sortz junk data cumsizes nruns level ;;
  eafs <- store_surfaces_3d junk grow nruns (length data) ss ;;
  eaf2matrix eafs 3 0 percentile nlevels.

(** an executable sort by the third coordinate, for the examples *)
Definition sortz_exec (data : list point) : list nat :=
  sort_by (fun i j => coord (row data i) 2 <=? coord (row data j) 2) (seq 0 (length data)).
