(** The relation between the pointer state and the list state of the 3-objective EAF, and
    the insertion into a level. *)
From Coq Require Import List ZArith Lia Bool Arith Sorted.
From Verif Require Import Base EafModel EafStoreModel AvlModel AvlSpec AvlProofs AvlRotate AvlOps AvlFrame.
From Verif Require Import Eaf3dModel Eaf3dTrees Eaf3dProofs Eaf3dPtrModel Eaf3dPtrTree Eaf3dPtrLevel.
Import ListNotations.
Open Scope Z_scope.

(** where a node is *)
Inductive place : Type := Free | PSet (k : nat) | PLev (k : nat) | POut (k : nat).

(** ** Lists *)
Lemma nth_error_upd : forall A (l : list A) i j v, (i < length l)%nat -> nth_error (upd l i v) j = if (i =? j)%nat then Some v else nth_error l j.
Proof.
  induction l as [|a l IH]; intros i j v L; cbn in L; [lia|]. destruct i, j; cbn; auto. apply IH. lia.
Qed.
Lemma set_removers_app : forall d h h' x id, set_removers h d id = Ret h' -> set_removers (h ++ [x]) d id = Ret (h' ++ [x]).
Proof.
  induction d as [|q d IH]; intros h h' x id H; cbn [set_removers] in *; [injection H as <-; reflexivity|].
  destruct (id_of q) as [i| | |]; try discriminate. cbn [bind] in *. unfold rd in *.
  destruct (nth_error h i) as [f|] eqn:En; [|discriminate]. assert (L : (i < length h)%nat) by (apply nth_error_Some; congruence).
  rewrite nth_error_app1 by auto. rewrite En. cbn [bind] in *. rewrite wr_ok in H by auto. rewrite wr_ok by (rewrite app_length; cbn; lia). cbn [bind] in *.
  replace (upd (h ++ [x]) i (mkInfo (iset f) (iprom f) (Some id) (ieq f))) with (upd h i (mkInfo (iset f) (iprom f) (Some id) (ieq f)) ++ [x]); auto.
  clear -L. revert i L. induction h as [|a h IHh]; intros i L; cbn in L; [lia|]. destruct i; cbn; auto. rewrite IHh by lia. reflexivity.
Qed.
Lemma set_removers_length : forall d h h' id, set_removers h d id = Ret h' -> length h' = length h.
Proof.
  induction d as [|q d IH]; intros h h' id H; cbn [set_removers] in *; [injection H as <-; reflexivity|].
  destruct (id_of q) as [i| | |]; try discriminate. cbn [bind] in *. destruct (rd h i) as [f| | |]; try discriminate. cbn [bind] in *.
  unfold wr in H. destruct (i <? length h)%nat; [|discriminate]. cbn [bind] in H. apply IH in H. rewrite upd_length in H. exact H.
Qed.
Lemma rd_inv : forall A (l : list A) i v, rd l i = Ret v -> nth_error l i = Some v.
Proof. intros A l i v H. unfold rd in H. destruct (nth_error l i); [injection H as ->; reflexivity|discriminate]. Qed.
Lemma rd_some : forall A (l : list A) i v, nth_error l i = Some v -> rd l i = Ret v.
Proof. intros A l i v H. unfold rd. rewrite H. reflexivity. Qed.
Lemma nth_same_len : forall A B (l : list A) (l' : list B) k v, length l = length l' -> nth_error l k = Some v -> exists v', nth_error l' k = Some v'.
Proof.
  intros A B l l' k v E H. destruct (nth_error l' k) as [v'|] eqn:E'; [eauto|]. apply nth_error_None in E'.
  assert (k < length l)%nat by (apply nth_error_Some; congruence). lia.
Qed.
Lemma nth_lt : forall A (l : list A) k v, nth_error l k = Some v -> (k < length l)%nat.
Proof. intros A l k v H. apply nth_error_Some. congruence. Qed.

Section Rel.
(** [X]: all the first coordinates that can occur in a tree *)
Variables (lo : Z) (X : list Z).
Hypothesis Xsmall : Z.of_nat (length X) < 2 ^ 119.

Definition addr (k : nat) (q : node) : nat :=
  match nid q with
  | Some i => level_addr i
  | None => if nx q =? lo then other_addr (4 * k + 2) else other_addr (4 * k + 3)
  end.
Definition la (k : nat) (t : list node) : list (nat * node) := map (fun q => (addr k q, q)) t.
Lemma xs_la : forall k t, xs_of (la k t) = map (addr k) t. Proof. intros. unfold xs_of, la. rewrite map_map. reflexivity. Qed.
Lemma t_la : forall k t, t_of (la k t) = t. Proof. intros. unfold t_of, la. rewrite map_map. apply map_id. Qed.
Lemma la_app : forall k u v, la k (u ++ v) = la k u ++ la k v. Proof. intros. apply map_app. Qed.

Record tree_at (m : avl) (it : nat -> option xyz) (own : nat -> place) (P : place) (h : hdr) (zs : list (nat * node)) : Prop := mkTreeAt {
  ta_holds : holds (view m h) (xs_of zs);
  ta_items : items_ok it zs;
  ta_own : forall a, In a (xs_of zs) -> own a = P;
  ta_stair : stair (t_of zs);
  ta_X : forall q, In q (t_of zs) -> In (nx q) X
}.

(** a level: two sentinels around numbered nodes *)
Definition shape (len : nat) (t : list node) : Prop :=
  exists a u b, t = a :: u ++ [b] /\ nid a = None /\ nx a = lo /\ nid b = None /\ nx b <> lo /\
    forall q, In q u -> exists i, nid q = Some i /\ (i < len)%nat.

Record out_at (m : avl) (it : nat -> option xyz) (own : nat -> place) (len k : nat) (o : hdr) (l : list node) : Prop := mkOutAt {
  oa_chain : out_chain m o (map (addr k) l);
  oa_nodup : NoDup (map (addr k) l);
  oa_items : items_ok it (la k l);
  oa_own : forall a, In a (map (addr k) l) -> own a = POut k;
  oa_ids : forall q, In q l -> exists i, nid q = Some i /\ (i < len)%nat
}.

Record R (st : pst) (own : nat -> place) (SZ : list (list (nat * node))) (s : trees) : Prop := mkR {
  r_fields : fields st = heap s;
  r_free_lev : forall i, (length (heap s) <= i)%nat -> own (level_addr i) = Free;
  r_free_odd : forall j, (fresh st <= j)%nat -> own (other_addr j) = Free;
  r_nsets : length (psets st) = length SZ;
  r_nlevs : length (plevs st) = length (lev s);
  r_nouts : length (pouts st) = length (out s);
  r_set : forall k h zs, nth_error (psets st) k = Some h -> nth_error SZ k = Some zs ->
    tree_at (mem st) (item st) own (PSet k) h zs /\ forall a, In a (xs_of zs) -> exists j, a = other_addr j;
  r_lev : forall k h t, nth_error (plevs st) k = Some h -> nth_error (lev s) k = Some t ->
    tree_at (mem st) (item st) own (PLev k) h (la k t) /\ shape (length (heap s)) t;
  r_out : forall k o l, nth_error (pouts st) k = Some o -> nth_error (out s) k = Some l ->
    out_at (mem st) (item st) own (length (heap s)) k o l;
  r_inner : forall k l t, nth_error (out s) k = Some l -> nth_error (lev s) k = Some t -> l <> [] ->
    exists q i, In q t /\ nid q = Some i
}.

(** ** Frames *)
Lemma tree_at_frame : forall m it own P h zs m' it' own', tree_at m it own P h zs ->
  (forall a, own a = P -> own' a = P /\ same_node m m' a /\ it' a = it a) -> tree_at m' it' own' P h zs.
Proof.
  intros m it own P h zs m' it' own' [H1 H2 H3 H4 H5] F. constructor; auto.
  - apply holds_view with (m := m); auto. intros a Ha. apply F. apply H3. exact Ha.
  - intros a q Hi. destruct (F a) as (_ & _ & ->); [|apply H2; exact Hi]. apply H3. apply (in_map fst) in Hi. exact Hi.
  - intros a Ha. apply F. apply H3. exact Ha.
Qed.
Lemma out_at_frame : forall m it own len k o l m' it' own' len', out_at m it own len k o l ->
  (forall a, own a = POut k -> own' a = POut k /\ same_node m m' a /\ it' a = it a) -> (len <= len')%nat -> out_at m' it' own' len' k o l.
Proof.
  intros m it own len k o l m' it' own' len' [H1 H2 H3 H4 H5] F L. constructor; auto.
  - apply (out_chain_frame _ m); auto. intros a Ha. apply F. apply H4. exact Ha.
  - intros a q Hi. destruct (F a) as (_ & _ & ->); [|apply H3; exact Hi]. apply H4. unfold la in Hi. apply in_map_iff in Hi.
    destruct Hi as (q' & E & Hq). injection E as <- <-. apply in_map. exact Hq.
  - intros a Ha. apply F. apply H4. exact Ha.
  - intros q Hq. destruct (H5 q Hq) as (i & E & Li). exists i. split; auto. lia.
Qed.
Lemma shape_len : forall len len' t, shape len t -> (len <= len')%nat -> shape len' t.
Proof.
  intros len len' t (a & u & b & E & H1 & H2 & H3 & H4 & H5) L. exists a, u, b. repeat split; auto.
  intros q Hq. destruct (H5 q Hq) as (i & E' & Li). exists i. split; auto. lia.
Qed.

(** ** Sizes *)
Lemma stair_nx_nodup : forall t, stair t -> NoDup (map nx t).
Proof.
  induction t as [|a t IH]; intros S; cbn; constructor; apply stair_inv in S; destruct S as [S1 S2]; auto.
  intros Hi. apply in_map_iff in Hi. destruct Hi as (q & E & Hq). destruct (S2 q Hq). lia.
Qed.
Lemma tree_size : forall m it own P h zs, tree_at m it own P h zs -> Z.of_nat (length zs) < 2 ^ 119.
Proof.
  intros m it own P h zs [_ _ _ S HX]. assert (L : (length (map nx (t_of zs)) <= length X)%nat).
  { apply NoDup_incl_length; [apply stair_nx_nodup; exact S|]. intros x Hx. apply in_map_iff in Hx. destruct Hx as (q & <- & Hq). auto. }
  rewrite map_length in L. unfold t_of in L. rewrite map_length in L. lia.
Qed.
Lemma tree_alloc : forall m it own P h zs, tree_at m it own P h zs -> allocatable (xs_of zs).
Proof. intros m it own P h zs H. apply tree_size in H. unfold allocatable, xs_of. rewrite map_length. lia. Qed.
Lemma tree_alloc1 : forall m it own P h zs n, tree_at m it own P h zs -> allocatable (n :: xs_of zs).
Proof. intros m it own P h zs n H. apply tree_size in H. unfold allocatable, xs_of. cbn [length]. rewrite map_length. lia. Qed.

Lemma shape_size : forall k t len, shape len t -> NoDup (map (addr k) t) -> (length t <= 2 + len)%nat.
Proof.
  intros k t len (a & u & b & -> & _ & _ & _ & _ & H) ND.
  assert (ND' : NoDup (map (addr k) u)). { cbn in ND. inversion ND as [|x l _ N]; subst. rewrite map_app in N. apply NoDup_app_elim in N. apply N. }
  assert (L : (length (map (addr k) u) <= length (map level_addr (seq 0 len)))%nat).
  { apply NoDup_incl_length; auto. intros x Hx. apply in_map_iff in Hx. destruct Hx as (q & <- & Hq). destruct (H q Hq) as (i & E & Li).
    unfold addr. rewrite E. apply in_map. apply in_seq. lia. }
  rewrite !map_length, seq_length in L. cbn [length]. rewrite app_length. cbn [length]. lia.
Qed.

(** ** The search of add2level *)
Lemma span_split : forall f u v, (forall q, In q u -> f q = true) -> (match v with [] => True | b :: _ => f b = false end) -> span f (u ++ v) = (u, v).
Proof.
  induction u as [|a u IH]; intros v Hu Hv; cbn [app span].
  - destruct v as [|b v]; auto. cbn. rewrite Hv. reflexivity.
  - rewrite (Hu a (or_introl eq_refl)). rewrite IH; auto. intros q Hq. apply Hu. now right.
Qed.
Lemma before_y : forall it q, ny it < ny q -> before it q = true.
Proof. intros it q L. unfold before. destruct (Z.ltb_spec (ny it) (ny q)); auto. lia. Qed.
Lemma before_n : forall it q, ny q < ny it -> before it q = false.
Proof. intros it q L. unfold before. destruct (Z.ltb_spec (ny it) (ny q)); [lia|]. destruct (Z.eqb_spec (ny q) (ny it)); auto. lia. Qed.

Definition prev_of (st : pst) (it : xyz) (m : nat) (c : Z) : outcome nat :=
  if c <? 0 then deref (AvlModel.prv (mem st) m)
  else if 0 <? c then Ret m
  else q <- pt st m ;; if px it <? px q then Ret m else deref (AvlModel.prv (mem st) m).

Lemma search_prev : forall st own P h zs it, tree_at (mem st) (item st) own P h zs ->
  forall pre post, span (before it) (t_of zs) = (pre, post) -> pre <> [] -> post <> [] ->
  exists m c zp a q zy, psearch (cmp_y st (ny it)) (view (mem st) h) = Ret (Some m, c) /\
    prev_of st (crd it) m c = Ret a /\ zs = zp ++ (a, q) :: zy /\ pre = t_of zp ++ [q] /\ post = t_of zy.
Proof.
  intros st own P h zs it T pre post Es Npre Npost. pose proof (tree_alloc _ _ _ _ _ _ T) as Al. destruct T as [H It _ St _].
  assert (Ne : zs <> []). { intros ->. cbn in Es. injection Es as <- <-. contradiction. }
  destruct (search_y st h zs H Al It St (ny it) Ne) as (zw & a & q & zy & c & E & Ep & C).
  destruct (zs_mid st h zs H zw a q zy E) as [Hp _].
  assert (Ea : pt st a = Ret (crd q)) by (apply (pt_ok st zs It); rewrite E; apply in_or_app; right; now left).
  assert (St' : stair (t_of zw ++ q :: t_of zy)) by (pose proof St as S'; rewrite E, t_of_app in S'; exact S').
  destruct (stair_split _ _ _ St') as [S1 S2].
  rewrite E, t_of_app in Es. cbn [t_of map snd] in Es. fold (t_of zy) in Es.
  (* the node itself *)
  assert (Here : before it q = true -> (forall p, In p (t_of zy) -> ny p < ny it) -> pre = t_of zw ++ [q] /\ post = t_of zy).
  { intros B1 B2. replace (t_of zw ++ q :: t_of zy) with ((t_of zw ++ [q]) ++ t_of zy) in Es by (rewrite <- app_assoc; reflexivity).
    rewrite span_split in Es; [injection Es as <- <-; auto| |].
    - intros r Hr. apply in_app_or in Hr. destruct Hr as [Hr|[<-|[]]]; auto. apply before_y. destruct (S1 r Hr).
      assert (ny it <= ny q). { unfold before in B1. destruct (Z.ltb_spec (ny it) (ny q)); [lia|]. destruct (Z.eqb_spec (ny q) (ny it)); [lia|discriminate]. } lia.
    - destruct (t_of zy) as [|b v]; auto. apply before_n. apply B2. now left. }
  (* the one before *)
  assert (Prev : before it q = false -> (forall p, In p (t_of zw) -> ny it < ny p) ->
     exists zp b r zy', deref (AvlModel.prv (mem st) a) = Ret b /\ zs = zp ++ (b, r) :: zy' /\ pre = t_of zp ++ [r] /\ post = t_of zy').
  { intros B1 B2. rewrite span_split in Es; [| |exact B1]. 2:{ intros r Hr. apply before_y. auto. }
    injection Es as <- <-. destruct (snoc_cases _ zw) as [->|(zp & [b r] & ->)]; [contradiction|].
    exists zp, b, r, ((a, q) :: zy). rewrite Hp, xs_of_app. cbn [xs_of map fst]. rewrite last_error_snoc. split; auto.
    split. { rewrite E, <- app_assoc. reflexivity. } split; [|reflexivity]. rewrite t_of_app. reflexivity. }
  exists a, c. unfold prev_of.
  destruct C as [[-> C]|[(-> & C1 & C2)|(-> & C1 & C2)]]; cbn [Z.ltb Z.compare].
  - rewrite Ea. cbn [bind]. change (px (crd it)) with (nx it). change (px (crd q)) with (nx q).
    destruct (nx it <? nx q) eqn:L.
    + destruct Here as [G1 G2]. { unfold before. rewrite C, Z.eqb_refl, L. apply orb_true_r. }
      { intros p Hp'. destruct (S2 p Hp'). lia. } exists zw, a, q, zy. auto 10.
    + destruct Prev as (zp & b & r & zy' & G1 & G2 & G3 & G4).
      { unfold before. rewrite C, Z.eqb_refl, L. rewrite Z.ltb_irrefl. reflexivity. }
      { intros p Hp'. destruct (S1 p Hp'). lia. } exists zp, b, r, zy'. auto 10.
  - destruct Prev as (zp & b & r & zy' & G1 & G2 & G3 & G4); [apply before_n; auto|exact C1|]. exists zp, b, r, zy'. auto 10.
  - destruct Here as [G1 G2]; [apply before_y; auto|exact C2|]. exists zw, a, q, zy. auto 10.
Qed.


Lemma la_split : forall k t zp a q zy, la k t = zp ++ (a, q) :: zy ->
  t = t_of zp ++ q :: t_of zy /\ zp = la k (t_of zp) /\ a = addr k q /\ zy = la k (t_of zy).
Proof.
  intros k t zp a q zy E. unfold la in E. apply map_eq_app in E. destruct E as (t1 & t2 & -> & <- & E).
  destruct t2 as [|q' t2]; [discriminate|]. cbn in E. injection E as <- <- <-.
  fold (la k t1) (la k t2). rewrite !t_la. auto.
Qed.

(** the tree and the output of the list model after an insertion *)
Lemma insert_stair : forall t it pre aux post rest o d, stair t -> span (before it) t = (pre, aux :: post) -> nx it < nx aux ->
  remove_left (rev pre) it = Ret (rest, o, d) ->
  t = pre ++ aux :: post /\ stair (rev rest ++ it :: aux :: post) /\ (forall q, In q rest -> In q pre) /\
  exists pop, pre = rev rest ++ rev pop /\ rest <> [] /\ (forall q, In q o -> In q pop) /\ (forall q, In q d -> In q pop) /\
    (forall q, In q o -> In q d -> False) /\ (forall l : list node, NoDup pop -> NoDup o /\ NoDup d).
Proof.
  intros t it pre aux post rest o d S Es L Er. pose proof (span_app (before it) t) as Sp. rewrite Es in Sp. destruct Sp as (-> & Hb & Ha).
  destruct (remove_left_inv _ _ _ _ _ Er) as (pop & b & rest' & Epre & Eb & Lb & _ & -> & ->).
  assert (Ep : pre = rev rest ++ rev pop) by (rewrite <- (rev_involutive pre), Epre, rev_app_distr; reflexivity).
  assert (Hrest : forall q, In q rest -> In q pre). { intros q Hq. rewrite Ep. apply in_or_app. left. apply in_rev in Hq. exact Hq. }
  split; auto. destruct (stair_app_inv _ _ S) as (S1 & S2 & S3).
  assert (Ny : ny aux < ny it).
  { unfold before in Ha. destruct (Z.ltb_spec (ny it) (ny aux)); [discriminate|]. destruct (Z.eqb_spec (ny aux) (ny it)); [|lia].
    destruct (Z.ltb_spec (nx it) (nx aux)); [discriminate|lia]. }
  split; [|split; [exact Hrest|]].
  - rewrite Ep in S1. apply stair_app_inv in S1. destruct S1 as (S1 & _ & _).
    assert (Q : forall q, In q rest -> step2 q it).
    { intros q Hq. assert (nx q <= nx b).
      { rewrite Eb in Hq, S1. cbn [rev] in S1. apply stair_app_inv in S1. destruct S1 as (_ & _ & S1). destruct Hq as [<-|Hq]; [lia|].
        destruct (S1 q b); [apply in_rev in Hq; exact Hq|now left|lia]. }
      split; [lia|]. specialize (Hb q (Hrest q Hq)). unfold before in Hb. destruct (Z.ltb_spec (ny it) (ny q)); [lia|].
      destruct (Z.eqb_spec (ny q) (ny it)); [|discriminate]. destruct (Z.ltb_spec (nx it) (nx q)); [lia|discriminate]. }
    apply stair_app; auto.
    + constructor; auto. apply Forall_forall. intros q [<-|Hq]; [split; lia|]. apply stair_inv in S2. destruct S2 as [_ S2]. destruct (S2 q Hq). split; lia.
    + intros p q Hp Hq. apply in_rev in Hp. destruct Hq as [<-|Hq]; [apply Q; exact Hp|]. apply S3; auto.
  - exists pop. split; auto. split; [rewrite Eb; discriminate|]. split; [intros q Hq; apply filter_In in Hq; apply Hq|].
    split; [intros q Hq; apply filter_In in Hq; apply Hq|]. split.
    + intros q H1 H2. apply filter_In in H1, H2. destruct H1 as [_ H1], H2 as [_ H2]. rewrite H1 in H2. discriminate.
    + intros _ ND. split; apply NoDup_filter; exact ND.
Qed.

Lemma shape_insert : forall len t it pre aux post rest pop, shape len t -> t = pre ++ aux :: post -> pre = rev rest ++ rev pop -> rest <> [] ->
  nid it = Some len ->
  shape (S len) (rev rest ++ it :: aux :: post) /\ (forall q, In q pop -> exists i, nid q = Some i /\ (i < len)%nat) /\
  (exists r' z, rev pre = r' ++ [z] /\ forall q, In q r' -> exists i, nid q = Some i /\ (i < len)%nat).
Proof.
  intros len t it pre aux post rest pop (a & u & b & Et & H1 & H2 & H3 & H4 & H5) E Ep Ne Ei.
  destruct (snoc_cases _ rest) as [->|(rest' & z & ->)]; [contradiction|]. rewrite rev_unit in *. cbn [app] in *. rewrite Ep in E. rewrite E in Et. cbn [app] in Et.
  injection Et as -> Et. destruct (snoc_cases _ (aux :: post)) as [K|(p' & b' & Epost)]; [discriminate|].
  rewrite Epost in *. rewrite app_assoc in Et. apply app_inj_tail in Et. destruct Et as [Eu ->].
  assert (Hu : forall q, In q (rev rest') \/ In q (rev pop) \/ In q p' -> exists i, nid q = Some i /\ (i < len)%nat).
  { intros q Hq. apply H5. rewrite <- Eu. rewrite !in_app_iff. tauto. }
  split; [|split].
  - exists a, (rev rest' ++ it :: p'), b. rewrite <- app_assoc. cbn [app]. repeat split; auto.
    intros q Hq. apply in_app_or in Hq. destruct Hq as [Hq|[<-|Hq]].
    + destruct (Hu q (or_introl Hq)) as (i & E1 & L). exists i. split; auto.
    + exists len. split; auto.
    + destruct (Hu q (or_intror (or_intror Hq))) as (i & E1 & L). exists i. split; auto.
  - intros q Hq. apply Hu. right. left. apply in_rev in Hq. exact Hq.
  - exists (rev (rev rest' ++ rev pop)), a. rewrite Ep. cbn [rev]. split; [reflexivity|].
    intros q Hq. apply in_rev in Hq. apply in_app_or in Hq. apply Hu. tauto.
Qed.

Lemma clear_other : forall n m a, a <> n -> same_node m (avl_clear_node n m) a.
Proof. intros n m a N. unfold avl_clear_node, same_node; cbn. rewrite !fset_other by auto. auto 10. Qed.

Lemma nat_in_dec : forall (a : nat) l, {In a l} + {~ In a l}. Proof. intros. apply in_dec. apply Nat.eq_dec. Qed.

Lemma map_in_inj : forall k t p q, NoDup (map (addr k) t) -> In p t -> In q t -> addr k p = addr k q -> p = q.
Proof.
  induction t as [|a t IH]; intros p q ND Hp Hq E; [contradiction|]. cbn in ND. inversion ND as [|x l N1 N2]; subst.
  destruct Hp as [->|Hp], Hq as [->|Hq]; auto.
  - exfalso. apply N1. rewrite E. apply in_map. exact Hq.
  - exfalso. apply N1. rewrite <- E. apply in_map. exact Hp.
Qed.

Lemma add_at_sim : forall st own SZ s k it set prom k' s' r, R st own SZ s -> In (nx it) X ->
  add_at s k it set prom = Ret (s', r) ->
  exists st' own', p_add2level st k (crd it) set (option_map (addr k') prom) = Ret (st', r) /\ R st' own' SZ s' /\
    psets st' = psets st /\ fresh st' = fresh st.
Proof.
  intros st own SZ s k it set prom k' s' r HR HX E. unfold add_at in E.
  destruct (rd (lev s) k) as [t| | |] eqn:Et; try discriminate. destruct (rd (out s) k) as [l| | |] eqn:El; try discriminate. cbn [bind] in E.
  apply rd_inv in Et, El.
  destruct (nth_same_len _ _ _ (plevs st) k t (eq_sym (r_nlevs _ _ _ _ HR)) Et) as (h & Eh).
  destruct (nth_same_len _ _ _ (pouts st) k l (eq_sym (r_nouts _ _ _ _ HR)) El) as (o & Eo).
  destruct (r_lev _ _ _ _ HR k h t Eh Et) as [T Sh].
  pose proof (r_out _ _ _ _ HR k o l Eo El) as O.
  set (id := length (heap s)) in *. set (itm := with_id it id) in *.
  unfold add2level in E. destruct (span (before itm) t) as [pre post] eqn:Esp.
  destruct pre as [|pr0 pre0]; [discriminate|]. set (pre := pr0 :: pre0) in *. destruct post as [|aux post]; [discriminate|].
  destruct (search_prev st own (PLev k) h (la k t) itm T pre (aux :: post)) as (m & c & zp & a & q & zy & Es & Ep & Ez & Epre & Epost).
  { rewrite t_la. exact Esp. } { discriminate. } { discriminate. }
  destruct zy as [|[b q2] zy]; [discriminate|]. cbn [t_of map snd] in Epost. injection Epost as -> Epost.
  unfold p_add2level. rewrite (rd_some _ _ _ _ Eh), (rd_some _ _ _ _ Eo). cbn [bind].
  change (py (crd it)) with (ny itm). rewrite Es. cbn [bind fst snd deref].
  unfold prev_of in Ep. change (px (crd itm)) with (px (crd it)) in Ep. rewrite Ep. cbn [bind].
  destruct (zs_mid st h (la k t) (ta_holds _ _ _ _ _ _ T) zp a q ((b, q2) :: zy) Ez) as [_ En]. rewrite En. cbn [xs_of map fst hd_error deref bind].
  rewrite (pt_ok st (la k t) (ta_items _ _ _ _ _ _ T) b q2) by (rewrite Ez; apply in_or_app; right; right; now left).
  cbn [bind]. change (px (crd it)) with (nx itm). change (px (crd q2)) with (nx q2).
  destruct (Z.ltb_spec (nx itm) (nx q2)) as [L|L].
  2:{ injection E as <- <-. exists st, own. auto. }
  destruct (remove_left (rev pre) itm) as [[[rest o1] d]| | |] eqn:Er; try discriminate. cbn [bind] in E.
  destruct (insert_stair t itm pre q2 post rest o1 d) as (Etq & Stn & Hrest & pop & Epop & Nrest & Hop & Hdp & Hod & Hnd); auto.
  { rewrite <- (t_la k t). apply T. }
  destruct (shape_insert id t itm pre q2 post rest pop Sh Etq Epop Nrest eq_refl) as (Shn & Hpop & Hids).
  (* promoter *)
  assert (Pid : exists pid, match option_map (addr k') prom with None => Ret None | Some q' => i <- addr_id q' ;; Ret (Some i) end = Ret pid /\
     match prom with None => Ret None | Some q' => i <- id_of q' ;; Ret (Some i) end = Ret pid).
  { destruct prom as [pq|]; cbn [option_map]; [|eauto]. unfold id_of in *. unfold addr. destruct (nid pq) as [i|]; [|discriminate].
    rewrite even_level. cbn [bind]. eauto. }
  destruct Pid as (pid & Ep1 & Ep2). rewrite Ep2 in E. rewrite Ep1. cbn [bind] in *.
  destruct (wr (lev s) k (rev rest ++ itm :: q2 :: post)) as [l'| | |] eqn:El'; try discriminate. cbn [bind] in E.
  destruct (wr (out s) k (l ++ o1)) as [os'| | |] eqn:Eos'; try discriminate. cbn [bind] in E.
  destruct (set_removers (heap s) d id) as [f'| | |] eqn:Esr; try discriminate. cbn [bind] in E. injection E as <- <-.
  (* addresses *)
  rewrite (r_fields _ _ _ _ HR). fold id. set (n := level_addr id).
  assert (Fn : own n = Free) by (apply (r_free_lev _ _ _ _ HR); unfold id; lia).
  assert (On : forall a', own a' <> Free -> a' <> n) by (intros a' Ha ->; contradiction).
  set (st1 := set_fields (heap s ++ [mkInfo set pid None None]) (set_item n (Some (crd it)) (set_mem (avl_clear_node n (mem st)) st))).
  assert (Xs : xs_of (la k t) = xs_of zp ++ a :: b :: xs_of zy) by (rewrite Ez, xs_of_app; reflexivity).
  assert (Ot : forall a', In a' (xs_of (la k t)) -> own a' = PLev k) by apply T.
  assert (Nn : ~ In n (xs_of (la k t))) by (intros K; apply Ot in K; congruence).
  assert (H1 : holds (view (avl_clear_node n (mem st)) h) (xs_of (la k t))).
  { apply holds_view with (m := mem st); [apply T|]. intros a' Ha. apply clear_other. apply On. rewrite (Ot a' Ha). discriminate. }
  rewrite Xs in H1, Nn. pose proof (tree_alloc1 _ _ _ _ _ _ n T) as Al1. rewrite Xs in Al1.
  destruct (insert_after_node _ _ _ _ _ H1 Nn Al1) as (s1 & Ei & Hi).
  change (mem st1) with (avl_clear_node n (mem st)). rewrite Ei. cbn [bind].
  assert (Pn : AvlModel.prv s1 n = Some a).
  { destruct Hi as (_ & _ & _ & _ & Li). replace (xs_of zp ++ a :: n :: b :: xs_of zy) with ((xs_of zp ++ [a]) ++ n :: b :: xs_of zy) in Li by (rewrite <- app_assoc; reflexivity).
    apply linked_mid in Li. destruct Li as [-> _]. apply last_error_snoc. }
  rewrite Pn. cbn [deref bind].
  assert (Fi : forall a', ~ In a' (xs_of (la k t)) -> a' <> n -> same_node (mem st) s1 a').
  { intros a' Ha Ha2. apply (same_trans _ (avl_clear_node n (mem st))); [apply clear_other; exact Ha2|].
    apply same_view_l with (h := h). rewrite Xs in Ha. eapply insert_after_other; [exact H1| |exact Nn|exact Ei|exact Ha2|exact Ha]. apply in_or_app. right. now left. }
  destruct (la_split _ _ _ _ _ _ Ez) as (Et2 & Ezp & Ea & Ezy).
  assert (Eb : b = addr k q2) by (change (la k (t_of ((b, q2) :: zy))) with ((addr k q2, q2) :: la k (t_of zy)) in Ezy; congruence).
  assert (Ezy' : zy = la k (t_of zy)) by (change (la k (t_of ((b, q2) :: zy))) with ((addr k q2, q2) :: la k (t_of zy)) in Ezy; congruence).
  change (map snd zy) with (t_of zy) in Epost. rewrite <- Epost in Ezy'. clear Ezy. rename Ezy' into Ezy.
  assert (Mpre : map (addr k) pre = xs_of zp ++ [a]). { rewrite Epre, map_app. cbn [map]. rewrite <- Ea. f_equal. rewrite <- xs_la, <- Ezp. reflexivity. }
  assert (Mpost : map (addr k) post = xs_of zy) by (rewrite <- xs_la, <- Ezy; reflexivity).
  assert (NDt : NoDup (map (addr k) t)) by (rewrite <- xs_la; apply T).
  assert (NDpop : NoDup pop). { pose proof (stair_NoDup t) as K. rewrite Etq, Epop in K. assert (S' : stair t) by (rewrite <- (t_la k t); apply T). rewrite Etq, Epop in S'. specialize (K S').
    apply NoDup_app_elim in K. destruct K as (K & _). apply NoDup_app_elim in K. destruct K as (_ & K & _). apply NoDup_rev in K. rewrite rev_involutive in K. exact K. }
  assert (Hpt : forall q', In q' pop -> In q' t). { intros q' Hq. rewrite Etq, Epop. apply in_or_app. left. apply in_or_app. right. apply in_rev in Hq. exact Hq. }
  assert (Hrt : forall q', In q' rest -> In q' t). { intros q' Hq. rewrite Etq. apply in_or_app. left. auto. }
  assert (Hot : forall q', In q' t -> own (addr k q') = PLev k). { intros q' Hq. apply Ot. rewrite xs_la. apply in_map. exact Hq. }
  assert (Itq : forall q', In q' t -> item st (addr k q') = Some (crd q')).
  { intros q' Hq. apply (ta_items _ _ _ _ _ _ T). apply (in_map (fun q => (addr k q, q))) in Hq. exact Hq. }
  assert (Iq1 : forall a', a' <> n -> item st1 a' = item st a') by (intros a' Ha; cbn; apply fset_other; exact Ha).
  assert (In1 : item st1 n = Some (crd itm)) by (cbn; apply fset_same).
  assert (An : addr k itm = n) by reflexivity.
  assert (Ntn : forall q', In q' t -> addr k q' <> n) by (intros q' Hq; apply On; rewrite (Hot q' Hq); discriminate).
  pose proof (oa_own _ _ _ _ _ _ _ O) as Oown.
  destruct (remove_left_sim (addr k) (rev pre) itm rest o1 d Er (2 + length (fields st1)) (set_mem s1 st1) (hdr_of s1) o (map (addr k) l) id
    (n :: b :: xs_of zy) (f' ++ [mkInfo set pid None None])) as (st' & h' & oh' & Erm & G1 & G2 & G3 & G4 & G5 & G6 & G7 & G8 & G9).
  { rewrite rev_length. cbn [fields st1 set_fields]. rewrite app_length. cbn [length]. pose proof (shape_size k t id Sh NDt) as Sz. rewrite Etq, app_length in Sz. unfold id in Sz. lia. }
  { rewrite rev_involutive, Mpre, <- app_assoc. cbn [app]. cbn [mem set_mem]. rewrite view_hdr_of. exact Hi. }
  { rewrite rev_involutive, Mpre, <- app_assoc. cbn [app]. unfold allocatable in *. rewrite app_length in *. cbn [length] in *. rewrite app_length in *. cbn [length] in *. lia. }
  { intros q' Hq. apply in_rev in Hq. cbn [item set_mem]. assert (Hq' : In q' t) by (rewrite Etq; apply in_or_app; left; exact Hq). rewrite Iq1 by (apply Ntn; exact Hq'). apply Itq. exact Hq'. }
  { destruct Hids as (r' & z & Er' & Hr'). exists r', z. split; auto. intros q' Hq. destruct (Hr' q' Hq) as (i & E1 & _). exists i. split; auto. unfold addr. rewrite E1. reflexivity. }
  { cbn [mem set_mem]. apply (out_chain_frame _ (mem st)); [apply O|]. intros a' Ha. apply Fi.
    - intros K. apply Oown in Ha. rewrite (Ot a' K) in Ha. discriminate.
    - apply On. rewrite (Oown a' Ha). discriminate. }
  { apply O. }
  { intros a' Ha K. rewrite rev_involutive, Mpre, <- app_assoc in K. cbn [app] in K. apply Oown in Ha.
    apply in_app_or in K. destruct K as [K|[K|[K|K]]].
    - rewrite (Ot a') in Ha; [discriminate|]. rewrite Xs. apply in_or_app. now left.
    - rewrite (Ot a') in Ha; [discriminate|]. rewrite Xs. apply in_or_app. right. now left.
    - congruence.
    - rewrite (Ot a') in Ha; [discriminate|]. rewrite Xs. apply in_or_app. right. now right. }
  { cbn [fields set_mem st1 set_fields]. apply set_removers_app. exact Esr. }
  assert (Ehd : addr k (hd noid (rev pre)) = a) by (rewrite Epre, rev_unit; symmetry; exact Ea). rewrite Ehd in Erm.
  rewrite rev_involutive, Mpre, <- app_assoc in G9. cbn [app] in G9.
  cbn [fields st1 set_fields] in Erm |- *. change (crd itm) with (crd it) in Erm. fold n in Erm.
  change (set_mem s1 (set_fields (heap s ++ [mkInfo set pid None None]) (set_item n (Some (crd it)) (set_mem (avl_clear_node n (mem st)) st)))) with (set_mem s1 st1).
  rewrite Erm. cbn [bind].
  cbn [plevs pouts psets fresh set_mem st1 set_fields set_item] in G4, G5, G6, G7.
  rewrite G5, G6. rewrite !wr_ok by (eapply nth_lt; eauto). cbn [bind].
  unfold wr in El', Eos'. destruct (Nat.ltb_spec k (length (lev s))) as [Lk|]; [|discriminate]. destruct (Nat.ltb_spec k (length (out s))) as [Lo|]; [|discriminate].
  injection El' as <-. injection Eos' as <-.
  set (own' := fun x => if (x =? n)%nat then PLev k else if nat_in_dec x (map (addr k) o1) then POut k else if nat_in_dec x (map (addr k) d) then Free else own x).
  assert (Mo : forall x, In x (map (addr k) o1) -> exists q', In q' o1 /\ In q' pop /\ In q' t /\ x = addr k q').
  { intros x Hx. apply in_map_iff in Hx. destruct Hx as (q' & <- & Hq). exists q'. auto 10. }
  assert (Md : forall x, In x (map (addr k) d) -> exists q', In q' d /\ In q' pop /\ In q' t /\ x = addr k q').
  { intros x Hx. apply in_map_iff in Hx. destruct Hx as (q' & <- & Hq). exists q'. auto 10. }
  assert (Keep : forall x, own x <> PLev k -> x <> n -> own' x = own x).
  { intros x Hx Hn. unfold own'. destruct (Nat.eqb_spec x n); [contradiction|].
    destruct (nat_in_dec x (map (addr k) o1)) as [K|_]; [apply Mo in K; destruct K as (q' & _ & _ & Hq & ->); rewrite (Hot q' Hq) in Hx; contradiction|].
    destruct (nat_in_dec x (map (addr k) d)) as [K|_]; [apply Md in K; destruct K as (q' & _ & _ & Hq & ->); rewrite (Hot q' Hq) in Hx; contradiction|]. reflexivity. }
  assert (Same : forall x, own x <> PLev k -> own x <> POut k -> own x <> Free -> same_node (mem st) (mem st') x /\ item st' x = item st x).
  { intros x Hx Hx2 Hx3. assert (Nx : ~ In x (xs_of (la k t))) by (intros K; apply Ot in K; contradiction). split.
    - apply (same_trans _ s1); [apply Fi; auto|]. apply G9.
      + intros K. apply in_app_or in K. rewrite Xs in Nx. destruct K as [K|[K|[K|K]]]; [apply Nx; apply in_or_app; now left|apply Nx; apply in_or_app; right; now left|subst x; contradiction|apply Nx; apply in_or_app; right; now right].
      + intros K. apply Oown in K. contradiction.
    - rewrite G8; [apply Iq1; auto|]. intros K. apply Md in K. destruct K as (q' & _ & _ & Hq & ->). rewrite (Hot q' Hq) in Hx. contradiction. }
  assert (Frame : forall P x, own x = P -> P <> PLev k -> P <> POut k -> P <> Free -> own' x = P /\ same_node (mem st) (mem st') x /\ item st' x = item st x).
  { intros P x E1 E2 E3 E4. split; [|apply Same; congruence]. rewrite Keep; [exact E1|congruence|]. apply On. congruence. }
  assert (Itn : forall q', In q' t -> ~ In q' d -> item st' (addr k q') = Some (crd q')).
  { intros q' Hq Nd. rewrite G8. { cbn [item set_mem]. rewrite Iq1 by auto. auto. } intros K. apply Md in K. destruct K as (q'' & Hd & _ & Ht & Eq).
    apply (map_in_inj k t) in Eq; auto. subst q''. contradiction. }
  assert (NDt2 : NoDup t) by (apply stair_NoDup; rewrite <- (t_la k t); apply T).
  assert (Nrp : forall q', In q' rest -> In q' pop -> False).
  { intros q' Hr Hp. rewrite Etq, Epop in NDt2. apply NoDup_app_elim in NDt2. destruct NDt2 as (K & _). apply NoDup_app_elim in K. destruct K as (_ & _ & K).
    apply (K q'); apply in_rev; rewrite rev_involutive; assumption. }
  assert (Npp : forall q', In q' (q2 :: post) -> In q' pop -> False).
  { intros q' Hr Hp. rewrite Etq, Epop in NDt2. apply NoDup_app_elim in NDt2. destruct NDt2 as (_ & _ & K). apply (K q'); auto. apply in_or_app. right. apply in_rev. rewrite rev_involutive. exact Hp. }
  assert (Hpt2 : forall q', In q' (q2 :: post) -> In q' t) by (intros q' Hq; rewrite Etq; apply in_or_app; now right).
  (* nodes that stay *)
  assert (Stay : forall q', In q' t -> ~ In q' pop -> own' (addr k q') = PLev k /\ item st' (addr k q') = Some (crd q')).
  { intros q' Hq Np. split.
    - unfold own'. destruct (Nat.eqb_spec (addr k q') n); auto. destruct (nat_in_dec (addr k q') (map (addr k) o1)) as [K|_].
      { apply Mo in K. destruct K as (q'' & _ & Hp & Ht & Eq). apply (map_in_inj k t) in Eq; auto. subst q''. contradiction. }
      destruct (nat_in_dec (addr k q') (map (addr k) d)) as [K|_]; [|auto].
      apply Md in K. destruct K as (q'' & _ & Hp & Ht & Eq). apply (map_in_inj k t) in Eq; auto. subst q''. contradiction.
    - apply Itn; auto. }
  assert (Newn : own' n = PLev k /\ item st' n = Some (crd itm)).
  { split. { unfold own'. rewrite Nat.eqb_refl. reflexivity. } rewrite G8; [exact In1|]. intros K. apply Md in K. destruct K as (q' & _ & _ & Ht & Eq). apply (Ntn q' Ht). auto. }
  assert (Cases : forall q', In q' (rev rest ++ itm :: q2 :: post) -> (In q' t /\ ~ In q' pop) \/ q' = itm).
  { intros q' Hq. apply in_app_or in Hq. destruct Hq as [Hq|[<-|Hq]]; [apply in_rev in Hq; left|now right|left].
    - split; auto. intros K. apply (Nrp q'); auto. - split; auto. intros K. apply (Npp q'); auto. }
  exists (set_pouts (upd (pouts st) k oh') (set_plevs (upd (plevs st) k h') st')), own'.
  split; [reflexivity|]. split; [|split; cbn; auto].
  assert (Lh : length (f' ++ [mkInfo set pid None None]) = S id) by (rewrite app_length, (set_removers_length _ _ _ _ Esr); cbn; unfold id; lia).
  constructor; cbn [fields set_pouts set_plevs heap psets plevs pouts fresh mem item lev out].
  - exact G3.
  - rewrite Lh. intros i Li. assert (Fi2 : own (level_addr i) = Free) by (apply (r_free_lev _ _ _ _ HR); unfold id in Li; lia).
    rewrite Keep; auto; [congruence|]. intros K. apply level_inj in K. lia.
  - rewrite G7. intros j Lj. pose proof (r_free_odd _ _ _ _ HR j Lj) as Fj. rewrite Keep; auto; [congruence|]. intros K. apply (level_other id j). auto.
  - rewrite G4. apply HR.
  - rewrite !upd_length. apply HR.
  - rewrite !upd_length. apply HR.
  - rewrite G4. intros k0 h0 zs0 E1 E2. destruct (r_set _ _ _ _ HR k0 h0 zs0 E1 E2) as [T0 J]. split; auto.
    eapply tree_at_frame; [exact T0|]. intros x Hx. apply Frame; auto; discriminate.
  - intros k0 h0 t0. rewrite !nth_error_upd; [|auto|rewrite (r_nlevs _ _ _ _ HR); auto]. destruct (Nat.eqb_spec k k0) as [->|Nk].
    + intros E1 E2. injection E1 as <-. injection E2 as <-. split; [|rewrite Lh; exact Shn]. constructor.
      * rewrite xs_la, map_app. cbn [map]. rewrite An, <- Eb, Mpost. exact G1.
      * intros x q' Hq. unfold la in Hq. apply in_map_iff in Hq. destruct Hq as (q'' & Eq & Hq). injection Eq as <- <-.
        destruct (Cases q'' Hq) as [[Hq1 Hq2]| ->]; [apply Stay; auto|rewrite An; apply Newn].
      * intros x Hx. rewrite xs_la in Hx. apply in_map_iff in Hx. destruct Hx as (q' & <- & Hq).
        destruct (Cases q' Hq) as [[Hq1 Hq2]| ->]; [apply Stay; auto|rewrite An; apply Newn].
      * rewrite t_la. exact Stn.
      * rewrite t_la. intros q' Hq. destruct (Cases q' Hq) as [[Hq1 Hq2]| ->]; [|exact HX]. apply (ta_X _ _ _ _ _ _ T). rewrite t_la. exact Hq1.
    + intros E1 E2. destruct (r_lev _ _ _ _ HR k0 h0 t0 E1 E2) as [T0 Sh0]. split; [|rewrite Lh; apply shape_len with (len := id); auto].
      eapply tree_at_frame; [exact T0|]. intros x Hx. apply Frame; auto; congruence.
  - intros k0 h0 l0. rewrite !nth_error_upd; [|auto|rewrite (r_nouts _ _ _ _ HR); auto]. destruct (Nat.eqb_spec k k0) as [->|Nk].
    + intros E1 E2. injection E1 as <-. injection E2 as <-.
      assert (Oo1 : forall x, In x (map (addr k0) o1) -> own' x = POut k0).
      { intros x Hx. unfold own'. destruct (Nat.eqb_spec x n) as [->|_]; [apply Mo in Hx; destruct Hx as (q' & _ & _ & Hq & Eq); exfalso; apply (Ntn q' Hq); auto|].
        destruct (nat_in_dec x (map (addr k0) o1)); [reflexivity|contradiction]. }
      constructor.
      * rewrite map_app. exact G2.
      * rewrite map_app. apply NoDup_app_intro; [apply O| |].
        -- destruct (Hnd [] NDpop) as [ND1 _]. clear -ND1 Hop Hpt NDt. induction o1 as [|x o1 IH]; cbn; [constructor|]. inversion ND1; subst. constructor.
           ++ intros K. apply in_map_iff in K. destruct K as (y & Ey & Hy). apply (map_in_inj k0 t) in Ey; auto; [subst; contradiction| |]; apply Hpt; apply Hop; [now right|now left].
           ++ apply IH; auto. intros q Hq. apply Hop. now right.
        -- intros x H2 H3. apply Oown in H2. apply Mo in H3. destruct H3 as (q' & _ & _ & Hq & ->). rewrite (Hot q' Hq) in H2. discriminate.
      * intros x q' Hq. rewrite la_app in Hq. apply in_app_or in Hq. destruct Hq as [Hq|Hq].
        -- assert (Ex : In x (map (addr k0) l)) by (apply (in_map fst) in Hq; rewrite <- xs_la; exact Hq). apply Oown in Ex.
           rewrite G8. { cbn [item set_mem]. rewrite Iq1; [apply (oa_items _ _ _ _ _ _ _ O); exact Hq|]. apply On. congruence. }
           intros K. apply Md in K. destruct K as (q'' & _ & _ & Ht & ->). rewrite (Hot q'' Ht) in Ex. discriminate.
        -- unfold la in Hq. apply in_map_iff in Hq. destruct Hq as (q'' & Eq & Hq). injection Eq as <- <-. apply Itn; auto. intros K. apply (Hod q''); auto.
      * intros x Hx. rewrite map_app in Hx. apply in_app_or in Hx. destruct Hx as [Hx|Hx]; [|auto].
        pose proof (Oown x Hx) as E1. rewrite Keep; auto; [congruence|]. apply On. congruence.
      * rewrite Lh. intros q' Hq. apply in_app_or in Hq. destruct Hq as [Hq|Hq].
        -- destruct (oa_ids _ _ _ _ _ _ _ O q' Hq) as (i & E1 & Li). exists i. split; auto.
        -- destruct (Hpop q' (Hop q' Hq)) as (i & E1 & Li). exists i. split; auto.
    + intros E1 E2. apply (out_at_frame (mem st) (item st) own id); [apply (r_out _ _ _ _ HR); auto| |lia].
      intros x Hx. apply Frame; auto; congruence.
  - intros k0 l0 t0. rewrite !nth_error_upd; auto. destruct (Nat.eqb_spec k k0) as [->|Nk].
    + intros E1 E2 _. injection E2 as <-. exists itm, id. split; [|reflexivity]. apply in_or_app. right. now left.
    + apply (r_inner _ _ _ _ HR).
Qed.
End Rel.
