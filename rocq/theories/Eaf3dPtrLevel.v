(** The pointer trees of the 3-objective EAF: removal from a level and the output lists. *)
From Coq Require Import List ZArith Lia Bool Arith Sorted.
From Verif Require Import Base EafModel EafStoreModel AvlModel AvlSpec AvlProofs AvlRotate AvlOps AvlFrame.
From Verif Require Import Eaf3dModel Eaf3dTrees Eaf3dProofs Eaf3dPtrModel Eaf3dPtrTree.
Import ListNotations.
Open Scope Z_scope.

Lemma same_refl : forall m a, same_node m m a. Proof. intros. repeat split. Qed.
Lemma same_trans : forall m1 m2 m3 a, same_node m1 m2 a -> same_node m2 m3 a -> same_node m1 m3 a.
Proof. intros m1 m2 m3 a (A1 & A2 & A3 & A4 & A5 & A6) (B1 & B2 & B3 & B4 & B5 & B6). repeat split; congruence. Qed.
Lemma same_view : forall m m' h h' a, same_node m m' a -> same_node (view m h) (view m' h') a. Proof. intros. exact H. Qed.
Lemma same_view_l : forall m h s a, same_node (view m h) s a -> same_node m s a. Proof. intros. exact H. Qed.
Lemma view_hdr_of : forall s, view s (hdr_of s) = s. Proof. destruct s; reflexivity. Qed.
Lemma holds_view : forall m m' h xs, holds (view m h) xs -> (forall a, In a xs -> same_node m m' a) -> holds (view m' h) xs.
Proof. intros m m' h xs H F. apply (holds_frame (view m h)); auto. Qed.
Lemma holds_result : forall s m' xs, holds s xs -> (forall a, In a xs -> same_node s m' a) -> holds (view m' (hdr_of s)) xs.
Proof. intros s m' xs H F. rewrite <- (view_hdr_of s) in H. apply holds_view with (m := s); auto. Qed.

Lemma even_level : forall i, addr_id (level_addr i) = Ret i.
Proof. intros i. unfold addr_id, level_addr. rewrite Nat.even_mul. cbn [Nat.even orb]. rewrite Nat.div2_double. reflexivity. Qed.
Lemma level_inj : forall i j, level_addr i = level_addr j -> i = j. Proof. unfold level_addr. lia. Qed.
Lemma other_inj : forall i j, other_addr i = other_addr j -> i = j. Proof. unfold other_addr. lia. Qed.
Lemma level_other : forall i j, level_addr i <> other_addr j. Proof. unfold level_addr, other_addr. lia. Qed.

Lemma nodup_snoc : forall (os : list nat) a, NoDup os -> ~ In a os -> NoDup (os ++ [a]).
Proof. intros os a H N. apply NoDup_app_intro; auto. - repeat constructor. intros []. - intros x H1 [<-|[]]. contradiction. Qed.

(** ** Output lists *)
Fixpoint conn (m : avl) (os : list nat) : Prop :=
  match os with
  | a :: ((b :: _) as os') => AvlModel.nxt m a = Some b /\ conn m os'
  | _ => True
  end.
Definition out_chain (m : avl) (o : hdr) (os : list nat) : Prop :=
  match os with
  | [] => o = empty_hdr
  | _ => fst (fst o) = hd_error os /\ snd (fst o) = last_error os /\ snd o <> None
  end /\ conn m os.

Lemma conn_frame : forall os m m', conn m os -> (forall a, In a os -> AvlModel.nxt m' a = AvlModel.nxt m a) -> conn m' os.
Proof.
  induction os as [|a os IH]; intros m m' H F; [exact I|]. destruct os as [|b os]; [exact I|]. destruct H as [H1 H2]. split.
  - rewrite F by now left. exact H1. - apply (IH m); auto. intros x Hx. apply F. now right.
Qed.
Lemma conn_snoc : forall os t n m m', conn m (os ++ [t]) -> (forall a, In a os -> AvlModel.nxt m' a = AvlModel.nxt m a) ->
  AvlModel.nxt m' t = Some n -> conn m' ((os ++ [t]) ++ [n]).
Proof.
  induction os as [|a os IH]; intros t n m m' H F E; [cbn; auto|]. cbn [app] in *.
  destruct (os ++ [t]) as [|b l] eqn:El; [destruct os; discriminate|]. cbn [app] in *. destruct H as [H1 H2]. split.
  - rewrite F by now left. exact H1.
  - specialize (IH t n m m'). rewrite El in IH. apply IH; auto. intros x Hx. apply F. now right.
Qed.
Lemma out_chain_frame : forall os m m' o, out_chain m o os -> (forall a, In a os -> same_node m m' a) -> out_chain m' o os.
Proof. intros os m m' o [H1 H2] F. split; auto. apply (conn_frame os m); auto. intros a Ha. apply F. exact Ha. Qed.

Lemma add2output_ok : forall m o os n, out_chain m o os -> NoDup os -> ~ In n os ->
  exists m' o', p_add2output m o n = Ret (m', o') /\ out_chain m' o' (os ++ [n]) /\
    forall a, ~ In a os -> a <> n -> same_node m m' a.
Proof.
  intros m o os n [H1 H2] ND Nn. unfold p_add2output. destruct os as [|b os].
  - subst o. cbn [empty_hdr snd fst]. eexists _, _. split; [reflexivity|]. split.
    + split; [|exact I]. cbn. repeat split; congruence.
    + intros a _ Ha. apply same_view_l with (h := empty_hdr). apply (insert_top_other _ n _ eq_refl). exact Ha.
  - destruct H1 as (E1 & E2 & E3). destruct (snd o) as [tp0|] eqn:Et; [|congruence].
    destruct (snoc_cases _ (b :: os)) as [K|(w & t & Ew)]; [discriminate|]. rewrite Ew in *. rewrite E2, last_error_snoc. cbn [deref bind].
    eexists _, _. split; [reflexivity|]. split.
    + split.
      * destruct ((w ++ [t]) ++ [n]) as [|x l] eqn:Ex; [destruct w; discriminate|]. cbn [fst snd]. rewrite <- Ex, last_error_snoc.
        split; [|split; [reflexivity|congruence]]. rewrite E1. destruct w; reflexivity.
      * apply (conn_snoc w t n m); auto.
        -- intros a Ha. cbn. apply fset_other. intros ->. apply NoDup_remove_2 in ND. apply ND. rewrite app_nil_r. exact Ha.
        -- cbn. apply fset_same.
    + intros a Ha _. unfold same_node; cbn. rewrite fset_other; auto 10. intros ->. apply Ha. apply in_or_app. right. now left.
Qed.

(** ** The loop of add2level *)
Lemma remove_left_inv : forall r it rest o d, remove_left r it = Ret (rest, o, d) ->
  exists pop b rest', r = pop ++ rest /\ rest = b :: rest' /\ nx b < nx it /\ (forall q, In q pop -> nx it <= nx q) /\
    o = filter (fun a => nz a <? nz it) pop /\ d = filter (fun a => negb (nz a <? nz it)) pop.
Proof.
  induction r as [|a r IH]; intros it rest o d H; cbn in H; [discriminate|].
  destruct (Z.leb_spec (nx it) (nx a)) as [L|L].
  - destruct (remove_left r it) as [[[rest1 o1] d1]| | |] eqn:E; try discriminate. cbn [bind] in H.
    destruct (IH it rest1 o1 d1 E) as (pop & b & rest' & -> & -> & Lb & Hp & -> & ->).
    exists (a :: pop), b, rest'. cbn [filter]. destruct (nz a <? nz it); injection H as <- <- <-; cbn; repeat split; auto; intros q [<-|Hq]; auto.
  - injection H as <- <- <-. exists [], a, r. repeat split; auto. intros q [].
Qed.

Definition noid : node := mkNode 0 0 0 None.

Lemma alloc_app_remove : forall (u : list nat) a v, allocatable (u ++ a :: v) -> allocatable (u ++ v).
Proof. unfold allocatable. intros u a v. rewrite !app_length. cbn [length]. lia. Qed.

Lemma remove_left_sim : forall (A : node -> nat) r it rest o d, remove_left r it = Ret (rest, o, d) ->
  forall fuel st h oh os new rgt_ f',
  (length r <= fuel)%nat ->
  holds (view (mem st) h) (map A (rev r) ++ rgt_) -> allocatable (map A (rev r) ++ rgt_) ->
  (forall q, In q r -> item st (A q) = Some (crd q)) ->
  (exists r' z, r = r' ++ [z] /\ forall q, In q r' -> exists i, nid q = Some i /\ A q = level_addr i) ->
  out_chain (mem st) oh os -> NoDup os -> (forall a, In a os -> ~ In a (map A (rev r) ++ rgt_)) ->
  set_removers (fields st) d new = Ret f' ->
  exists st' h' oh', p_remove_left fuel st h oh (crd it) new (A (hd noid r)) = Ret (st', h', oh') /\
    holds (view (mem st') h') (map A (rev rest) ++ rgt_) /\
    out_chain (mem st') oh' (os ++ map A o) /\ fields st' = f' /\
    psets st' = psets st /\ plevs st' = plevs st /\ pouts st' = pouts st /\ fresh st' = fresh st /\
    (forall a, ~ In a (map A d) -> item st' a = item st a) /\
    (forall a, ~ In a (map A (rev r) ++ rgt_) -> ~ In a os -> same_node (mem st) (mem st') a).
Proof.
  intros A. induction r as [|a r IH]; intros it rest o d Er fuel st h oh os new rgt_ f' Hf H Al Hit Hid Ho NDo Dis Hs; cbn [remove_left] in Er; [discriminate|].
  assert (Ep : pt st (A a) = Ret (crd a)) by (unfold pt; rewrite (Hit a (or_introl eq_refl)); reflexivity).
  cbn [hd]. destruct fuel as [|fuel]; [cbn in Hf; lia|]. cbn [p_remove_left]. rewrite Ep. cbn [bind]. change (px (crd it)) with (nx it). change (px (crd a)) with (nx a).
  change (pz (crd it)) with (nz it). change (pz (crd a)) with (nz a).
  destruct (nx it <=? nx a) eqn:L.
  2:{ injection Er as <- <- <-. cbn in Hs. injection Hs as <-. exists st, h, oh. cbn [map]. rewrite app_nil_r. do 9 (split; [solve [auto]|]). intros; apply same_refl. }
  destruct (remove_left r it) as [[[rest1 o1] d1]| | |] eqn:E1; try discriminate. cbn [bind] in Er.
  destruct r as [|b r]; [discriminate|].
  cbn [rev] in H, Al, Dis. rewrite map_app, <- app_assoc in H, Al, Dis. cbn [map app] in H, Al, Dis. fold (rev (b :: r)) in H, Al, Dis.
  set (R0 := rev (b :: r)) in *.
  destruct (unlink_node (view (mem st) h) (map A R0) (A a) rgt_ H Al) as (s & Eu & Hs' & Pv & _).
  assert (Fr : forall x, ~ In x (map A R0 ++ A a :: rgt_) -> same_node (mem st) s x).
  { intros x Hx. apply same_view_l with (h := h). eapply unlink_other; eauto. apply in_or_app. right. now left. }
  assert (Pb : AvlModel.prv s (A a) = Some (A b)).
  { rewrite Pv. change (AvlModel.prv (view (mem st) h) (A a)) with (AvlModel.prv (mem st) (A a)). destruct (holds_mid _ _ _ _ _ H) as [-> _]. unfold R0. cbn [rev]. rewrite map_app. cbn [map]. apply last_error_snoc. }
  rewrite Eu. cbn [bind]. rewrite Pb. cbn [deref bind].
  assert (ND : NoDup (map A R0 ++ A a :: rgt_)) by apply H. apply NoDup_remove_2 in ND.
  assert (Al' : allocatable (map A R0 ++ rgt_)) by (eapply alloc_app_remove; eauto).
  destruct Hid as (r' & z & Ez & Hid).
  destruct r' as [|a' r']; [cbn in Ez; discriminate|]. cbn [app] in Ez. injection Ez as <- Ez.
  assert (Hid' : exists r'0 z0, b :: r = r'0 ++ [z0] /\ forall q, In q r'0 -> exists i, nid q = Some i /\ A q = level_addr i).
  { exists r', z. split; auto. intros q Hq. apply Hid. now right. }
  assert (Ra : forall q, In q (b :: r) -> In (A q) (map A R0)) by (intros q Hq; apply in_map; unfold R0; apply in_rev in Hq; exact Hq).
  assert (Nao : ~ In (A a) os). { intros K. apply (Dis _ K). apply in_or_app. right. now left. }
  assert (Ho' : out_chain s oh os) by (apply (out_chain_frame os (mem st)); auto).
  destruct (nz a <? nz it) eqn:Lz.
  - injection Er as -> <- <-.
    destruct (add2output_ok s oh os (A a) Ho' NDo Nao) as (m2 & o2 & Eo & Ho2 & Fo). rewrite Eo. cbn [bind fst snd].
    destruct (IH it rest o1 d1 E1 fuel (set_mem m2 st) (hdr_of s) o2 (os ++ [A a]) new rgt_ f') as (st' & h' & oh' & Ep' & G1 & G2 & G3 & G4 & G5 & G6 & G7 & G8 & G9).
    + cbn [length] in *. lia.
    + cbn [mem set_mem]. apply holds_result; auto. intros x Hx. apply Fo. { intros K. apply (Dis _ K). apply in_app_or in Hx. apply in_or_app. destruct Hx; auto. right. now right. } intros ->. contradiction.
    + exact Al'.
    + intros q Hq. cbn [item set_mem]. apply Hit. now right.
    + exact Hid'.
    + cbn [mem set_mem]. exact Ho2.
    + apply nodup_snoc; auto.
    + intros x Hx. apply in_app_or in Hx. destruct Hx as [Hx|[<-|[]]]; [|exact ND]. intros K. apply (Dis x Hx). apply in_app_or in K. apply in_or_app. destruct K; auto. right. now right.
    + exact Hs.
    + exists st', h', oh'. cbn [hd] in Ep'. rewrite Ep'. cbn [mem set_mem item psets plevs pouts fresh] in *.
      cbn [map]. rewrite <- app_assoc in G2. do 9 (split; [solve [auto]|]).
      intros x Hx Hxo. cbn [rev] in Hx. rewrite map_app, <- app_assoc in Hx. cbn [map app] in Hx.
      assert (x <> A a) by (intros ->; apply Hx; apply in_or_app; right; now left).
      apply (same_trans _ m2); [apply (same_trans _ s); [apply Fr; exact Hx|apply Fo; auto]|].
      apply G9.
      * intros K. apply Hx. apply in_app_or in K. apply in_or_app. destruct K; auto. right. now right.
      * intros K. apply in_app_or in K. destruct K as [K|[K|[]]]; auto.
  - injection Er as -> <- <-.
    destruct (Hid a (or_introl eq_refl)) as (i & Ei & Ai).
    cbn [set_removers] in Hs. unfold id_of in Hs. rewrite Ei in Hs. cbn [bind] in Hs.
    rewrite Ai, even_level. cbn [bind].
    destruct (rd (fields st) i) as [f| | |]; try discriminate. cbn [bind] in *.
    destruct (wr (fields st) i (mkInfo (iset f) (iprom f) (Some new) (ieq f))) as [fs| | |]; try discriminate. cbn [bind fst snd] in *. rewrite <- Ai.
    set (st1 := set_removed (Some (A a)) (set_fields fs (set_item (A a) None (set_mem (set_nxt (A a) (removed st) s) st)))).
    assert (Fs : forall x, x <> A a -> same_node s (set_nxt (A a) (removed st) s) x).
    { intros x Hx. unfold same_node; cbn. rewrite fset_other by auto. auto 10. }
    destruct (IH it rest o1 d1 E1 fuel st1 (hdr_of s) oh os new rgt_ f') as (st' & h' & oh' & Ep' & G1 & G2 & G3 & G4 & G5 & G6 & G7 & G8 & G9).
    + cbn [length] in *. lia.
    + cbn [mem st1 set_removed set_fields set_item set_mem]. apply holds_result; auto. intros x Hx. apply Fs. intros ->. contradiction.
    + exact Al'.
    + intros q Hq. cbn [item st1 set_removed set_fields set_item set_mem]. rewrite fset_other. { apply Hit. now right. }
      intros K. apply ND. rewrite <- K. apply in_or_app. left. apply Ra. exact Hq.
    + exact Hid'.
    + cbn [mem st1 set_removed set_fields set_item set_mem]. apply (out_chain_frame os s); auto. intros x Hx. apply Fs. intros ->. contradiction.
    + exact NDo.
    + intros x Hx K. apply (Dis x Hx). apply in_app_or in K. apply in_or_app. destruct K; auto. right. now right.
    + exact Hs.
    + exists st', h', oh'. cbn [hd] in Ep'. rewrite Ep'. cbn [mem st1 set_removed set_fields set_item set_mem item psets plevs pouts fresh] in *.
      do 8 (split; [solve [auto]|]). split.
      * intros x Hx. cbn [map] in Hx. rewrite G8 by (intros K; apply Hx; now right). apply fset_other. intros ->. apply Hx. now left.
      * intros x Hx Hxo. cbn [rev] in Hx. rewrite map_app, <- app_assoc in Hx. cbn [map app] in Hx.
        assert (x <> A a) by (intros ->; apply Hx; apply in_or_app; right; now left).
        apply (same_trans _ (set_nxt (A a) (removed st) s)); [apply (same_trans _ s); [apply Fr; exact Hx|apply Fs; auto]|].
        apply G9; auto. intros K. apply Hx. apply in_app_or in K. apply in_or_app. destruct K; auto. right. now right.
Qed.
