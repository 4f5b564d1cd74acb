(** The pointer trees of the 3-objective EAF: the output lists and the whole program. *)
From Coq Require Import List ZArith Lia Bool Arith Sorted.
From Verif Require Import Base EafModel EafStoreModel AvlModel AvlSpec AvlProofs AvlRotate AvlOps AvlFrame.
From Verif Require Import Eaf3dModel Eaf3dTrees Eaf3dProofs Eaf3dPtrModel Eaf3dPtrTree Eaf3dPtrLevel Eaf3dPtrRel Eaf3dPtrSim Eaf3dPtrSet Eaf3dPtrMain.
Import ListNotations.
Open Scope Z_scope.

(** following next from [a] visits the nodes [l] *)
Fixpoint run (m : avl) (it : nat -> option xyz) (a : option nat) (l : list node) : Prop :=
  match l with
  | [] => a = None
  | q :: l => exists i, nid q = Some i /\ a = Some (level_addr i) /\ it (level_addr i) = Some (crd q) /\ run m it (AvlModel.nxt m (level_addr i)) l
  end.

Lemma run_frame : forall l m it m' it' a, run m it a l ->
  (forall q i, In q l -> nid q = Some i -> AvlModel.nxt m' (level_addr i) = AvlModel.nxt m (level_addr i) /\ it' (level_addr i) = it (level_addr i)) -> run m' it' a l.
Proof.
  induction l as [|q l IH]; intros m it m' it' a H F; cbn [run] in *; auto.
  destruct H as (i & E & Ea & Ei & H). exists i. destruct (F q i (or_introl eq_refl) E) as [F1 F2]. rewrite F1, F2. do 3 (split; [assumption|]).
  apply (IH m it); auto. intros q' i' Hq. apply F. now right.
Qed.

Lemma conn_front : forall ws c m m', conn m (ws ++ [c]) -> (forall a, In a ws -> AvlModel.nxt m' a = AvlModel.nxt m a) -> conn m' (ws ++ [c]).
Proof.
  induction ws as [|a ws IH]; intros c m m' H F; [exact I|]. cbn [app] in *. destruct (ws ++ [c]) as [|b v] eqn:Ev; [exact I|].
  destruct H as [H1 H2]. split; [rewrite F; [exact H1|now left]|]. rewrite <- Ev in *. apply (IH c m); auto. intros x Hx. apply F. now right.
Qed.

Section Out.
Variables (lo : Z) (X : list Z).
Notation addr := (Eaf3dPtrRel.addr lo).
Notation la := (Eaf3dPtrRel.la lo).

Definition numbered (len : nat) (l : list node) : Prop := forall q, In q l -> exists i, nid q = Some i /\ (i < len)%nat.
Lemma addr_num : forall k q i, nid q = Some i -> addr k q = level_addr i. Proof. intros k q i E. unfold Eaf3dPtrRel.addr. rewrite E. reflexivity. Qed.

Lemma linked_run : forall m it k len u p, AvlSpec.linked m p (map (addr k) u) None -> numbered len u -> items_ok it (la k u) -> run m it (hd_error (map (addr k) u)) u.
Proof.
  intros m it k len. induction u as [|q u IH]; intros p H Hn Hi; [reflexivity|]. cbn [map hd_error run].
  destruct (Hn q (or_introl eq_refl)) as (i & E & _). exists i. split; [exact E|]. rewrite (addr_num k q i E). split; [reflexivity|]. split.
  - apply Hi. unfold Eaf3dPtrRel.la. cbn. left. rewrite (addr_num k q i E). reflexivity.
  - cbn [map AvlSpec.linked] in H. destruct H as (_ & H1 & H2). rewrite (addr_num k q i E) in *. rewrite H1.
    replace (match map (addr k) u with [] => None | y :: _ => Some y end) with (hd_error (map (addr k) u)) by (destruct (map (addr k) u); reflexivity).
    apply (IH (Some (level_addr i))); auto. + intros q' Hq. apply Hn. now right. + intros a q' Hq. apply Hi. right. exact Hq.
Qed.
Lemma conn_run : forall m it k len u a' l, conn m (map (addr k) l) -> numbered len l -> items_ok it (la k l) -> l <> [] ->
  (forall x, last_error (map (addr k) l) = Some x -> AvlModel.nxt m x = a') -> run m it a' u -> run m it (hd_error (map (addr k) l)) (l ++ u).
Proof.
  intros m it k len u a'. induction l as [|q l IH]; intros H Hn Hi Ne Hl Hu; [congruence|]. cbn [map hd_error app run].
  destruct (Hn q (or_introl eq_refl)) as (i & E & _). exists i. split; [exact E|]. rewrite (addr_num k q i E) in *. split; [reflexivity|]. split.
  - apply Hi. unfold Eaf3dPtrRel.la. cbn. left. rewrite (addr_num k q i E). reflexivity.
  - destruct l as [|r l].
    + cbn [app]. rewrite (Hl (level_addr i)); auto. cbn. rewrite (addr_num k q i E). reflexivity.
    + assert (H' : AvlModel.nxt m (level_addr i) = Some (addr k r) /\ conn m (map (addr k) (r :: l))).
      { cbn [map conn] in H. rewrite (addr_num k q i E) in H. exact H. }
      destruct H' as [H1 H2]. rewrite H1. change (Some (addr k r)) with (hd_error (map (addr k) (r :: l))). apply IH; auto; try discriminate.
      * intros q' Hq. apply Hn. now right. * intros a q' Hq. apply Hi. right. exact Hq.
Qed.

Variable wipe : avl.
Variable Xsmall : Z.of_nat (length X) < 2 ^ 119.

Lemma numbered_size : forall k l len, numbered len l -> NoDup (map (addr k) l) -> (length l <= len)%nat.
Proof.
  intros k l len H ND.
  assert (L : (length (map (addr k) l) <= length (map level_addr (seq 0 len)))%nat).
  { apply NoDup_incl_length; auto. intros x Hx. apply in_map_iff in Hx. destruct Hx as (q & <- & Hq). destruct (H q Hq) as (i & E & Li).
    rewrite (addr_num k q i E). apply in_map. apply in_seq. lia. }
  rewrite !map_length, seq_length in L. exact L.
Qed.

Lemma all_sim : forall st own len k o h t l x,
  tree_at X (mem st) (item st) own (PLev k) h (la k t) -> shape lo len t -> out_at lo (mem st) (item st) own len k o l ->
  (l <> [] -> exists q i, In q t /\ nid q = Some i) -> add2output_all l t = Ret x ->
  exists st' a, p_add2output_all wipe st o h = Ret (st', a) /\ run (mem st') (item st') a x /\ fields st' = fields st /\
    (forall b, own b <> PLev k -> own b <> POut k -> same_node (mem st) (mem st') b /\ item st' b = item st b) /\
    (length x <= len)%nat /\ (forall q i, In q x -> nid q = Some i -> own (level_addr i) = PLev k \/ own (level_addr i) = POut k).
Proof.
  intros st own len k o h t l x T Sh O In_ E. pose proof (tree_alloc X Xsmall _ _ _ _ _ _ T) as Al.
  destruct T as [Th Ti To _ _]. destruct O as [Oc On Oi Oo Od]. rewrite xs_la in *.
  destruct Sh as (s1 & u & s2 & -> & I1 & L1 & I2 & L2 & Hu).
  cbn [add2output_all] in E. rewrite rev_unit, rev_involutive in E. injection E as <-.
  set (n1 := addr k s1) in *. set (n2 := addr k s2) in *. set (us := map (addr k) u) in *.
  assert (Em : map (addr k) (s1 :: u ++ [s2]) = n1 :: us ++ [n2]) by (cbn [map]; rewrite map_app; reflexivity). rewrite Em in *.
  assert (ND : NoDup (n1 :: us ++ [n2])) by apply Th.
  assert (N1 : ~ In n1 (us ++ [n2])) by (inversion ND; auto).
  assert (ND2 : NoDup us /\ ~ In n2 us). { inversion ND as [|? ? _ N]; subst. split; [apply NoDup_app_elim in N; apply N|]. apply NoDup_remove_2 in N. rewrite app_nil_r in N. exact N. }
  destruct ND2 as [NDu N2].
  assert (Hu1 : numbered len u) by exact Hu.
  assert (Iu : items_ok (item st) (la k u)). { intros a q Hq. apply Ti. right. unfold Eaf3dPtrRel.la. rewrite map_app. apply in_or_app. left. exact Hq. }
  assert (Ou : forall a, In a us -> own a = PLev k). { intros a Ha. apply To. right. apply in_or_app. now left. }
  assert (O1 : own n1 = PLev k) by (apply To; left; reflexivity).
  assert (O2 : own n2 = PLev k) by (apply To; right; apply in_or_app; right; left; reflexivity).
  assert (NDall : NoDup (map (addr k) (l ++ u))).
  { rewrite map_app. apply NoDup_app_intro; auto. intros a Ha Hb. specialize (Oo a Ha). specialize (Ou a Hb). congruence. }
  assert (Num : numbered len (l ++ u)). { intros q Hq. apply in_app_or in Hq. destruct Hq; auto. }
  unfold p_add2output_all.
  destruct (unlink_node (view (mem st) h) [] n1 (us ++ [n2]) Th Al) as (m1 & U1 & H1 & _ & _).
  assert (F1 : forall a, ~ In a (n1 :: us ++ [n2]) -> same_node (mem st) m1 a).
  { intros a Ha. apply (unlink_other (view (mem st) h) _ n1 m1 Th (or_introl eq_refl) U1 a Ha). }
  assert (Eh : fst (fst h) = Some n1) by (destruct Th as (_ & _ & Hh & _); exact Hh). rewrite Eh. cbn [deref bind]. rewrite U1. cbn [bind]. cbn [app] in H1.
  assert (Et : snd (fst (hdr_of m1)) = Some n2). { destruct H1 as (_ & _ & _ & Hl & _). cbn [hdr_of fst snd]. rewrite Hl. apply last_error_snoc. }
  rewrite Et. cbn [deref bind mem set_item set_mem].
  assert (H1' : holds (view (free_node wipe n1 m1) (hdr_of m1)) (us ++ n2 :: [])).
  { apply holds_result; auto. intros a Ha. apply free_other. intros ->. contradiction. }
  destruct (unlink_node _ us n2 [] H1') as (m2 & U2 & H2 & _ & _).
  { revert Al. unfold allocatable. cbn [length]. lia. }
  assert (F2 : forall a, ~ In a (us ++ [n2]) -> same_node (free_node wipe n1 m1) m2 a).
  { intros a Ha. apply (unlink_other (view (free_node wipe n1 m1) (hdr_of m1)) _ n2 m2 H1'); auto. apply in_or_app. right. now left. }
  rewrite U2. cbn [bind]. rewrite app_nil_r in H2.
  set (st2 := set_item n2 None _).
  assert (Fm : forall b, ~ In b (n1 :: us ++ [n2]) -> same_node (mem st) (mem st2) b).
  { intros b Hb. assert (Nb1 : b <> n1) by (intros ->; apply Hb; now left). assert (Nb2 : b <> n2) by (intros ->; apply Hb; right; apply in_or_app; right; now left).
    apply (same_trans _ m1); [apply F1; auto|]. apply (same_trans _ (free_node wipe n1 m1)); [apply free_other; auto|].
    apply (same_trans _ m2); [apply F2; intros K; apply Hb; now right|]. apply free_other. auto. }
  assert (Fi : forall b, b <> n1 -> b <> n2 -> item st2 b = item st b).
  { intros b B1 B2. subst st2. cbn. rewrite !fset_other by auto. reflexivity. }
  assert (Hfu : fields st2 = fields st) by reflexivity.
  assert (Iu2 : items_ok (item st2) (la k u)).
  { intros a q Hq. assert (Ha : In a us). { subst us. rewrite <- xs_la. apply (in_map fst) in Hq. exact Hq. }
    rewrite Fi; [apply Iu; exact Hq| |]; intros ->; [apply N1; apply in_or_app; now left|contradiction]. }
  assert (H3 : holds (view (mem st2) (hdr_of m2)) us).
  { apply holds_result; auto. intros a Ha. apply free_other. intros ->. contradiction. }
  assert (Er : run (mem st2) (item st2) (hd_error us) u).
  { apply (linked_run _ _ k len u None); auto. apply H3. }
  assert (Ehd : fst (fst (hdr_of m2)) = hd_error us) by (destruct H2 as (_ & _ & Hh & _); exact Hh).
  assert (Fr : forall b, own b <> PLev k -> own b <> POut k -> same_node (mem st) (mem st2) b /\ item st2 b = item st b).
  { intros b B1 B2. split. - apply Fm. intros K. apply B1. apply To. exact K. - apply Fi; intros ->; congruence. }
  assert (Sz : (length (l ++ u) <= len)%nat) by (apply (numbered_size k); auto).
  assert (Ow : forall q i, In q (l ++ u) -> nid q = Some i -> own (level_addr i) = PLev k \/ own (level_addr i) = POut k).
  { intros q i Hq Ei. rewrite <- (addr_num k q i Ei). apply in_app_or in Hq. destruct Hq as [Hq|Hq]; [right; apply Oo|left; apply Ou]; apply in_map; exact Hq. }
  rewrite Ehd.
  destruct l as [|q0 l0] eqn:El.
  - destruct Oc as [-> _]. cbn [app]. destruct (hd_error us) as [a|] eqn:Ea; cbn [empty_hdr fst snd]; eexists _, _; (split; [reflexivity|]); auto 10.
  - rewrite <- El in *. assert (Nel : l <> []) by (rewrite El; discriminate).
    assert (Neu : u <> []).
    { intros ->. destruct (In_ Nel) as (q & i & Hq & Ei). cbn in Hq. destruct Hq as [<-|[<-|[]]]; congruence. }
    destruct Oc as [Oc1 Oc2]. assert (Oc3 : fst (fst o) = hd_error (map (addr k) l) /\ snd (fst o) = last_error (map (addr k) l)) by (rewrite El in *; cbn [map] in Oc1 |- *; tauto).
    destruct Oc3 as [Oh Ol]. rewrite Ol.
    destruct (snoc_cases _ l) as [K|(w & tl & Ew)]; [congruence|]. assert (Ela : last_error (map (addr k) l) = Some (addr k tl)) by (rewrite Ew, map_app; apply last_error_snoc).
    rewrite Ela. destruct u as [|q1 u0] eqn:Eu; [congruence|]. rewrite <- Eu in *. assert (Ea : hd_error us = Some (addr k q1)) by reflexivity. rewrite Ea.
    assert (Htl : In (addr k tl) (map (addr k) l)) by (apply in_map; rewrite Ew; apply in_or_app; right; now left).
    assert (Otl : own (addr k tl) = POut k) by (apply Oo; exact Htl).
    set (st3 := set_mem (set_nxt (addr k tl) (Some (addr k q1)) (mem st2)) st2).
    assert (Sn : forall b, b <> addr k tl -> same_node (mem st2) (mem st3) b). { intros b Hb. unfold same_node; cbn. rewrite fset_other by auto. auto 10. }
    eexists _, _. split; [reflexivity|]. rewrite Oh. split; [|split; [reflexivity|split; [|split; [exact Sz|exact Ow]]]].
    + apply (conn_run _ _ k len u (Some (addr k q1)) l); auto.
      * rewrite Ew, map_app in *. cbn [map] in *. apply NoDup_remove_2 in On. rewrite app_nil_r in On.
        assert (F' : forall a, In a (map (addr k) w) -> AvlModel.nxt (mem st3) a = AvlModel.nxt (mem st) a).
        { intros a Ha. transitivity (AvlModel.nxt (mem st2) a). - apply Sn. intros ->. contradiction.
          - apply Fm. intros K. specialize (To a K). rewrite (Oo a) in To by (apply in_or_app; now left). discriminate. }
        apply (conn_front _ _ (mem st)); auto.
      * intros a q Hq. change (item st2 a = Some (crd q)). assert (Ha : In a (map (addr k) l)). { rewrite <- xs_la. apply (in_map fst) in Hq. exact Hq. }
        specialize (Oo a Ha). rewrite Fi; [apply Oi; exact Hq| |]; intros ->; congruence.
      * intros x Hx. rewrite Ela in Hx. injection Hx as <-. cbn. apply fset_same.
      * rewrite <- Ea. apply (run_frame u (mem st2) (item st2)); auto. intros q i Hq Ei. split; [|reflexivity]. apply Sn. rewrite <- (addr_num k q i Ei). intros K.
        assert (In (addr k q) us) by (unfold us; rewrite <- Eu; apply in_map; exact Hq). rewrite <- K in Otl. rewrite (Ou (addr k q)) in Otl; auto. discriminate.
    + intros b B1 B2. destruct (Fr b B1 B2) as [G1 G2]. split; [|exact G2]. apply (same_trans _ (mem st2)); auto. apply Sn. intros ->. contradiction.
Qed.

Lemma outputs_sim : forall own len os hs ls ts j st xs,
  length os = length ls -> length hs = length ts ->
  (forall n h t, nth_error hs n = Some h -> nth_error ts n = Some t -> tree_at X (mem st) (item st) own (PLev (j + n)) h (la (j + n) t) /\ shape lo len t) ->
  (forall n o l, nth_error os n = Some o -> nth_error ls n = Some l -> out_at lo (mem st) (item st) own len (j + n) o l) ->
  (forall n l t, nth_error ls n = Some l -> nth_error ts n = Some t -> l <> [] -> exists q i, In q t /\ nid q = Some i) ->
  outputs ls ts = Ret xs ->
  exists st' rs, p_outputs wipe st os hs = Ret (st', rs) /\ fields st' = fields st /\ length rs = length xs /\
    (forall n a x, nth_error rs n = Some a -> nth_error xs n = Some x -> run (mem st') (item st') a x /\ (length x <= len)%nat) /\
    (forall b, (forall n, (j <= n)%nat -> own b <> PLev n /\ own b <> POut n) -> same_node (mem st) (mem st') b /\ item st' b = item st b).
Proof.
  intros own len. induction os as [|o os IH]; intros hs ls ts j st xs L1 L2 HT HO HI E; destruct ls as [|l ls]; try discriminate.
  - destruct ts as [|t ts]; [|discriminate]. destruct hs; [|discriminate]. cbn in E. injection E as <-. cbn [p_outputs].
    eexists _, _. split; [reflexivity|]. do 2 (split; [reflexivity|]). split; [intros [|n]; discriminate|]. intros b _. split; [apply same_refl|reflexivity].
  - destruct ts as [|t ts]; [discriminate|]. destruct hs as [|h hs]; [discriminate|]. cbn [outputs] in E.
    destruct (add2output_all l t) as [x| | |] eqn:Ex; try discriminate. cbn [bind] in E.
    destruct (outputs ls ts) as [rest| | |] eqn:Er; try discriminate. cbn [bind] in E. injection E as <-.
    destruct (HT 0%nat h t eq_refl eq_refl) as [T Sh]. pose proof (HO 0%nat o l eq_refl eq_refl) as O. rewrite Nat.add_0_r in *.
    destruct (all_sim st own len j o h t l x T Sh O (HI 0%nat l t eq_refl eq_refl) Ex) as (st1 & a & E1 & R1 & Ef1 & Fr1 & Sz & Ow).
    assert (Fr1' : forall n b, own b = PLev (j + S n) \/ own b = POut (j + S n) -> same_node (mem st) (mem st1) b /\ item st1 b = item st b).
    { intros n b Hb. apply Fr1; intros K; rewrite K in Hb; destruct Hb as [Hb|Hb]; try discriminate; injection Hb; lia. }
    destruct (IH hs ls ts (S j) st1 rest) as (st' & rs & E2 & Ef2 & Lr & Hr & Fr2); auto.
    + intros n h' t' H1 H2. destruct (HT (S n) h' t' H1 H2) as [T' Sh']. replace (S j + n)%nat with (j + S n)%nat by lia. split; auto.
      apply (tree_at_frame X _ _ _ _ _ _ _ _ _ T'). intros b Hb. split; [exact Hb|]. apply (Fr1' n). auto.
    + intros n o' l' H1 H2. pose proof (HO (S n) o' l' H1 H2) as O'. replace (S j + n)%nat with (j + S n)%nat by lia.
      apply (out_at_frame lo X _ _ _ _ _ _ _ _ _ _ _ O'); auto. intros b Hb. split; [exact Hb|]. apply (Fr1' n). auto.
    + intros n l' t' H1 H2. apply (HI (S n) l' t'); auto.
    + cbn [p_outputs]. rewrite E1. cbn [bind fst snd]. rewrite E2. cbn [bind fst snd]. eexists _, _. split; [reflexivity|]. split; [congruence|]. split; [cbn; congruence|]. split.
      * intros [|n] a' x' Ha' Hx'; cbn in Ha', Hx'; [|apply (Hr n); auto]. injection Ha' as <-. injection Hx' as <-. split; [|exact Sz].
        apply (run_frame x (mem st1) (item st1)); auto. intros q i Hq Ei. destruct (Fr2 (level_addr i)) as [G1 G2]; [|split; [apply G1|exact G2]].
        intros n Hn. destruct (Ow q i Hq Ei) as [-> | ->]; split; try discriminate; intros K; injection K; lia.
      * intros b Hb. destruct (Fr1 b) as [G1 G2]; [apply (Hb j); lia|apply (Hb j); lia|]. destruct (Fr2 b) as [G3 G4]; [intros n Hn; apply Hb; lia|]. split; [apply (same_trans _ (mem st1)); auto|congruence].
Qed.
End Out.

(** ** The flags and the requested levels *)
Lemma flag_sim : forall nruns l fuel st a r, run (mem st) (item st) a l -> (length l <= fuel)%nat -> flag_points (fields st) nruns l = Ret r -> p_flag_points fuel st nruns a = Ret r.
Proof.
  intros nruns. induction l as [|q l IH]; intros fuel st a r H L E; cbn [run flag_points] in *.
  - subst a. destruct fuel; exact E.
  - destruct H as (i & Ei & -> & Eit & H). destruct fuel as [|fuel]; cbn [length] in L; [lia|]. cbn [p_flag_points]. unfold pt. rewrite Eit, even_level. cbn [bind].
    assert (Ef : find_all_promoters (fields st) nruns (mkNode (px (crd q)) (py (crd q)) (pz (crd q)) (Some i)) = find_all_promoters (fields st) nruns q).
    { unfold find_all_promoters, id_of. rewrite Ei. reflexivity. }
    rewrite Ef. destruct (find_all_promoters (fields st) nruns q) as [fl| | |]; try discriminate. cbn [bind] in *.
    destruct (flag_points (fields st) nruns l) as [rest| | |] eqn:Er; try discriminate. cbn [bind] in E. rewrite (IH fuel st _ rest H) by (auto; lia). exact E.
Qed.
Lemma select_sim : forall nruns st rs xs, length rs = length xs ->
  (forall n a x, nth_error rs n = Some a -> nth_error xs n = Some x -> run (mem st) (item st) a x /\ (length x <= length (fields st))%nat) ->
  forall att r, select_levels (fields st) nruns xs att = Ret r -> p_select_levels st nruns rs att = Ret r.
Proof.
  intros nruns st rs xs L H. induction att as [|l att IH]; intros r E; cbn [select_levels p_select_levels] in *; auto.
  destruct (l <=? 0); [discriminate|]. cbn [bind] in *.
  destruct (rd xs (Z.to_nat l - 1)) as [x| | |] eqn:Ex; try discriminate. apply rd_inv in Ex. cbn [bind] in E.
  destruct (nth_same_len _ _ _ rs _ _ (eq_sym L) Ex) as (a & Ea). rewrite (rd_some _ _ _ _ Ea). cbn [bind]. destruct (H _ _ _ Ea Ex) as [Hr Hl].
  destruct (flag_points (fields st) nruns x) as [s| | |] eqn:Es; try discriminate. cbn [bind] in E. rewrite (flag_sim nruns x _ st a s Hr) by (auto; lia). cbn [bind].
  destruct (select_levels (fields st) nruns xs att) as [rest| | |]; try discriminate. cbn [bind] in E. rewrite (IH rest eq_refl). exact E.
Qed.

(** ** The whole program *)
Lemma sorted_list_in : forall data tab dz l, sorted_list data tab dz = Ret l -> forall q k, In (q, k) l -> exists p, In p data /\ q = node_of p.
Proof.
  intros data tab. induction dz as [|i dz IH]; intros l E q k Hq; cbn [sorted_list] in E; [injection E as <-; contradiction|].
  destruct (rd data i) as [p| | |] eqn:Ep; try discriminate. cbn [bind] in E. destruct (rd tab i) as [j| | |]; try discriminate. cbn [bind] in E.
  destruct (sorted_list data tab dz) as [rest| | |]; try discriminate. cbn [bind] in E. injection E as <-.
  destruct Hq as [Hq|Hq]; [|apply (IH rest eq_refl q k Hq)]. injection Hq as <- _. exists p. split; auto. apply rd_inv in Ep. apply nth_error_In in Ep. exact Ep.
Qed.

Theorem p_eaf3d_refines : forall lo hi wipe start sortz junk data cumsize nruns att r, lo < hi ->
  (forall p, In p data -> lo < coord p 0 < hi /\ lo < coord p 1 < hi) -> Z.of_nat (length data) < 2 ^ 118 ->
  eaf3d lo hi sortz junk data cumsize nruns att = Ret r ->
  p_eaf3d lo hi wipe start sortz junk data cumsize nruns att = Ret r.
Proof.
  intros lo hi wipe start sortz junk data cumsize nruns att r LH Hb Hsz E.
  set (X := lo :: hi :: map (fun p => coord p 0) data).
  assert (Xsmall : Z.of_nat (length X) < 2 ^ 119). { unfold X. cbn [length]. rewrite map_length. change (2 ^ 119) with (2 * 2 ^ 118). pose proof (Z.pow_pos_nonneg 2 118). change (2 ^ 118) with 332306998946228968225951765070086144 in *. lia. }
  assert (Xlo : In lo X) by now left. assert (Xhi : In hi X) by (right; now left).
  unfold eaf3d in E. destruct (setup_cdllist sortz data cumsize) as [l| | |] eqn:El; try discriminate. cbn [bind] in E.
  assert (Hl : forall q k, In (q, k) l -> inbox lo hi q /\ In (nx q) X).
  { intros q k Hq. unfold setup_cdllist in El. destruct (runtab_loop cumsize (length data) 0 0) as [tab| | |]; try discriminate. cbn [bind] in El.
    destruct (sorted_list_in _ _ _ _ El q k Hq) as (p & Hp & ->). destruct (Hb p Hp) as [B0 B1]. split; [split; cbn; auto|].
    right. right. apply in_map_iff. exists p. auto. }
  destruct (eaf3df nruns _ l) as [st| | |] eqn:Ef in E; try discriminate. cbn [bind] in E.
  destruct (outputs (out (tr st)) (lev (tr st))) as [os| | |] eqn:Eo; try discriminate. cbn [bind] in E.
  set (s0 := mkTrees [] [] []).
  assert (HR0 : R lo X (mkP start (fun _ => None) [] [] [] None [] 0) (fun _ => Free) [] s0).
  { constructor; try reflexivity; cbn; try (intros [|?]; discriminate); auto. }
  destruct (alloc_sim lo hi X LH Xlo Xhi junk nruns 0 _ _ _ s0 HR0 eq_refl eq_refl eq_refl eq_refl) as (st1 & own1 & SZ1 & E1 & HR1 & ES1).
  unfold p_eaf3d. rewrite E1. cbn [bind]. rewrite El. cbn [bind]. cbn [s0 lev out heap app map] in *.
  destruct (eaf3df_sim lo hi X wipe Xsmall nruns st1 own1 SZ1 _ l junk st HR1 ES1 eq_refl eq_refl Hl) as (p & Ep & (own & SZ & HR & _)).
  { rewrite ES1. exact Ef. }
  rewrite Ep. cbn [bind].
  destruct (outputs_sim lo X wipe Xsmall own (length (heap (tr st))) (pouts (ps p)) (plevs (ps p)) (out (tr st)) (lev (tr st)) 0 (ps p) os) as (st2 & rs & E2 & Ef2 & Lr & Hr & _); auto.
  { apply (r_nouts _ _ _ _ _ _ HR). } { apply (r_nlevs _ _ _ _ _ _ HR). }
  { intros n h t. apply (r_lev _ _ _ _ _ _ HR). } { intros n o l'. apply (r_out _ _ _ _ _ _ HR). } { apply (r_inner _ _ _ _ _ _ HR). }
  rewrite E2. cbn [bind fst snd]. rewrite (r_fields _ _ _ _ _ _ HR) in Ef2.
  apply (select_sim nruns st2 rs os); auto.
  - rewrite Ef2. exact Hr. - rewrite Ef2. exact E.
Qed.
