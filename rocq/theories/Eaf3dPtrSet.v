(** add2set on pointers follows add2set on lists. *)
From Coq Require Import List ZArith Lia Bool Arith Sorted.
From Verif Require Import Base EafModel EafStoreModel AvlModel AvlSpec AvlProofs AvlRotate AvlOps AvlFrame.
From Verif Require Import Eaf3dModel Eaf3dTrees Eaf3dProofs Eaf3dPtrModel Eaf3dPtrTree Eaf3dPtrLevel Eaf3dPtrRel Eaf3dPtrSim.
Import ListNotations.
Open Scope Z_scope.

Section SetSim.
Variables (lo : Z) (X : list Z) (wipe : avl).
Hypothesis Xsmall : Z.of_nat (length X) < 2 ^ 119.
Notation addr := (addr lo).
Notation la := (la lo).
Notation R := (R lo X).

Lemma free_other : forall n s a, a <> n -> same_node s (free_node wipe n s) a.
Proof. intros n s a N. unfold free_node, same_node; cbn. rewrite !fset_other by auto. auto 10. Qed.

Lemma drop_sim : forall zs2 y post, drop_above (t_of zs2) y = Ret post ->
  forall fuel st h pre, (length zs2 <= fuel)%nat -> holds (view (mem st) h) (pre ++ xs_of zs2) -> allocatable (pre ++ xs_of zs2) ->
  items_ok (item st) zs2 ->
  exists zd zp st' h', zs2 = zd ++ zp /\ t_of zp = post /\
    p_drop_above wipe fuel st h y (hd O (xs_of zs2)) = Ret (st', h') /\
    holds (view (mem st') h') (pre ++ xs_of zp) /\
    fields st' = fields st /\ psets st' = psets st /\ plevs st' = plevs st /\ pouts st' = pouts st /\ fresh st' = fresh st /\
    (forall a, ~ In a (xs_of zd) -> item st' a = item st a) /\
    (forall a, ~ In a (pre ++ xs_of zs2) -> same_node (mem st) (mem st') a).
Proof.
  induction zs2 as [|[a q] zs2 IH]; intros y post E fuel st h pre Lf H Al It; cbn [t_of map snd drop_above] in E; [discriminate|].
  fold (t_of zs2) in E.
  assert (Ep : pt st a = Ret (crd q)) by (unfold pt; rewrite (It a q (or_introl eq_refl)); reflexivity).
  cbn [xs_of map fst hd]. destruct fuel as [|fuel]; [cbn in Lf; lia|]. cbn [p_drop_above]. rewrite Ep. cbn [bind]. change (py (crd q)) with (ny q).
  destruct (y <=? ny q) eqn:L.
  2:{ injection E as <-. exists [], ((a, q) :: zs2), st, h. do 9 (split; [solve [auto]|]). split; [auto|]. intros. apply same_refl. }
  destruct zs2 as [|[b q2] zs2]; [discriminate|].
  assert (Xz : xs_of ((a, q) :: (b, q2) :: zs2) = a :: xs_of ((b, q2) :: zs2)) by reflexivity. rewrite Xz in *. clear Xz. set (zs := (b, q2) :: zs2) in *.
  destruct (unlink_node (view (mem st) h) pre a (xs_of zs) H Al) as (s & Eu & Hs & _ & Nx). rewrite Eu. cbn [bind].
  assert (Nb : AvlModel.nxt s a = Some b).
  { rewrite Nx. change (AvlModel.nxt (view (mem st) h) a) with (AvlModel.nxt (mem st) a). destruct (holds_mid _ _ _ _ _ H) as [_ ->]. reflexivity. }
  rewrite Nb. cbn [deref bind].
  assert (ND : NoDup (pre ++ a :: xs_of zs)) by apply H. apply NoDup_remove_2 in ND.
  set (st1 := set_item a None (set_mem (free_node wipe a s) st)).
  destruct (IH y post E fuel st1 (hdr_of s) pre) as (zd & zp & st' & h' & E1 & E2 & G1 & G2 & G3 & G4 & G5 & G6 & G7 & G8 & G9).
  - cbn [length] in *. lia.
  - cbn [mem st1 set_item set_mem]. apply holds_result; auto. intros x Hx. apply free_other. intros ->. contradiction.
  - eapply alloc_app_remove; eauto.
  - intros x p Hp. cbn [item st1 set_item set_mem]. rewrite fset_other; [apply It; now right|]. intros ->. apply ND. apply in_or_app. right. apply (in_map fst) in Hp. exact Hp.
  - exists ((a, q) :: zd), zp, st', h'. cbn [fields psets plevs pouts fresh item mem st1 set_item set_mem] in *.
    split; [cbn [app]; f_equal; exact E1|]. do 8 (split; [solve [auto]|]). split.
    + intros x Hx. cbn [xs_of map fst] in Hx. rewrite G8 by (intros K; apply Hx; now right). apply fset_other. intros ->. apply Hx. now left.
    + intros x Hx. assert (x <> a) by (intros ->; apply Hx; apply in_or_app; right; now left).
      apply (same_trans _ s). { apply same_view_l with (h := h). eapply unlink_other; [exact H| |exact Eu|exact Hx]. apply in_or_app. right. now left. }
      apply (same_trans _ (free_node wipe a s)); [apply free_other; auto|]. apply G9. intros K. apply Hx. apply in_app_or in K. apply in_or_app. destruct K; auto. right. now right.
Qed.

Lemma cut_after_app : forall u q v, ~ In q u -> cut_after (u ++ q :: v) q = Ret (u ++ [q], v).
Proof.
  induction u as [|a u IH]; intros q v N; cbn.
  - rewrite node_eqb_refl. reflexivity.
  - destruct (node_eqb a q) eqn:E; [apply node_eqb_iff in E; subst; destruct N; now left|]. rewrite IH; auto. intros K. apply N. now right.
Qed.
Lemma cut_before_app : forall u q v, ~ In q u -> cut_before (u ++ q :: v) q = Ret (u, q :: v).
Proof.
  induction u as [|a u IH]; intros q v N; cbn.
  - rewrite node_eqb_refl. reflexivity.
  - destruct (node_eqb a q) eqn:E; [apply node_eqb_iff in E; subst; destruct N; now left|]. rewrite IH; auto. intros K. apply N. now right.
Qed.

(** where add2set cuts *)
Lemma add2set_cut : forall zw a q zy new t', stair (t_of (zw ++ (a, q) :: zy)) -> find_point_at_left (t_of (zw ++ (a, q) :: zy)) (nx new) = Ret q -> ny new < ny q ->
  add2set (t_of (zw ++ (a, q) :: zy)) q new = Ret t' ->
  exists z1 p r z2 post, zw ++ (a, q) :: zy = (z1 ++ [(p, r)]) ++ z2 /\ t' = t_of (z1 ++ [(p, r)]) ++ new :: post /\ drop_above (t_of z2) (ny new) = Ret post /\
    ((nx q = nx new /\ z2 = (a, q) :: zy) \/ (nx q <> nx new /\ p = a /\ z2 = zy)) /\
    (forall u, In u (t_of (z1 ++ [(p, r)])) -> step2 u new) /\
    (forall u, In u (t_of z2) -> ny u < ny new -> nx new < nx u).
Proof.
  intros zw a q zy new t' S F L E. rewrite t_of_app in *. cbn [t_of map snd] in S, F, E. fold (t_of zy) in S, F, E.
  destruct (stair_split _ _ _ S) as [S1 S2]. pose proof (not_before _ _ _ S) as Nq.
  assert (Hx : nx q <= nx new /\ forall p, In p (t_of zy) -> nx new < nx p).
  { unfold find_point_at_left in F. destruct (find_left_from _ _ _) as [q0|] eqn:Ef; [|discriminate]. injection F as ->.
    destruct (find_left_spec _ _ _ S _ Ef) as [(q' & Eq & Hin & Lq & Hf)|[K _]]; [|discriminate]. injection Eq as <-. split; auto.
    intros p Hp. destruct (Z.lt_ge_cases (nx new) (nx p)) as [|Lp]; auto. exfalso.
    destruct (Hf p) as [->|K]; [apply in_or_app; right; now right|lia| |].
    - destruct (S2 q Hp). lia. - destruct (S2 p Hp). lia. }
  destruct Hx as [Hq Hx]. unfold add2set in E. destruct (Z.eqb_spec (nx q) (nx new)) as [Eq|Nq'].
  - rewrite cut_before_app in E by auto. cbn [bind fst snd] in E.
    destruct (snoc_cases _ zw) as [->|(z1 & [p r] & ->)]; [discriminate|].
    assert (Nn : exists x l, t_of (z1 ++ [(p, r)]) = x :: l) by (rewrite t_of_app; cbn; destruct (t_of z1); cbn; eauto).
    destruct Nn as (x0 & l0 & Ex). rewrite Ex in E. cbn [bind fst snd] in E. rewrite <- Ex in E.
    destruct (drop_above (q :: t_of zy) (ny new)) as [post| | |] eqn:Ed; try discriminate. cbn [bind] in E. injection E as <-.
    exists z1, p, r, ((a, q) :: zy), post. rewrite <- app_assoc. split; auto. split; [reflexivity|]. split; auto. split; auto. split.
    + intros u Hu. destruct (S1 u Hu). split; lia.
    + intros u Hu Lu. cbn in Hu. destruct Hu as [<-|Hu]; [lia|]. apply Hx. exact Hu.
  - rewrite cut_after_app in E by auto. cbn [bind fst snd] in E.
    destruct (drop_above (t_of zy) (ny new)) as [post| | |] eqn:Ed; try discriminate. cbn [bind] in E. injection E as <-.
    exists zw, a, q, zy, post. rewrite <- app_assoc. split; auto. split; [rewrite t_of_app; reflexivity|]. split; auto. split; auto. split.
    + intros u Hu. rewrite t_of_app in Hu. apply in_app_or in Hu. destruct Hu as [Hu|[<-|[]]]; [destruct (S1 u Hu); split; lia|cbn; split; lia].
    + intros u Hu _. apply Hx. exact Hu.
Qed.

Lemma set_size : forall st own SZ s k h zs, R st own SZ s -> nth_error (psets st) k = Some h -> nth_error SZ k = Some zs -> (length zs <= fresh st)%nat.
Proof.
  intros st own SZ s k h zs HR Eh Ez. destruct (r_set _ _ _ _ _ _ HR k h zs Eh Ez) as [T J].
  assert (L : (length (xs_of zs) <= length (map other_addr (seq 0 (fresh st))))%nat).
  { apply NoDup_incl_length; [apply T|]. intros a Ha. destruct (J a Ha) as (j & ->). apply in_map. apply in_seq. split; [lia|].
    destruct (Nat.lt_ge_cases j (fresh st)) as [|K]; [lia|]. apply (r_free_odd _ _ _ _ _ _ HR) in K. pose proof (ta_own _ _ _ _ _ _ _ T _ Ha). congruence. }
  unfold xs_of in L. rewrite !map_length, seq_length in L. exact L.
Qed.

Lemma drop_above_below : forall t y post, stair t -> drop_above t y = Ret post -> forall q, In q post -> ny q < y.
Proof.
  induction t as [|a t IH]; intros y post S E q Hq; cbn in E; [discriminate|]. apply stair_inv in S. destruct S as [S1 S2].
  destruct (Z.leb_spec y (ny a)) as [L|L]; [eapply IH; eauto|]. injection E as <-. destruct Hq as [<-|Hq]; auto. destruct (S2 q Hq). lia.
Qed.

Lemma add2set_sim : forall st own SZ s k zw a q zy new t', R st own SZ s -> nth_error SZ k = Some (zw ++ (a, q) :: zy) ->
  find_point_at_left (t_of (zw ++ (a, q) :: zy)) (nx new) = Ret q -> ny new < ny q -> In (nx new) X ->
  add2set (t_of (zw ++ (a, q) :: zy)) q new = Ret t' ->
  exists st' own' zs', p_add2set wipe st k a (crd new) = Ret st' /\ t_of zs' = t' /\ R st' own' (upd SZ k zs') s.
Proof.
  intros st own SZ s k zw a q zy new t' HR Ez F L HX E. set (zs := zw ++ (a, q) :: zy) in *.
  destruct (nth_same_len _ _ _ (psets st) k zs (eq_sym (r_nsets _ _ _ _ _ _ HR)) Ez) as (h & Eh).
  destruct (r_set _ _ _ _ _ _ HR k h zs Eh Ez) as [T J]. pose proof (ta_stair _ _ _ _ _ _ _ T) as St.
  destruct (add2set_cut zw a q zy new t' St F L E) as (z1 & p & r & z2 & post & Ecut & Et' & Ed & Hpq & Hs1 & Hs2). fold zs in Ecut.
  unfold p_add2set. rewrite (rd_some _ _ _ _ Eh). cbn [bind]. set (n := other_addr (fresh st)).
  assert (Fn : own n = Free) by (apply (r_free_odd _ _ _ _ _ _ HR); lia).
  assert (On : forall a', own a' <> Free -> a' <> n) by (intros a' Ha ->; contradiction).
  set (st1 := set_fresh (S (fresh st)) (set_item n (Some (crd new)) (set_mem (avl_clear_node n (mem st)) st))).
  pose proof (ta_own _ _ _ _ _ _ _ T) as Ot. pose proof (ta_items _ _ _ _ _ _ _ T) as It.
  assert (Haq : In (a, q) zs) by (apply in_or_app; right; now left).
  assert (Na : a <> n) by (apply On; rewrite (Ot a) by (apply (in_map fst) in Haq; exact Haq); discriminate).
  assert (Ea : pt st1 a = Ret (crd q)). { unfold pt. cbn. rewrite fset_other by exact Na. rewrite (It a q Haq). reflexivity. }
  rewrite Ea. cbn [bind]. change (px (crd q)) with (nx q). change (px (crd new)) with (nx new). change (py (crd new)) with (ny new).
  destruct (zs_mid st h zs (ta_holds _ _ _ _ _ _ _ T) zw a q zy eq_refl) as [Pa _].
  assert (Eprev : (if nx q =? nx new then AvlModel.prv (mem st1) a else Some a) = Some p).
  { destruct Hpq as [[Eq Ez2]|(Nq & -> & Ez2)].
    - rewrite Eq, Z.eqb_refl. change (AvlModel.prv (mem st1) a) with (AvlModel.prv (mem st) a). rewrite Pa. rewrite Ez2 in Ecut. unfold zs in Ecut.
      apply app_inv_tail in Ecut. subst zw. rewrite xs_of_app. apply last_error_snoc.
    - destruct (Z.eqb_spec (nx q) (nx new)); [contradiction|reflexivity]. }
  rewrite Eprev.
  assert (Nn : ~ In n (xs_of zs)) by (intros K; apply Ot in K; congruence).
  assert (H1 : holds (view (avl_clear_node n (mem st)) h) (xs_of zs)).
  { apply holds_view with (m := mem st); [apply T|]. intros a' Ha. apply clear_other. apply On. rewrite (Ot a' Ha). discriminate. }
  assert (Xz : xs_of zs = xs_of z1 ++ p :: xs_of z2) by (rewrite Ecut, !xs_of_app, <- app_assoc; reflexivity).
  pose proof (tree_alloc1 X Xsmall _ _ _ _ _ _ n T) as Al1. pose proof H1 as H1'. pose proof Nn as Nn'. rewrite Xz in H1', Nn', Al1.
  destruct (insert_after_node _ _ _ _ _ H1' Nn' Al1) as (s1 & Ei & Hi).
  change (mem st1) with (avl_clear_node n (mem st)). rewrite Ei. cbn [bind].
  assert (Hi' : holds s1 ((xs_of z1 ++ [p; n]) ++ xs_of z2)) by (rewrite <- app_assoc; exact Hi).
  destruct z2 as [|[b q2] z2']; [discriminate Ed|]. set (z2 := (b, q2) :: z2') in *.
  assert (Nxn : AvlModel.nxt s1 n = Some b).
  { destruct Hi as (_ & _ & _ & _ & Li). replace (xs_of z1 ++ p :: n :: xs_of z2) with ((xs_of z1 ++ [p]) ++ n :: xs_of z2) in Li by (rewrite <- app_assoc; reflexivity).
    apply linked_mid in Li. destruct Li as [_ ->]. reflexivity. }
  rewrite Nxn. cbn [deref bind].
  assert (Fi : forall a', ~ In a' (xs_of zs) -> a' <> n -> same_node (mem st) s1 a').
  { intros a' Ha Ha2. apply (same_trans _ (avl_clear_node n (mem st))); [apply clear_other; exact Ha2|].
    apply same_view_l with (h := h). eapply insert_after_other; [exact H1| |exact Nn|exact Ei|exact Ha2|exact Ha]. rewrite Xz. apply in_or_app. right. now left. }
  assert (Sz : (length z2 <= S (fresh st1))%nat).
  { pose proof (set_size _ _ _ _ _ _ _ HR Eh Ez) as Sz. rewrite Ecut, app_length in Sz. cbn [fresh st1 set_fresh]. lia. }
  destruct (drop_sim z2 (ny new) post Ed (S (fresh st1)) (set_mem s1 st1) (hdr_of s1) (xs_of z1 ++ [p; n]) Sz) as
    (zd & zp & st' & h' & E2 & E3 & G1 & G2 & G3 & G4 & G5 & G6 & G7 & G8 & G9).
  { cbn [mem set_mem]. rewrite view_hdr_of. exact Hi'. }
  { unfold allocatable in *. rewrite <- app_assoc. cbn [app]. cbn [length] in Al1. rewrite app_length in *. cbn [length] in *. lia. }
  { intros x u Hu. cbn. assert (Hx : In (x, u) zs) by (rewrite Ecut; apply in_or_app; right; exact Hu). rewrite fset_other; [apply It; exact Hx|].
    apply On. rewrite (Ot x) by (apply (in_map fst) in Hx; exact Hx). discriminate. }
  change (hd 0%nat (xs_of z2)) with b in G1. cbn [fresh st1 set_fresh] in G1 |- *.
  change (set_mem s1 (set_fresh (S (fresh st)) (set_item n (Some (crd new)) (set_mem (avl_clear_node n (mem st)) st)))) with (set_mem s1 st1).
  rewrite G1. cbn [bind fst snd].
  cbn [fields psets plevs pouts fresh set_mem st1 set_fresh set_item] in G3, G4, G5, G6, G7. rewrite G4. rewrite wr_ok by (eapply nth_lt; eauto). cbn [bind].
  set (zs' := (z1 ++ [(p, r)]) ++ (n, new) :: zp).
  set (own' := fun x => if (x =? n)%nat then PSet k else if nat_in_dec x (xs_of zd) then Free else own x).
  exists (set_psets (upd (psets st) k h') st'), own', zs'. split; [reflexivity|].
  split. { unfold zs'. rewrite t_of_app. cbn [t_of map snd]. fold (t_of zp). rewrite E3. symmetry. exact Et'. }
  assert (Md : forall x, In x (xs_of zd) -> In x (xs_of zs)). { intros x Hx. rewrite Xz. apply in_or_app. right. right. rewrite E2, xs_of_app. apply in_or_app. now left. }
  assert (Keep : forall x, own x <> PSet k -> x <> n -> own' x = own x).
  { intros x Hx Hn. unfold own'. destruct (Nat.eqb_spec x n); [contradiction|]. destruct (nat_in_dec x (xs_of zd)) as [K|_]; [|reflexivity]. apply Md in K. apply Ot in K. contradiction. }
  assert (Same : forall x, own x <> PSet k -> own x <> Free -> same_node (mem st) (mem st') x /\ item st' x = item st x).
  { intros x Hx Hx3. assert (Nx : ~ In x (xs_of zs)) by (intros K; apply Ot in K; contradiction). split.
    - apply (same_trans _ s1); [apply Fi; auto|]. apply G9. rewrite <- app_assoc. cbn [app]. intros K. apply in_app_or in K. rewrite Xz in Nx.
      destruct K as [K|[K|[K|K]]]; [apply Nx; apply in_or_app; now left|apply Nx; apply in_or_app; right; now left|subst x; contradiction|apply Nx; apply in_or_app; right; now right].
    - rewrite G8; [cbn; apply fset_other; auto|]. intros K. apply Md in K. contradiction. }
  assert (Frame : forall P x, own x = P -> P <> PSet k -> P <> Free -> own' x = P /\ same_node (mem st) (mem st') x /\ item st' x = item st x).
  { intros P x E1 E4 E5. split; [|apply Same; congruence]. rewrite Keep; [exact E1|congruence|]. apply On. congruence. }
  assert (NDz : NoDup (xs_of zs)) by apply T.
  assert (Stay : forall x u, In (x, u) zs -> ~ In x (xs_of zd) -> own' x = PSet k /\ item st' x = Some (crd u)).
  { intros x u Hu Nd. assert (Hx : In x (xs_of zs)) by (apply (in_map fst) in Hu; exact Hu). assert (x <> n) by (apply On; rewrite (Ot x Hx); discriminate). split.
    - unfold own'. destruct (Nat.eqb_spec x n); auto. destruct (nat_in_dec x (xs_of zd)); [contradiction|]. apply Ot. exact Hx.
    - rewrite G8 by exact Nd. cbn. rewrite fset_other by auto. apply It. exact Hu. }
  assert (Dis1 : forall x, In x (xs_of (z1 ++ [(p, r)])) -> ~ In x (xs_of zd)).
  { intros x K1 K2. rewrite Ecut, E2, xs_of_app in NDz. apply NoDup_app_elim in NDz. destruct NDz as (_ & _ & D). apply (D x K1). rewrite xs_of_app. apply in_or_app. now left. }
  assert (Dis2 : forall x, In x (xs_of zp) -> ~ In x (xs_of zd)).
  { intros x K1 K2. rewrite Ecut, E2, !xs_of_app in NDz. apply NoDup_app_elim in NDz. destruct NDz as (_ & NDz & _). apply NoDup_app_elim in NDz. destruct NDz as (_ & _ & D). apply (D x); auto. }
  assert (Cases : forall x u, In (x, u) zs' -> (In (x, u) zs /\ ~ In x (xs_of zd)) \/ (x = n /\ u = new)).
  { intros x u Hu. unfold zs' in Hu. apply in_app_or in Hu. destruct Hu as [Hu|[Hu|Hu]].
    - left. split; [rewrite Ecut; apply in_or_app; now left|]. apply Dis1. apply (in_map fst) in Hu. exact Hu.
    - injection Hu as <- <-. auto.
    - left. split; [rewrite Ecut, E2; apply in_or_app; right; apply in_or_app; now right|]. apply Dis2. apply (in_map fst) in Hu. exact Hu. }
  assert (Newn : own' n = PSet k /\ item st' n = Some (crd new)).
  { split. { unfold own'. rewrite Nat.eqb_refl. reflexivity. } rewrite G8; [cbn; apply fset_same|]. intros K. apply Md in K. contradiction. }
  assert (Lk : (k < length (psets st))%nat) by (eapply nth_lt; eauto). assert (Lk2 : (k < length SZ)%nat) by (eapply nth_lt; eauto).
  constructor; cbn [fields set_psets psets plevs pouts fresh mem item].
  - rewrite G3. apply HR.
  - intros i Li. pose proof (r_free_lev _ _ _ _ _ _ HR i Li) as Fj. rewrite Keep; auto; [congruence|]. apply level_other.
  - rewrite G7. intros j Lj. assert (Fj : own (other_addr j) = Free) by (apply (r_free_odd _ _ _ _ _ _ HR); lia). rewrite Keep; auto; [congruence|].
    intros K. apply other_inj in K. lia.
  - rewrite !upd_length. apply HR.
  - rewrite G5. apply HR.
  - rewrite G6. apply HR.
  - intros k0 h0 zs0. rewrite !nth_error_upd by auto. destruct (Nat.eqb_spec k k0) as [->|Nk].
    + intros E4 E5. injection E4 as <-. injection E5 as <-. split.
      * constructor.
        -- unfold zs'. rewrite xs_of_app, xs_of_app. cbn [xs_of map fst]. rewrite <- app_assoc. cbn [app]. rewrite <- app_assoc in G2. exact G2.
        -- intros x u Hu. destruct (Cases x u Hu) as [[Hu1 Hu2]|[-> ->]]; [apply (Stay x u); auto|apply Newn].
        -- intros x Hx. apply in_map_iff in Hx. destruct Hx as ([x' u] & <- & Hu). cbn [fst]. destruct (Cases x' u Hu) as [[Hu1 Hu2]|[-> ->]]; [apply (Stay x' u); auto|apply Newn].
        -- pose proof St as St'. rewrite Ecut, E2, !t_of_app in St'. apply stair_app_inv in St'. destruct St' as (Sa & Sb & Sc).
           apply stair_app_inv in Sb. destruct Sb as (_ & Sp & _).
           assert (Hp : forall u, In u (t_of zp) -> step2 new u).
           { intros u Hu. assert (Lu : ny u < ny new). { eapply drop_above_below; [|exact Ed|rewrite <- E3; exact Hu]. rewrite Ecut, t_of_app in St. apply stair_app_inv in St. apply St. }
             split; [|exact Lu]. apply Hs2; auto. rewrite E2, t_of_app. apply in_or_app. now right. }
           unfold zs'. rewrite t_of_app. cbn [t_of map snd]. fold (t_of zp). apply stair_app; [rewrite t_of_app; exact Sa| |].
           ++ constructor; auto. apply Forall_forall. exact Hp.
           ++ intros u v Hu [<-|Hv]; [apply Hs1; exact Hu|]. apply Sc; [rewrite <- t_of_app; exact Hu|]. apply in_or_app. now right.
        -- intros u Hu. apply in_map_iff in Hu. destruct Hu as ([x u'] & <- & Hu). cbn [snd]. destruct (Cases x u' Hu) as [[Hu1 Hu2]|[-> ->]]; [|exact HX].
           apply (ta_X _ _ _ _ _ _ _ T). apply (in_map snd) in Hu1. exact Hu1.
      * intros x Hx. apply in_map_iff in Hx. destruct Hx as ([x' u] & <- & Hu). cbn [fst]. destruct (Cases x' u Hu) as [[Hu1 Hu2]|[-> ->]]; [|exists (fresh st); reflexivity].
        apply J. apply (in_map fst) in Hu1. exact Hu1.
    + intros E4 E5. destruct (r_set _ _ _ _ _ _ HR k0 h0 zs0 E4 E5) as [T0 J0]. split; auto.
      eapply tree_at_frame; [exact T0|]. intros x Hx. apply Frame; auto; congruence.
  - rewrite G5. intros k0 h0 t0 E4 E5. destruct (r_lev _ _ _ _ _ _ HR k0 h0 t0 E4 E5) as [T0 Sh0]. split; auto.
    eapply tree_at_frame; [exact T0|]. intros x Hx. apply Frame; auto; congruence.
  - rewrite G6. intros k0 h0 l0 E4 E5. apply (out_at_frame lo X (mem st) (item st) own (length (heap s))); [apply (r_out _ _ _ _ _ _ HR); auto| |lia].
    intros x Hx. apply Frame; auto; congruence.
  - apply (r_inner _ _ _ _ _ _ HR).
Qed.
End SetSim.
