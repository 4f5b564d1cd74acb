(** The whole 3-objective EAF on pointers returns what it returns on lists. *)
From Coq Require Import List ZArith Lia Bool Arith Sorted QArith.
From Verif Require Import Base EafModel EafStoreModel AvlModel AvlSpec AvlProofs AvlRotate AvlOps AvlFrame.
From Verif Require Import Eaf3dModel Eaf3dTrees Eaf3dProofs Eaf3dPtrModel Eaf3dPtrTree Eaf3dPtrLevel Eaf3dPtrRel Eaf3dPtrSim Eaf3dPtrSet.
Import ListNotations.
Open Scope Z_scope.

Section Main.
Variables (lo hi : Z) (X : list Z) (wipe : avl).
Hypothesis Xsmall : Z.of_nat (length X) < 2 ^ 119.
Notation addr := (addr lo).
Notation la := (la lo).
Notation R := (R lo X).

Definition RS (p : pstate) (st : state) : Prop :=
  exists own SZ, R (ps p) own SZ (tr st) /\ map t_of SZ = sets st /\ pstart p = start_at st /\ pmask p = mask st.

Lemma map_upd : forall A B (f : A -> B) l i v, map f (upd l i v) = upd (map f l) i (f v).
Proof. induction l as [|a l IH]; intros [|i] v; cbn; auto. rewrite IH. reflexivity. Qed.

Lemma step_sim : forall nset p st new k st', RS p st -> In (nx new) X -> eaf3df_step nset st new k = Ret st' ->
  exists p', p_step wipe nset p new k = Ret p' /\ RS p' st'.
Proof.
  intros nset p st new k st' (own & SZ & HR & ES & Estart & Emask) HX E. unfold eaf3df_step in E. unfold p_step.
  destruct (rd (sets st) k) as [t| | |] eqn:Et; try discriminate. cbn [bind] in E. pose proof Et as Et0. apply rd_inv in Et. rewrite <- ES in Et.
  rewrite nth_error_map in Et. destruct (nth_error SZ k) as [zs|] eqn:Ez; [|discriminate]. cbn in Et. injection Et as <-.
  destruct (nth_same_len _ _ _ (psets (ps p)) k zs (eq_sym (r_nsets _ _ _ _ _ _ HR)) Ez) as (h & Eh). rewrite (rd_some _ _ _ _ Eh). cbn [bind].
  destruct (r_set _ _ _ _ _ _ HR k h zs Eh Ez) as [T J]. pose proof (tree_alloc X Xsmall _ _ _ _ _ _ T) as Al.
  destruct (find_point_at_left (t_of zs) (nx new)) as [np| | |] eqn:Ef; try discriminate. cbn [bind] in E.
  destruct (at_left_ok (ps p) h zs (ta_holds _ _ _ _ _ _ _ T) Al (ta_items _ _ _ _ _ _ _ T) (ta_stair _ _ _ _ _ _ _ T) (nx new) np Ef) as (zw & a & zy & Ezs & Ea).
  rewrite Ea. cbn [bind]. assert (Hin : In (a, np) zs) by (rewrite Ezs; apply in_or_app; right; now left).
  rewrite (set_node lo X _ _ _ _ _ _ _ _ HR Ez Hin). cbn [bind]. change (py (crd np)) with (ny np).
  destruct (Z.leb_spec (ny np) (ny new)) as [L|L]; [injection E as <-; exists p; split; [reflexivity|]; exists own, SZ; auto|].
  rewrite Estart, Emask.
  destruct (part1 (lev (tr st)) new np (start_at st)) as [[[stop dom] cs1]| | |] eqn:E1; try discriminate. cbn [bind] in E.
  destruct (part1_sim lo X Xsmall _ _ _ _ _ _ HR HX _ _ _ _ E1) as (pcs1 & Ep1 & Hc1 & Hlen & Hdom). rewrite Ep1. cbn [bind].
  assert (Ecut : cut_after (t_of zs) np = Ret (t_of zw ++ [np], t_of zy)).
  { rewrite Ezs, t_of_app. cbn [t_of map snd]. apply cut_after_app. pose proof (ta_stair _ _ _ _ _ _ _ T) as St. rewrite Ezs, t_of_app in St. eapply not_before; exact St. }
  rewrite Ecut in E. cbn [bind snd] in E.
  destruct (part2 (t_of zy) (tr st) (start_at st) new k cs1) as [[[s2 cs] w]| | |] eqn:E2; try discriminate. cbn [bind] in E.
  pose proof Ez as Ez'. rewrite Ezs in Ez'.
  destruct (part2_sim lo X Xsmall zy (S (fresh (ps p))) zw a np (ps p) own SZ (tr st) k (start_at st) new cs1 pcs1 s2 cs w) as (st2 & own2 & pcs & a' & Ep2 & HR2 & Hc2 & Ps2 & Fr2 & Hw); auto.
  { pose proof (set_size lo X _ _ _ _ _ _ _ HR Eh Ez) as Sz. rewrite Ezs, app_length in Sz. cbn [length] in Sz. lia. }
  rewrite Ep2. cbn [bind].
  destruct (part3 s2 (start_at st) new k w cs) as [s3| | |] eqn:E3; try discriminate. cbn [bind] in E.
  destruct (part3_sim lo X Xsmall cs st2 own2 SZ s2 k (start_at st) new w a' zs pcs s3 HR2 Ez) as (st3 & own3 & Ep3 & HR3 & Ps3 & Fr3); auto.
  { rewrite Ezs. apply in_or_app. right. now right. }
  rewrite Ep3. cbn [bind].
  destruct (add2set (t_of zs) np new) as [t'| | |] eqn:E4; try discriminate. cbn [bind] in E.
  rewrite Ezs in Ef, E4.
  destruct (add2set_sim lo X wipe Xsmall st3 own3 SZ s3 k zw a np zy new t' HR3 Ez' Ef L HX E4) as (st4 & own4 & zs' & Ep4 & Ezs' & HR4).
  change (nx new, ny new, nz new) with (crd new). rewrite Ep4. cbn [bind].
  destruct (wr (sets st) k t') as [sets'| | |] eqn:E5; try discriminate. cbn [bind] in E.
  assert (ES' : map t_of (upd SZ k zs') = sets').
  { rewrite map_upd, ES, Ezs'. unfold wr in E5. destruct (k <? length (sets st))%nat; [|discriminate]. injection E5 as <-. reflexivity. }
  destruct (add_at s3 stop new k dom) as [[s5 ro]| | |] eqn:E6; try discriminate. cbn [bind] in E.
  destruct (add_at_sim lo X Xsmall st4 own4 (upd SZ k zs') s3 stop new k dom (stop - 1) s5 ro HR4 HX E6) as (st5 & own5 & Ep5 & HR5 & Ps5 & Fr5).
  rewrite Ep5. cbn [bind fst snd] in E |- *.
  assert (Link : forall s6, (if (0 <? stop)%nat then match dom with None => match ro with None => Ret s5 | Some _ => OutOfBounds end
        | Some q => link (s5, ro) q (Ret ((nz new =? nz q) && (ny new =? ny q) && (nx new =? nx q))) end else Ret s5) = Ret s6 ->
      exists st6, (if (0 <? stop)%nat then match option_map (addr (stop - 1)) dom with None => match ro with None => Ret st5 | Some _ => OutOfBounds end
        | Some q => p_link (st5, ro) q (p <- pt st5 q ;; Ret ((nz new =? pz p) && (ny new =? py p) && (nx new =? px p))) end else Ret st5) = Ret st6 /\ R st6 own5 (upd SZ k zs') s6).
  { intros s6 E7. destruct (0 <? stop)%nat eqn:Ls; [|injection E7 as <-; eauto].
    destruct dom as [q|]; cbn [option_map].
    - destruct (Hdom q eq_refl) as (_ & t0 & Et1 & Hq).
      assert (Et5 : nth_error (lev s5) (stop - 1) = Some t0).
      { apply Nat.ltb_lt in Ls. destruct (part2_lev _ _ _ _ _ _ _ _ _ E2) as [Lc P2].
        rewrite (add_at_lev _ _ _ _ _ _ _ E6) by lia. rewrite (part3_lev _ _ _ _ _ _ _ E3) by lia. rewrite P2 by lia. exact Et1. }
      destruct (level_node lo X _ _ _ _ _ _ _ HR5 Et5 Hq) as (_ & _ & Epq & _).
      destruct (link_sim lo X st5 own5 (upd SZ k zs') s5 ro q _ (p <- pt st5 (addr (stop - 1) q) ;; Ret ((nz new =? pz p) && (ny new =? py p) && (nx new =? px p))) s6 (stop - 1) HR5 E7) as (st6 & Ep6 & HR6 & _ & _).
      { intros _ b Hb. rewrite Epq. cbn [bind]. exact Hb. }
      exists st6. split; [exact Ep6|exact HR6].
    - destruct ro; [discriminate|]. injection E7 as <-. eauto. }
  match type of E with bind ?e _ = _ => destruct e as [s6| | |] eqn:E7; try discriminate end. cbn [bind] in E.
  destruct (Link s6 eq_refl) as (st6 & Ep6 & HR6). rewrite Ep6. cbn [bind].
  destruct (rd (mask st) k) as [m| | |] eqn:Em; try discriminate. cbn [bind] in E |- *. destruct m.
  - injection E as <-. eexists. split; [reflexivity|]. exists own5, (upd SZ k zs'). auto.
  - destruct (wr (mask st) k true) as [mask'| | |]; try discriminate. cbn [bind] in E |- *. injection E as <-. eexists. split; [reflexivity|]. exists own5, (upd SZ k zs'). auto.
Qed.

Lemma loop_sim : forall nset l p st st', RS p st -> (forall q k, In (q, k) l -> In (nx q) X) -> eaf3df_loop nset st l = Ret st' ->
  exists p', p_loop wipe nset p l = Ret p' /\ RS p' st'.
Proof.
  induction l as [|[q k] l IH]; intros p st st' H HX E; cbn [eaf3df_loop] in E; cbn [p_loop]; [injection E as <-; eauto|].
  destruct (eaf3df_step nset st q k) as [st1| | |] eqn:E1; try discriminate. cbn [bind] in E.
  destruct (step_sim _ _ _ _ _ _ H (HX q k (or_introl eq_refl)) E1) as (p1 & Ep & H1). rewrite Ep. cbn [bind].
  apply (IH p1 st1 st' H1); auto. intros q' k' Hq. apply (HX q' k'). now right.
Qed.

(** ** The sentinels *)
Lemma alloc_two : forall a b, allocatable [a; b]. Proof. intros. unfold allocatable. cbn. lia. Qed.
Lemma sentinels_ok : forall st z, exists st' h, p_add_sentinels lo hi st z = Ret (st', h) /\
  holds (view (mem st') h) [other_addr (fresh st); other_addr (S (fresh st))] /\
  item st' (other_addr (fresh st)) = Some (lo, hi, z) /\ item st' (other_addr (S (fresh st))) = Some (hi, lo, z) /\
  fresh st' = S (S (fresh st)) /\ fields st' = fields st /\ psets st' = psets st /\ plevs st' = plevs st /\ pouts st' = pouts st /\
  forall a, a <> other_addr (fresh st) -> a <> other_addr (S (fresh st)) -> same_node (mem st) (mem st') a /\ item st' a = item st a.
Proof.
  intros st z. unfold p_add_sentinels. set (n1 := other_addr (fresh st)). set (n2 := other_addr (S (fresh st))).
  assert (N12 : n1 <> n2) by (intros K; apply other_inj in K; lia).
  set (m1 := avl_clear_node n1 (mem st)). destruct (insert_top_ok (view m1 empty_hdr) n1) as (s1 & E1 & H1). cbn [mem set_item set_mem]. fold m1. rewrite E1. cbn [bind].
  set (m2 := avl_clear_node n2 s1).
  assert (H2 : holds (view m2 (hdr_of s1)) ([] ++ [n1])).
  { apply holds_result; auto. intros a [<-|[]]. apply clear_other. exact N12. }
  destruct (insert_after_node _ _ _ _ n2 H2) as (s2 & E2 & H3). { intros [K|[]]. auto. } { apply alloc_two. }
  rewrite E2. cbn [bind app] in *. eexists _, _. split; [reflexivity|]. cbn [mem item fresh fields psets plevs pouts set_fresh set_mem set_item].
  split; [rewrite view_hdr_of; exact H3|]. split; [rewrite fset_other by auto; apply fset_same|]. split; [apply fset_same|]. do 5 (split; [reflexivity|]).
  intros a Ha1 Ha2. split; [|rewrite !fset_other by auto; reflexivity].
  apply (same_trans _ m1); [apply clear_other; auto|]. apply (same_trans _ s1); [apply same_view_l with (h := empty_hdr); apply (insert_top_other _ n1 _ E1); auto|].
  apply (same_trans _ m2); [apply clear_other; auto|]. apply same_view_l with (h := hdr_of s1).
  eapply insert_after_other; [exact H2| | |exact E2|auto|]. { cbn. auto. } { intros [K|[]]; auto. } intros [K|[]]; auto.
Qed.

Lemma nth_snoc : forall A (l : list A) x k y, nth_error (l ++ [x]) k = Some y -> nth_error l k = Some y \/ (k = length l /\ y = x).
Proof.
  intros A l x k y H. destruct (Nat.lt_ge_cases k (length l)) as [L|L].
  - rewrite nth_error_app1 in H by auto. auto.
  - rewrite nth_error_app2 in H by auto. destruct (k - length l)%nat as [|j] eqn:E; cbn in H; [|destruct j; discriminate]. injection H as <-. right. split; auto. lia.
Qed.
Definition set_own (own : nat -> place) (n1 n2 : nat) (P : place) : nat -> place := fun x => if (x =? n1)%nat || (x =? n2)%nat then P else own x.
Lemma set_own_other : forall own n1 n2 P x, x <> n1 -> x <> n2 -> set_own own n1 n2 P x = own x.
Proof. intros own n1 n2 P x N1 N2. unfold set_own. destruct (Nat.eqb_spec x n1), (Nat.eqb_spec x n2); cbn; congruence. Qed.
Lemma set_own_1 : forall own n1 n2 P, set_own own n1 n2 P n1 = P. Proof. intros. unfold set_own. rewrite Nat.eqb_refl. reflexivity. Qed.
Lemma set_own_2 : forall own n1 n2 P, set_own own n1 n2 P n2 = P. Proof. intros. unfold set_own. rewrite Nat.eqb_refl, orb_true_r. reflexivity. Qed.

Definition sent1 (z : Z) : node := mkNode lo hi z None.
Definition sent2 (z : Z) : node := mkNode hi lo z None.
Hypothesis lohi : lo < hi.
Hypothesis Xlo : In lo X.
Hypothesis Xhi : In hi X.

Lemma sent_stair : forall z, stair [sent1 z; sent2 z].
Proof. intros z. constructor; [constructor; constructor|]. constructor; [split; cbn; lia|constructor]. Qed.
Lemma sent_X : forall z q, In q [sent1 z; sent2 z] -> In (nx q) X.
Proof. intros z q [<-|[<-|[]]]; cbn; auto. Qed.

Lemma add_set : forall st own SZ s z, R st own SZ s -> exists st' h own', p_add_sentinels lo hi st z = Ret (st', h) /\
  R (set_psets (psets st' ++ [h]) st') own' (SZ ++ [[(other_addr (fresh st), sent1 z); (other_addr (S (fresh st)), sent2 z)]]) s /\
  fresh st' = S (S (fresh st)) /\ plevs st' = plevs st /\ pouts st' = pouts st.
Proof.
  intros st own SZ s z HR. destruct (sentinels_ok st z) as (st' & h & E & H & I1 & I2 & Fr & Ff & F1 & F2 & F3 & Same).
  set (n1 := other_addr (fresh st)) in *. set (n2 := other_addr (S (fresh st))) in *.
  assert (O1 : own n1 = Free) by (apply (r_free_odd _ _ _ _ _ _ HR); lia). assert (O2 : own n2 = Free) by (apply (r_free_odd _ _ _ _ _ _ HR); lia).
  exists st', h, (set_own own n1 n2 (PSet (length SZ))). split; auto. split; [|auto].
  assert (Frame : forall P x, own x = P -> P <> Free -> set_own own n1 n2 (PSet (length SZ)) x = P /\ same_node (mem st) (mem st') x /\ item st' x = item st x).
  { intros P x E1 E2. assert (x <> n1) by (intros ->; congruence). assert (x <> n2) by (intros ->; congruence). split; [rewrite set_own_other; auto|apply Same; auto]. }
  constructor; cbn [fields set_psets psets plevs pouts fresh mem item].
  - rewrite Ff. apply HR.
  - intros i Li. rewrite set_own_other by apply level_other. apply HR. exact Li.
  - rewrite Fr. intros j Lj. rewrite set_own_other by (intros K; apply other_inj in K; lia). apply HR. lia.
  - rewrite !app_length, F1, (r_nsets _ _ _ _ _ _ HR). reflexivity.
  - rewrite F2. apply HR.
  - rewrite F3. apply HR.
  - rewrite F1. intros k h0 zs0 E1 E2. apply nth_snoc in E1, E2. destruct E1 as [E1|[E1 ->]], E2 as [E2|[E2 ->]].
    + destruct (r_set _ _ _ _ _ _ HR k h0 zs0 E1 E2) as [T J]. split; auto. eapply tree_at_frame; [exact T|]. intros x Hx. apply Frame; auto; discriminate.
    + apply nth_lt in E1. rewrite (r_nsets _ _ _ _ _ _ HR) in E1. lia.
    + apply nth_lt in E2. rewrite <- (r_nsets _ _ _ _ _ _ HR) in E2. lia.
    + rewrite E2. split; [constructor|].
      * exact H.
      * intros x q [K|[K|[]]]; injection K as <- <-; [exact I1|exact I2].
      * intros x [<-|[<-|[]]]; [apply set_own_1|apply set_own_2].
      * apply sent_stair.
      * apply sent_X.
      * intros x [<-|[<-|[]]]; [exists (fresh st)|exists (S (fresh st))]; reflexivity.
  - rewrite F2. intros k0 h0 t0 E4 E5. destruct (r_lev _ _ _ _ _ _ HR k0 h0 t0 E4 E5) as [T0 Sh0]. split; auto.
    eapply tree_at_frame; [exact T0|]. intros x Hx. apply Frame; auto; congruence.
  - rewrite F3. intros k0 h0 l0 E4 E5. apply (out_at_frame lo X (mem st) (item st) own (length (heap s))); [apply (r_out _ _ _ _ _ _ HR); auto| |lia].
    intros x Hx. apply Frame; auto; congruence.
  - apply (r_inner _ _ _ _ _ _ HR).
Qed.

Lemma add_lev : forall st own SZ s z, R st own SZ s -> fresh st = (4 * length (lev s) + 2)%nat -> length (lev s) = length (out s) ->
  exists st' h own', p_add_sentinels lo hi st z = Ret (st', h) /\
  R (set_pouts (pouts st' ++ [empty_hdr]) (set_plevs (plevs st' ++ [h]) st')) own' SZ (mkTrees (lev s ++ [[sent1 z; sent2 z]]) (out s ++ [[]]) (heap s)) /\
  fresh st' = S (S (fresh st)) /\ psets st' = psets st.
Proof.
  intros st own SZ s z HR Ef El. destruct (sentinels_ok st z) as (st' & h & E & H & I1 & I2 & Fr & Ff & F1 & F2 & F3 & Same).
  set (n1 := other_addr (fresh st)) in *. set (n2 := other_addr (S (fresh st))) in *.
  assert (O1 : own n1 = Free) by (apply (r_free_odd _ _ _ _ _ _ HR); lia). assert (O2 : own n2 = Free) by (apply (r_free_odd _ _ _ _ _ _ HR); lia).
  set (K := length (lev s)) in *.
  assert (A1 : addr K (sent1 z) = n1). { unfold Eaf3dPtrRel.addr. cbn [nid sent1 nx]. rewrite Z.eqb_refl. unfold n1. rewrite Ef. reflexivity. }
  assert (A2 : addr K (sent2 z) = n2). { unfold Eaf3dPtrRel.addr. cbn [nid sent2 nx]. destruct (Z.eqb_spec hi lo); [lia|]. unfold n2. rewrite Ef. f_equal. lia. }
  exists st', h, (set_own own n1 n2 (PLev K)). split; auto. split; [|auto].
  assert (Frame : forall P x, own x = P -> P <> Free -> set_own own n1 n2 (PLev K) x = P /\ same_node (mem st) (mem st') x /\ item st' x = item st x).
  { intros P x E1 E2. assert (x <> n1) by (intros ->; congruence). assert (x <> n2) by (intros ->; congruence). split; [rewrite set_own_other; auto|apply Same; auto]. }
  constructor; cbn [fields set_pouts set_plevs psets plevs pouts fresh mem item heap lev out].
  - rewrite Ff. apply HR.
  - intros i Li. rewrite set_own_other by apply level_other. apply HR. exact Li.
  - rewrite Fr. intros j Lj. rewrite set_own_other by (intros K'; apply other_inj in K'; lia). apply HR. lia.
  - rewrite F1. apply HR.
  - rewrite !app_length, F2, (r_nlevs _ _ _ _ _ _ HR). reflexivity.
  - rewrite !app_length, F3, (r_nouts _ _ _ _ _ _ HR). reflexivity.
  - rewrite F1. intros k h0 zs0 E1 E2. destruct (r_set _ _ _ _ _ _ HR k h0 zs0 E1 E2) as [T J]. split; auto. eapply tree_at_frame; [exact T|]. intros x Hx. apply Frame; auto; discriminate.
  - rewrite F2. intros k h0 t0 E1 E2. apply nth_snoc in E1, E2. destruct E1 as [E1|[E1 ->]], E2 as [E2|[E2 ->]].
    + destruct (r_lev _ _ _ _ _ _ HR k h0 t0 E1 E2) as [T Sh]. split; auto. eapply tree_at_frame; [exact T|]. intros x Hx. apply Frame; auto; discriminate.
    + apply nth_lt in E1. rewrite (r_nlevs _ _ _ _ _ _ HR) in E1. unfold K in *. lia.
    + apply nth_lt in E2. rewrite <- (r_nlevs _ _ _ _ _ _ HR) in E2. lia.
    + fold K in E2. rewrite E2. split; [constructor|].
      * rewrite xs_la. cbn [map]. rewrite A1, A2. exact H.
      * intros x q Hq. apply in_map_iff in Hq. destruct Hq as (q' & Eq & Hq). injection Eq as <- <-. destruct Hq as [<-|[<-|[]]]; [rewrite A1; exact I1|rewrite A2; exact I2].
      * intros x. rewrite xs_la. cbn [map]. rewrite A1, A2. intros [<-|[<-|[]]]; [apply set_own_1|apply set_own_2].
      * apply sent_stair.
      * apply sent_X.
      * exists (sent1 z), [], (sent2 z). cbn. repeat split; auto; [lia|]. intros q [].
  - rewrite F3. intros k0 h0 l0 E4 E5. apply nth_snoc in E4, E5. destruct E4 as [E4|[E4 ->]], E5 as [E5|[E5 ->]].
    + apply (out_at_frame lo X (mem st) (item st) own (length (heap s))); [apply (r_out _ _ _ _ _ _ HR); auto| |lia]. intros x Hx. apply Frame; auto; congruence.
    + apply nth_lt in E4. rewrite (r_nouts _ _ _ _ _ _ HR) in E4. lia.
    + apply nth_lt in E5. rewrite <- (r_nouts _ _ _ _ _ _ HR) in E5. lia.
    + constructor; cbn; auto; try (intros; contradiction); [split; [reflexivity|exact I]|constructor|intros a q []].
  - intros k l0 t0 E4 E5 Nl. apply nth_snoc in E4, E5. destruct E4 as [E4|[E4 ->]]; [|contradiction].
    destruct E5 as [E5|[E5 ->]]; [apply (r_inner _ _ _ _ _ _ HR k l0 t0); auto|]. apply nth_lt in E4. unfold K in *. lia.
Qed.

Lemma alloc_sim : forall junk n i st own SZ s, R st own SZ s -> length SZ = i -> length (lev s) = i -> length (out s) = i -> fresh st = (4 * i)%nat ->
  exists st' own' SZ', p_alloc lo hi n junk i st = Ret st' /\
    R st' own' SZ' (mkTrees (lev s ++ map (fun j => sentinels lo hi (junk j) (junk j)) (seq i n)) (out s ++ repeat [] n) (heap s)) /\
    map t_of SZ' = map t_of SZ ++ map (fun j => sentinels lo hi (junk j) (junk j)) (seq i n).
Proof.
  intros junk. induction n as [|n IH]; intros i st own SZ s HR L1 L2 L3 L4; cbn [p_alloc].
  - exists st, own, SZ. cbn. rewrite !app_nil_r. destruct s. auto.
  - destruct (add_set st own SZ s (junk i) HR) as (st1 & h1 & own1 & E1 & HR1 & Fr1 & P1 & Q1). rewrite E1. cbn [bind fst snd].
    set (st1' := set_psets (psets st1 ++ [h1]) st1) in *.
    destruct (add_lev st1' own1 _ s (junk i) HR1) as (st2 & h2 & own2 & E2 & HR2 & Fr2 & P2).
    { cbn. rewrite Fr1, L4, L2. lia. } { congruence. }
    rewrite E2. cbn [bind fst snd].
    destruct (IH (S i) _ own2 _ _ HR2) as (st' & own' & SZ' & E3 & HR3 & ES).
    + rewrite app_length. cbn. lia. + cbn [lev]. rewrite app_length. cbn. lia. + cbn [out]. rewrite app_length. cbn. lia. + cbn. rewrite Fr2. cbn. lia.
    + exists st', own', SZ'. split; auto. cbn [lev out heap seq map repeat] in *. rewrite <- !app_assoc in HR3. split; [exact HR3|].
      rewrite ES, map_app, <- app_assoc. reflexivity.
Qed.

(** ** The first point *)
Definition inbox (q : node) : Prop := lo < nx q < hi /\ lo < ny q < hi.

Lemma first_set : forall st own SZ s k zs z new, R st own SZ s -> nth_error SZ k = Some zs -> t_of zs = [sent1 z; sent2 z] -> inbox new -> In (nx new) X ->
  exists st' own' zs',
    (h <- rd (psets st) k ;;
     let n := other_addr (fresh st) in
     let st1 := set_fresh (S (fresh st)) (set_item n (Some (crd new)) (set_mem (avl_clear_node n (mem st)) st)) in
     s' <- avl_insert_after (fst (fst h)) n (view (mem st1) h) ;;
     ss <- wr (psets st1) k (hdr_of s') ;; Ret (set_psets ss (set_mem s' st1))) = Ret st' /\
    t_of zs' = [sent1 z; new; sent2 z] /\ R st' own' (upd SZ k zs') s.
Proof.
  intros st own SZ s k zs z new HR Ez Et [Hx Hy] HX.
  destruct zs as [|[a q1] [|[b q2] [|]]]; try discriminate. cbn in Et. injection Et as -> ->.
  destruct (add2set_sim lo X wipe Xsmall st own SZ s k [] a (sent1 z) [(b, sent2 z)] new [sent1 z; new; sent2 z] HR Ez) as (st' & own' & zs' & Ep & Ezs & HR').
  { unfold find_point_at_left. cbn. destruct (Z.leb_spec lo (nx new)); [|lia]. destruct (Z.leb_spec hi (nx new)); [lia|reflexivity]. }
  { cbn. lia. } { exact HX. }
  { unfold add2set. cbn. destruct (Z.eqb_spec lo (nx new)); [lia|]. unfold node_eqb. cbn. rewrite !Z.eqb_refl. cbn. destruct (Z.leb_spec (ny new) lo); [lia|]. reflexivity. }
  exists st', own', zs'. split; [|auto].
  destruct (nth_same_len _ _ _ (psets st) k _ (eq_sym (r_nsets _ _ _ _ _ _ HR)) Ez) as (h & Eh).
  destruct (r_set _ _ _ _ _ _ HR k h _ Eh Ez) as [T J].
  unfold p_add2set in Ep. rewrite (rd_some _ _ _ _ Eh) in *. cbn [bind] in *. cbv zeta in *.
  set (n := other_addr (fresh st)) in *.
  set (st1 := set_fresh (S (fresh st)) (set_item n (Some (crd new)) (set_mem (avl_clear_node n (mem st)) st))) in *.
  assert (Fn : own n = Free) by (apply (r_free_odd _ _ _ _ _ _ HR); lia).
  pose proof (ta_own _ _ _ _ _ _ _ T) as Ot. pose proof (ta_items _ _ _ _ _ _ _ T) as It.
  assert (Na : a <> n) by (intros ->; rewrite (Ot n) in Fn by (cbn; auto); discriminate).
  assert (Nb : b <> n) by (intros ->; rewrite (Ot n) in Fn by (cbn; auto); discriminate).
  assert (Ia : pt st1 a = Ret (crd (sent1 z))) by (unfold pt; cbn; rewrite fset_other by auto; rewrite (It a (sent1 z)) by (left; reflexivity); reflexivity).
  rewrite Ia in Ep. cbn [bind] in Ep. change (px (crd (sent1 z))) with lo in Ep. change (px (crd new)) with (nx new) in Ep. destruct (Z.eqb_spec lo (nx new)); [lia|].
  assert (Eh0 : fst (fst h) = Some a) by (destruct T as [(_ & _ & Hh & _) _ _ _ _]; exact Hh). rewrite Eh0.
  assert (H1 : holds (view (avl_clear_node n (mem st)) h) ([] ++ a :: [b])).
  { apply holds_view with (m := mem st); [apply T|]. intros a' [<-|[<-|[]]]; apply clear_other; auto. }
  destruct (insert_after_node _ _ _ _ n H1) as (s1 & Ei & Hi). { intros [|[|[]]]; congruence. } { unfold allocatable. cbn. lia. }
  change (mem st1) with (avl_clear_node n (mem st)) in *. rewrite Ei in *. cbn [bind] in *.
  assert (Nxn : AvlModel.nxt s1 n = Some b).
  { destruct Hi as (_ & _ & _ & _ & Li). change ([] ++ a :: n :: [b]) with ([a] ++ n :: [b]) in Li. apply linked_mid in Li. destruct Li as [_ ->]. reflexivity. }
  rewrite Nxn in Ep. cbn [deref bind] in Ep. cbn [p_drop_above] in Ep.
  assert (Ib : pt (set_mem s1 st1) b = Ret (crd (sent2 z))) by (unfold pt; cbn; rewrite fset_other by auto; rewrite (It b (sent2 z)) by (right; left; reflexivity); reflexivity).
  rewrite Ib in Ep. cbn [bind] in Ep. change (py (crd (sent2 z))) with lo in Ep. change (py (crd new)) with (ny new) in Ep. destruct (Z.leb_spec (ny new) lo); [lia|]. cbn [bind fst snd] in Ep.
  exact Ep.
Qed.

Lemma upd_same : forall A (l : list A) i v, nth_error l i = Some v -> upd l i v = l.
Proof. induction l as [|a l IH]; intros [|i] v H; cbn in *; auto; [injection H as ->; reflexivity|]. rewrite IH; auto. Qed.

Lemma first_level : forall st own SZ s k z new, R st own SZ s -> nth_error (lev s) 0 = Some [sent1 z; sent2 z] -> nth_error (out s) 0 = Some [] -> inbox new -> In (nx new) X ->
  exists st' own',
    (h0 <- rd (plevs st) 0 ;;
     let n := level_addr (length (fields st)) in
     let st1 := set_fields (fields st ++ [mkInfo k None None None]) (set_item n (Some (crd new)) (set_mem (avl_clear_node n (mem st)) st)) in
     s' <- avl_insert_after (fst (fst h0)) n (view (mem st1) h0) ;;
     ls <- wr (plevs st1) 0 (hdr_of s') ;; Ret (set_plevs ls (set_mem s' st1))) = Ret st' /\
    R st' own' SZ (mkTrees (upd (lev s) 0 [sent1 z; with_id new (length (heap s)); sent2 z]) (out s) (heap s ++ [mkInfo k None None None])).
Proof.
  intros st own SZ s k z new HR Et El [Hx Hy] HX.
  set (itm := with_id new (length (heap s))). set (t' := [sent1 z; itm; sent2 z]). set (s' := mkTrees (upd (lev s) 0 t') (out s) (heap s ++ [mkInfo k None None None])).
  assert (Ea : add_at s 0 new k None = Ret (s', Some (length (heap s)))).
  { unfold add_at. rewrite (rd_some _ _ _ _ Et), (rd_some _ _ _ _ El). cbn [bind]. fold itm.
    assert (E2 : add2level [sent1 z; sent2 z] [] itm = Ret (t', [], Some [])).
    { unfold add2level. cbn [span]. rewrite (before_y X itm (sent1 z)) by (cbn; lia). rewrite (before_n X itm (sent2 z)) by (cbn; lia).
      change (nx itm) with (nx new). change (nx (sent2 z)) with hi. destruct (Z.ltb_spec (nx new) hi); [|lia].
      cbn [rev app remove_left]. change (nx itm) with (nx new). change (nx (sent1 z)) with lo. destruct (Z.leb_spec (nx new) lo); [lia|]. reflexivity. }
    rewrite E2. cbn [bind]. rewrite !wr_ok by (eapply nth_lt; eauto). cbn [bind set_removers]. rewrite (upd_same _ (out s) 0%nat [] El). reflexivity. }
  destruct (add_at_sim lo X Xsmall st own SZ s 0 new k None 0 s' _ HR HX Ea) as (st' & own' & Ep & HR' & _ & _).
  exists st', own'. split; [|exact HR'].
  destruct (nth_same_len _ _ _ (plevs st) 0%nat _ (eq_sym (r_nlevs _ _ _ _ _ _ HR)) Et) as (h & Eh).
  destruct (nth_same_len _ _ _ (pouts st) 0%nat _ (eq_sym (r_nouts _ _ _ _ _ _ HR)) El) as (o & Eo).
  destruct (r_lev _ _ _ _ _ _ HR 0%nat h _ Eh Et) as [T Sh].
  unfold p_add2level in Ep. rewrite (rd_some _ _ _ _ Eh) in *. rewrite (rd_some _ _ _ _ Eo) in Ep. cbn [bind option_map] in *. cbv zeta in *.
  set (n := level_addr (length (fields st))) in *.
  set (st1 := set_fields (fields st ++ [mkInfo k None None None]) (set_item n (Some (crd new)) (set_mem (avl_clear_node n (mem st)) st))) in *.
  assert (Fn : own n = Free) by (apply (r_free_lev _ _ _ _ _ _ HR); rewrite (r_fields _ _ _ _ _ _ HR); lia).
  pose proof (ta_own _ _ _ _ _ _ _ T) as Ot. pose proof (ta_items _ _ _ _ _ _ _ T) as It.
  set (a := addr 0 (sent1 z)) in *. set (b := addr 0 (sent2 z)) in *.
  assert (Xs : xs_of (la 0 [sent1 z; sent2 z]) = [a; b]) by reflexivity.
  assert (Na : a <> n) by (intros K; rewrite <- K, (Ot a) in Fn by (rewrite Xs; cbn; auto); discriminate).
  assert (Nb : b <> n) by (intros K; rewrite <- K, (Ot b) in Fn by (rewrite Xs; cbn; auto); discriminate).
  destruct (search_prev X Xsmall st own (PLev 0) h (la 0 [sent1 z; sent2 z]) new T [sent1 z] [sent2 z]) as (m & c & zp & a' & q' & zy & Es & Epr & Ez & Epre & Epost).
  { rewrite t_la. cbn [span]. rewrite (before_y X new (sent1 z)) by (cbn; lia). rewrite (before_n X new (sent2 z)) by (cbn; lia). reflexivity. }
  { discriminate. } { discriminate. }
  destruct zp as [|z0 zp]; [|destruct zp; discriminate]. cbn [app] in Ez. injection Ez as Ea' Eq' Ezy. fold a in Ea'. subst a' q'.
  change (py (crd new)) with (ny new) in Ep. rewrite Es in Ep. cbn [bind fst snd deref] in Ep. unfold prev_of in Epr. rewrite Epr in Ep. cbn [bind] in Ep.
  destruct (zs_mid st h _ (ta_holds _ _ _ _ _ _ _ T) [] a (sent1 z) [(b, sent2 z)] eq_refl) as [_ Nab]. rewrite Nab in Ep. cbn [xs_of map fst hd_error deref bind] in Ep.
  rewrite (pt_ok st _ It b (sent2 z)) in Ep by (right; left; reflexivity). cbn [bind] in Ep.
  change (px (crd new)) with (nx new) in Ep. change (px (crd (sent2 z))) with hi in Ep. destruct (Z.ltb_spec (nx new) hi); [|lia].
  assert (Eh0 : fst (fst h) = Some a) by (destruct T as [(_ & _ & Hh & _) _ _ _ _]; exact Hh). rewrite Eh0.
  assert (H1 : holds (view (avl_clear_node n (mem st)) h) ([] ++ a :: [b])).
  { apply holds_view with (m := mem st); [apply T|]. intros a' [<-|[<-|[]]]; apply clear_other; auto. }
  destruct (insert_after_node _ _ _ _ n H1) as (s1 & Ei & Hi). { intros [|[|[]]]; congruence. } { unfold allocatable. cbn. lia. }
  change (mem st1) with (avl_clear_node n (mem st)) in *. rewrite Ei in *. cbn [bind] in *.
  assert (Pn : AvlModel.prv s1 n = Some a).
  { destruct Hi as (_ & _ & _ & _ & Li). change ([] ++ a :: n :: [b]) with ([a] ++ n :: [b]) in Li. apply linked_mid in Li. destruct Li as [-> _]. reflexivity. }
  rewrite Pn in Ep. cbn [deref bind] in Ep. cbn [p_remove_left Nat.add] in Ep.
  assert (Ia : pt (set_mem s1 st1) a = Ret (crd (sent1 z))) by (unfold pt; change (item (set_mem s1 st1) a) with (fset (item st) n (Some (crd new)) a); rewrite fset_other by auto; rewrite (It a (sent1 z)) by (left; reflexivity); reflexivity).
  rewrite Ia in Ep. cbn [bind] in Ep. change (px (crd (sent1 z))) with lo in Ep. change (px (crd new)) with (nx new) in Ep. destruct (Z.leb_spec (nx new) lo); [lia|]. cbn [bind] in Ep.
  change (plevs (set_mem s1 st1)) with (plevs st) in Ep. change (pouts (set_mem s1 st1)) with (pouts st) in Ep. change (plevs st1) with (plevs st).
  rewrite !wr_ok in Ep by (eapply nth_lt; eauto). rewrite wr_ok by (eapply nth_lt; eauto). cbn [bind] in *. rewrite (upd_same _ (pouts st) 0%nat o Eo) in Ep.
  injection Ep as <-. reflexivity.
Qed.

Lemma eaf3df_sim : forall nset st own SZ s l zf st', R st own SZ s -> map t_of SZ = map (fun j => sentinels lo hi (zf j) (zf j)) (seq 0 nset) ->
  lev s = map (fun j => sentinels lo hi (zf j) (zf j)) (seq 0 nset) -> out s = repeat [] nset ->
  (forall q k, In (q, k) l -> inbox q /\ In (nx q) X) ->
  eaf3df nset (mkState (map t_of SZ) s 0 (repeat false nset)) l = Ret st' ->
  exists p', p_eaf3df wipe nset st l = Ret p' /\ RS p' st'.
Proof.
  intros nset st own SZ s l zf st' HR ES El Eo HX E. destruct l as [|[new k] l]; cbn [eaf3df p_eaf3df] in *; [discriminate|].
  destruct (HX new k (or_introl eq_refl)) as [Hb Hn]. cbn [sets tr] in E.
  destruct (rd (map t_of SZ) k) as [t| | |] eqn:Et; try discriminate. apply rd_inv in Et.
  rewrite nth_error_map in Et. destruct (nth_error SZ k) as [zs|] eqn:Ez; [|discriminate]. cbn in Et. injection Et as <-.
  assert (Ek : exists z, t_of zs = [sent1 z; sent2 z]).
  { apply (map_nth_error t_of) in Ez. rewrite ES in Ez. rewrite nth_error_map in Ez. destruct (nth_error (seq 0 nset) k) as [j|]; [|discriminate]. cbn in Ez. injection Ez as <-. exists (zf j). reflexivity. }
  destruct Ek as (z & Ek). rewrite Ek in E. cbn [insert_after_head bind] in E.
  destruct (first_set st own SZ s k zs z new HR Ez Ek Hb Hn) as (st1 & own1 & zs1 & E1 & Et1 & HR1). cbv zeta in E1.
  cbv zeta. change (@Some (Z * Z * Z) (nx new, ny new, nz new)) with (@Some xyz (crd new)).
  destruct (rd (psets st) k) as [h| | |]; try discriminate. cbn [bind] in *.
  match type of E1 with bind ?e _ = _ => destruct e as [s1| | |]; try discriminate end. cbn [bind] in *.
  match type of E1 with bind ?e _ = _ => destruct e as [ss| | |]; try discriminate end. cbn [bind] in *.
  injection E1 as E1. cbv zeta. rewrite E1. clear E1.
  assert (Ns : (0 < nset)%nat). { apply nth_lt in Ez. rewrite <- (map_length t_of), ES, map_length, seq_length in Ez. lia. }
  assert (E0 : nth_error (lev s) 0 = Some [sent1 (zf 0%nat); sent2 (zf 0%nat)]) by (rewrite El; destruct nset; [lia|reflexivity]).
  assert (Eo0 : nth_error (out s) 0 = Some []) by (rewrite Eo; destruct nset; [lia|reflexivity]).
  destruct (first_level st1 own1 _ s k (zf 0%nat) new HR1 E0 Eo0 Hb Hn) as (st2 & own2 & E2 & HR2). cbv zeta in E2.
  destruct (rd (plevs st1) 0) as [h0| | |]; try discriminate. cbn [bind] in *.
  match type of E2 with bind ?e _ = _ => destruct e as [s2| | |]; try discriminate end. cbn [bind] in *.
  match type of E2 with bind ?e _ = _ => destruct e as [ls| | |]; try discriminate end. cbn [bind] in *.
  injection E2 as E2. cbv zeta. rewrite E2. clear E2.
  destruct (wr (map t_of SZ) k [sent1 z; new; sent2 z]) as [sets'| | |] eqn:Ew; try discriminate. cbn [bind] in E.
  rewrite (rd_some _ _ _ _ E0) in E. cbn [bind insert_after_head] in E.
  rewrite (wr_ok _ (lev s)) in E by (eapply nth_lt; eauto). cbn [bind mask] in E.
  destruct (wr (repeat false nset) k true) as [mask'| | |]; try discriminate. cbn [bind] in *.
  apply (loop_sim nset l) with (st := mkState sets' (mkTrees (upd (lev s) 0 [sent1 (zf 0%nat); with_id new (length (heap s)); sent2 (zf 0%nat)]) (out s) (heap s ++ [mkInfo k None None None])) 0 mask'); auto.
  - exists own2, (upd SZ k zs1). split; [exact HR2|]. split; [|auto]. cbn [sets]. rewrite map_upd, Et1.
    unfold wr in Ew. destruct (k <? length (map t_of SZ))%nat; [|discriminate]. injection Ew as <-. reflexivity.
  - intros q k' Hq. apply (HX q k'). now right.
Qed.
End Main.
