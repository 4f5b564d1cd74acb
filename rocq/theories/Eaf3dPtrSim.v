(** The parts of an iteration of eaf3df on pointers follow those on lists. *)
From Coq Require Import List ZArith Lia Bool Arith Sorted.
From Verif Require Import Base EafModel EafStoreModel AvlModel AvlSpec AvlProofs AvlRotate AvlOps AvlFrame.
From Verif Require Import Eaf3dModel Eaf3dTrees Eaf3dProofs Eaf3dPtrModel Eaf3dPtrTree Eaf3dPtrLevel Eaf3dPtrRel.
Import ListNotations.
Open Scope Z_scope.

(** ** What the list model does not touch *)
Lemma add_at_lev : forall s k it set prom s' r, add_at s k it set prom = Ret (s', r) ->
  forall j, j <> k -> nth_error (lev s') j = nth_error (lev s) j.
Proof.
  intros s k it set prom s' r E j Nj. unfold add_at in E.
  destruct (rd (lev s) k) as [t| | |]; try discriminate. destruct (rd (out s) k) as [l| | |]; try discriminate. cbn [bind] in E.
  destruct (add2level t l (with_id it (length (heap s)))) as [[[t' o'] [d|]]| | |]; try discriminate; cbn [bind] in E.
  - destruct (match prom with None => Ret None | Some q => i <- id_of q ;; Ret (Some i) end) as [p| | |]; try discriminate. cbn [bind] in E.
    unfold wr at 1 in E. destruct (Nat.ltb_spec k (length (lev s))) as [L|]; [|discriminate]. cbn [bind] in E.
    destruct (wr (out s) k o') as [os'| | |]; try discriminate. cbn [bind] in E.
    destruct (set_removers (heap s) d (length (heap s))) as [h| | |]; try discriminate. cbn [bind] in E. injection E as <- _. cbn.
    rewrite nth_error_upd by auto. destruct (Nat.eqb_spec k j); congruence.
  - injection E as <- _. reflexivity.
Qed.
Lemma link_lev : forall r q cond s', link r q cond = Ret s' -> lev s' = lev (fst r).
Proof.
  intros [s ro] q cond s' E. unfold link in E. cbn [fst snd] in *. destruct ro as [id|]; [|injection E as <-; reflexivity].
  destruct cond as [b| | |]; try discriminate. cbn [bind] in E. destruct b; [|injection E as <-; reflexivity].
  unfold set_equal in E. destruct (id_of q) as [i| | |]; try discriminate. cbn [bind] in E. destruct (rd (heap s) i); try discriminate. cbn [bind] in E.
  destruct (wr (heap s) i _); try discriminate. cbn [bind] in E. injection E as <-. reflexivity.
Qed.
Lemma promote_lev : forall fuel s k new set w lb c s' c', promote fuel s k new set w lb c = Ret (s', c') ->
  forall j, j <> S k -> nth_error (lev s') j = nth_error (lev s) j.
Proof.
  induction fuel as [|fuel IH]; intros s k new set w lb c s' c' E j Nj; cbn [promote] in E;
    (destruct (rd (lev s) k) as [t| | |]; try discriminate); cbn [bind] in E;
    (destruct (cursor_xy t c) as [xy| | |]; try discriminate); cbn [bind] in E;
    destruct ((lb <=? snd xy) && ((lb <? snd xy) || (ny new <? lb))); try discriminate; try (injection E as <- _; reflexivity).
  destruct (nx w <=? fst xy).
  - destruct (find_point_below t (ny w)) as [q| | |]; try discriminate. cbn [bind] in E. eapply IH; eauto.
  - destruct (add_at s (S k) _ set _) as [[s1 ro]| | |] eqn:Ea; try discriminate. cbn [bind] in E.
    destruct (link (s1, ro) _ _) as [s2| | |] eqn:El; try discriminate. cbn [bind] in E.
    destruct (rd (lev s2) k) as [t'| | |]; try discriminate. cbn [bind] in E. destruct (cursor_next t' c) as [c2| | |]; try discriminate. cbn [bind] in E.
    rewrite (IH _ _ _ _ _ _ _ _ _ E j Nj). rewrite (link_lev _ _ _ _ El). cbn [fst]. apply (add_at_lev _ _ _ _ _ _ _ Ea). exact Nj.
Qed.
Lemma promote_all_lev : forall cs s k new set w lb s' cs', promote_all s k new set w lb cs = Ret (s', cs') ->
  length cs' = length cs /\ forall j, (j + length cs <= S k)%nat -> nth_error (lev s') j = nth_error (lev s) j.
Proof.
  induction cs as [|c cs IH]; intros s k new set w lb s' cs' E; cbn [promote_all] in E; [injection E as <- <-; auto|].
  destruct (rd (lev s) k) as [t| | |]; try discriminate. cbn [bind] in E.
  destruct (promote _ s k new set w lb c) as [[s1 c1]| | |] eqn:Ep; try discriminate. cbn [bind fst snd] in E.
  destruct (promote_all s1 (k - 1) new set w lb cs) as [[s2 cs2]| | |] eqn:Er; try discriminate. cbn [bind fst snd] in E. injection E as <- <-.
  destruct (IH _ _ _ _ _ _ _ _ Er) as [L1 L2]. split; [cbn; lia|]. intros j Lj. cbn [length] in Lj. destruct cs as [|c' cs].
  - cbn [promote_all] in Er. injection Er as <- _. apply (promote_lev _ _ _ _ _ _ _ _ _ _ Ep). lia.
  - cbn [length] in *. rewrite L2 by lia. apply (promote_lev _ _ _ _ _ _ _ _ _ _ Ep). lia.
Qed.
Lemma part2_lev : forall rest s k new set cs s' cs' w, part2 rest s k new set cs = Ret (s', cs', w) ->
  length cs' = length cs /\ forall j, (j + length cs <= S k)%nat -> nth_error (lev s') j = nth_error (lev s) j.
Proof.
  induction rest as [|q rest IH]; intros s k new set cs s' cs' w E; cbn [part2] in E; [discriminate|].
  destruct (promote_all s k new set q (Z.max (ny q) (ny new)) cs) as [[s1 cs1]| | |] eqn:Ep; try discriminate. cbn [bind fst snd] in E.
  destruct (promote_all_lev _ _ _ _ _ _ _ _ _ Ep) as [L1 L2]. destruct (ny new <? ny q).
  - destruct (IH _ _ _ _ _ _ _ _ E) as [L3 L4]. split; [lia|]. intros j Lj. rewrite L4 by lia. apply L2. exact Lj.
  - injection E as <- <- _. auto.
Qed.
Lemma part3_lev : forall cs s k new set w s', part3 s k new set w cs = Ret s' ->
  forall j, (j + length cs <= S k)%nat -> nth_error (lev s') j = nth_error (lev s) j.
Proof.
  induction cs as [|c cs IH]; intros s k new set w s' E j Lj; cbn [part3] in E; [injection E as <-; reflexivity|].
  destruct (rd (lev s) k) as [t| | |]; try discriminate. cbn [bind] in E. destruct (cursor_xy t c) as [xy| | |]; try discriminate. cbn [bind] in E.
  cbn [length] in Lj. destruct (fst xy <? nx w).
  - destruct (add_at s (S k) _ set _) as [[s1 ro]| | |] eqn:Ea; try discriminate. cbn [bind] in E.
    destruct (link (s1, ro) _ _) as [s2| | |] eqn:El; try discriminate. cbn [bind] in E.
    assert (E2 : nth_error (lev s2) j = nth_error (lev s) j). { rewrite (link_lev _ _ _ _ El). cbn [fst]. apply (add_at_lev _ _ _ _ _ _ _ Ea). lia. }
    rewrite <- E2. destruct cs; [cbn in E; injection E as <-; reflexivity|]. apply (IH _ _ _ _ _ _ E). cbn [length] in *. lia.
  - cbn [bind] in E. destruct cs; [cbn in E; injection E as <-; reflexivity|]. apply (IH _ _ _ _ _ _ E). cbn [length] in *. lia.
Qed.

Section Sim.
Variables (lo : Z) (X : list Z).
Hypothesis Xsmall : Z.of_nat (length X) < 2 ^ 119.
Notation addr := (addr lo).
Notation la := (la lo).
Notation R := (R lo X).

Lemma level_node : forall st own SZ s k t q, R st own SZ s -> nth_error (lev s) k = Some t -> In q t ->
  exists h, nth_error (plevs st) k = Some h /\ pt st (addr k q) = Ret (crd q) /\ In (nx q) X.
Proof.
  intros st own SZ s k t q HR Et Hq. destruct (nth_same_len _ _ _ (plevs st) k t (eq_sym (r_nlevs _ _ _ _ _ _ HR)) Et) as (h & Eh). exists h. split; auto.
  destruct (r_lev _ _ _ _ _ _ HR k h t Eh Et) as [[_ It _ _ HX] _]. split.
  - apply (pt_ok st (la k t) It). apply (in_map (fun q => (addr k q, q))) in Hq. exact Hq.
  - apply HX. rewrite t_la. exact Hq.
Qed.

(** ** promoter->equal *)
Lemma R_fields : forall st own SZ s h', R st own SZ s -> length h' = length (heap s) -> R (set_fields h' st) own SZ (mkTrees (lev s) (out s) h').
Proof.
  intros st own SZ s h' [] L. constructor; cbn [fields set_fields heap psets plevs pouts fresh mem item lev out]; rewrite ?L; auto.
Qed.
Lemma link_sim : forall st own SZ s ro q cond cond' s' k, R st own SZ s -> link (s, ro) q cond = Ret s' ->
  (ro <> None -> forall b, cond = Ret b -> cond' = Ret b) ->
  exists st', p_link (st, ro) (addr k q) cond' = Ret st' /\ R st' own SZ s' /\ psets st' = psets st /\ fresh st' = fresh st.
Proof.
  intros st own SZ s ro q cond cond' s' k HR E Hc. unfold link, p_link in *. cbn [fst snd] in *.
  destruct ro as [id|]; [|injection E as <-; exists st; auto].
  destruct cond as [b| | |]; try discriminate. cbn [bind] in E. rewrite (Hc ltac:(discriminate) b eq_refl). cbn [bind].
  destruct b; [|injection E as <-; exists st; auto].
  unfold set_equal, id_of in E. unfold Eaf3dPtrRel.addr. destruct (nid q) as [i|]; [|discriminate]. rewrite even_level. cbn [bind] in *.
  rewrite (r_fields _ _ _ _ _ _ HR). destruct (rd (heap s) i) as [f| | |]; try discriminate. cbn [bind] in *.
  unfold wr in *. destruct (i <? length (heap s))%nat; [|discriminate]. cbn [bind] in *. injection E as <-.
  eexists. split; [reflexivity|]. split; [|auto]. apply R_fields; auto. apply upd_length.
Qed.

(** ** Cursors *)
Definition cur_rel (k : nat) (c : cursor) (pc : pcursor) : Prop :=
  match c, pc with
  | At q, PAt a => a = addr k q
  | Cross x y q l, PCross x' y' n l' => x' = x /\ y' = y /\ n = Some (addr k q) /\ l' = addr k l /\ In x X
  | _, _ => False
  end.
Fixpoint curs_rel (k : nat) (cs : list cursor) (pcs : list pcursor) : Prop :=
  match cs, pcs with
  | [], [] => True
  | c :: cs, pc :: pcs => cur_rel k c pc /\ curs_rel (k - 1) cs pcs
  | _, _ => False
  end.

Lemma existsb_node : forall q t, existsb (node_eqb q) t = true -> In q t.
Proof. intros q t H. apply existsb_exists in H. destruct H as (x & Hx & E). apply node_eqb_iff in E. subst x. exact Hx. Qed.

Lemma cursor_xy_sim : forall st own SZ s k t c pc xy, R st own SZ s -> nth_error (lev s) k = Some t -> cur_rel k c pc -> cursor_xy t c = Ret xy ->
  p_cursor_xy st pc = Ret xy /\ In (fst xy) X.
Proof.
  intros st own SZ s k t c pc xy HR Et Hc E. destruct c as [q|x y q l], pc as [a|x' y' n l']; try contradiction.
  - cbn in Hc, E. subst a. destruct (existsb (node_eqb q) t) eqn:Eb; [|discriminate]. injection E as <-. apply existsb_node in Eb.
    destruct (level_node _ _ _ _ _ _ _ HR Et Eb) as (_ & _ & Ep & HX). cbn [p_cursor_xy]. rewrite Ep. cbn. auto.
  - cbn in Hc, E. destruct Hc as (-> & -> & _ & _ & HX). injection E as <-. cbn. auto.
Qed.
Lemma prom_rel : forall k c pc, cur_rel k c pc -> p_promoter pc = addr k (promoter_of c).
Proof. intros k [q|x y q l] [a|x' y' n l'] H; try contradiction; cbn in *; tauto. Qed.

Lemma next_of_in : forall t q q', next_of t q = Ret q' -> exists u v, t = u ++ q :: v.
Proof.
  induction t as [|a t IH]; intros q q' E; cbn in E; [discriminate|]. destruct (node_eqb a q) eqn:Eb.
  - apply node_eqb_iff in Eb. subst a. exists [], t. reflexivity.
  - destruct (IH q q' E) as (u & v & ->). exists (a :: u), v. reflexivity.
Qed.
Lemma level_next : forall st own SZ s k t q q', R st own SZ s -> nth_error (lev s) k = Some t -> next_of t q = Ret q' ->
  AvlModel.nxt (mem st) (addr k q) = Some (addr k q').
Proof.
  intros st own SZ s k t q q' HR Et E. destruct (nth_same_len _ _ _ (plevs st) k t (eq_sym (r_nlevs _ _ _ _ _ _ HR)) Et) as (h & Eh).
  destruct (r_lev _ _ _ _ _ _ HR k h t Eh Et) as [[H It _ St _] _].
  destruct (next_of_in _ _ _ E) as (u & v & ->).
  destruct (next_ok st h (la k (u ++ q :: v)) H St (la k u) (addr k q) q (la k v) q') as (a' & zy' & Ez & En).
  - apply la_app. - rewrite t_la. exact E.
  - rewrite En. destruct v as [|b v]; [discriminate|]. cbn in Ez. injection Ez as <- <- _. reflexivity.
Qed.
Lemma cursor_next_sim : forall st own SZ s k t c pc c', R st own SZ s -> nth_error (lev s) k = Some t -> cur_rel k c pc -> cursor_next t c = Ret c' ->
  exists pc', p_cursor_next st pc = Ret pc' /\ cur_rel k c' pc'.
Proof.
  intros st own SZ s k t c pc c' HR Et Hc E. destruct c as [q|x y q l], pc as [a|x' y' n l']; try contradiction; cbn [cur_rel cursor_next p_cursor_next] in *.
  - subst a. destruct (next_of t q) as [q'| | |] eqn:En; try discriminate. cbn [bind] in E. injection E as <-.
    rewrite (level_next _ _ _ _ _ _ _ _ HR Et En). cbn [deref bind]. eexists. split; reflexivity.
  - injection E as <-. destruct Hc as (_ & _ & -> & _ & _). cbn [deref bind]. eexists. split; reflexivity.
Qed.
Lemma below_sim : forall st own SZ s k t h y q, R st own SZ s -> nth_error (lev s) k = Some t -> nth_error (plevs st) k = Some h ->
  find_point_below t y = Ret q -> p_below st h y = Ret (addr k q).
Proof.
  intros st own SZ s k t h y q HR Et Eh E. destruct (r_lev _ _ _ _ _ _ HR k h t Eh Et) as [T _]. pose proof (tree_alloc X Xsmall _ _ _ _ _ _ T) as Al. destruct T as [H It _ St _].
  destruct (below_ok st h (la k t) H Al It St y q) as (zw & a & zy & Ez & Eb); [rewrite t_la; exact E|].
  apply la_split in Ez. destruct Ez as (_ & _ & <- & _). exact Eb.
Qed.
Lemma at_left_sim : forall st own SZ s k t h x q, R st own SZ s -> nth_error (lev s) k = Some t -> nth_error (plevs st) k = Some h ->
  find_point_at_left t x = Ret q -> p_at_left st h x = Ret (addr k q) /\ In q t.
Proof.
  intros st own SZ s k t h x q HR Et Eh E. destruct (r_lev _ _ _ _ _ _ HR k h t Eh Et) as [T _]. pose proof (tree_alloc X Xsmall _ _ _ _ _ _ T) as Al. destruct T as [H It _ St _].
  destruct (at_left_ok st h (la k t) H Al It St x q) as (zw & a & zy & Ez & Eb); [rewrite t_la; exact E|].
  apply la_split in Ez. destruct Ez as (-> & _ & <- & _). split; auto. apply in_or_app. right. now left.
Qed.

(** ** First part *)
Lemma part1_level : forall st own SZ s new newPrev k t left, R st own SZ s -> In (nx new) X -> rd (lev s) k = Ret t -> find_point_at_left t (nx new) = Ret left ->
  exists h, rd (plevs st) k = Ret h /\ p_at_left st h (nx new) = Ret (addr k left) /\ In left t /\ pt st (addr k left) = Ret (crd left) /\
    forall c, (if ny left <? ny newPrev then q <- next_of t left ;; Ret (Cross (nx new) (ny left) q left) else q <- find_point_below t (ny newPrev) ;; Ret (At q)) = Ret c ->
    exists pc, (if ny left <? ny newPrev then Ret (PCross (nx new) (ny left) (AvlModel.nxt (mem st) (addr k left)) (addr k left))
      else q <- p_below st h (ny newPrev) ;; Ret (PAt q)) = Ret pc /\ cur_rel k c pc.
Proof.
  intros st own SZ s new newPrev k t left HR HX Et El. apply rd_inv in Et.
  destruct (nth_same_len _ _ _ (plevs st) k t (eq_sym (r_nlevs _ _ _ _ _ _ HR)) Et) as (h & Eh).
  destruct (at_left_sim _ _ _ _ _ _ _ _ _ HR Et Eh El) as [Ep Hin].
  destruct (level_node _ _ _ _ _ _ _ HR Et Hin) as (_ & _ & Epp & HXl).
  exists h. split; [apply rd_some; exact Eh|]. split; auto. split; auto. split; auto. intros c Ec.
  destruct (ny left <? ny newPrev).
  - destruct (next_of t left) as [q| | |] eqn:En; try discriminate. cbn [bind] in Ec. injection Ec as <-. eexists. split; [reflexivity|].
    cbn. rewrite (level_next _ _ _ _ _ _ _ _ HR Et En). auto.
  - destruct (find_point_below t (ny newPrev)) as [q| | |] eqn:En; try discriminate. cbn [bind] in Ec. injection Ec as <-.
    rewrite (below_sim _ _ _ _ _ _ _ _ _ HR Et Eh En). eexists. split; reflexivity.
Qed.

Lemma part1_sim : forall st own SZ s new newPrev, R st own SZ s -> In (nx new) X ->
  forall k stop dom cs, part1 (lev s) new newPrev k = Ret (stop, dom, cs) ->
  exists pcs, p_part1 st new (ny newPrev) k = Ret (stop, option_map (addr (stop - 1)) dom, pcs) /\ curs_rel k cs pcs /\
    (stop + length cs = S k)%nat /\
    (forall q, dom = Some q -> (0 < stop)%nat /\ exists t, nth_error (lev s) (stop - 1) = Some t /\ In q t).
Proof.
  intros st own SZ s new newPrev HR HX.
  assert (B : forall k rec prec stop dom cs,
    (t <- rd (lev s) k ;; left <- find_point_at_left t (nx new) ;;
     if ny left <=? ny new then Ret (S k, Some left, [])
     else c <- (if ny left <? ny newPrev then q <- next_of t left ;; Ret (Cross (nx new) (ny left) q left) else q <- find_point_below t (ny newPrev) ;; Ret (At q)) ;;
          r <- rec ;; Ret (fst r, c :: snd r)) = Ret (stop, dom, cs) ->
    (forall stop dom cs, rec = Ret (stop, dom, cs) ->
      exists pcs, prec = Ret (stop, option_map (addr (stop - 1)) dom, pcs) /\ curs_rel (k - 1) cs pcs /\ (stop + length cs = k)%nat /\
        (forall q, dom = Some q -> (0 < stop)%nat /\ exists t, nth_error (lev s) (stop - 1) = Some t /\ In q t)) ->
    exists pcs, (h <- rd (plevs st) k ;; left <- p_at_left st h (nx new) ;; p <- pt st left ;;
      if py p <=? ny new then Ret (S k, Some left, [])
      else c <- (if py p <? ny newPrev then Ret (PCross (nx new) (py p) (AvlModel.nxt (mem st) left) left) else q <- p_below st h (ny newPrev) ;; Ret (PAt q)) ;;
           r <- prec ;; Ret (fst r, c :: snd r)) = Ret (stop, option_map (addr (stop - 1)) dom, pcs) /\ curs_rel k cs pcs /\
      (stop + length cs = S k)%nat /\
      (forall q, dom = Some q -> (0 < stop)%nat /\ exists t, nth_error (lev s) (stop - 1) = Some t /\ In q t)).
  { intros k rec prec stop dom cs E Hrec.
    destruct (rd (lev s) k) as [t| | |] eqn:Et; try discriminate. cbn [bind] in E.
    destruct (find_point_at_left t (nx new)) as [left| | |] eqn:El; try discriminate. cbn [bind] in E.
    destruct (part1_level st own SZ s new newPrev k t left HR HX Et El) as (h & Eh & Ep & Hin & Epp & Hcur).
    rewrite Eh. cbn [bind]. rewrite Ep. cbn [bind]. rewrite Epp. cbn [bind]. change (py (crd left)) with (ny left).
    destruct (ny left <=? ny new).
    - injection E as <- <- <-. exists []. cbn [length]. replace (S k - 1)%nat with k by lia. split; [reflexivity|]. split; [exact I|]. split; [lia|].
      intros q Hq. injection Hq as <-. split; [lia|]. exists t. split; auto. apply rd_inv. exact Et.
    - match type of E with bind ?e _ = _ => destruct e as [c| | |] eqn:Ec; try discriminate end. cbn [bind] in E.
      destruct (Hcur c eq_refl) as (pc & Epc & Hc). rewrite Epc. cbn [bind].
      destruct rec as [[[stop' dom'] cs']| | |]; try discriminate. cbn [bind fst snd] in E. injection E as <- <- <-.
      destruct (Hrec _ _ _ eq_refl) as (pcs & E2 & Hcs & Hl & Hd). rewrite E2. cbn [bind fst snd]. exists (pc :: pcs). split; [reflexivity|].
      split; [cbn; auto|]. split; [cbn; lia|]. exact Hd. }
  induction k as [|k IH]; intros stop dom cs E; cbn [part1] in E; cbn [p_part1].
  - apply (B 0%nat _ _ stop dom cs E). intros stop' dom' cs' E'. injection E' as <- <- <-. exists []. cbn. repeat split; auto; discriminate.
  - apply (B (S k) _ _ stop dom cs E). intros stop' dom' cs' E'. replace (S k - 1)%nat with k by lia. apply IH. exact E'.
Qed.

(** ** Second part *)
Lemma promote_sim : forall fuel fuel' st own SZ s k new set w lb c pc s' c', (fuel <= fuel')%nat -> R st own SZ s -> cur_rel k c pc ->
  promote fuel s k new set w lb c = Ret (s', c') ->
  exists st' own' pc', p_promote fuel' st k new set (crd w) lb pc = Ret (st', pc') /\ R st' own' SZ s' /\ cur_rel k c' pc' /\
    psets st' = psets st /\ fresh st' = fresh st.
Proof.
  induction fuel as [|fuel IH]; intros fuel' st own SZ s k new set w lb c pc s' c' Lf HR Hc E; cbn [promote] in E;
    (destruct (rd (lev s) k) as [t| | |] eqn:Et; try discriminate); cbn [bind] in E; apply rd_inv in Et;
    (destruct (cursor_xy t c) as [xy| | |] eqn:Exy; try discriminate); cbn [bind] in E;
    destruct (cursor_xy_sim _ _ _ _ _ _ _ _ _ HR Et Hc Exy) as [Pxy HX];
    destruct ((lb <=? snd xy) && ((lb <? snd xy) || (ny new <? lb))) eqn:Eg; try discriminate.
  - injection E as <- <-. destruct fuel'; cbn [p_promote]; rewrite Pxy; cbn [bind]; rewrite Eg; exists st, own, pc; auto.
  - destruct fuel' as [|fuel']; [lia|]. cbn [p_promote]. rewrite Pxy. cbn [bind]. rewrite Eg. change (px (crd w)) with (nx w). change (py (crd w)) with (ny w).
    destruct (nx w <=? fst xy).
    + destruct (find_point_below t (ny w)) as [q| | |] eqn:Eb; try discriminate. cbn [bind] in E.
      destruct (nth_same_len _ _ _ (plevs st) k t (eq_sym (r_nlevs _ _ _ _ _ _ HR)) Et) as (h & Eh).
      rewrite (rd_some _ _ _ _ Eh). cbn [bind]. rewrite (below_sim _ _ _ _ _ _ _ _ _ HR Et Eh Eb). cbn [bind].
      apply (IH fuel' st own SZ s k new set w lb (At q)); auto; [lia|reflexivity].
    + destruct (add_at s (S k) (mkNode (fst xy) (snd xy) (nz new) None) set (Some (promoter_of c))) as [[s1 ro]| | |] eqn:Ea; try discriminate. cbn [bind] in E.
      destruct (link (s1, ro) _ _) as [s2| | |] eqn:El; try discriminate. cbn [bind] in E.
      destruct (add_at_sim lo X Xsmall st own SZ s (S k) (mkNode (fst xy) (snd xy) (nz new) None) set (Some (promoter_of c)) k s1 ro HR HX Ea) as (st1 & own1 & Ep1 & HR1 & Ps1 & Fr1).
      rewrite (prom_rel _ _ _ Hc). cbn [option_map] in Ep1. change (fst xy, snd xy, nz new) with (crd (mkNode (fst xy) (snd xy) (nz new) None)). rewrite Ep1. cbn [bind fst].
      assert (Et1 : nth_error (lev s1) k = Some t) by (rewrite (add_at_lev _ _ _ _ _ _ _ Ea k) by lia; exact Et).
      destruct (link_sim st1 own1 SZ s1 ro (promoter_of c) _ (q <- pt st1 (addr k (promoter_of c)) ;; Ret ((nz new =? pz q) && (fst xy =? px q))) s2 k HR1 El) as (st2 & Ep2 & HR2 & Ps2 & Fr2).
      { intros _ b Hb. unfold in_tree in Hb. destruct (existsb (node_eqb (promoter_of c)) t) eqn:Ex; [|discriminate]. apply existsb_node in Ex. cbn [bind] in Hb.
        destruct (level_node _ _ _ _ _ _ _ HR1 Et1 Ex) as (_ & _ & Epp & _). rewrite Epp. cbn [bind]. exact Hb. }
      rewrite Ep2. cbn [bind].
      destruct (rd (lev s2) k) as [t'| | |] eqn:Et2; try discriminate. cbn [bind] in E. apply rd_inv in Et2.
      destruct (cursor_next t' c) as [c2| | |] eqn:En; try discriminate. cbn [bind] in E.
      destruct (cursor_next_sim _ _ _ _ _ _ _ _ _ HR2 Et2 Hc En) as (pc2 & Ep3 & Hc2). rewrite Ep3. cbn [bind].
      destruct (IH fuel' st2 own1 SZ s2 k new set w lb c2 pc2 s' c') as (st' & own' & pc' & Ep4 & HR' & Hc' & Ps' & Fr'); auto; [lia|].
      exists st', own', pc'. split; auto. split; auto. split; auto. split; congruence.
  - injection E as <- <-. destruct fuel'; cbn [p_promote]; rewrite Pxy; cbn [bind]; rewrite Eg; exists st, own, pc; auto.
Qed.
Lemma promote_all_sim : forall cs st own SZ s k new set w lb pcs s' cs', R st own SZ s -> curs_rel k cs pcs ->
  promote_all s k new set w lb cs = Ret (s', cs') ->
  exists st' own' pcs', p_promote_all st k new set (crd w) lb pcs = Ret (st', pcs') /\ R st' own' SZ s' /\ curs_rel k cs' pcs' /\
    psets st' = psets st /\ fresh st' = fresh st.
Proof.
  induction cs as [|c cs IH]; intros st own SZ s k new set w lb pcs s' cs' HR Hc E; cbn [promote_all] in E; destruct pcs as [|pc pcs]; try contradiction.
  - injection E as <- <-. exists st, own, []. cbn. auto 10.
  - destruct Hc as [Hc Hcs]. destruct (rd (lev s) k) as [t| | |] eqn:Et; try discriminate. cbn [bind] in E. apply rd_inv in Et.
    destruct (promote (2 + length t) s k new set w lb c) as [[s1 c1]| | |] eqn:Ep; try discriminate. cbn [bind fst snd] in E.
    destruct (promote_all s1 (k - 1) new set w lb cs) as [[s2 cs2]| | |] eqn:Er; try discriminate. cbn [bind fst snd] in E. injection E as <- <-.
    assert (Lf : (2 + length t <= 4 + length (fields st))%nat).
    { destruct (nth_same_len _ _ _ (plevs st) k t (eq_sym (r_nlevs _ _ _ _ _ _ HR)) Et) as (h & Eh).
      destruct (r_lev _ _ _ _ _ _ HR k h t Eh Et) as [T Sh]. apply (shape_size lo X k t) in Sh; [rewrite (r_fields _ _ _ _ _ _ HR); lia|]. rewrite <- xs_la. apply T. }
    destruct (promote_sim _ _ _ _ _ _ _ _ _ _ _ _ _ _ _ Lf HR Hc Ep) as (st1 & own1 & pc1 & Ep1 & HR1 & Hc1 & Ps1 & Fr1).
    destruct (IH _ _ _ _ _ _ _ _ _ _ _ _ HR1 Hcs Er) as (st2 & own2 & pcs2 & Ep2 & HR2 & Hcs2 & Ps2 & Fr2).
    cbn [p_promote_all]. rewrite Ep1. cbn [bind fst snd]. rewrite Ep2. cbn [bind fst snd].
    exists st2, own2, (pc1 :: pcs2). split; auto. split; auto. split; [cbn; auto|]. split; congruence.
Qed.

Lemma set_node : forall st own SZ s k zs a q, R st own SZ s -> nth_error SZ k = Some zs -> In (a, q) zs -> pt st a = Ret (crd q).
Proof.
  intros st own SZ s k zs a q HR Ez Hi. destruct (nth_same_len _ _ _ (psets st) k zs (eq_sym (r_nsets _ _ _ _ _ _ HR)) Ez) as (h & Eh).
  destruct (r_set _ _ _ _ _ _ HR k h zs Eh Ez) as [[_ It _ _ _] _]. apply (pt_ok st zs It). exact Hi.
Qed.
Lemma set_next : forall st own SZ s k zw a q b q2 zy, R st own SZ s -> nth_error SZ k = Some (zw ++ (a, q) :: (b, q2) :: zy) -> AvlModel.nxt (mem st) a = Some b.
Proof.
  intros st own SZ s k zw a q b q2 zy HR Ez. destruct (nth_same_len _ _ _ (psets st) k _ (eq_sym (r_nsets _ _ _ _ _ _ HR)) Ez) as (h & Eh).
  destruct (r_set _ _ _ _ _ _ HR k h _ Eh Ez) as [[H _ _ _ _] _]. destruct (zs_mid st h _ H zw a q ((b, q2) :: zy) eq_refl) as [_ En]. exact En.
Qed.

Lemma part2_sim : forall zy fuel zw a q st own SZ s k start new cs pcs s' cs' w, (length zy <= fuel)%nat -> R st own SZ s ->
  nth_error SZ k = Some (zw ++ (a, q) :: zy) -> curs_rel start cs pcs ->
  part2 (t_of zy) s start new k cs = Ret (s', cs', w) ->
  exists st' own' pcs' a', p_part2 fuel a st start new k pcs = Ret (st', pcs', a') /\ R st' own' SZ s' /\ curs_rel start cs' pcs' /\
    psets st' = psets st /\ fresh st' = fresh st /\ In (a', w) zy.
Proof.
  induction zy as [|[b q2] zy IH]; intros fuel zw a q st own SZ s k start new cs pcs s' cs' w Lf HR Ez Hc E; cbn [t_of map snd part2] in E; [discriminate|].
  destruct fuel as [|fuel]; [cbn in Lf; lia|]. cbn [p_part2]. rewrite (set_next _ _ _ _ _ _ _ _ _ _ _ HR Ez). cbn [deref bind].
  assert (Hb : In (b, q2) (zw ++ (a, q) :: (b, q2) :: zy)) by (apply in_or_app; right; right; now left).
  rewrite (set_node _ _ _ _ _ _ _ _ HR Ez Hb). cbn [bind]. change (py (crd q2)) with (ny q2).
  destruct (promote_all s start new k q2 (Z.max (ny q2) (ny new)) cs) as [[s1 cs1]| | |] eqn:Ep; try discriminate. cbn [bind fst snd] in E.
  destruct (promote_all_sim _ _ _ _ _ _ _ _ _ _ _ _ _ HR Hc Ep) as (st1 & own1 & pcs1 & Ep1 & HR1 & Hc1 & Ps1 & Fr1). rewrite Ep1. cbn [bind fst snd].
  rewrite (set_node _ _ _ _ _ _ _ _ HR1 Ez Hb). cbn [bind]. change (py (crd q2)) with (ny q2).
  destruct (ny new <? ny q2).
  - destruct (IH fuel (zw ++ [(a, q)]) b q2 st1 own1 SZ s1 k start new cs1 pcs1 s' cs' w) as (st' & own' & pcs' & a' & G1 & G2 & G3 & G4 & G5 & G6); auto.
    + cbn [length] in Lf. lia. + rewrite <- app_assoc. exact Ez.
    + exists st', own', pcs', a'. split; auto. split; auto. split; auto. split; [congruence|]. split; [congruence|]. now right.
  - injection E as <- <- <-. exists st1, own1, pcs1, b. split; auto. split; auto. split; auto. split; auto. split; auto. now left.
Qed.

(** ** Third part *)
Lemma part3_sim : forall cs st own SZ s k start new w a zs pcs s', R st own SZ s -> nth_error SZ k = Some zs -> In (a, w) zs -> curs_rel start cs pcs ->
  part3 s start new k w cs = Ret s' ->
  exists st' own', p_part3 st start new k a pcs = Ret st' /\ R st' own' SZ s' /\ psets st' = psets st /\ fresh st' = fresh st.
Proof.
  induction cs as [|c cs IH]; intros st own SZ s k start new w a zs pcs s' HR Ez Ha Hc E; destruct pcs as [|pc pcs]; try contradiction; cbn [part3] in E; cbn [p_part3].
  - injection E as <-. exists st, own. auto.
  - destruct Hc as [Hc Hcs]. destruct (rd (lev s) start) as [t| | |] eqn:Et; try discriminate. cbn [bind] in E. apply rd_inv in Et.
    destruct (cursor_xy t c) as [xy| | |] eqn:Exy; try discriminate. cbn [bind] in E.
    destruct (cursor_xy_sim _ _ _ _ _ _ _ _ _ HR Et Hc Exy) as [Pxy HX]. rewrite Pxy. cbn [bind].
    rewrite (set_node _ _ _ _ _ _ _ _ HR Ez Ha). cbn [bind]. change (px (crd w)) with (nx w).
    destruct (fst xy <? nx w).
    + destruct (add_at s (S start) (mkNode (fst xy) (ny new) (nz new) None) k (Some (promoter_of c))) as [[s1 ro]| | |] eqn:Ea; try discriminate. cbn [bind] in E.
      destruct (link (s1, ro) _ _) as [s2| | |] eqn:El; try discriminate. cbn [bind] in E.
      destruct (add_at_sim lo X Xsmall st own SZ s (S start) (mkNode (fst xy) (ny new) (nz new) None) k (Some (promoter_of c)) start s1 ro HR HX Ea) as (st1 & own1 & Ep1 & HR1 & Ps1 & Fr1).
      rewrite (prom_rel _ _ _ Hc). cbn [option_map] in Ep1. change (fst xy, ny new, nz new) with (crd (mkNode (fst xy) (ny new) (nz new) None)). rewrite Ep1. cbn [bind fst].
      assert (Et1 : nth_error (lev s1) start = Some t) by (rewrite (add_at_lev _ _ _ _ _ _ _ Ea start) by lia; exact Et).
      destruct (link_sim st1 own1 SZ s1 ro (promoter_of c) _ (z <- p_cursor_z st1 pc ;; Ret ((nz new =? z) && (ny new =? snd xy))) s2 start HR1 El) as (st2 & Ep2 & HR2 & Ps2 & Fr2).
      { intros _ b Hb. destruct c as [q|x y q l]; [|discriminate]. destruct pc as [a0|]; [|contradiction]. cbn in Hc. subst a0. cbn [cursor_z bind] in Hb. cbn [p_cursor_z].
        cbn in Exy. destruct (existsb (node_eqb q) t) eqn:Ex; [|discriminate]. apply existsb_node in Ex.
        destruct (level_node _ _ _ _ _ _ _ HR1 Et1 Ex) as (_ & _ & Epp & _). rewrite Epp. cbn [bind]. exact Hb. }
      rewrite Ep2. cbn [bind].
      destruct (IH _ _ _ _ _ _ _ _ _ _ _ _ HR2 Ez Ha Hcs E) as (st' & own' & G1 & G2 & G3 & G4). exists st', own'. split; auto. split; auto. split; congruence.
    + cbn [bind] in *. eapply IH; eauto.
Qed.
End Sim.
