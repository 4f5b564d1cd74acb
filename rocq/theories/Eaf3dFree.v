(** Proofs about the end of eaf3d (Eaf3dFreeModel.v). *)
From Coq Require Import List ZArith Lia Bool Arith Sorted.
From Verif Require Import Base EafModel AvlModel AvlSpec AvlProofs AvlRotate AvlOps AvlFrame.
From Verif Require Import Eaf3dModel Eaf3dTrees Eaf3dProofs Eaf3dPtrModel Eaf3dPtrTree Eaf3dPtrLevel Eaf3dPtrRel Eaf3dPtrSim Eaf3dPtrSet Eaf3dPtrMain Eaf3dPtrOut Eaf3dFreeModel.
Import ListNotations.
Open Scope Z_scope.

Lemma alive_ok : forall l a, ~ In a l -> alive l a = Ret tt.
Proof.
  intros l a H. unfold alive. destruct (existsb (Nat.eqb a) l) eqn:E; auto.
  apply existsb_exists in E. destruct E as (b & Hb & Eb). apply Nat.eqb_eq in Eb. subst. contradiction.
Qed.
Lemma alive_inv : forall l a u, alive l a = Ret u -> ~ In a l.
Proof.
  intros l a u H K. unfold alive in H. replace (existsb (Nat.eqb a) l) with true in H; [discriminate|].
  symmetry. apply existsb_exists. exists a. split; auto. apply Nat.eqb_refl.
Qed.

(** ** The sets keep their sentinels *)
Section Ends.
Variables (lo hi : Z).
Definition ends (t : list node) : Prop := exists a u b, t = a :: u ++ [b] /\ nx a = lo /\ nx b = hi.

Lemma cut_after_app : forall t q r, cut_after t q = Ret r -> t = fst r ++ snd r /\ fst r <> [].
Proof.
  induction t as [|a t IH]; intros q r E; cbn in E; [discriminate|].
  destruct (node_eqb a q); [injection E as <-; split; [reflexivity|discriminate]|].
  destruct (cut_after t q) as [c| | |] eqn:Ec; try discriminate. cbn [bind] in E. injection E as <-. cbn.
  destruct (IH q c Ec) as [-> _]. split; [reflexivity|discriminate].
Qed.
Lemma cut_before_app : forall t q r, cut_before t q = Ret r -> t = fst r ++ snd r.
Proof.
  induction t as [|a t IH]; intros q r E; cbn in E; [discriminate|].
  destruct (node_eqb a q); [injection E as <-; reflexivity|].
  destruct (cut_before t q) as [c| | |] eqn:Ec; try discriminate. cbn [bind] in E. injection E as <-. cbn.
  rewrite (IH q c Ec) at 1. reflexivity.
Qed.
Lemma drop_above_app : forall t y r, drop_above t y = Ret r -> r <> [] /\ exists d, t = d ++ r.
Proof.
  induction t as [|a t IH]; intros y r E; cbn in E; [discriminate|].
  destruct (y <=? ny a); [|injection E as <-; split; [discriminate|exists []; reflexivity]].
  destruct (IH y r E) as (N & d & ->). split; auto. exists (a :: d). reflexivity.
Qed.
Lemma ends_cut : forall u v d w item, ends (u ++ v) -> u <> [] -> v = d ++ w -> w <> [] -> ends (u ++ item :: w).
Proof.
  intros u v d w item (a & m & b & E & Ha & Hb) Nu -> Nw. destruct u as [|a' u]; [contradiction|].
  destruct (exists_last Nw) as (w' & b' & ->). cbn in E. injection E as -> E.
  rewrite !app_assoc in E. apply app_inj_tail in E. destruct E as [_ ->].
  exists a, (u ++ item :: w'), b. split; auto. cbn. rewrite <- app_assoc. reflexivity.
Qed.
Lemma ends_add2set : forall t p item t', ends t -> add2set t p item = Ret t' -> ends t'.
Proof.
  intros t p item t' H E. unfold add2set in E.
  assert (G : forall r, t = fst r ++ snd r -> fst r <> [] -> (post <- drop_above (snd r) (ny item) ;; Ret (fst r ++ item :: post)) = Ret t' -> ends t').
  { intros r Er Nr E'. destruct (drop_above (snd r) (ny item)) as [w| | |] eqn:Ew; try discriminate. cbn [bind] in E'. injection E' as <-.
    destruct (drop_above_app _ _ _ Ew) as (Nw & d & Ed). apply (ends_cut _ (snd r) d); auto. rewrite <- Er. exact H. }
  destruct (nx p =? nx item).
  - destruct (cut_before t p) as [c| | |] eqn:Ec; try discriminate. cbn [bind] in E. apply cut_before_app in Ec.
    destruct (fst c) as [|n0 l0] eqn:Ef; try discriminate. cbn [bind] in E. apply (G c); rewrite Ef; [exact Ec|discriminate|rewrite Ef in E; exact E].
  - destruct (cut_after t p) as [c| | |] eqn:Ec; try discriminate. cbn [bind] in E. apply cut_after_app in Ec. destruct Ec as [Et Nt]. apply (G c); auto.
Qed.
Definition okS (n : nat) (l : list (list node)) : Prop := Forall ends l /\ length l = n.
Lemma wr_okS : forall n l i v l', okS n l -> ends v -> wr l i v = Ret l' -> okS n l'.
Proof.
  intros n l i v l' [H L] Hv E. unfold wr in E. destruct (i <? length l)%nat; [|discriminate]. injection E as <-.
  split; [|rewrite upd_length; exact L].
  clear - H Hv. revert i. induction H as [|a l Ha H IH]; intros [|i]; cbn; constructor; auto.
Qed.
Lemma ends_step : forall n nset st new k st', okS n (sets st) -> eaf3df_step nset st new k = Ret st' -> okS n (sets st').
Proof.
  intros n nset st new k st' H E. unfold eaf3df_step in E.
  destruct (rd (sets st) k) as [t| | |] eqn:Et; try discriminate. cbn [bind] in E.
  assert (Ht : ends t). { apply rd_inv in Et. apply nth_error_In in Et. destruct H as [H _]. rewrite Forall_forall in H. auto. }
  destruct (find_point_at_left t (nx new)) as [p| | |]; try discriminate. cbn [bind] in E.
  destruct (ny p <=? ny new); [injection E as <-; exact H|].
  destruct (part1 (lev (tr st)) new p (start_at st)) as [[[sa dn] cs1]| | |]; try discriminate. cbn [bind] in E.
  destruct (cut_after t p) as [c| | |]; try discriminate. cbn [bind] in E.
  destruct (part2 (snd c) (tr st) (start_at st) new k cs1) as [[[s2 cs] sn]| | |]; try discriminate. cbn [bind] in E.
  destruct (part3 s2 (start_at st) new k sn cs) as [s3| | |]; try discriminate. cbn [bind] in E.
  destruct (add2set t p new) as [t'| | |] eqn:Ea; try discriminate. cbn [bind] in E.
  destruct (wr (sets st) k t') as [ss| | |] eqn:Ew; try discriminate. cbn [bind] in E.
  assert (Hs : okS n ss) by (apply (wr_okS _ _ _ _ _ H (ends_add2set _ _ _ _ Ht Ea) Ew)).
  destruct (add_at s3 sa new k dn) as [r| | |]; try discriminate. cbn [bind] in E.
  match type of E with bind ?e _ = _ => destruct e as [s4| | |]; try discriminate end. cbn [bind] in E.
  destruct (rd (mask st) k) as [m| | |]; try discriminate. cbn [bind] in E.
  destruct m; [injection E as <-; exact Hs|].
  match type of E with bind ?e _ = _ => destruct e as [mk| | |]; try discriminate end. cbn [bind] in E. injection E as <-. exact Hs.
Qed.
Lemma ends_loop : forall n nset l st st', okS n (sets st) -> eaf3df_loop nset st l = Ret st' -> okS n (sets st').
Proof.
  intros n nset. induction l as [|[new k] l IH]; intros st st' H E; cbn [eaf3df_loop] in E; [injection E as <-; exact H|].
  destruct (eaf3df_step nset st new k) as [st1| | |] eqn:E1; try discriminate. cbn [bind] in E.
  apply (IH st1); auto. apply (ends_step n nset st new k); auto.
Qed.
Lemma ends_eaf3df : forall n nset l st st', okS n (sets st) -> eaf3df nset st l = Ret st' -> okS n (sets st').
Proof.
  intros n nset [|[new k] l] st st' H E; cbn [eaf3df] in E; [discriminate|].
  destruct (rd (sets st) k) as [t| | |] eqn:Et; try discriminate. cbn [bind] in E.
  assert (Ht : ends t). { apply rd_inv in Et. apply nth_error_In in Et. destruct H as [H _]. rewrite Forall_forall in H. auto. }
  destruct (insert_after_head t new) as [t'| | |] eqn:Ei; try discriminate. cbn [bind] in E.
  assert (Ht' : ends t').
  { destruct Ht as (a & u & b & -> & Ha & Hb). cbn in Ei. injection Ei as <-. exists a, (new :: u), b. auto. }
  destruct (wr (sets st) k t') as [ss| | |] eqn:Ew; try discriminate. cbn [bind] in E.
  destruct (rd (lev (tr st)) 0) as [t0| | |]; try discriminate. cbn [bind] in E.
  match type of E with bind ?e _ = _ => destruct e as [t0'| | |]; try discriminate end. cbn [bind] in E.
  match type of E with bind ?e _ = _ => destruct e as [lev'| | |]; try discriminate end. cbn [bind] in E.
  match type of E with bind ?e _ = _ => destruct e as [mk| | |]; try discriminate end. cbn [bind] in E.
  refine (ends_loop n nset l _ st' _ E). apply (wr_okS _ _ _ _ _ H Ht' Ew).
Qed.
End Ends.

(** ** freetree2 *)
Lemma walk_ok : forall u b fuel st fr a p, AvlSpec.linked (mem st) p (a :: u ++ [b]) None -> (length (a :: u ++ [b]) <= fuel)%nat ->
  NoDup (a :: u ++ [b]) -> (forall c, In c (a :: u ++ [b]) -> ~ In c (fst fr)) ->
  free_walk fuel st fr a = Ret ((fst fr ++ a :: u, snd fr), b).
Proof.
  induction u as [|c u IH]; intros b fuel st fr a p HL Hf ND D; destruct fuel as [|fuel]; cbn [length app] in Hf; try lia.
  - cbn [app AvlSpec.linked] in HL. destruct HL as (_ & En & _ & Eb & _). cbn [free_walk].
    rewrite alive_ok by (apply D; now left). cbn [bind]. rewrite En. unfold free_one. rewrite alive_ok by (apply D; now left). cbn [bind].
    destruct fuel as [|fuel]; [lia|]. cbn [free_walk fst snd]. rewrite alive_ok.
    + cbn [bind]. rewrite Eb. reflexivity.
    + intros K. apply in_app_or in K. destruct K as [K|[K|[]]]; [apply (D b); auto; right; now left|].
      subst. inversion ND as [|? ? N]. apply N. now left.
  - cbn [app] in HL, ND, D. destruct HL as (_ & En & HL). cbn [free_walk].
    rewrite alive_ok by (apply D; now left). cbn [bind]. rewrite En. unfold free_one. rewrite alive_ok by (apply D; now left). cbn [bind].
    inversion ND as [|? ? N ND']; subst.
    rewrite (IH b fuel st (fst fr ++ [a], snd fr) c (Some a)); auto.
    + cbn [fst snd]. rewrite <- app_assoc. reflexivity.
    + cbn [length]. lia.
    + intros d Hd K. cbn [fst] in K. apply in_app_or in K. destruct K as [K|[K|[]]]; [apply (D d); auto; right; exact Hd|]. subst. contradiction.
Qed.

Section Free.
Variables (lo hi : Z) (X : list Z).
Notation tree_at := (tree_at X).

Lemma freetree2_ok : forall fuel st own P h zs fr, tree_at (mem st) (item st) own P h zs -> ends lo hi (t_of zs) ->
  (length (xs_of zs) <= fuel)%nat -> (forall a, In a (xs_of zs) -> ~ In a (fst fr) /\ ~ In a (snd fr)) ->
  exists a b, freetree2 lo hi fuel st fr h = Ret (fst fr ++ xs_of zs, snd fr ++ [a; b]) /\ In a (xs_of zs) /\ In b (xs_of zs).
Proof.
  intros fuel st own P h zs fr [HH HI HO _ _] (qa & qu & qb & Et & La & Lb) Hf D.
  assert (EZ : exists a zu b, zs = (a, qa) :: zu ++ [(b, qb)]).
  { destruct zs as [|[a q] zs]; [discriminate|]. cbn in Et. injection Et as -> Et.
    destruct (exists_last (l := zs)) as (zu & [b q'] & ->). { intros ->. destruct qu; discriminate. }
    unfold t_of in Et. rewrite map_app in Et. cbn in Et. apply app_inj_tail in Et. destruct Et as [_ ->]. exists a, zu, b. reflexivity. }
  destruct EZ as (a & zu & b & ->).
  assert (EX : xs_of ((a, qa) :: zu ++ [(b, qb)]) = a :: xs_of zu ++ [b]). { unfold xs_of. cbn. rewrite map_app. reflexivity. }
  rewrite EX in *. set (u := xs_of zu) in *.
  destruct HH as (ND & _ & Eh & _ & HL). cbn in Eh. exists a, b.
  assert (Ha : In a (a :: u ++ [b])) by now left.
  assert (Hb : In b (a :: u ++ [b])) by (right; apply in_or_app; right; now left).
  assert (Nab : a <> b). { intros ->. inversion ND as [|? ? N]. apply N. apply in_or_app. right. now left. }
  split; [|auto]. unfold freetree2. rewrite Eh. cbn [deref bind].
  assert (Ia : item st a = Some (crd qa)) by (apply HI; now left).
  assert (Ib : item st b = Some (crd qb)) by (apply HI; right; apply in_or_app; right; now left).
  unfold free_item at 1. rewrite (alive_ok (fst fr) a) by exact (proj1 (D a Ha)). cbn [bind]. rewrite (alive_ok (snd fr) a) by exact (proj2 (D a Ha)). cbn [bind].
  unfold pt at 1. rewrite Ia. cbn [bind]. change (px (crd qa)) with (nx qa). rewrite La, Z.eqb_refl. cbn [orb bind].
  assert (EW : free_walk fuel st (fst fr, snd fr ++ [a]) a = Ret ((fst fr ++ a :: u, snd fr ++ [a]), b)).
  { apply (walk_ok u b fuel st (fst fr, snd fr ++ [a]) a None).
    - apply (linked_frame _ (view (mem st) h)); [exact HL|intros; split; reflexivity].
    - exact Hf.
    - exact ND.
    - intros c Hc. exact (proj1 (D c Hc)). }
  rewrite EW. cbn [bind fst snd].
  assert (Nb : ~ In b (fst fr ++ a :: u)).
  { intros K. apply in_app_or in K. destruct K as [K|K]; [exact (proj1 (D b Hb) K)|].
    clear - ND K. change (a :: u ++ [b]) with ((a :: u) ++ [b]) in ND. apply NoDup_remove_2 in ND. apply ND. rewrite app_nil_r. exact K. }
  unfold free_item. cbn [fst snd]. rewrite (alive_ok _ b Nb). cbn [bind]. rewrite (alive_ok (snd fr ++ [a]) b).
  2:{ intros K. apply in_app_or in K. destruct K as [K|[K|[]]]; [exact (proj2 (D b Hb) K)|congruence]. }
  cbn [bind]. unfold pt. rewrite Ib. cbn [bind]. change (px (crd qb)) with (nx qb). rewrite Lb, Z.eqb_refl, orb_true_r. cbn [bind].
  unfold free_one. cbn [fst snd]. rewrite (alive_ok _ b Nb). cbn [bind]. rewrite <- !app_assoc. reflexivity.
Qed.

Lemma free_sets_ok : forall fuel st own hs zss j fr, length hs = length zss ->
  (forall n h zs, nth_error hs n = Some h -> nth_error zss n = Some zs ->
     tree_at (mem st) (item st) own (PSet (j + n)) h zs /\ ends lo hi (t_of zs) /\ (length (xs_of zs) <= fuel)%nat) ->
  (forall a n, In a (fst fr) \/ In a (snd fr) -> own a <> PSet (j + n)) ->
  exists its, free_sets lo hi fuel st fr hs = Ret (fst fr ++ concat (map xs_of zss), snd fr ++ its) /\ length its = (2 * length hs)%nat.
Proof.
  intros fuel st own. induction hs as [|h hs IH]; intros zss j fr L H D; destruct zss as [|zs zss]; try discriminate.
  - exists []. cbn. rewrite !app_nil_r. split; [destruct fr; reflexivity|reflexivity].
  - destruct (H 0%nat h zs eq_refl eq_refl) as (T & En & Lf). rewrite Nat.add_0_r in T.
    destruct (freetree2_ok fuel st own _ h zs fr T En Lf) as (a & b & E & Ha & Hb).
    { intros c Hc. pose proof (ta_own _ _ _ _ _ _ _ T c Hc) as Oc.
      split; intros K; apply (D c 0%nat); rewrite ?Nat.add_0_r; auto. }
    destruct (IH zss (S j) (fst fr ++ xs_of zs, snd fr ++ [a; b])) as (its & E2 & L2).
    + cbn in L. lia.
    + intros n h' zs' H1 H2. replace (S j + n)%nat with (j + S n)%nat by lia. apply (H (S n)); auto.
    + intros c n K. cbn [fst snd] in K. replace (S j + n)%nat with (j + S n)%nat by lia.
      assert (G : In c (xs_of zs) -> own c <> PSet (j + S n)).
      { intros Hc. rewrite (ta_own _ _ _ _ _ _ _ T c Hc). intros Q. injection Q. lia. }
      destruct K as [K|K]; apply in_app_or in K; destruct K as [K|K].
      * apply D. left. exact K.
      * apply G. exact K.
      * apply D. right. exact K.
      * destruct K as [<-|[<-|[]]]; apply G; assumption.
    + exists (a :: b :: its). cbn [free_sets]. rewrite E. cbn [bind]. rewrite E2. cbn [fst snd map concat]. rewrite <- !app_assoc.
      split; [reflexivity|]. cbn [length] in *. lia.
Qed.
End Free.

(** nothing is given back twice *)
Lemma free_item_nodup : forall lo hi st fr a fr', free_item lo hi st fr a = Ret fr' -> NoDup (fst fr) /\ NoDup (snd fr) -> NoDup (fst fr') /\ NoDup (snd fr').
Proof.
  intros lo hi st fr a fr' E [N1 N2]. unfold free_item in E. destruct (alive (fst fr) a); try discriminate. cbn [bind] in E.
  destruct (alive (snd fr) a) as [u| | |] eqn:Ea; try discriminate. cbn [bind] in E. destruct (pt st a) as [p| | |]; try discriminate. cbn [bind] in E.
  destruct ((px p =? lo) || (px p =? hi)); [|discriminate]. injection E as <-. cbn [fst snd]. split; auto. apply nodup_snoc; auto. apply (alive_inv _ _ _ Ea).
Qed.
Lemma free_one_nodup : forall fr a fr', free_one fr a = Ret fr' -> NoDup (fst fr) /\ NoDup (snd fr) -> NoDup (fst fr') /\ NoDup (snd fr').
Proof.
  intros fr a fr' E [N1 N2]. unfold free_one in E. destruct (alive (fst fr) a) as [u| | |] eqn:Ea; try discriminate. cbn [bind] in E. injection E as <-.
  cbn [fst snd]. split; auto. apply nodup_snoc; auto. apply (alive_inv _ _ _ Ea).
Qed.
Lemma walk_nodup : forall fuel st fr a r, free_walk fuel st fr a = Ret r -> NoDup (fst fr) /\ NoDup (snd fr) -> NoDup (fst (fst r)) /\ NoDup (snd (fst r)).
Proof.
  induction fuel as [|fuel IH]; intros st fr a r E N; cbn [free_walk] in E; [discriminate|].
  destruct (alive (fst fr) a); try discriminate. cbn [bind] in E. destruct (AvlModel.nxt (mem st) a) as [b|]; [|injection E as <-; exact N].
  destruct (free_one fr a) as [f1| | |] eqn:E1; try discriminate. cbn [bind] in E. apply (IH st f1 b r E). apply (free_one_nodup _ _ _ E1 N).
Qed.
Lemma free_sets_nodup : forall lo hi fuel st hs fr fr', free_sets lo hi fuel st fr hs = Ret fr' -> NoDup (fst fr) /\ NoDup (snd fr) -> NoDup (fst fr') /\ NoDup (snd fr').
Proof.
  intros lo hi fuel st. induction hs as [|h hs IH]; intros fr fr' E N; cbn [free_sets] in E; [injection E as <-; exact N|].
  destruct (freetree2 lo hi fuel st fr h) as [f1| | |] eqn:E1; try discriminate. cbn [bind] in E. apply (IH f1 fr' E). clear E IH.
  unfold freetree2 in E1. destruct (deref (fst (fst h))) as [a| | |]; try discriminate. cbn [bind] in E1.
  destruct (free_item lo hi st fr a) as [f2| | |] eqn:E2; try discriminate. cbn [bind] in E1.
  destruct (free_walk fuel st f2 a) as [r| | |] eqn:E3; try discriminate. cbn [bind] in E1.
  destruct (free_item lo hi st (fst r) (snd r)) as [f4| | |] eqn:E4; try discriminate. cbn [bind] in E1.
  apply (free_one_nodup _ _ _ E1). apply (free_item_nodup _ _ _ _ _ _ E4). apply (walk_nodup _ _ _ _ _ E3). apply (free_item_nodup _ _ _ _ _ _ E2 N).
Qed.

(** ** Reading the result *)
Lemma f_flag_sim : forall freed nruns l fuel st a r, (forall i, ~ In (level_addr i) freed) -> run (mem st) (item st) a l ->
  p_flag_points fuel st nruns a = Ret r -> f_flag_points freed fuel st nruns a = Ret r.
Proof.
  intros freed nruns. induction l as [|q l IH]; intros fuel st a r D H E; cbn [run] in H.
  - subst a. destruct fuel; exact E.
  - destruct H as (i & Ei & -> & Eit & H). destruct fuel as [|fuel]; cbn [p_flag_points f_flag_points] in *; [discriminate|].
    rewrite alive_ok by apply D. cbn [bind]. destruct (pt st (level_addr i)) as [p| | |]; try discriminate. cbn [bind] in *.
    destruct (addr_id (level_addr i)) as [j| | |]; try discriminate. cbn [bind] in *.
    match type of E with bind ?e _ = _ => destruct e as [fl| | |]; try discriminate end. cbn [bind] in *.
    destruct (p_flag_points fuel st nruns (AvlModel.nxt (mem st) (level_addr i))) as [rest| | |] eqn:Er; try discriminate.
    rewrite (IH fuel st _ rest D H Er). exact E.
Qed.
Lemma f_select_sim : forall freed nruns st rs xs, (forall i, ~ In (level_addr i) freed) -> length rs = length xs ->
  (forall n a x, nth_error rs n = Some a -> nth_error xs n = Some x -> run (mem st) (item st) a x) ->
  forall att r, p_select_levels st nruns rs att = Ret r -> f_select_levels freed st nruns rs att = Ret r.
Proof.
  intros freed nruns st rs xs D L H. induction att as [|l att IH]; intros r E; cbn [p_select_levels f_select_levels] in *; auto.
  destruct (l <=? 0); [discriminate|]. cbn [bind] in *.
  destruct (rd rs (Z.to_nat l - 1)) as [a| | |] eqn:Ea; try discriminate. apply rd_inv in Ea. cbn [bind] in *.
  destruct (nth_same_len _ _ _ xs _ _ L Ea) as (x & Ex). pose proof (H _ _ _ Ea Ex) as Hr.
  destruct (p_flag_points (3 + length (fields st)) st nruns a) as [s| | |] eqn:Es; try discriminate. rewrite (f_flag_sim freed nruns x _ st a s D Hr Es). cbn [bind] in *.
  destruct (p_select_levels st nruns rs att) as [rest| | |]; try discriminate. cbn [bind] in E. rewrite (IH rest eq_refl). exact E.
Qed.

(** ** The whole program *)
Theorem f_eaf3d_ok : forall lo hi wipe start sortz junk data cumsize nruns att r, lo < hi ->
  (forall p, In p data -> lo < coord p 0 < hi /\ lo < coord p 1 < hi) -> Z.of_nat (length data) < 2 ^ 118 ->
  eaf3d lo hi sortz junk data cumsize nruns att = Ret r ->
  exists st trees nodes items, f_eaf3d lo hi wipe start sortz junk data cumsize nruns att = Ret (r, (st, trees, (nodes, items))) /\
    length trees = nruns /\ NoDup nodes /\ NoDup items /\ length items = (2 * nruns)%nat /\ (forall i, ~ In (level_addr i) nodes) /\
    exists xss, length xss = nruns /\ (forall k h xs, nth_error trees k = Some h -> nth_error xss k = Some xs -> holds (view (mem st) h) xs) /\ nodes = concat xss.
Proof.
  intros lo hi wipe start sortz junk data cumsize nruns att r LH Hb Hsz E.
  set (X := lo :: hi :: map (fun p => coord p 0) data).
  assert (Xsmall : Z.of_nat (length X) < 2 ^ 119). { unfold X. cbn [length]. rewrite map_length. change (2 ^ 119) with (2 * 2 ^ 118). pose proof (Z.pow_pos_nonneg 2 118). change (2 ^ 118) with 332306998946228968225951765070086144 in *. lia. }
  assert (Xlo : In lo X) by now left. assert (Xhi : In hi X) by (right; now left).
  unfold eaf3d in E. destruct (setup_cdllist sortz data cumsize) as [l| | |] eqn:El; try discriminate. cbn [bind] in E.
  assert (Hl : forall q k, In (q, k) l -> inbox lo hi q /\ In (nx q) X).
  { intros q k Hq. unfold setup_cdllist in El. destruct (runtab_loop cumsize (length data) 0 0) as [tab| | |]; try discriminate. cbn [bind] in El.
    destruct (sorted_list_in _ _ _ _ El q k Hq) as (p & Hp & ->). destruct (Hb p Hp) as [B0 B1]. split; [split; cbn; auto|].
    right. right. apply in_map_iff. exists p. auto. }
  destruct (eaf3df nruns _ l) as [st| | |] eqn:Ef in E; try discriminate. cbn [bind] in E.
  destruct (outputs (out (tr st)) (lev (tr st))) as [os| | |] eqn:Eo; try discriminate. cbn [bind] in E.
  assert (HE : okS lo hi nruns (sets st)).
  { apply (ends_eaf3df lo hi nruns) in Ef; auto. cbn [sets]. split; [|rewrite map_length, seq_length; reflexivity]. apply Forall_forall. intros t Ht. apply in_map_iff in Ht.
    destruct Ht as (j & <- & _). eexists _, [], _. split; [reflexivity|]. split; reflexivity. }
  set (s0 := mkTrees [] [] []).
  assert (HR0 : R lo X (mkP start (fun _ => None) [] [] [] None [] 0) (fun _ => Free) [] s0).
  { constructor; try reflexivity; cbn; try (intros [|?]; discriminate); auto. }
  destruct (alloc_sim lo hi X LH Xlo Xhi junk nruns 0 _ _ _ s0 HR0 eq_refl eq_refl eq_refl eq_refl) as (st1 & own1 & SZ1 & E1 & HR1 & ES1).
  unfold f_eaf3d. rewrite E1. cbn [bind]. rewrite El. cbn [bind]. cbn [s0 lev out heap app map] in *.
  destruct (eaf3df_sim lo hi X wipe Xsmall nruns st1 own1 SZ1 _ l junk st HR1 ES1 eq_refl eq_refl Hl) as (p & Ep & (own & SZ & HR & ESZ & _)).
  { rewrite ES1. exact Ef. }
  rewrite Ep. cbn [bind].
  destruct (outputs_sim lo X wipe Xsmall own (length (heap (tr st))) (pouts (ps p)) (plevs (ps p)) (out (tr st)) (lev (tr st)) 0 (ps p) os) as (st2 & rs & E2 & Ef2 & Lr & Hr & Fr); auto.
  { apply (r_nouts _ _ _ _ _ _ HR). } { apply (r_nlevs _ _ _ _ _ _ HR). }
  { intros n h t. apply (r_lev _ _ _ _ _ _ HR). } { intros n o l'. apply (r_out _ _ _ _ _ _ HR). } { apply (r_inner _ _ _ _ _ _ HR). }
  rewrite E2. cbn [bind fst snd]. rewrite (r_fields _ _ _ _ _ _ HR) in Ef2.
  assert (HS : forall n h zs, nth_error (psets (ps p)) n = Some h -> nth_error SZ n = Some zs ->
     tree_at X (mem st2) (item st2) own (PSet (0 + n)) h zs /\ ends lo hi (t_of zs) /\ (length (xs_of zs) <= fresh (ps p))%nat).
  { intros n h zs H1 H2. destruct (r_set _ _ _ _ _ _ HR n h zs H1 H2) as [T Ho]. cbn [plus]. split; [|split].
    - apply (tree_at_frame X _ _ _ _ _ _ _ _ _ T). intros a Ha. split; [exact Ha|]. apply Fr. intros j _. rewrite Ha. split; discriminate.
    - destruct HE as [HE _]. rewrite Forall_forall in HE. apply HE. rewrite <- ESZ. apply in_map. apply nth_error_In in H2. exact H2.
    - replace (fresh (ps p)) with (length (map other_addr (seq 0 (fresh (ps p))))) by (rewrite map_length, seq_length; reflexivity).
      apply NoDup_incl_length; [apply (ta_holds _ _ _ _ _ _ _ T)|]. intros a Ha. destruct (Ho a Ha) as (j & ->). apply in_map. apply in_seq.
      split; [lia|]. cbn. destruct (Nat.lt_ge_cases j (fresh (ps p))) as [G|G]; auto. exfalso.
      pose proof (r_free_odd _ _ _ _ _ _ HR j G) as K. rewrite (ta_own _ _ _ _ _ _ _ T _ Ha) in K. discriminate. }
  destruct (free_sets_ok lo hi X (fresh (ps p)) st2 own (psets (ps p)) SZ 0 ([], []) (r_nsets _ _ _ _ _ _ HR) HS) as (its & E3 & L3).
  { intros a n [K|K]; destruct K. }
  pose proof (free_sets_nodup _ _ _ _ _ _ _ E3 (conj (NoDup_nil _) (NoDup_nil _))) as [N1 N2]. cbn [fst snd app] in *.
  rewrite E3. cbn [bind fst snd].
  assert (Dl : forall i, ~ In (level_addr i) (concat (map xs_of SZ))).
  { intros i K. apply in_concat in K. destruct K as (xs & Hxs & K). apply in_map_iff in Hxs. destruct Hxs as (zs & <- & Hz).
    apply In_nth_error in Hz. destruct Hz as (n & Hz). destruct (nth_same_len _ _ _ (psets (ps p)) _ _ (eq_sym (r_nsets _ _ _ _ _ _ HR)) Hz) as (h & Hh).
    destruct (r_set _ _ _ _ _ _ HR n h zs Hh Hz) as [_ Ho]. destruct (Ho _ K) as (j & Ej). apply (level_other i j Ej). }
  assert (E4 : p_select_levels st2 nruns rs att = Ret r).
  { apply (select_sim nruns st2 rs os); auto; rewrite Ef2; [exact Hr|exact E]. }
  rewrite (f_select_sim _ nruns st2 rs os Dl Lr) with (r := r); auto; [|intros n a x H1 H2; apply (Hr n a x H1 H2)]. cbn [bind].
  assert (LS : length SZ = nruns).
  { rewrite <- (map_length t_of SZ), ESZ. apply HE. }
  assert (LP : length (psets (ps p)) = nruns) by (rewrite (r_nsets _ _ _ _ _ _ HR); exact LS).
  eexists _, _, _, _. split; [reflexivity|]. split; [exact LP|]. split; [exact N1|]. split; [exact N2|]. split; [rewrite L3, LP; reflexivity|]. split; [exact Dl|].
  exists (map xs_of SZ). split; [rewrite map_length; exact LS|]. split; [|reflexivity].
  intros k h xs H1 H2. rewrite nth_error_map in H2. destruct (nth_error SZ k) as [zs|] eqn:Ez; [|discriminate]. cbn in H2. injection H2 as <-.
  destruct (HS k h zs H1 Ez) as [T _]. apply (ta_holds _ _ _ _ _ _ _ T).
Qed.
