(** The result of the 3-objective EAF model. *)
From Coq Require Import List ZArith Lia Bool Arith Sorted Permutation QArith.
From Verif Require Import Base Spec EafSpec EafModel EafProofs EafMain BitArrayModel BitArrayProofs EafStoreModel EafStoreProofs EafTop Eaf3dSpec Eaf3dModel Eaf3dTrees Eaf3dProofs Eaf3dMain Eaf3dFlags.
Import ListNotations.
Open Scope Z_scope.

Lemma wdom3_iff : forall p z, wdom (minimise 3) p z <->
  coord p 0 <= coord z 0 /\ coord p 1 <= coord z 1 /\ coord p 2 <= coord z 2.
Proof.
  intros. unfold wdom, minimise, as_good. simpl. split.
  - intros H. split; [apply (H 0%nat)|split; [apply (H 1%nat)|apply (H 2%nat)]]; lia.
  - intros (H0 & H1 & H2) [|[|[|k]]] Hk; simpl; auto; lia.
Qed.
Lemma point3 : forall p : point, length p = 3%nat -> p = [coord p 0; coord p 1; coord p 2].
Proof. intros [|a [|b [|c [|? ?]]]]; simpl; intros; try discriminate. reflexivity. Qed.

(** ** The input list *)
Lemma sorted_list_ok : forall data tab dz, length tab = length data -> (forall i, In i dz -> (i < length data)%nat) ->
  sorted_list data tab dz = Ret (map (fun i => (node_of (row data i), nth i tab O)) dz).
Proof.
  induction dz as [|i dz IH]; intros Hl H; cbn [sorted_list map]; auto.
  assert (i < length data)%nat by (apply H; now left).
  rewrite (rd_ok _ data i []) by lia. cbn [bind]. rewrite (rd_ok _ tab i O) by lia. cbn [bind].
  rewrite IH; auto. intros j Hj. apply H. now right.
Qed.

Section Input.
Variables (runs : list (list point)) (dz : list nat).
Hypothesis Hdz : is_dataz (concat runs) dz.
Definition inputs : list (node * nat) :=
  map (fun i => (node_of (row (concat runs) i), nth i (runtab_spec 0 runs) O)) dz.

Lemma dz_range : forall i, In i dz <-> (i < length (concat runs))%nat.
Proof.
  intros i. destruct Hdz as [P _]. split.
  - intros H. apply (Permutation_in _ (Permutation_sym P)) in H. apply in_seq in H. lia.
  - intros H. apply (Permutation_in _ P). apply in_seq. lia.
Qed.
Lemma inputs_In : forall q k, In (q, k) inputs <-> (k < length runs)%nat /\ exists p, In p (nth k runs []) /\ q = node_of p.
Proof.
  intros q k. unfold inputs. rewrite in_map_iff. split.
  - intros (i & E & I). inversion E; subst. apply dz_range in I.
    destruct (proj1 (runtab_spec_In runs 0 (nth i (runtab_spec 0 runs) O) (row (concat runs) i))) as [A B].
    + exists i. auto.
    + split; auto. eauto.
  - intros (Hk & p & Hp & ->). destruct (proj2 (runtab_spec_In runs 0 k p) (conj Hk Hp)) as (i & Hi & R & E).
    exists i. rewrite E, R. split; auto. now apply dz_range.
Qed.
Lemma inputs_sorted : StronglySorted (fun e f => nz (fst e) <= nz (fst f)) inputs.
Proof.
  destruct Hdz as [_ Srt]. unfold inputs. clear Hdz. induction Srt; cbn [map]; constructor; auto.
  rewrite Forall_forall in *. intros e He. apply in_map_iff in He. destruct He as (i & <- & I). apply (H i I).
Qed.

Lemma seen_attains : forall a b c k, (k < length runs)%nat ->
  (seen inputs a b c k = true <-> attains 3 (nth k runs []) [a; b; c]).
Proof.
  intros a b c k Hk. rewrite seen_iff. unfold attains. split.
  - intros (q & I & [B1 B2] & Z). apply inputs_In in I. destruct I as (_ & p & Hp & ->). exists p. split; auto.
    apply wdom3_iff. auto.
  - intros (p & Hp & W). apply wdom3_iff in W. destruct W as (W0 & W1 & W2). exists (node_of p).
    split. apply inputs_In. split; auto. eauto. split; auto. split; auto.
Qed.
Lemma cnt3_attained : forall a b c l, (l <= cnt3 (length runs) inputs a b c)%nat <-> attained_by_at_least 3 l runs [a; b; c].
Proof.
  intros. unfold cnt3. rewrite countb_ge_iff. unfold attained_by_at_least.
  split; intros (ks & N & L & H); exists ks; (split; [exact N|split; [exact L|]]); intros k Hk; destruct (H k Hk);
    (split; [assumption|]); now apply seen_attains.
Qed.
End Input.

(** ** The output *)
Section Output.
Variables lo hi : Z.
Hypothesis LH : lo < hi.

Lemma wft_shape : forall t, wft lo hi t -> exists h mid l, t = h :: mid ++ [l] /\ (forall q, In q mid <-> In q t /\ real hi q).
Proof.
  intros t W. pose proof W as (St & (h & Ih & Xh & Yh) & (l & Il & Xl & Yl) & Al).
  destruct t as [|x t]. contradiction. apply stair_inv in St as St'. destruct St' as [St1 St2].
  assert (x = h).
  { destruct Ih as [|Ih]; auto. destruct (St2 h Ih) as [K _]. destruct (wft_bounds lo hi _ x W (or_introl eq_refl)); lia. }
  subst x. destruct Il as [E|Il]. { subst. lia. }
  destruct (exists_last (l := t)) as (mid & y & ->). { intros ->. contradiction. }
  destruct (stair_app_inv _ _ St1) as (Sm & _ & Sy).
  assert (y = l).
  { apply in_app_iff in Il. destruct Il as [Il|[|[]]]; auto. destruct (Sy l y Il (or_introl eq_refl)) as [K _].
    destruct (wft_bounds lo hi _ y W); try lia. right. rewrite in_app_iff. right; now left. }
  subst y. exists h, mid, l. split; auto. intros q. split.
  - intros I. assert (It : In q (h :: mid ++ [l])) by (right; rewrite in_app_iff; auto). split; auto.
    destruct (Sy q l I (or_introl eq_refl)) as [K1 K2]. destruct (St2 q) as [K3 K4]. rewrite in_app_iff; auto.
    split; lia.
  - intros ([<-|I] & R1 & R2). lia. rewrite in_app_iff in I. destruct I as [|[<-|[]]]; auto. lia.
Qed.

Lemma add2output_all_ok : forall o t, wft lo hi t -> exists mid, add2output_all o t = Ret (o ++ mid) /\
  (forall q, In q mid <-> In q t /\ real hi q) /\ exists h l, t = h :: mid ++ [l].
Proof.
  intros o t W. destruct (wft_shape t W) as (h & mid & l & -> & H). exists mid. split; [|split]; eauto.
  cbn [add2output_all]. rewrite rev_app_distr. cbn [rev app]. now rewrite rev_involutive.
Qed.

Lemma outputs_ok : forall os ts, length os = length ts -> (forall j, (j < length ts)%nat -> wft lo hi (nth j ts [])) ->
  exists r, outputs os ts = Ret r /\ length r = length ts /\
    forall j, (j < length ts)%nat -> add2output_all (nth j os []) (nth j ts []) = Ret (nth j r []).
Proof.
  induction os as [|o os IH]; intros [|t ts] Hl W; try discriminate; cbn [outputs].
  - exists []. split; auto. split; auto. cbn. lia.
  - destruct (add2output_all_ok o t (W O ltac:(cbn; lia))) as (mid & E & _). rewrite E. cbn [bind].
    destruct (IH ts) as (r & Er & Lr & Hr). { cbn in Hl; lia. } { intros j Hj. apply (W (S j)). cbn; lia. }
    rewrite Er. cbn [bind]. exists ((o ++ mid) :: r). split; auto. split. { cbn; lia. }
    intros [|j] Hj; cbn [nth]; auto. apply Hr. cbn in Hj; lia.
Qed.

(** a surface with the exact flags of its points *)
Definition flagged (runs : list (list point)) (l : nat) (s : list (point * list bool)) : Prop :=
  is_surface 3 runs l (map fst s) /\
  forall p fl, In (p, fl) s -> length fl = length runs /\
    forall k, (k < length runs)%nat -> (nth k fl false = true <-> attains 3 (nth k runs []) p).

Lemma select_levels_ok : forall h n os (R : nat -> list (point * list bool) -> Prop) ls,
  (forall l, In l ls -> (1 <= l <= length os)%nat /\ exists s, flag_points h n (nth (l - 1) os []) = Ret s /\ R l s) ->
  exists out, select_levels h n os (map Z.of_nat ls) = Ret out /\ Forall2 R ls out.
Proof.
  induction ls as [|l ls IH]; intros H; cbn [map select_levels]. { exists []. auto. }
  destruct (H l (or_introl eq_refl)) as (Hl & s & Es & Rs).
  destruct (Z.leb_spec (Z.of_nat l) 0). lia. cbn [bind]. rewrite Nat2Z.id.
  rewrite (rd_ok _ os (l - 1) []) by lia. cbn [bind]. rewrite Es. cbn [bind].
  destruct IH as (out & Eo & F). intros; apply H; now right. rewrite Eo. cbn [bind]. eauto.
Qed.

Theorem eaf3d_ok : forall runs sortz junk levels,
  runs <> [] -> (forall r, In r runs -> r <> []) -> wf_points 3 (concat runs) ->
  (forall p, In p (concat runs) -> lo < coord p 0 < hi /\ lo < coord p 1 < hi) ->
  is_dataz (concat runs) (sortz (concat runs)) ->
  Forall (fun l => (1 <= l <= length runs)%nat) levels ->
  exists out, eaf3d lo hi sortz junk (concat runs) (cumsizes runs) (length runs) (map Z.of_nat levels) = Ret out /\
    Forall2 (flagged runs) levels out.
Proof.
  intros runs sortz junk levels Hr Hne Hwf Hb Hdz Hlev. set (data := concat runs) in *. set (dz := sortz data) in *.
  unfold eaf3d, setup_cdllist. fold data. unfold data at 1 2. rewrite runtab_cumsizes by auto. cbn [bind]. fold data. fold dz.
  rewrite sorted_list_ok. 2:{ apply runtab_spec_length. } 2:{ intros i Hi. now apply (dz_range runs dz Hdz). }
  cbn [bind]. change (map _ dz) with (inputs runs dz). set (P := inputs runs dz) in *.
  set (n := length runs) in *.
  assert (HP : forall q k, In (q, k) P -> inside lo hi q /\ (k < n)%nat).
  { intros q k I. apply inputs_In in I; auto. destruct I as (Hk & p & Hp & ->). split; auto.
    assert (In p data). { unfold data. apply in_concat. exists (nth k runs []). split; auto. now apply nth_In. }
    destruct (Hb p H). split; auto. }
  assert (Srt : StronglySorted (fun e f => nz (fst e) <= nz (fst f)) P) by (apply inputs_sorted; auto).
  change (mkState _ _ _ _) with (first_state lo hi n junk).
  destruct P as [|[new k] l] eqn:EP.
  { exfalso. destruct runs as [|r runs]. congruence. destruct r as [|p r]. apply (Hne []); auto; now left.
    assert (In (node_of p, O) P). { apply inputs_In; auto. split. cbn; lia. exists p. split; auto. now left. }
    unfold P in H. fold P in H. rewrite EP in H. contradiction. }
  destruct (HP new k (or_introl eq_refl)) as [Hin Hk].
  destruct (inv_first lo hi LH n junk new k l Hin Hk) as (st0 & E0 & I0 & Hh & HO & HL). rewrite E0.
  inversion Srt; subst. rewrite Forall_forall in H2.
  pose proof (meta_first lo hi n new k (tr st0) (nz new) Hk Hin Hh HO HL) as M0.
  destruct (meta_loop lo hi LH n l [(new, k)] st0 (nz new) _ I0 M0 H1) as (st & zn & g & E & I & M).
  { intros q i Hq. destruct (HP q i (or_intror Hq)). split; auto. split; auto. apply (H2 (q, i) Hq). }
  rewrite E. cbn [bind]. cbn [app] in I, M.
  destruct I as [(Ls & Lm & Ll & Lo) IP IS IR IM IST Im ILK ILV ICV _].
  destruct (outputs_ok (out (tr st)) (lev (tr st))) as (os & Eo & Leo & Ho). lia.
  { intros j Hj. apply (ILK j). lia. }
  rewrite Eo. cbn [bind]. apply select_levels_ok.
  intros x Hx. rewrite Forall_forall in Hlev. specialize (Hlev x Hx). split. lia.
  set (j := (x - 1)%nat). assert (Hj : (j < n)%nat) by (unfold j; lia).
  specialize (Ho j ltac:(lia)). fold (L (tr st) j) in Ho. fold (O_ (tr st) j) in Ho.
  specialize (ILK j Hj). destruct ILK as (W & Zt & Zo & ND & AC).
  destruct (add2output_all_ok (O_ (tr st) j) (L (tr st) j) W) as (mid & Em & Hm & h & la & Et).
  rewrite Em in Ho. injection Ho as Ho. rewrite <- Ho. clear Ho Em.
  set (o := O_ (tr st) j) in *. set (t := L (tr st) j) in *.
  assert (Om : forall q, In q (o ++ mid) -> In q (o ++ t) /\ real hi q).
  { intros q I. rewrite in_app_iff in *. destruct I as [I|I]. destruct (Zo q I) as (R & _). auto. apply Hm in I. tauto. }
  assert (NDm : NoDup (o ++ mid)).
  { destruct (NoDup_app_elim _ _ _ ND) as (N1 & N2 & D). apply NoDup_app_intro; auto.
    - rewrite Et in N2. apply NoDup_cons_iff in N2. destruct N2 as [_ N2]. now apply NoDup_app_elim in N2.
    - intros q I1 I2. apply (D q I1). now apply Hm. }
  destruct (flag_points_ok hi n _ (tr st) zn g j (o ++ mid) M Hj) as (fs & Ef & Mf & Ff).
  { intros q Iq. destruct (Om q Iq) as [I1 I2]. split; auto. rewrite in_app_iff in I1. tauto. }
  exists fs. split; auto. split.
  2:{ intros p fl Ip. assert (K : exists q, In q (o ++ mid) /\ point_of q = p /\ length fl = n /\ forall k0, nth k0 fl false = true <-> sn ((new, k) :: l) q k0).
      { clear - Ff Mf Ip. revert Mf Ip. induction Ff as [|q [p' fl'] qs fs [F1 F2] Ff IH]; intros Mf Ip. contradiction.
        cbn [map fst] in Mf. injection Mf as Mf1 Mf2. destruct Ip as [Ip|Ip].
        - inversion Ip; subst. exists q. split. now left. auto.
        - destruct (IH Mf2 Ip) as (q' & Q1 & Q2). exists q'. split; auto. now right. }
      destruct K as (q & _ & <- & Lf & K). split; auto. intros k0 Hk0. rewrite K. unfold sn. rewrite <- EP.
      unfold P. apply (seen_attains runs dz Hdz). auto. }
  rewrite Mf.
  split; [|split].
  - apply Forall_forall. intros p Hp. apply in_map_iff in Hp. destruct Hp as (q & <- & _). auto.
  - rewrite map_length. intros i i' Hi Hi' Ne Wd. unfold row in Wd. rewrite !nth_map_lt with (d0 := new) in Wd by auto.
    apply wdom3_iff in Wd. destruct Wd as (W0 & W1 & W2). cbn [point_of coord nth] in W0, W1, W2.
    apply Ne. apply (proj1 (NoDup_nth (o ++ mid) new) NDm); auto.
    pose proof (Om _ (nth_In _ new Hi)) as [A1 R1]. pose proof (Om _ (nth_In _ new Hi')) as [A2 R2].
    apply AC; auto. split; auto.
  - intros z Hz. rewrite (point3 z Hz). set (a := coord z 0). set (b := coord z 1). set (c := coord z 2).
    rewrite <- (cnt3_attained runs dz Hdz). fold P. rewrite EP. fold n.
    transitivity (covers hi t o a b c).
    + split.
      * intros (p & Hp & Wd). apply in_map_iff in Hp. destruct Hp as (q & <- & I). apply wdom3_iff in Wd.
        destruct Wd as (W0 & W1 & W2). cbn [point_of coord nth] in W0, W1, W2. destruct (Om q I). exists q. repeat split; auto; apply H0.
      * intros (q & I & R & [B1 B2] & Lz). exists (point_of q). split.
        -- apply in_map. rewrite in_app_iff in *. destruct I as [I|I]; auto. right. apply Hm; auto.
        -- apply wdom3_iff. cbn. auto.
    + unfold t, o. rewrite ICV by auto. unfold j. lia.
Qed.
End Output.

(** ** Consequences of the specification *)
Lemma wdom_trans3 : forall p q r, wdom (minimise 3) p q -> wdom (minimise 3) q r -> wdom (minimise 3) p r.
Proof. intros p q r. rewrite !wdom3_iff. lia. Qed.

Lemma surface_antichain : forall runs l s p q, is_surface 3 runs l s -> In p s -> In q s -> wdom (minimise 3) p q -> p = q.
Proof.
  intros runs l s p q (_ & An & _) Hp Hq W. apply In_nth with (d := []) in Hp. apply In_nth with (d := []) in Hq.
  destruct Hp as (i & Hi & <-). destruct Hq as (j & Hj & <-). destruct (Nat.eq_dec i j) as [->|N]; auto.
  exfalso. apply (An i j); auto.
Qed.
Lemma wdom_refl3 : forall p, wdom (minimise 3) p p.
Proof. intros. apply wdom3_iff. lia. Qed.
Lemma surface_NoDup : forall runs l s, is_surface 3 runs l s -> NoDup s.
Proof.
  intros runs l s (_ & An & _). apply (NoDup_nth s []). intros i j Hi Hj E.
  destruct (Nat.eq_dec i j); auto. exfalso. apply (An i j); auto. unfold row. rewrite E. apply wdom_refl3.
Qed.

Lemma surface3_unique : forall runs l s s', is_surface 3 runs l s -> is_surface 3 runs l s' -> Permutation s s'.
Proof.
  assert (Inc : forall runs l s s' p, is_surface 3 runs l s -> is_surface 3 runs l s' -> In p s -> In p s').
  { intros runs l s s' p Sf Sf' Hp. pose proof Sf as (W & _ & Ex). pose proof Sf' as (W' & _ & Ex').
    unfold wf_points in *. rewrite Forall_forall in W, W'.
    assert (A : attained_by_at_least 3 l runs p). { apply Ex; auto. exists p. split; auto. apply wdom_refl3. }
    destruct (proj2 (Ex' p (W p Hp)) A) as (q & Hq & Wq).
    assert (B : attained_by_at_least 3 l runs q). { apply Ex'; auto. exists q. split; auto. apply wdom_refl3. }
    destruct (proj2 (Ex q (W' q Hq)) B) as (p' & Hp' & Wp').
    assert (p' = p). { apply (surface_antichain runs l s); auto. apply (wdom_trans3 p' q p); auto. } subst p'.
    apply wdom3_iff in Wq. apply wdom3_iff in Wp'. assert (p = q); [|congruence].
    rewrite (point3 p (W p Hp)), (point3 q (W' q Hq)). f_equal; [lia|f_equal; [lia|f_equal; lia]]. }
  intros runs l s s' Sf Sf'. apply NoDup_Permutation.
  - eapply surface_NoDup; eauto. - eapply surface_NoDup; eauto. - intros p. split; eauto.
Qed.

(** every coordinate of a surface point is a coordinate of an input point *)
Lemma max_witness : forall (ks : list nat) (R : nat -> Z -> Prop) M, ks <> [] -> (forall k, In k ks -> exists v, R k v /\ v <= M) ->
  exists k v, In k ks /\ R k v /\ v <= M /\ forall k', In k' ks -> exists v', R k' v' /\ v' <= v.
Proof.
  induction ks as [|k ks IH]; intros R M Hn H. congruence.
  destruct (H k (or_introl eq_refl)) as (v & Rv & Lv). destruct ks as [|k2 ks].
  - exists k, v. split. now left. split; auto. split; auto. intros k' [<-|[]]. exists v. split; auto. lia.
  - destruct (IH R M) as (k1 & v1 & I1 & R1 & L1 & H1). congruence. intros; apply H; now right.
    destruct (Z.le_gt_cases v v1).
    + exists k1, v1. split. now right. split; auto. split; auto. intros k' [<-|I]; eauto.
    + exists k, v. split. now left. split; auto. split; auto. intros k' [<-|I]. exists v; split; auto; lia.
      destruct (H1 k' I) as (v' & ? & ?). exists v'. split; auto. lia.
Qed.

Lemma surface3_coord : forall runs l s p c, (1 <= l)%nat -> is_surface 3 runs l s -> In p s -> (c < 3)%nat ->
  exists q, In q (concat runs) /\ coord q c = coord p c.
Proof.
  intros runs l s p c Hl Sf Hp Hc. pose proof Sf as (W & _ & Ex). unfold wf_points in W. rewrite Forall_forall in W.
  assert (At : attained_by_at_least 3 l runs p). { apply Ex; auto. exists p. split; auto. apply wdom_refl3. }
  destruct At as (ks & ND & Len & Hk).
  destruct (max_witness ks (fun k v => (k < length runs)%nat /\ exists q, In q (nth k runs []) /\ wdom (minimise 3) q p /\ coord q c = v) (coord p c))
    as (k & v & Ik & (Lk & q & Hq & Wq & Eq) & Lv & Hm).
  { intros ->. cbn in Len. lia. }
  { intros k Hkk. destruct (Hk k Hkk) as (A & q & Hq & Wq). exists (coord q c). split; [split; auto; eauto|].
    apply wdom3_iff in Wq. destruct c as [|[|[|]]]; lia. }
  exists q. split. { apply in_concat. exists (nth k runs []). split; auto. now apply nth_In. }
  rewrite Eq. set (p' := upd p c v).
  assert (Lp : length p = 3%nat) by auto.
  assert (Cp : forall i, coord p' i = if (c =? i)%nat then v else coord p i). { intros i. unfold coord, p'. apply nth_upd. lia. }
  assert (Wp : wdom (minimise 3) p' p).
  { apply wdom3_iff. rewrite !Cp. destruct c as [|[|[|]]]; cbn [Nat.eqb]; lia. }
  assert (At' : attained_by_at_least 3 l runs p').
  { exists ks. split; auto. split; auto. intros k' Ik'. destruct (Hm k' Ik') as (v' & (Lk' & q' & Hq' & Wq' & Eq') & Lv').
    split; auto. exists q'. split; auto. apply wdom3_iff in Wq'. apply wdom3_iff. rewrite !Cp.
    destruct c as [|[|[|]]]; cbn [Nat.eqb]; lia. }
  apply Ex in At'. 2:{ unfold p'. now rewrite upd_length. }
  destruct At' as (r & Hr & Wr). assert (r = p). { apply (surface_antichain runs l s); auto. apply (wdom_trans3 r p' p); auto. }
  subst r. apply wdom3_iff in Wr. rewrite !Cp in Wr. destruct c as [|[|[|]]]; cbn [Nat.eqb] in Wr; lia.
Qed.

(** the size of a surface *)
Lemma surface3_length : forall runs l s, (1 <= l)%nat -> is_surface 3 runs l s ->
  (length s <= length (concat runs) * length (concat runs))%nat.
Proof.
  intros runs l s Hl Sf. set (d := concat runs).
  set (xy := fun p : point => (coord p 0, coord p 1)).
  assert (ND : NoDup (map xy s)).
  { apply NoDup_nth with (d := xy []). rewrite map_length. intros i j Hi Hj E. rewrite !map_nth in E.
    destruct (Nat.eq_dec i j); auto. exfalso. inversion E. destruct Sf as (_ & An & _).
    destruct (Z.le_gt_cases (coord (row s i) 2) (coord (row s j) 2)).
    - apply (An i j); auto. apply wdom3_iff. unfold row in *. lia.
    - apply (An j i); auto. apply wdom3_iff. unfold row in *. lia. }
  rewrite <- (map_length xy s). rewrite <- (map_length (fun p => coord p 0) d) at 1. rewrite <- (map_length (fun p => coord p 1) d).
  rewrite <- prod_length. apply NoDup_incl_length; auto. intros e He. apply in_map_iff in He. destruct He as (p & <- & Hp).
  apply in_prod.
  - destruct (surface3_coord runs l s p 0 Hl Sf Hp) as (q & Hq & E). lia. apply in_map_iff. eauto.
  - destruct (surface3_coord runs l s p 1 Hl Sf Hp) as (q & Hq & E). lia. apply in_map_iff. eauto.
Qed.

Lemma surface3_nonempty : forall runs l s, (forall r, In r runs -> r <> []) -> (l <= length runs)%nat ->
  is_surface 3 runs l s -> s <> [].
Proof.
  intros runs l s Hne Hl (_ & _ & Ex) ->.
  destruct (exists_bound (concat runs) 0) as (b0 & B0). destruct (exists_bound (concat runs) 1) as (b1 & B1).
  destruct (exists_bound (concat runs) 2) as (b2 & B2).
  destruct (proj2 (Ex [b0; b1; b2] eq_refl)) as (p & [] & _).
  exists (seq 0 l). split. apply seq_NoDup. split. apply seq_length. intros k Hk. apply in_seq in Hk. split. lia.
  assert (I : In (nth k runs []) runs) by (apply nth_In; lia).
  destruct (nth k runs []) as [|q r] eqn:E. { exfalso. apply (Hne [] I); auto. }
  exists q. split. now left. assert (In q (concat runs)). { apply in_concat. exists (q :: r). split; auto. now left. }
  apply wdom3_iff. unfold coord at 2 4 6. cbn [nth]. auto.
Qed.

(** ** The matrix *)
Lemma eaf2matrix_ok3 : forall n ss es, Forall2 (holds 3 n) es ss ->
  Forall (Forall (fun o : point * list bool => length (fst o) = 3%nat)) ss ->
  forall pre ps, length ps = length ss ->
  eaf2matrix es 3 (length pre) (Some (pre ++ ps)) (length (pre ++ ps)) =
  Ret (concat (map (fun sp => map (fun x => (x, snd sp)) (fst sp)) (combine (map (map fst) ss) ps))).
Proof.
  induction 1 as [|e s es ss H F IH]; intros W pre ps Hl; cbn [eaf2matrix]; auto.
  destruct ps as [|p ps]; try discriminate. inversion W as [|? ? W1 W2]; subst.
  rewrite (rd_ok _ _ _ p) by (rewrite app_length; simpl; lia).
  rewrite app_nth2, Nat.sub_diag by lia. cbn [nth bind].
  pose proof H as (_ & Hs & _). rewrite Hs.
  rewrite (collect_ok _ _ (fun i => (fst (nth i s ([], [])), p))).
  2:{ intros j Hj. rewrite (read_point_ok 3 n e s j) ; auto; try lia.
      rewrite Forall_forall in W1. apply W1. apply nth_In. lia. }
  cbn [bind]. specialize (IH W2 (pre ++ [p]) ps ltac:(simpl in Hl; lia)).
  rewrite <- app_assoc in IH. cbn [app] in IH. rewrite app_length in IH. cbn [length] in IH.
  replace (S (length pre)) with (length pre + 1)%nat by lia. rewrite IH. cbn [bind].
  cbn [map combine concat fst snd]. do 2 f_equal.
  rewrite map_map. exact (map_nth_seq _ _ (fun o : point * list bool => (fst o, p)) ([], []) s).
Qed.

Lemma store3_ok : forall junk grow nruns npoints, (forall i, is_word (junk i)) -> (forall m r, (m <= grow m r)%nat) ->
  forall ss, Forall (fun s => Forall (fun o : point * list bool => length (fst o) = 3%nat /\ length (snd o) = nruns) s /\
                              Z.of_nat (length s) <= (2 ^ 31 - 1) / 2) ss ->
  exists es, store_surfaces_3d junk grow nruns npoints ss = Ret es /\ Forall2 (holds 3 nruns) es ss.
Proof.
  intros junk grow nruns npoints Hj Hg. induction ss as [|s ss IH]; intros F; cbn [store_surfaces_3d].
  - exists []. auto.
  - inversion F as [|? ? [F1 F2] F3]; subst. destruct (IH F3) as (es & E & H).
    destruct (store_points_ok junk grow Hj Hg 3 nruns s (eaf_create junk 3 nruns npoints) []) as (e & Ee & He); auto.
    { apply create_holds. exact Hj. }
    rewrite Ee. cbn [bind]. rewrite E. cbn [bind]. exists (e :: es). split; auto.
Qed.

Lemma countb_flags : forall flags, countb (fun f : bool => f) flags = countb (fun k => nth k flags false) (seq 0 (length flags)).
Proof.
  induction flags; auto. cbn [countb length seq nth]. rewrite <- seq_shift.
  assert (M : forall f (l : list nat), countb f (map S l) = countb (fun k => f (S k)) l) by (induction l; simpl; auto; rewrite IHl; auto).
  rewrite M. cbn [nth]. rewrite <- IHflags. reflexivity.
Qed.

Lemma stored_bit_ok : forall nobj nruns e s i k, holds nobj nruns e s -> (i < length s)%nat -> (k < nruns)%nat ->
  exists b, bit_array_get (e_bits e) (bit_array_offset 0 i nruns) k = Ret b /\ (b <> 0 <-> nth k (snd (nth i s ([], []))) false = true).
Proof.
  intros nobj nruns e s i k (H1 & H2 & H3 & H4 & H5 & H6 & H7 & H8) Hi Hk. unfold bit_array_offset. cbn [Nat.add].
  rewrite get_ok; auto. 2:{ rewrite H5. apply slot_bound. lia. now apply nwords_covers. }
  eexists. split; [reflexivity|]. rewrite H8 by auto. destruct (nth k _ false); split; congruence.
Qed.

Lemma flagged_stored : forall runs junk grow ls ss, (forall i, is_word (junk i)) -> (forall m r, (m <= grow m r)%nat) ->
  Z.of_nat (length (concat runs)) * Z.of_nat (length (concat runs)) <= (2 ^ 31 - 1) / 2 ->
  Forall (fun l => (1 <= l <= length runs)%nat) ls -> Forall2 (flagged runs) ls ss ->
  Forall (fun s => Forall (fun o : point * list bool => length (fst o) = 3%nat /\ length (snd o) = length runs) s /\
                              Z.of_nat (length s) <= (2 ^ 31 - 1) / 2) ss /\
  exists es, store_surfaces_3d junk grow (length runs) (length (concat runs)) ss = Ret es /\ Forall2 (holds 3 (length runs)) es ss.
Proof.
  intros runs junk grow ls ss Hj Hg Hsz Fl F1.
  assert (Wf : Forall (fun s => Forall (fun o : point * list bool => length (fst o) = 3%nat /\ length (snd o) = length runs) s /\
                              Z.of_nat (length s) <= (2 ^ 31 - 1) / 2) ss).
  { clear - F1 Fl Hsz. induction F1 as [|x y ls ss [Sf Fg] F1 IH]; constructor; inversion Fl; subst; auto. split.
    - rewrite Forall_forall. intros [p fl] Ho. cbn [fst snd]. split; [|apply (Fg p fl Ho)].
      destruct Sf as (W & _). unfold wf_points in W. rewrite Forall_forall in W. apply W. now apply (in_map fst) in Ho.
    - pose proof (surface3_length runs x (map fst y) ltac:(lia) Sf) as K. rewrite map_length in K. nia. }
  split; auto. apply store3_ok; auto.
Qed.

Lemma percentiles_levels : forall n ps, (1 <= n)%nat -> Forall (fun p => (0 <= p <= 100)%Q) ps ->
  exists ls, percentiles2levels ps (Z.of_nat n) = Ret (map Z.of_nat ls) /\
    Forall2 (fun p (l : nat) => (1 <= l <= n)%nat /\
       forall m : nat, ((l <= m)%nat <-> (1 <= m)%nat /\ (inject_Z (Z.of_nat n) * p / 100 - tolerance <= inject_Z (Z.of_nat m))%Q)) ps ls.
Proof.
  intros n ps Hn. induction 1 as [|p ps Hp Hps IH]; cbn [percentiles2levels].
  - exists []. auto.
  - destruct IH as (ls & E & F).
    destruct (percentile2level_ok p (Z.of_nat n) ltac:(lia) Hp) as [E1 R].
    rewrite E1. cbn [bind]. rewrite E. cbn [bind].
    exists (Z.to_nat (Z.max 1 (round_level (pct_x p (Z.of_nat n)))) :: ls).
    split. { cbn [map]. rewrite Z2Nat.id by lia. reflexivity. }
    constructor; auto. split; [lia|]. intros m.
    change (inject_Z (Z.of_nat n) * p / 100)%Q with (pct_x p (Z.of_nat n)).
    rewrite <- round_level_iff. lia.
Qed.

Theorem eaf3_matrix_ok : forall lo hi runs sortz junk grow ps, lo < hi ->
  runs <> [] -> (forall r, In r runs -> r <> []) -> wf_points 3 (concat runs) ->
  (forall p, In p (concat runs) -> lo < coord p 0 < hi /\ lo < coord p 1 < hi) ->
  is_dataz (concat runs) (sortz (concat runs)) ->
  (forall i, is_word (junk i)) -> (forall m r, (m <= grow m r)%nat) ->
  Z.of_nat (length (concat runs)) * Z.of_nat (length (concat runs)) <= (2 ^ 31 - 1) / 2 ->
  Forall (fun p => (0 <= p <= 100)%Q) ps ->
  exists ls ss,
    eaf_compute_matrix_3d lo hi sortz junk grow (concat runs) (cumsizes runs) (length runs) (Some ps) (length ps) =
      Ret (concat (map (fun sp => map (fun x => (x, snd sp)) (fst sp)) (combine ss ps))) /\
    Forall2 (fun p (l : nat) => (1 <= l <= length runs)%nat /\
       forall m : nat, ((l <= m)%nat <-> (1 <= m)%nat /\
         (inject_Z (Z.of_nat (length runs)) * p / 100 - tolerance <= inject_Z (Z.of_nat m))%Q)) ps ls /\
    Forall2 (is_surface 3 runs) ls ss.
Proof.
  intros lo hi runs sortz junk grow ps LH Hr Hne Hwf Hb Hz Hj Hg Hsz Hps.
  destruct (percentiles_levels (length runs) ps) as (ls & E & F); auto. { destruct runs; [congruence|cbn; lia]. }
  assert (Fl : Forall (fun l => 1 <= l <= length runs)%nat ls).
  { clear E Hps. induction F as [|? ? ? ? [A _] F]; constructor; auto. }
  destruct (eaf3d_ok lo hi LH runs sortz junk ls Hr Hne Hwf Hb Hz Fl) as (ss & E1 & F1).
  assert (L1 : length ls = length ps) by (clear - F; induction F; simpl; congruence).
  assert (L2 : length ss = length ls) by (clear - F1; induction F1; simpl; congruence).
  destruct (flagged_stored runs junk grow ls ss Hj Hg Hsz Fl F1) as (Wf & es & E2 & F2).
  exists ls, (map (map fst) ss). split; [|split; auto].
  - unfold eaf_compute_matrix_3d, levels_from_percentiles. rewrite firstn_all, E. cbn [bind].
    rewrite E1. cbn [bind]. rewrite E2. cbn [bind].
    apply (eaf2matrix_ok3 (length runs) ss es F2) with (pre := []); [|congruence].
    clear - Wf. induction Wf as [|s ss [W _] Wf IH]; constructor; auto. clear - W. induction W as [|o s [W1 _] W IH]; constructor; auto.
  - clear - F1. induction F1 as [|x y ls ss [Sf _] F1 IH]; constructor; auto.
Qed.
