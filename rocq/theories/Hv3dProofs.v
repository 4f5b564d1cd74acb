(** Correctness of [fpli_hv3d_ref] (c/hv.c:924-1003). *)
From Coq Require Import List ZArith Lia Bool Arith Permutation Sorted Psatz.
From Verif Require Import Base HvSpec HvModel HvLinks.
Import ListNotations.
Open Scope Z_scope.

Definition pt (data : list point) (i : nat) : point := row data (i - 1).
Definition pts_of (data : list point) (l : list nat) : list point := map (pt data) l.
Definition node (data : list point) (i : nat) : Prop := (1 <= i <= length data)%nat.

Lemma getx_ok : forall data d i j, wf_points d data -> node data i -> (j < d)%nat ->
  getx data i j = Ret (node_x data j i).
Proof.
  intros data d i j W N J. destruct i as [|i]; [destruct N; lia|]. unfold node in N.
  unfold getx, node_x. rewrite (rd_ok _ data i []) by lia. simpl.
  replace (i - 0)%nat with i by lia.
  assert (L : length (nth i data []) = d).
  { unfold wf_points in W. rewrite Forall_forall in W. apply W. apply nth_In. lia. }
  rewrite (rd_ok _ _ j 0) by lia. reflexivity.
Qed.

Section Hv3d.
Variable data : list point.
Variable ref : point.
Variable d : nat.
Variable lo : Z.
Hypothesis Hwf : wf_points d data.
Hypothesis Hd : (3 <= d)%nat.

Notation X e := (node_x data 0 e).
Notation Y e := (node_x data 1 e).
Notation pt := (pt data).
Notation pts := (pts_of data).
Notation V := (V lo ref).
Notation ref0 := (coord ref 0).
Notation ref1 := (coord ref 1).

Definition tree_ok (T : list nat) : Prop := StronglySorted (fun a b => Y b < Y a /\ X a <= X b) T.

Fixpoint stair (y0 : Z) (T : list nat) : Z :=
  match T with
  | [] => 0
  | e :: T' => (y0 - Y e) * (ref0 - X e) + stair (Y e) T'
  end.

Fixpoint stairU (z : Z) (U : list nat) : Z :=
  match U with
  | [] => 0
  | e :: U' => (match U' with [] => z | e' :: _ => Y e' end - Y e) * (ref0 - X e) + stairU z U'
  end.

Lemma stairU_snoc : forall U z e,
  stairU z (U ++ [e]) = stairU (Y e) U + (z - Y e) * (ref0 - X e).
Proof.
  induction U as [|a U IH]; intros z e. simpl. lia.
  change ((a :: U) ++ [e]) with (a :: (U ++ [e])). cbn [stairU]. rewrite IH.
  destruct U; simpl; lia.
Qed.

Lemma stair_rev : forall T y0, stairU y0 (rev T) = stair y0 T.
Proof.
  induction T; intros; auto. simpl rev. rewrite stairU_snoc. cbn [stair]. rewrite IHT. lia.
Qed.

Lemma sweep_stairU : forall U pre,
  StronglySorted (fun a b => X b <= X a) U ->
  (forall p e, In p pre -> In e U -> X e <= coord p 0) ->
  (forall e, In e U -> lo <= X e < ref0) ->
  sweep lo ref 1 pre (pts U) = stairU ref1 U.
Proof.
  induction U as [|e U IH]; intros pre HS Hpre Hin; auto.
  cbn [pts_of map sweep stairU]. inversion HS; subst.
  rewrite (V_dim1 lo ref (pre ++ [pt e]) (pt e)).
  - fold (pts U). rewrite IH; auto.
    + replace (next_z ref 1 (pts U)) with (match U with [] => ref1 | e' :: _ => Y e' end)
        by (destruct U; reflexivity).
      unfold pt, node_x. lia.
    + intros p a Hp Ha. apply in_app_iff in Hp. destruct Hp as [Hp|[<-|[]]].
      * apply Hpre; simpl; auto.
      * rewrite Forall_forall in H2. apply (H2 a Ha).
    + intros. apply Hin. simpl; auto.
  - apply in_app_iff; simpl; auto.
  - apply Hin. simpl; auto.
  - intros q Hq. apply in_app_iff in Hq. destruct Hq as [Hq|[<-|[]]]; try lia.
    apply Hpre; simpl; auto.
Qed.

Lemma SS_rev : forall A (R : A -> A -> Prop) l, StronglySorted R l ->
  StronglySorted (fun a b => R b a) (rev l).
Proof.
  induction l; simpl; intros. constructor. inversion H; subst.
  apply StronglySorted_app; auto. repeat constructor.
  intros x y Hx [<-|[]]. apply in_rev in Hx. rewrite Forall_forall in H3. auto.
Qed.

Lemma SS_weaken : forall A (R R' : A -> A -> Prop) l, (forall a b, In a l -> In b l -> R a b -> R' a b) ->
  StronglySorted R l -> StronglySorted R' l.
Proof.
  induction l; intros; constructor; inversion H0; subst.
  - apply IHl; auto. intros; apply H; simpl; auto.
  - rewrite Forall_forall in *. intros. apply H; simpl; auto.
Qed.

Lemma SS_map : forall A B (f : A -> B) (R : B -> B -> Prop) l,
  StronglySorted (fun a b => R (f a) (f b)) l -> StronglySorted R (map f l).
Proof.
  induction l; simpl; intros; constructor; inversion H; subst; auto.
  rewrite Forall_forall in *. intros y Hy. apply in_map_iff in Hy. destruct Hy as (a' & <- & Ha').
  auto.
Qed.

(** points strictly below the reference point *)
Definition good (m e : nat) : Prop := node data e /\ inside lo ref m (pt e).

Lemma stair_V : forall T, tree_ok T -> (forall e, In e T -> good 2 e) ->
  V 2 (pts T) = stair ref1 T.
Proof.
  intros T HT Hg.
  rewrite (V_perm lo ref 2 (pts T) (pts (rev T))) by (unfold pts_of; apply Permutation_map, Permutation_rev).
  rewrite (V_sweep lo ref 1).
  - rewrite sweep_stairU. apply stair_rev.
    + apply SS_rev in HT. eapply SS_weaken; [|exact HT]. simpl. intros; lia.
    + intros p e [].
    + intros e He. apply in_rev in He. destruct (Hg e He) as [_ H]. apply (H O). lia.
  - apply SS_map. apply SS_rev in HT. eapply SS_weaken; [|exact HT]. simpl.
    unfold pt, node_x. intros; lia.
  - intros p Hp. apply in_map_iff in Hp. destruct Hp as (e & <- & He). apply in_rev in He.
    destruct (Hg e He) as [_ H]. specialize (H 1%nat ltac:(lia)). lia.
Qed.

(** ** Splitting the sequence *)

Lemma hv3d_split_spec : forall pp T bf0 bf af,
  hv3d_split data pp T bf0 = (bf, af) ->
  (forall e, In e bf0 -> 0 < compare_tree_asc data pp e) ->
  rev bf0 ++ T = rev bf ++ af /\
  (forall e, In e bf -> 0 < compare_tree_asc data pp e) /\
  (forall e af', af = e :: af' -> compare_tree_asc data pp e <= 0).
Proof.
  induction T as [|e T IH]; intros bf0 bf af E H0; cbn [hv3d_split] in E.
  - inversion E; subst. split; auto. split; auto. discriminate.
  - destruct (Z.leb_spec (compare_tree_asc data pp e) 0).
    + inversion E; subst. split; auto. split; auto. intros e0 af' E'. inversion E'; subst. auto.
    + apply IH in E.
      * destruct E as (E1 & E2 & E3). split; auto. rewrite <- E1. simpl. now rewrite <- app_assoc.
      * intros a [<-|Ha]; auto.
Qed.

Lemma cmp_pos : forall a b, 0 < compare_tree_asc data a b ->
  Y a < Y b \/ (Y a = Y b /\ X a < X b).
Proof.
  intros a b. unfold compare_tree_asc.
  destruct (Z.ltb_spec (Y b) (Y a)); try lia. destruct (Z.ltb_spec (Y a) (Y b)); try lia.
  destruct (Z.leb_spec (X b) (X a)); lia.
Qed.

Lemma cmp_neg : forall a b, compare_tree_asc data a b <= 0 ->
  Y b < Y a \/ (Y a = Y b /\ X b <= X a).
Proof.
  intros a b. unfold compare_tree_asc.
  destruct (Z.ltb_spec (Y b) (Y a)); try lia. destruct (Z.ltb_spec (Y a) (Y b)); try lia.
  destruct (Z.leb_spec (X b) (X a)); lia.
Qed.

(** area of the nodes before a position (nearest first) *)
Definition lastY (bf : list nat) : Z := match bf with [] => ref1 | q :: _ => Y q end.
Fixpoint sumbf (bf : list nat) : Z :=
  match bf with
  | [] => 0
  | q :: bf' => sumbf bf' + (lastY bf' - Y q) * (ref0 - X q)
  end.

Lemma stair_bf : forall bf B, stair ref1 (rev bf ++ B) = sumbf bf + stair (lastY bf) B.
Proof.
  induction bf as [|q bf IH]; intros B; simpl. auto.
  rewrite <- app_assoc. simpl. rewrite IH. simpl. lia.
Qed.

Definition nxt0_of (af : list nat) : Z := match af with [] => ref0 | e :: _ => X e end.

Lemma stair_change : forall af a b, stair a af = stair b af + (a - b) * (ref0 - nxt0_of af).
Proof. intros. destruct af; simpl; lia. Qed.

Lemma hv3d_pop_spec : forall x0 nxt0 bf cur hypera h prv1 bf2,
  hv3d_pop data ref x0 nxt0 cur bf hypera = (h, prv1, bf2) -> x0 <= X cur ->
  prv1 = lastY bf2 /\
  h = hypera - (sumbf (cur :: bf) - sumbf bf2 - (lastY bf2 - Y cur) * (ref0 - nxt0)) /\
  (exists popped, cur :: bf = popped ++ bf2 /\ (forall e, In e popped -> x0 <= X e)) /\
  (forall e bf', bf2 = e :: bf' -> X e < x0).
Proof.
  induction bf as [|q bf IH]; intros cur hypera h prv1 bf2 E Hx; cbn [hv3d_pop] in E.
  - inversion E; subst. cbn [sumbf lastY]. split; auto. split. lia. split.
    exists [cur]. split; auto. intros e [<-|[]]; auto. discriminate.
  - destruct (Z.ltb_spec (X q) x0).
    + inversion E; subst. cbn [sumbf lastY]. split; auto. split. lia. split.
      exists [cur]. split; auto. intros e [<-|[]]; auto. intros e bf' E'. inversion E'; subst; auto.
    + apply IH in E; auto. destruct E as (-> & -> & (popped & E & Hp) & Hh).
      split; auto. split. { cbn [sumbf lastY]. cbn [sumbf lastY]. lia. }
      split; auto. exists (cur :: popped). split. simpl. f_equal; auto.
      intros e [<-|He]; auto.
Qed.

(** one insertion *)
Lemma hv3d_insert : forall T P pp bf af,
  tree_ok T -> incl T P -> covers 2 (pts T) (pts P) -> good 2 pp ->
  hv3d_split data pp T [] = (bf, af) ->
  (nxt0_of af <= X pp -> exists e, In e T /\ leq_upto 2 (pt e) (pt pp)) /\
  (X pp < nxt0_of af ->
   forall h prv1 bf2 hypera, hypera = stair ref1 T ->
   (match bf with
    | [] => (hypera, ref1, bf)
    | q :: bf' => if X pp <? X q then hv3d_pop data ref (X pp) (nxt0_of af) q bf' hypera
                  else (hypera, Y q, bf)
    end) = (h, prv1, bf2) ->
   let T' := rev bf2 ++ pp :: af in
   tree_ok T' /\ incl T' (P ++ [pp]) /\ covers 2 (pts T') (pts (P ++ [pp])) /\
   h + (prv1 - Y pp) * (nxt0_of af - X pp) = stair ref1 T').
Proof.
  intros T P pp bf af HT HTP HC [Hn Hg] E.
  apply hv3d_split_spec in E; [|intros e []]. destruct E as (E & Hbf & Haf). simpl in E.
  split.
  - intros Hle. destruct af as [|e af]; cbn [nxt0_of] in Hle.
    + specialize (Hg O ltac:(lia)). unfold pt, node_x in *. lia.
    + exists e. split. rewrite E. apply in_app_iff; simpl; auto.
      specialize (Haf e af eq_refl). apply cmp_neg in Haf.
      intros i Hi. unfold node_x in *. destruct i as [|[|i]]; unfold pt; try lia.
  - intros Hlt h prv1 bf2 hypera Hh Epop T'.
    assert (Hpop : prv1 = lastY bf2 /\
       h = hypera - (sumbf bf - sumbf bf2 - (lastY bf2 - lastY bf) * (ref0 - nxt0_of af)) /\
       (exists popped, bf = popped ++ bf2 /\ (forall e, In e popped -> X pp <= X e)) /\
       (forall e bf', bf2 = e :: bf' -> X e <= X pp)).
    { destruct bf as [|q bf'].
      - inversion Epop; subst. cbn [sumbf lastY]. split; auto. split. lia. split. exists []. split; auto. intros e [].
        discriminate.
      - destruct (Z.ltb_spec (X pp) (X q)).
        + apply hv3d_pop_spec in Epop; [|lia]. destruct Epop as (A & B & C & D).
          split; auto. split; auto. split; auto. intros. apply D in H0. lia.
        + inversion Epop; subst. split; auto. split. cbn [lastY]. lia. split.
          exists []. split; auto. intros e []. intros e b E'. inversion E'; subst. auto. }
    destruct Hpop as (-> & Hh2 & (popped & Ebf & Hpp) & Hhd).
    rewrite Ebf in E. rewrite rev_app_distr in E.
    assert (HT2 := HT). unfold tree_ok in HT2. rewrite E in HT2. rewrite <- app_assoc in HT2.
    destruct (StronglySorted_app_inv _ _ _ _ HT2) as (S1 & S23 & C1).
    destruct (StronglySorted_app_inv _ _ _ _ S23) as (S2 & S3 & C2).
    assert (Hbf2x : forall e, In e bf2 -> X e <= X pp).
    { intros e He. destruct bf2 as [|q b2]; [contradiction|].
      specialize (Hhd q b2 eq_refl). destruct He as [<-|He]; auto.
      simpl in S1. destruct (StronglySorted_app_inv _ _ _ _ S1) as (_ & _ & C).
      specialize (C e q). rewrite <- in_rev in C. specialize (C He (or_introl eq_refl)). lia. }
    assert (Hbf2y : forall e, In e bf2 -> Y pp < Y e).
    { intros e He. specialize (Hbf e). rewrite Ebf, in_app_iff in Hbf.
      specialize (Hbf (or_intror He)). apply cmp_pos in Hbf. specialize (Hbf2x e He). lia. }
    assert (Hafs : forall e, In e af -> Y e < Y pp /\ X pp <= X e).
    { intros e He. destruct af as [|a af]; [contradiction|]. cbn [nxt0_of] in Hlt.
      specialize (Haf a af eq_refl). apply cmp_neg in Haf.
      destruct He as [<-|He]; [lia|]. inversion S3; subst. rewrite Forall_forall in H2.
      specialize (H2 e He). lia. }
    split; [|split; [|split]].
    + unfold tree_ok, T'. apply StronglySorted_app; auto.
      * constructor; auto. rewrite Forall_forall. auto.
      * intros a b Ha Hb. apply in_rev in Ha. destruct Hb as [<-|Hb]; auto.
        specialize (Hafs b Hb). specialize (Hbf2x a Ha). specialize (Hbf2y a Ha). lia.
    + intros a Ha. unfold T' in Ha. apply in_app_iff. apply in_app_iff in Ha. simpl in *.
      destruct Ha as [Ha|[Ha|Ha]]; auto; left; apply HTP; rewrite E, !in_app_iff; auto.
    + intros p Hp. unfold pts_of in Hp. rewrite map_app in Hp. apply in_app_iff in Hp.
      assert (Hcp : In (pt pp) (pts T')).
      { unfold pts_of, T'. apply in_map. apply in_app_iff. simpl; auto. }
      destruct Hp as [Hp|[<-|[]]].
      2:{ exists (pt pp). split; auto. apply leq_upto_refl. }
      destruct (HC p Hp) as (q & Hq & L). apply in_map_iff in Hq. destruct Hq as (e & <- & He).
      rewrite E, !in_app_iff in He. destruct He as [[He|He]|He].
      * exists (pt e). split; auto. unfold pts_of, T'. apply in_map, in_app_iff. auto.
      * exists (pt pp). split; auto. apply leq_upto_trans with (pt e); auto.
        apply in_rev in He. specialize (Hpp e He). specialize (Hbf e).
        rewrite Ebf, in_app_iff in Hbf. specialize (Hbf (or_introl He)). apply cmp_pos in Hbf.
        intros i Hi. unfold node_x in *. destruct i as [|[|i]]; unfold pt; try lia.
      * exists (pt e). split; auto. unfold pts_of, T'. apply in_map, in_app_iff. simpl; auto.
    + unfold T'. rewrite stair_bf. cbn [stair].
      rewrite Hh2, Hh. rewrite E. rewrite <- rev_app_distr, <- Ebf, stair_bf.
      rewrite (stair_change af (lastY bf) (Y pp)). lia.
Qed.

(** ** The loop *)

Definition witness2 (P : list nat) (p : nat) : Prop :=
  exists q, In q P /\ leq_upto 2 (pt q) (pt p).

Definition ign_post (F : list nat) (st st' : hvst) : Prop :=
  forall p, ign st' p = ign st p \/
    (ign st p < 2 /\ ign st' p = 2 /\ exists P R, F = P ++ p :: R /\ witness2 P p)%nat.

Lemma V_skip : forall m P p, (exists q, In q P /\ leq_upto m q p) -> V m (P ++ [p]) = V m P.
Proof.
  intros m P p (q & Hq & L). apply V_equiv.
  - intros a Ha. exists a. split. apply in_app_iff; auto. apply leq_upto_refl.
  - intros a Ha. apply in_app_iff in Ha. destruct Ha as [Ha|[<-|[]]].
    exists a; split; auto. apply leq_upto_refl. exists q; auto.
Qed.

Lemma hv3d_step_ok : forall F P pp R st T hypera hyperv hgt,
  F = P ++ pp :: R ->
  (forall e, In e F -> good 2 e) ->
  ((2 <= ign st pp)%nat -> witness2 P pp) ->
  tree_ok T -> incl T P -> covers 2 (pts T) (pts P) -> hypera = stair ref1 T -> 0 <= hgt ->
  exists st' T', hv3d_step data ref st pp T hypera hyperv hgt =
      Ret (st', T', stair ref1 T', hyperv + V 2 (pts P ++ [pt pp]) * hgt) /\
    nxt st' = nxt st /\ prv st' = prv st /\ area st' = area st /\ vol st' = vol st /\ bnd st' = bnd st /\
    tree_ok T' /\ incl T' (P ++ [pp]) /\ covers 2 (pts T') (pts (P ++ [pp])) /\
    ign_post F st st' /\ (forall p, p <> pp -> ign st' p = ign st p).
Proof.
  intros F P pp R st T hypera hyperv hgt EF Hg Hw HT HTP HC Hh Hhgt.
  assert (Hpp : good 2 pp) by (apply Hg; rewrite EF; apply in_app_iff; simpl; auto).
  assert (HPg : forall e, In e P -> good 2 e) by (intros; apply Hg; rewrite EF; apply in_app_iff; auto).
  assert (HV : V 2 (pts P) = stair ref1 T).
  { rewrite <- stair_V; auto. apply V_equiv; auto.
    apply covers_incl. unfold pts_of. now apply incl_map. }
  assert (Hw' : witness2 P pp -> covers 2 (pts T) (pts (P ++ [pp]))).
  { intros (q & Hq & L) p Hp. unfold pts_of in Hp. rewrite map_app in Hp. apply in_app_iff in Hp.
    destruct Hp as [Hp|[<-|[]]]; [now apply HC|].
    destruct (HC (pt q)) as (t & Ht & L2). apply in_map; auto. exists t. split; auto.
    eapply leq_upto_trans; eauto. }
  assert (Hskip : witness2 P pp -> V 2 (pts P ++ [pt pp]) = stair ref1 T).
  { intros (q & Hq & L). rewrite V_skip; auto. exists (pt q). split; auto. now apply in_map. }
  unfold hv3d_step. destruct (Nat.leb_spec 2 (ign st pp)).
  - exists st, T. rewrite Hskip by auto. subst hypera. repeat (split; auto).
    + intros a Ha. apply in_app_iff; auto.
    + intros p; auto.
  - destruct Hpp as [Hn Hi].
    rewrite !(getx_ok data d) by (auto; lia). cbn [bind].
    destruct (hv3d_split data pp T []) as [bf af] eqn:Es.
    destruct (hv3d_insert T P pp bf af HT HTP HC (conj Hn Hi) Es) as [I1 I2].
    fold (nxt0_of af). destruct (Z.ltb_spec (X pp) (nxt0_of af)) as [Hlt|Hge].
    + destruct (match bf with [] => (hypera, ref1, bf) | _ => _ end) as [[h prv1] bf2] eqn:Epop.
      destruct (I2 Hlt h prv1 bf2 hypera Hh Epop) as (T1 & T2 & T3 & T4).
      exists st, (rev bf2 ++ pp :: af). rewrite <- T4.
      assert (EV : V 2 (pts P ++ [pt pp]) = h + (prv1 - Y pp) * (nxt0_of af - X pp)).
      { rewrite T4. rewrite <- stair_V; auto.
        - replace (pts P ++ [pt pp]) with (pts (P ++ [pp])) by (unfold pts_of; now rewrite map_app).
          apply V_equiv; auto. apply covers_incl. unfold pts_of. now apply incl_map.
        - intros e He. apply T2 in He. apply in_app_iff in He. destruct He as [He|[<-|[]]]; auto. split; auto. }
      split.
      { do 2 f_equal. rewrite EV. destruct (Z.ltb_spec 0 hgt); auto. replace hgt with 0 by lia. lia. }
      repeat (split; auto). intros p; auto.
    + destruct (I1 Hge) as (e & He & L).
      assert (W : witness2 P pp) by (exists e; split; auto).
      exists (set_ign pp 2 st), T. split.
      { do 2 f_equal. now rewrite Hh. rewrite Hskip by auto. rewrite Hh.
        destruct (Z.ltb_spec 0 hgt); auto. replace hgt with 0 by lia. lia. }
      repeat (split; auto).
      * intros a Ha. apply in_app_iff; auto.
      * intros p. cbn [ign set_ign]. unfold fupd. destruct (Nat.eqb_spec p pp); auto. subst p.
        right. split; [lia|]. split; auto. exists P, R. auto.
      * intros p Hp. cbn [ign set_ign]. unfold fupd. destruct (Nat.eqb_spec p pp); auto. congruence.
Qed.

Lemma hv3d_height : forall F P pp R st,
  F = P ++ pp :: R -> dll (nxt st 2) (prv st 2) F -> (forall e, In e F -> node data e) ->
  (if (pp =? prv st 2 0)%nat then Ret (coord ref 2 - node_x data 2 pp)
   else zn <- getx data (nxt st 2 pp) 2 ;; Ret (zn - node_x data 2 pp))
  = Ret (next_z ref 2 (pts R) - node_x data 2 pp).
Proof.
  intros F P pp R st EF HD Hn. rewrite EF in HD. rewrite (dll_is_last _ _ _ _ _ HD).
  destruct (dll_at _ _ _ _ _ HD) as (En & _). destruct R as [|r R]; auto.
  rewrite En. simpl hd. rewrite (getx_ok data d); auto; try lia.
  apply Hn. rewrite EF, in_app_iff. simpl; auto.
Qed.

Lemma sorted_height : forall F P pp R, F = P ++ pp :: R -> sorted_on 2 (pts F) ->
  (forall e, In e F -> node_x data 2 e <= coord ref 2) ->
  0 <= next_z ref 2 (pts R) - node_x data 2 pp.
Proof.
  intros F P pp R EF HS Hr. destruct R as [|r R]; simpl.
  - specialize (Hr pp). rewrite EF, in_app_iff in Hr. specialize (Hr (or_intror (or_introl eq_refl))). lia.
  - rewrite EF in HS. unfold pts_of in HS. rewrite map_app in HS.
    destruct (StronglySorted_app_inv _ _ _ _ HS) as (_ & S2 & _). simpl in S2.
    inversion S2; subst. rewrite Forall_forall in H2. specialize (H2 (pt r) (or_introl eq_refl)).
    unfold node_x in *. unfold pt in *. lia.
Qed.

Lemma sweep_pts : forall m P pp R,
  sweep lo ref m (pts P) (pts (pp :: R)) =
  V m (pts (P ++ [pp])) * (next_z ref m (pts R) - node_x data m pp) + sweep lo ref m (pts (P ++ [pp])) (pts R).
Proof. intros. unfold pts_of. rewrite map_app. reflexivity. Qed.

Lemma pts_snoc : forall P pp, pts (P ++ [pp]) = pts P ++ [pt pp].
Proof. intros. unfold pts_of. now rewrite map_app. Qed.

Lemma hv3d_loop_ok : forall R F P pp st T hypera hyperv fuel,
  F = P ++ pp :: R ->
  dll (nxt st 2) (prv st 2) F ->
  (forall e, In e F -> good 2 e) ->
  (forall P' p R', F = P' ++ p :: R' -> In p (pp :: R) -> (2 <= ign st p)%nat -> witness2 P' p) ->
  tree_ok T -> incl T P -> covers 2 (pts T) (pts P) -> hypera = stair ref1 T ->
  sorted_on 2 (pts F) -> (forall e, In e F -> node_x data 2 e <= coord ref 2) ->
  (length (pp :: R) <= fuel)%nat ->
  exists st', hv3d_loop fuel data ref st pp T hypera hyperv =
      Ret (hyperv + sweep lo ref 2 (pts P) (pts (pp :: R)), st') /\
    nxt st' = nxt st /\ prv st' = prv st /\ area st' = area st /\ vol st' = vol st /\ bnd st' = bnd st /\
    ign_post F st st' /\ (forall p, ~ In p (pp :: R) -> ign st' p = ign st p).
Proof.
  induction R as [|r R IH]; intros F P pp st T hypera hyperv fuel EF HD Hg Hw HT HTP HC Hh HS Hr Hf.
  all: assert (HDD := HD); rewrite EF in HDD; destruct (dll_at _ _ _ _ _ HDD) as (En & _).
  all: assert (Hpp : good 2 pp) by (apply Hg; rewrite EF; apply in_app_iff; simpl; auto).
  all: assert (Hnode : forall e, In e F -> node data e) by (intros; now apply Hg).
  all: destruct fuel as [|fuel]; [simpl in Hf; lia|]; cbn [hv3d_loop].
  all: rewrite (getx_ok data d) by (try lia; try exact Hwf; try (apply Hpp)); cbn [bind].
  all: rewrite (hv3d_height _ _ _ _ _ EF HD Hnode); cbn [bind].
  all: pose proof (sorted_height _ _ _ _ EF HS Hr) as Hhgt.
  all: match goal with |- context[hv3d_step _ _ _ _ _ _ _ ?h] => set (hgt := h) in * end.
  all: destruct (hv3d_step_ok F P pp _ st T hypera hyperv hgt EF Hg) as
        (st1 & T1 & -> & E1 & E2 & E3 & E4 & E5 & T1ok & T1P & T1C & I1 & I2); auto;
       try (intros; eapply Hw; eauto; simpl; auto; fail).
  all: cbn [bind]; rewrite E1, En; cbn [hd].
  - simpl Nat.eqb. cbv iota. exists st1. split.
    { do 3 f_equal. rewrite sweep_pts, pts_snoc. unfold hgt. cbn [pts_of map sweep]. lia. }
    repeat (split; auto). intros p Hp. apply I2. simpl in Hp. intros ->. tauto.
  - assert (Hr0 : r <> O).
    { intros ->. assert (node data 0) by (apply Hnode; rewrite EF; apply in_app_iff; simpl; auto).
      unfold node in H. lia. }
    apply Nat.eqb_neq in Hr0. rewrite Hr0.
    destruct (IH F (P ++ [pp]) r st1 T1 (stair ref1 T1) (hyperv + V 2 (pts P ++ [pt pp]) * hgt) fuel)
      as (st2 & -> & F1 & F2 & F3 & F4 & F5 & I3 & I4); auto.
    + rewrite <- app_assoc. exact EF.
    + rewrite E1, E2. auto.
    + intros P' p R' EF' Hp Hi. eapply Hw; eauto. simpl; auto. simpl in Hp.
      rewrite I2 in Hi; auto. intros ->. rewrite EF in HD. destruct HD as [N _].
      destruct (proj1 (NoDup_cons_iff _ _) N) as [_ N2]. apply NoDup_remove_2 in N2. apply N2.
      apply in_app_iff. simpl. tauto.
    + simpl in *. lia.
    + exists st2. split.
      { do 2 f_equal. rewrite (sweep_pts 2 P pp), <- pts_snoc. unfold hgt. lia. }
      rewrite F1, F2, F3, F4, F5. repeat (split; auto).
      * intros p. destruct (Nat.eq_dec p pp) as [->|Hp].
        -- rewrite I4. apply I1. intros Hp. rewrite EF in HD. destruct HD as [N _].
           destruct (proj1 (NoDup_cons_iff _ _) N) as [_ N2]. apply NoDup_remove_2 in N2. apply N2.
           apply in_app_iff. right. exact Hp.
        -- rewrite <- (I2 p Hp). apply I3.
      * intros p Hp. rewrite I4. apply I2. intros ->. apply Hp; simpl; auto.
        intros H. apply Hp. right. exact H.
Qed.

Lemma fpli_hv3d_ok : forall st F,
  dll (nxt st 2) (prv st 2) F -> F <> [] ->
  (forall e, In e F -> good 3 e) -> (length F <= length data)%nat ->
  (forall P p R, F = P ++ p :: R -> (2 <= ign st p)%nat -> witness2 P p) ->
  sorted_on 2 (pts F) ->
  exists st', fpli_hv3d_ref data ref st (length F) = Ret (V 3 (pts F), st') /\
    nxt st' = nxt st /\ prv st' = prv st /\ area st' = area st /\ vol st' = vol st /\ bnd st' = bnd st /\
    ign_post F st st'.
Proof.
  intros st F HD HF Hg HL Hw HS. destruct F as [|pp R]; [congruence|]. clear HF.
  assert (Hg2 : forall e, In e (pp :: R) -> good 2 e).
  { intros e He. destruct (Hg e He). split; auto. intros i Hi. apply H0. lia. }
  assert (Hr : forall e, In e (pp :: R) -> node_x data 2 e <= coord ref 2).
  { intros e He. destruct (Hg e He) as [_ H0]. specialize (H0 2%nat ltac:(lia)). unfold node_x, pt in *. lia. }
  assert (Hnode : forall e, In e (pp :: R) -> node data e) by (intros; now apply Hg).
  assert (Hpp : good 3 pp) by (apply Hg; simpl; auto).
  assert (HV : V 3 (pts (pp :: R)) = sweep lo ref 2 [] (pts (pp :: R))).
  { apply V_sweep; auto. intros p Hp. apply in_map_iff in Hp. destruct Hp as (e & <- & He).
    destruct (Hg e He) as [_ H]. specialize (H 2%nat ltac:(lia)). lia. }
  assert (HDD := HD). destruct (dll_at _ _ [] pp R HD) as (En & _).
  assert (E0 : nxt st 2 0 = pp) by (destruct HD as [_ HD]; simpl in HD; tauto).
  unfold fpli_hv3d_ref. rewrite E0.
  pose proof (proj1 Hpp) as Hnp. do 3 (rewrite (getx_ok data d pp) by (auto; lia); cbn [bind]).
  assert (Hc : (length (pp :: R) =? 1)%nat = (pp =? prv st 2 0)%nat).
  { rewrite (dll_is_last _ _ [] pp R HD). destruct R; reflexivity. }
  rewrite Hc. rewrite (hv3d_height (pp :: R) [] pp R st); auto. cbn [bind].
  assert (H1 : (ref0 - X pp) * (ref1 - Y pp) = V 2 [pt pp]).
  { destruct Hpp as [_ Hi]. rewrite V_single. cbn [box]. unfold node_x, pt. lia.
    intros i Hi'. apply Hi. lia. }
  rewrite En. destruct R as [|r R]; cbn [hd].
  - simpl Nat.eqb. cbv iota. exists st. split.
    { rewrite HV. do 2 f_equal. change (@nil point) with (pts []). rewrite sweep_pts. rewrite H1.
      change (pts ([] ++ [pp])) with [pt pp]. change (sweep lo ref 2 [pt pp] (pts [])) with 0. lia. }
    repeat (split; auto). intros p; auto.
  - assert (Hr0 : r <> O).
    { intros ->. assert (node data 0) by (apply Hnode; simpl; auto). unfold node in H. lia. }
    apply Nat.eqb_neq in Hr0. rewrite Hr0.
    destruct (hv3d_loop_ok R (pp :: r :: R) [pp] r st [pp] ((ref0 - X pp) * (ref1 - Y pp))
       ((ref0 - X pp) * (ref1 - Y pp) * (next_z ref 2 (pts (r :: R)) - node_x data 2 pp)) (length data))
      as (st' & -> & F1 & F2 & F3 & F4 & F5 & I3 & I4); auto.
    + intros; eapply Hw; eauto.
    + repeat constructor.
    + intros a Ha; auto.
    + apply covers_refl.
    + simpl. lia.
    + simpl in *. lia.
    + exists st'. split; auto 10. rewrite HV. do 2 f_equal. change (@nil point) with (pts []) at 1. rewrite (sweep_pts 2 [] pp).
      rewrite H1. change (pts ([] ++ [pp])) with [pt pp]. change (pts [pp]) with [pt pp]. lia.
Qed.
End Hv3d.
