(** Correctness of [hv_recursive_ref] (c/hv.c:1021-1074): the "dancing links"
    recursion with cached partial volumes computes the measure. *)
From Coq Require Import List ZArith Lia Bool Arith Permutation Sorted Psatz.
From Verif Require Import Base HvSpec HvModel HvLinks Hv3dProofs.
Import ListNotations.
Open Scope Z_scope.

(** ** [delete] and [reinsert] *)

Definition links_eq (st st' : hvst) (i : nat) : Prop :=
  same (nxt st i) (prv st i) (nxt st' i) (prv st' i).

Lemma fupd2_same_dim : forall A (f : nat -> nat -> A) j k v a,
  fupd2 f j k v j a = if (a =? k)%nat then v else f j a.
Proof. intros. unfold fupd2. now rewrite Nat.eqb_refl. Qed.

Lemma fupd2_other : forall A (f : nat -> nat -> A) j k v j' a, j' <> j -> fupd2 f j k v j' a = f j' a.
Proof. intros. unfold fupd2. destruct (Nat.eqb_spec j' j); auto. congruence. Qed.

Section Steps.
Variable data : list point.
Variable d : nat.
Hypothesis Hwf : wf_points d data.

Lemma delete_loop_ok : forall is p st,
  node data p -> NoDup is -> (forall i, In i is -> (i < d)%nat) ->
  (forall i, In i is -> prv st i p <> p) ->
  exists st', delete_loop data p is st = Ret st' /\
    (forall i, In i is -> is_del p (nxt st i) (prv st i) (nxt st' i) (prv st' i) /\
                          bnd st' i = Z.min (bnd st i) (node_x data i p)) /\
    (forall i, ~ In i is -> links_eq st st' i /\ bnd st' i = bnd st i) /\
    ign st' = ign st /\ area st' = area st /\ vol st' = vol st.
Proof.
  induction is as [|j is IH]; intros p st Hp HN Hi Hpr; cbn [delete_loop].
  - exists st. split; auto. split. intros i []. split; auto. intros. split; auto. apply same_refl.
  - rewrite (getx_ok data d) by (auto; apply Hi; simpl; auto). cbn [bind].
    match goal with |- context[delete_loop data p is (if _ then set_bnd _ _ ?x else _)] => set (s1 := x) end.
    match goal with |- context[delete_loop data p is ?x] => set (s2 := x) end.
    inversion HN as [|? ? HN1 HN2]; subst.
    assert (Hs2 : nxt s2 = nxt s1 /\ prv s2 = prv s1 /\ ign s2 = ign st /\ area s2 = area st /\ vol s2 = vol st
                  /\ bnd s2 j = Z.min (bnd st j) (node_x data j p) /\ (forall i, i <> j -> bnd s2 i = bnd st i)).
    { unfold s2. destruct (Z.ltb_spec (node_x data j p) (bnd s1 j)); cbn in H |- *;
        repeat (split; auto); unfold fupd; rewrite ?Nat.eqb_refl; try lia.
      intros. destruct (Nat.eqb_spec i j); congruence. }
    destruct Hs2 as (A1 & A2 & A3 & A4 & A5 & A6 & A7).
    assert (Hdel : is_del p (nxt st j) (prv st j) (nxt s1 j) (prv s1 j)).
    { split; intros a; cbn; rewrite !fupd2_same_dim; auto.
      assert (Hne : (p =? prv st j p)%nat = false) by (apply Nat.eqb_neq; intros E; apply (Hpr j); simpl; auto).
      rewrite Hne. auto. }
    assert (Hoth : forall i a, i <> j -> nxt s1 i a = nxt st i a /\ prv s1 i a = prv st i a).
    { intros i a Hij. cbn. rewrite !fupd2_other; auto. }
    destruct (IH p s2) as (st' & E & B1 & B2 & B3 & B4 & B5); auto.
    { intros; apply Hi; simpl; auto. }
    { intros i Hin. rewrite A2. rewrite (proj2 (Hoth i p ltac:(intros ->; tauto))). apply Hpr; simpl; auto. }
    exists st'. split; auto. split; [|split; [|rewrite B3, B4, B5; auto]].
    + intros i [<-|Hin].
      * destruct (B2 j HN1) as [[C1 C2] C3]. rewrite A1, A2 in *. split.
        -- destruct Hdel as [D1 D2]. split; intros a. rewrite C1; auto. rewrite C2; auto.
        -- rewrite C3. auto.
      * assert (Hij : i <> j) by (intros ->; tauto).
        destruct (B1 i Hin) as [[C1 C2] C3]. rewrite A1, A2 in *. split.
        -- split; intros a; [rewrite C1|rewrite C2]; rewrite !(proj1 (Hoth i _ Hij)), !(proj2 (Hoth i _ Hij)); auto.
        -- rewrite C3. rewrite A7; auto.
    + intros i Hin. assert (Hij : i <> j) by (intros ->; apply Hin; simpl; auto).
      destruct (B2 i) as [[C1 C2] C3]. { intros H. apply Hin; simpl; auto. } rewrite A1, A2 in *. split.
      * split; intros a; [rewrite C1|rewrite C2]; apply Hoth; auto.
      * rewrite C3. auto.
Qed.

Lemma reinsert_loop_ok : forall is p st,
  node data p -> NoDup is -> (forall i, In i is -> (i < d)%nat) ->
  (forall i, In i is -> prv st i p <> p) ->
  exists st', reinsert_loop data p is st = Ret st' /\
    (forall i, In i is -> is_ins p (nxt st i) (prv st i) (nxt st' i) (prv st' i) /\
                          bnd st' i = Z.min (bnd st i) (node_x data i p)) /\
    (forall i, ~ In i is -> links_eq st st' i /\ bnd st' i = bnd st i) /\
    ign st' = ign st /\ area st' = area st /\ vol st' = vol st.
Proof.
  induction is as [|j is IH]; intros p st Hp HN Hi Hpr; cbn [reinsert_loop].
  - exists st. split; auto. split. intros i []. split; auto. intros. split; auto. apply same_refl.
  - rewrite (getx_ok data d) by (auto; apply Hi; simpl; auto). cbn [bind].
    match goal with |- context[reinsert_loop data p is (if _ then set_bnd _ _ ?x else _)] => set (s1 := x) end.
    match goal with |- context[reinsert_loop data p is ?x] => set (s2 := x) end.
    inversion HN as [|? ? HN1 HN2]; subst.
    assert (Hs2 : nxt s2 = nxt s1 /\ prv s2 = prv s1 /\ ign s2 = ign st /\ area s2 = area st /\ vol s2 = vol st
                  /\ bnd s2 j = Z.min (bnd st j) (node_x data j p) /\ (forall i, i <> j -> bnd s2 i = bnd st i)).
    { unfold s2. destruct (Z.ltb_spec (node_x data j p) (bnd s1 j)); cbn in H |- *;
        repeat (split; auto); unfold fupd; rewrite ?Nat.eqb_refl; try lia.
      intros. destruct (Nat.eqb_spec i j); congruence. }
    destruct Hs2 as (A1 & A2 & A3 & A4 & A5 & A6 & A7).
    assert (Hdel : is_ins p (nxt st j) (prv st j) (nxt s1 j) (prv s1 j)).
    { split; intros a; cbn; rewrite !fupd2_same_dim; auto.
      assert (Hne : (p =? prv st j p)%nat = false) by (apply Nat.eqb_neq; intros E; apply (Hpr j); simpl; auto).
      rewrite Hne. auto. }
    assert (Hoth : forall i a, i <> j -> nxt s1 i a = nxt st i a /\ prv s1 i a = prv st i a).
    { intros i a Hij. cbn. rewrite !fupd2_other; auto. }
    destruct (IH p s2) as (st' & E & B1 & B2 & B3 & B4 & B5); auto.
    { intros; apply Hi; simpl; auto. }
    { intros i Hin. rewrite A2. rewrite (proj2 (Hoth i p ltac:(intros ->; tauto))). apply Hpr; simpl; auto. }
    exists st'. split; auto. split; [|split; [|rewrite B3, B4, B5; auto]].
    + intros i [<-|Hin].
      * destruct (B2 j HN1) as [[C1 C2] C3]. rewrite A1, A2 in *. split.
        -- destruct Hdel as [D1 D2]. split; intros a. rewrite C1; auto. rewrite C2; auto.
        -- rewrite C3. auto.
      * assert (Hij : i <> j) by (intros ->; tauto).
        destruct (B1 i Hin) as [[C1 C2] C3]. rewrite A1, A2 in *. split.
        -- split; intros a; [rewrite C1|rewrite C2]; rewrite !(proj1 (Hoth i _ Hij)), !(proj2 (Hoth i _ Hij)); auto.
        -- rewrite C3. rewrite A7; auto.
    + intros i Hin. assert (Hij : i <> j) by (intros ->; apply Hin; simpl; auto).
      destruct (B2 i) as [[C1 C2] C3]. { intros H. apply Hin; simpl; auto. } rewrite A1, A2 in *. split.
      * split; intros a; [rewrite C1|rewrite C2]; apply Hoth; auto.
      * rewrite C3. auto.
Qed.
End Steps.

(** ** Resetting [ignore] *)
Lemma reset_ignore_ok : forall dim l st R fuel,
  seg (nxt st dim) (prv st dim) 0 (l ++ R) 0 -> ~ In 0%nat l -> NoDup l -> (length l < fuel)%nat ->
  exists st', reset_ignore fuel dim (last l 0%nat) st = Ret st' /\
    nxt st' = nxt st /\ prv st' = prv st /\ area st' = area st /\ vol st' = vol st /\ bnd st' = bnd st /\
    (forall p, ign st' p = if existsb (Nat.eqb p) l && (ign st p <? dim)%nat then 0%nat else ign st p).
Proof.
  induction l as [|a l IH] using rev_ind; intros st R fuel HS H0 HN Hf.
  - destruct fuel; [simpl in Hf; lia|]. simpl. exists st. repeat (split; auto).
  - rewrite last_last. destruct fuel; [lia|]. cbn [reset_ignore].
    assert (Ha : a <> 0%nat) by (intros ->; apply H0; apply in_app_iff; simpl; auto).
    apply Nat.eqb_neq in Ha. rewrite Ha.
    set (s1 := if (ign st a <? dim)%nat then set_ign a 0 st else st).
    assert (Hs1 : nxt s1 = nxt st /\ prv s1 = prv st /\ area s1 = area st /\ vol s1 = vol st /\ bnd s1 = bnd st /\
       forall p, ign s1 p = if (p =? a)%nat && (ign st p <? dim)%nat then 0%nat else ign st p).
    { unfold s1. destruct (Nat.ltb_spec (ign st a) dim); cbn [nxt prv area vol bnd ign set_ign]; repeat (split; auto); intros p; unfold fupd;
      destruct (Nat.eqb_spec p a) as [->|Hpa]; cbn [andb]; auto;
      destruct (Nat.ltb_spec (ign st a) dim); auto; lia. }
    destruct Hs1 as (A1 & A2 & A3 & A4 & A5 & A6).
    assert (Ep : prv s1 dim a = last l 0%nat).
    { rewrite A2. rewrite <- app_assoc in HS. simpl in HS. apply seg_app in HS. destruct HS as [HS _].
      apply (seg_prev _ _ _ _ _ HS). }
    rewrite Ep. destruct (IH s1 (a :: R) fuel) as (st' & E & B1 & B2 & B3 & B4 & B5 & B6).
    + rewrite A1, A2. rewrite <- app_assoc in HS. exact HS.
    + intros H; apply H0; apply in_app_iff; auto.
    + apply NoDup_remove_1 in HN. now rewrite app_nil_r in HN.
    + rewrite app_length in Hf. simpl in Hf. lia.
    + exists st'. split; auto. rewrite B1, B2, B3, B4, B5. repeat (split; auto).
      intros p. rewrite B6, A6. rewrite existsb_app. cbn [existsb]. rewrite orb_false_r.
      destruct (Nat.eqb_spec p a) as [->|Hpa]; cbn [andb].
      * rewrite orb_true_r. cbn [andb]. destruct (Nat.ltb_spec (ign st a) dim).
        -- destruct (_ && _); auto.
        -- destruct (Nat.ltb_spec (ign st a) dim); try lia. now rewrite andb_false_r.
      * rewrite orb_false_r. auto.
Qed.

(** ** The measure with the last slab removed *)
Section Main.
Variable data : list point.
Variable ref : point.
Variable d : nat.
Variable lo : Z.
Variable G : nat -> list nat.
Hypothesis Hwf : wf_points d data.
Hypothesis Hd : (3 <= d)%nat.
Hypothesis HGp : forall i, (i < d)%nat -> Permutation (seq 1 (length data)) (G i).
Hypothesis HGs : forall i, (i < d)%nat ->
  StronglySorted (fun a b => node_x data i a <= node_x data i b) (G i).
Hypothesis Hord : forall k i q p, (2 <= i <= k)%nat -> (k < d)%nat -> (1 <= q)%nat -> (1 <= p)%nat ->
  leq_upto k (pt data q) (pt data p) -> before (G k) q p -> before (G i) q p.

Notation pt := (pt data).
Notation pts := (pts_of data).
Notation V := (V lo ref).
Notation good := (good data ref lo).

Lemma sweep_snoc : forall m l pre a b,
  sweep lo ref m pre (l ++ [a; b]) =
  sweep lo ref m pre (l ++ [a]) +
  (V m (pre ++ l ++ [a; b]) - V m (pre ++ l ++ [a])) * (coord ref m - coord b m).
Proof.
  induction l as [|c l IH]; intros pre a b; cbn [app].
  - cbn [sweep next_z]. rewrite <- app_assoc. simpl app. lia.
  - cbn [sweep]. rewrite IH. rewrite <- !app_assoc. simpl app.
    replace (next_z ref m (l ++ [a; b])) with (next_z ref m (l ++ [a])) by (destruct l; reflexivity).
    lia.
Qed.

Definition spart (m : nat) (l : list nat) (a : nat) : Z :=
  V (S m) (pts (l ++ [a])) - V m (pts (l ++ [a])) * (coord ref m - node_x data m a).

Definition sortedn (m : nat) (l : list nat) : Prop :=
  StronglySorted (fun a b => node_x data m a <= node_x data m b) l.

Lemma V_sweep_n : forall m l, (m < d)%nat -> sortedn m l -> (forall e, In e l -> good d e) ->
  V (S m) (pts l) = sweep lo ref m [] (pts l).
Proof.
  intros. apply V_sweep.
  - unfold sorted_on, pts_of. apply SS_map. exact H0.
  - intros p Hp. apply in_map_iff in Hp. destruct Hp as (e & <- & He).
    destruct (H1 e He) as [_ Hi]. specialize (Hi m H). lia.
Qed.

Lemma spart_nil : forall m a, (m < d)%nat -> good d a -> spart m [] a = 0.
Proof.
  intros m a Hm [_ Ha]. unfold spart. simpl app. cbn [pts_of map].
  rewrite !V_single. cbn [box]. unfold node_x, Hv3dProofs.pt. lia.
  intros i Hi. apply Ha. lia. intros i Hi; apply Ha; lia.
Qed.

Lemma spart_snoc : forall m l a b, (m < d)%nat -> sortedn m (l ++ [a; b]) ->
  (forall e, In e (l ++ [a; b]) -> good d e) ->
  spart m (l ++ [a]) b = spart m l a + V m (pts (l ++ [a])) * (node_x data m b - node_x data m a).
Proof.
  intros m l a b Hm HS Hg. unfold spart. rewrite <- app_assoc. simpl app.
  rewrite !V_sweep_n; auto.
  - unfold pts_of. rewrite !map_app. simpl map. rewrite sweep_snoc. simpl app.
    unfold node_x. fold (pt b). lia.
  - unfold sortedn in *. change (l ++ [a; b]) with (l ++ [a] ++ [b]) in HS. rewrite app_assoc in HS.
    apply StronglySorted_app_inv in HS. tauto.
  - intros e He. apply Hg. apply in_app_iff in He. apply in_app_iff. simpl in *. tauto.
Qed.

(** ** Sublists and witnesses *)

Definition lst (S : nat -> bool) (i : nat) : list nat := filter S (G i).

Definition wit (k q p : nat) : Prop :=
  leq_upto k (pt q) (pt p) /\ forall i, (2 <= i <= k)%nat -> before (G i) q p.

Definition area_ok (st : hvst) (i : nat) (pre : list nat) (p : nat) : Prop :=
  area st i p = V i (pts (pre ++ [p])) /\ vol st i p = spart i pre p.

Definition CV (st : hvst) (S : nat -> bool) (i : nat) : Prop :=
  forall pre p post, lst S i = pre ++ p :: post -> node_x data i p < bnd st i -> area_ok st i pre p.

Lemma G_nodup : forall i, (i < d)%nat -> NoDup (G i).
Proof. intros. eapply Permutation_NoDup. apply HGp; auto. apply seq_NoDup. Qed.

Lemma G_in : forall i p, (i < d)%nat -> (In p (G i) <-> node data p).
Proof.
  clear Hd.
  intros. unfold node. split; intros.
  - apply Permutation_in with (l' := seq 1 (length data)) in H0. apply in_seq in H0. lia.
    apply Permutation_sym, HGp; auto.
  - apply Permutation_in with (l := seq 1 (length data)). apply HGp; auto. apply in_seq. lia.
Qed.

Definition Sgood (S : nat -> bool) : Prop := forall p, S p = true -> good d p.

Lemma lst_in : forall S i p, Sgood S -> (i < d)%nat -> (In p (lst S i) <-> S p = true).
Proof.
  intros. unfold lst. rewrite filter_In. split; [tauto|]. intros. split; auto.
  apply G_in; auto. apply H; auto.
Qed.

Lemma lst_nodup : forall S i, (i < d)%nat -> NoDup (lst S i).
Proof. intros. apply NoDup_filter. now apply G_nodup. Qed.

Lemma lst_perm : forall S i j, Sgood S -> (i < d)%nat -> (j < d)%nat -> Permutation (lst S i) (lst S j).
Proof.
  intros. apply NoDup_Permutation; try (apply lst_nodup; auto).
  intros. rewrite !lst_in; tauto.
Qed.

Lemma SS_filter : forall A (R : A -> A -> Prop) f l, StronglySorted R l -> StronglySorted R (filter f l).
Proof.
  induction l; simpl; intros; auto. inversion H; subst. destruct (f a); auto.
  constructor; auto. rewrite Forall_forall in *. intros x Hx. apply filter_In in Hx. apply H3; tauto.
Qed.

Lemma lst_sorted : forall S i, (i < d)%nat -> sortedn i (lst S i).
Proof. intros. apply SS_filter. now apply HGs. Qed.

Lemma lst_good : forall S i e, Sgood S -> (i < d)%nat -> In e (lst S i) -> good d e.
Proof. intros. apply H. apply (lst_in S i e); auto. Qed.

Lemma Sgood_minus : forall S l, Sgood S -> Sgood (minus S l).
Proof. intros S l H p Hp. apply minus_true in Hp. apply H; tauto. Qed.

Lemma lst_ext : forall S S' i, (forall p, S p = S' p) -> lst S i = lst S' i.
Proof. intros. unfold lst. apply filter_ext. auto. Qed.

Lemma minus_cons : forall S t ts p, minus S (t :: ts) p = minus (minus S ts) [t] p.
Proof.
  intros. unfold minus. simpl. destruct (S p), (p =? t)%nat, (existsb (Nat.eqb p) ts); auto.
Qed.

Lemma minus_nil : forall S p, minus S [] p = S p.
Proof. intros. unfold minus. simpl. apply andb_true_r. Qed.

Lemma lst_minus_split : forall S i t ts, Sgood S -> (i < d)%nat -> S t = true -> ~ In t ts ->
  exists l1 l2, lst (minus S ts) i = l1 ++ t :: l2 /\ lst (minus S (t :: ts)) i = l1 ++ l2.
Proof.
  intros. assert (In t (lst (minus S ts) i)).
  { apply lst_in; auto. now apply Sgood_minus. apply minus_true. auto. }
  apply in_split in H3. destruct H3 as (l1 & l2 & E). exists l1, l2. split; auto.
  rewrite (lst_ext _ _ i (minus_cons S t ts)). unfold lst. apply filter_minus1; auto.
  now apply G_nodup.
Qed.

Lemma lst_minus_suffix : forall S i l todo, Sgood S -> (i < d)%nat -> lst S i = l ++ todo ->
  lst (minus S todo) i = l.
Proof.
  intros. unfold lst, minus. rewrite <- filter_filter. fold (lst S i). rewrite H1.
  pose proof (lst_nodup S i H0) as N. rewrite H1 in N.
  rewrite filter_app, filter_all, filter_none. apply app_nil_r.
  - intros x Hx. apply existsb_eqb in Hx. now rewrite Hx.
  - intros x Hx. apply negb_true_iff. destruct (existsb (Nat.eqb x) todo) eqn:E; auto.
    apply existsb_eqb in E. apply in_split in Hx. destruct Hx as (a & b & ->).
    rewrite <- app_assoc in N. simpl in N. apply NoDup_remove_2 in N. exfalso. apply N.
    rewrite !in_app_iff. auto.
Qed.

Lemma dels_dll : forall S i nx pv todo nx' pv', Sgood S -> (i < d)%nat ->
  dll nx pv (lst S i) -> dels todo nx pv nx' pv' -> NoDup todo ->
  (forall t, In t todo -> S t = true) -> dll nx' pv' (lst (minus S todo) i).
Proof.
  induction todo as [|t ts IH]; intros nx' pv' HS Hi HD Hdel HN Ht.
  - rewrite (lst_ext _ _ i (minus_nil S)). eapply dll_same; eauto.
  - destruct Hdel as (nx1 & pv1 & D1 & D2). inversion HN; subst.
    assert (HD1 := IH nx1 pv1 HS Hi HD D1 H2 ltac:(intros; apply Ht; simpl; auto)).
    destruct (lst_minus_split S i t ts) as (l1 & l2 & E1 & E2); auto. apply Ht; simpl; auto.
    rewrite E2. rewrite E1 in HD1. eapply del_dll; eauto.
Qed.

(** caches stay valid when a node is deleted or reinserted *)
Lemma CV_change : forall st st' S S' i l1 t l2,
  (i < d)%nat ->
  (lst S i = l1 ++ t :: l2 /\ lst S' i = l1 ++ l2 \/ lst S i = l1 ++ l2 /\ lst S' i = l1 ++ t :: l2) ->
  area st' = area st -> vol st' = vol st ->
  bnd st' i = Z.min (bnd st i) (node_x data i t) ->
  CV st S i -> CV st' S' i.
Proof.
  intros st st' S S' i l1 t l2 Hi HL Ea Ev Eb HC pre p post E Hlt.
  unfold area_ok. rewrite Ea, Ev. rewrite Eb in Hlt.
  assert (Hsort : forall x, In x l2 -> node_x data i t <= node_x data i x).
  { assert (Hs : sortedn i (l1 ++ t :: l2)).
    { destruct HL as [[H _]|[_ H]]; rewrite <- H; now apply lst_sorted. }
    apply StronglySorted_app_inv in Hs. destruct Hs as (_ & Hs & _). inversion Hs; subst.
    rewrite Forall_forall in H2. auto. }
  assert (Hx : exists b, l1 = pre ++ p :: b).
  { assert (Hcase : forall l, pre ++ p :: post = l1 ++ l -> ~ In p l -> exists b, l1 = pre ++ p :: b).
    { clear. revert l1. induction pre as [|a pre IH]; intros l1 l E Hn.
      - destruct l1 as [|c l1]; simpl in E; inversion E; subst. exfalso. apply Hn; simpl; auto. exists l1; auto.
      - destruct l1 as [|c l1]; simpl in E.
        + exfalso. apply Hn. rewrite <- E. right. apply in_app_iff; simpl; auto.
        + inversion E; subst. destruct (IH l1 l H1 Hn) as (b & ->). exists b. auto. }
    destruct HL as [[H1 H2]|[H1 H2]].
    - apply Hcase with l2. congruence. intros Hp. specialize (Hsort p Hp). lia.
    - apply Hcase with (t :: l2). congruence. intros [Hp|Hp]. subst; lia. specialize (Hsort p Hp). lia. }
  destruct Hx as (b & ->). rewrite <- !app_assoc in HL. simpl in HL.
  destruct HL as [[H _]|[H _]]; eapply HC; try exact H; try lia.
Qed.

(** ** The specification of one level *)

Definition Spec (dim : nat) (rec : hvst -> nat -> outcome (Z * hvst)) : Prop :=
  forall st S,
  Sgood S ->
  (forall i, (2 <= i <= dim)%nat -> dll (nxt st i) (prv st i) (lst S i)) ->
  lst S dim <> [] ->
  (forall i, (3 <= i <= dim)%nat -> area st i 0%nat = 0) ->
  (forall i, (3 <= i <= dim)%nat -> CV st S i) ->
  (forall p, S p = true -> (dim <= ign st p)%nat -> exists q, S q = true /\ wit (ign st p) q p) ->
  exists st', rec st (length (lst S dim)) = Ret (V (Datatypes.S dim) (pts (lst S dim)), st') /\
    (forall i, links_eq st st' i) /\
    (forall i p, (dim < i)%nat -> area st' i p = area st i p /\ vol st' i p = vol st i p) /\
    (forall i, (dim < i)%nat -> bnd st' i = bnd st i) /\
    (forall i, area st' i 0%nat = area st i 0%nat) /\
    (forall i, (3 <= i <= dim)%nat -> CV st' S i) /\
    (forall p, (dim < ign st p)%nat -> ign st' p = ign st p) /\
    (forall p, (ign st p <= dim)%nat -> (ign st' p <= dim)%nat) /\
    (forall p, S p = false -> ign st' p = ign st p) /\
    (forall p, S p = true -> (dim <= ign st' p)%nat -> exists q, S q = true /\ wit (ign st' p) q p).

(** what holds whenever the three-objective code is called *)
Definition pre3 (st : hvst) (F : list nat) : Prop :=
  dll (nxt st 2) (prv st 2) F /\ F <> [] /\
  (forall e, In e F -> Hv3dProofs.good data ref lo 3 e) /\ (length F <= length data)%nat /\
  (forall P p R, F = P ++ p :: R -> (2 <= ign st p)%nat -> witness2 data P p) /\
  sorted_on 2 (pts F).

Lemma Spec_2_gen : forall f,
  (forall st F, pre3 st F -> f st (length F) = fpli_hv3d_ref data ref st (length F)) -> Spec 2 f.
Proof.
  intros f Hf st S HS HD Hne Ha HC Hi.
  assert (HP : pre3 st (lst S 2)).
  2: rewrite (Hf st (lst S 2) HP).
  2: destruct (let (A, HP) := HP in let (B, HP) := HP in let (C, HP) := HP in let (D, HP) := HP in let (F, K) := HP in fpli_hv3d_ok data ref d lo Hwf Hd st (lst S 2) A B C D F K) as (st' & E & E1 & E2 & E3 & E4 & E5 & E6).
  repeat match goal with |- pre3 _ _ => split | |- _ /\ _ => split end; auto.
  - intros e He. destruct (lst_good S 2 e) as [H1 H2]; auto. split; auto. intros i Hi'. apply H2. lia.
  - apply Nat.le_trans with (length (G 2)). { clear. unfold lst. induction (G 2); simpl; auto. destruct (S a); simpl; lia. }
    rewrite <- (Permutation_length (HGp 2%nat ltac:(lia))), seq_length. auto.
  - intros P p R EF Hp.
    assert (Sp : S p = true) by (apply (lst_in S 2); auto; rewrite EF; apply in_app_iff; simpl; auto).
    destruct (Hi p Sp Hp) as (q & Sq & W1 & W2). exists q. split.
    + apply (before_filter S (G 2) q p P R); auto. now apply G_nodup.
    + eapply leq_upto_le; [|exact W1]. lia.
  - unfold sorted_on, pts_of. apply SS_map. apply lst_sorted. lia.
  - exists st'. split; auto.
    assert (HI : forall p, ign st' p = ign st p \/ ((ign st p < 2)%nat /\ ign st' p = 2%nat /\
       S p = true /\ exists q, S q = true /\ wit 2 q p)).
    { intros p. destruct (E6 p) as [H|(H1 & H2 & P & R & EF & q & Hq & L)]; auto. right.
      split; auto. split; auto. split. { apply (lst_in S 2); auto. rewrite EF. apply in_app_iff; simpl; auto. }
      exists q. split. { apply (lst_in S 2); auto. rewrite EF. apply in_app_iff; simpl; auto. }
      split; auto. intros i Hi'. replace i with 2%nat by lia. eapply filter_before; eauto. }
    repeat split; auto.
    + rewrite E1; auto.
    + rewrite E2; auto.
    + rewrite E3; auto.
    + rewrite E4; auto.
    + rewrite E5; auto.
    + rewrite E3; auto.
    + lia.
    + lia.
    + intros p Hp. destruct (HI p) as [H|H]; lia.
    + intros p Hp. destruct (HI p) as [H|H]; lia.
    + intros p Hp. destruct (HI p) as [H|(_ & _ & H & _)]; auto. congruence.
    + intros p Sp Hp. destruct (HI p) as [H|(_ & H & _ & W)].
      * rewrite H in *. auto.
      * rewrite H. auto.
Qed.

Lemma Spec_2 : Spec 2 (fpli_hv3d_ref data ref).
Proof. apply Spec_2_gen. reflexivity. Qed.

Lemma Spec_ext : forall dim f g, (forall st c r, f st c = Ret r -> g st c = Ret r) -> Spec dim f -> Spec dim g.
Proof.
  intros dim f g H HS st S A1 A2 A3 A4 A5 A6. destruct (HS st S A1 A2 A3 A4 A5 A6) as (st' & E & R).
  exists st'. split; [apply H; exact E|exact R].
Qed.

(** ** One more level *)
Section Level.
Variable dim' : nat.
Variable rec : hvst -> nat -> outcome (Z * hvst).
Hypothesis Hrec : Spec dim' rec.
Hypothesis Hdim2 : (2 <= dim')%nat.
Notation dim := (Datatypes.S dim').
Hypothesis Hdimd : (dim < d)%nat.
Variable sb : hvst.
Variable S : nat -> bool.
Hypothesis HS : Sgood S.
Hypothesis HDb : forall i, (2 <= i <= dim)%nat -> dll (nxt sb i) (prv sb i) (lst S i).
Hypothesis Hab : forall i, (3 <= i <= dim)%nat -> area sb i 0%nat = 0.

Record Inv (pre : list nat) (p1 : nat) (todo : list nat) (st : hvst) : Prop := mkInv {
  I_F : lst S dim = pre ++ p1 :: todo;
  I_links : forall i, (2 <= i < dim)%nat ->
     dels todo (nxt sb i) (prv sb i) (nxt st i) (prv st i);
  I_links' : forall i, ~ (2 <= i < dim)%nat -> links_eq sb st i;
  I_high : forall i p, (dim < i)%nat -> area st i p = area sb i p /\ vol st i p = vol sb i p;
  I_bnd : forall i, (dim < i)%nat -> bnd st i = bnd sb i;
  I_head : forall i, area st i 0%nat = area sb i 0%nat;
  I_cv : forall i, (3 <= i < dim)%nat -> CV st (minus S todo) i;
  I_done : forall a q b, pre = a ++ q :: b -> area_ok st dim a q;
  I_ig1 : forall p, (dim < ign sb p)%nat -> ign st p = ign sb p;
  I_ig2 : forall p, (ign sb p <= dim)%nat -> (ign st p <= dim)%nat;
  I_ig3 : forall p, S p = false -> ign st p = ign sb p;
  I_J1 : forall p, S p = true -> (dim <= ign st p)%nat -> exists q, S q = true /\ wit (ign st p) q p;
  I_J2 : forall p, minus S todo p = true -> ign st p = dim' ->
           exists q, minus S todo q = true /\ wit dim' q p;
  I_J3 : forall p, In p todo -> ign st p = 0%nat \/ (dim <= ign st p)%nat
}.

Lemma todo_facts : forall pre p1 todo, lst S dim = pre ++ p1 :: todo ->
  NoDup todo /\ (forall t, In t todo -> S t = true) /\ S p1 = true /\
  (forall t, In t pre -> S t = true) /\ ~ In p1 todo /\ ~ In p1 pre /\ good d p1 /\
  (forall t, In t pre -> ~ In t todo) /\ node data p1.
Proof.
  intros pre p1 todo E. pose proof (lst_nodup S dim Hdimd) as N. rewrite E in N.
  assert (HIn : forall t, In t (pre ++ p1 :: todo) -> S t = true).
  { intros t Ht. apply (lst_in S dim); auto. now rewrite E. }
  assert (N2 := NoDup_remove_2 _ _ _ N). rewrite in_app_iff in N2.
  assert (Sp : S p1 = true) by (apply HIn, in_app_iff; simpl; auto).
  split. { clear - N. induction pre; simpl in N; inversion N; auto. }
  split. { intros; apply HIn, in_app_iff; simpl; auto. }
  split; auto. split. { intros; apply HIn, in_app_iff; simpl; auto. }
  split; auto. split; auto. split. apply HS; auto. split.
  - intros t Ht Ht2. apply in_split in Ht. destruct Ht as (a & b & ->).
    rewrite <- app_assoc in N. simpl in N. apply NoDup_remove_2 in N. apply N.
    rewrite !in_app_iff. simpl. auto.
  - apply HS. auto.
Qed.

Lemma prev_dim : forall pre p1 todo st, lst S dim = pre ++ p1 :: todo -> links_eq sb st dim ->
  prv st dim p1 = last pre 0%nat /\ nxt st dim p1 = hd 0%nat todo.
Proof.
  intros pre p1 todo st E [L1 L2].
  pose proof (HDb dim ltac:(lia)) as HD. rewrite E in HD.
  destruct (dll_at _ _ _ _ _ HD) as (A & B & _). rewrite L1, L2. auto.
Qed.

Lemma lst_done : forall pre p1 todo, lst S dim = pre ++ p1 :: todo ->
  lst (minus S todo) dim = pre ++ [p1].
Proof.
  intros. apply lst_minus_suffix; auto. rewrite H, <- app_assoc. auto.
Qed.

Lemma V_done_perm : forall pre p1 todo m i, lst S dim = pre ++ p1 :: todo -> (i < d)%nat ->
  V m (pts (lst (minus S todo) i)) = V m (pts (pre ++ [p1])).
Proof.
  intros. apply V_perm. unfold pts_of. apply Permutation_map.
  rewrite <- (lst_done _ _ _ H). apply lst_perm; auto. now apply Sgood_minus.
Qed.

Lemma skip_or_recurse_ok : forall pre p1 todo st,
  Inv pre p1 todo st -> vol st dim p1 = spart dim pre p1 ->
  exists st', skip_or_recurse rec dim p1 (length (pre ++ [p1])) st = Ret st' /\
    Inv pre p1 todo st' /\ area_ok st' dim pre p1.
Proof.
  intros pre p1 todo st I Hv.
  destruct (todo_facts _ _ _ (I_F _ _ _ _ I)) as (N1 & N2 & N3 & N4 & N5 & N6 & N7 & N8 & N9).
  assert (Hprev := prev_dim pre p1 todo st (I_F _ _ _ _ I) (I_links' _ _ _ _ I dim ltac:(lia))).
  destruct Hprev as [Hprev _].
  assert (Hp10 : p1 <> 0%nat) by (unfold node in N9; lia).
  (* area of the previous node *)
  assert (Hprevarea : area st dim (last pre 0%nat) = V dim (pts pre)).
  { destruct pre as [|a pre _] using rev_ind.
    - cbn [last]. rewrite (I_head _ _ _ _ I), Hab by lia. symmetry. apply V_nil.
    - rewrite last_last. apply (I_done _ _ _ _ I pre a []). auto. }
  assert (Hset : forall st v, (forall i p, ~ (i = dim /\ p = p1) -> fupd2 (area st) dim p1 v i p = area st i p)).
  { intros s v i p Hne. unfold fupd2. destruct (Nat.eqb_spec i dim), (Nat.eqb_spec p p1); simpl; auto; tauto. }
  assert (Hset2 : forall (a : nat -> nat -> Z) v, fupd2 a dim p1 v dim p1 = v).
  { intros. unfold fupd2. now rewrite !Nat.eqb_refl. }
  assert (Hsetinv : forall s v, Inv pre p1 todo s -> Inv pre p1 todo (set_area dim p1 v s)).
  { intros s v Is. destruct Is. constructor; auto.
    - intros i p Hi. cbn [area vol set_area]. rewrite Hset by lia. auto.
    - intros i. cbn [area set_area]. rewrite Hset by (intros [_ H]; congruence). auto.
    - intros i Hi pre' p post E Hb. destruct (I_cv0 i Hi pre' p post E Hb) as [A B].
      split; auto. cbn [area set_area]. rewrite Hset; auto. lia.
    - intros a q b E. destruct (I_done0 a q b E) as [A B]. split; auto. cbn [area set_area].
      rewrite Hset; auto. intros [_ ->]. apply N6. rewrite E. apply in_app_iff; simpl; auto. }
  assert (HVskip : (exists q, In q pre /\ leq_upto dim (pt q) (pt p1)) ->
     V dim (pts (pre ++ [p1])) = V dim (pts pre)).
  { intros (q & Hq & L). unfold pts_of. rewrite map_app. apply V_skip. exists (pt q). split; auto. now apply in_map. }
  unfold skip_or_recurse. destruct (Nat.leb_spec dim (ign st p1)) as [Hig|Hig].
  - (* skip *)
    destruct (I_J1 _ _ _ _ I p1 N3 Hig) as (q & Sq & W1 & W2).
    assert (Hq : In q pre).
    { refine (before_filter S (G dim) q p1 pre todo (G_nodup dim Hdimd) (W2 dim _) Sq (I_F _ _ _ _ I)). lia. }
    eexists. split; [reflexivity|]. split; [apply Hsetinv; auto|]. split.
    + cbn [area set_area]. rewrite Hset2, Hprev, Hprevarea. symmetry. apply HVskip.
      exists q. split; auto. eapply leq_upto_le; [|exact W1]. lia.
    + exact Hv.
  - (* recurse *)
    assert (Hm : Sgood (minus S todo)) by now apply Sgood_minus.
    assert (Hlen : length (pre ++ [p1]) = length (lst (minus S todo) dim')).
    { rewrite <- (lst_done _ _ _ (I_F _ _ _ _ I)). apply Permutation_length, lst_perm; auto; lia. }
    assert (Hprefix : forall p, minus S todo p = true -> (dim <= ign st p)%nat ->
       exists q, minus S todo q = true /\ wit (ign st p) q p).
    { intros p Sp Hp. apply minus_true in Sp. destruct Sp as [Sp Sp2].
      destruct (I_J1 _ _ _ _ I p Sp Hp) as (q & Sq & W1 & W2). exists q. split; [|split; auto].
      apply minus_true. split; auto. intros Hq.
      assert (Hb : before (G dim) q p) by (apply W2; lia).
      assert (Hpin : In p (pre ++ [p1])).
      { rewrite <- (lst_done _ _ _ (I_F _ _ _ _ I)). apply lst_in; auto. apply minus_true; auto. }
      apply in_split in Hpin. destruct Hpin as (u & v & Epu).
      assert (EF := I_F _ _ _ _ I). change (pre ++ p1 :: todo) with (pre ++ [p1] ++ todo) in EF.
      rewrite app_assoc, Epu, <- app_assoc in EF. simpl in EF.
      pose proof (before_filter S (G dim) q p u (v ++ todo) (G_nodup dim Hdimd) Hb Sq EF) as Hqu.
      assert (Hq2 : In q (pre ++ [p1])) by (rewrite Epu; apply in_app_iff; auto).
      apply in_app_iff in Hq2. destruct Hq2 as [Hq2|[<-|[]]]. apply (N8 q Hq2 Hq). auto. }
    destruct (Hrec st (minus S todo)) as (st1 & E & L1 & L2 & L3 & L4 & L5 & L6 & L7 & L8 & L9); auto.
    + intros i Hi. eapply dels_dll; eauto; try lia. apply HDb; lia. apply (I_links _ _ _ _ I). lia.
    + intros Hnil. rewrite Hnil in Hlen. rewrite app_length in Hlen. simpl in Hlen. lia.
    + intros i Hi. rewrite (I_head _ _ _ _ I). apply Hab. lia.
    + intros i Hi. apply (I_cv _ _ _ _ I). lia.
    + intros p Sp Hp. destruct (Nat.eq_dec (ign st p) dim') as [Hpe|Hpe].
      * rewrite Hpe. apply (I_J2 _ _ _ _ I); auto.
      * apply Hprefix; auto. lia.
    + rewrite Hlen, E. cbn [bind fst snd].
      rewrite (V_done_perm pre p1 todo _ _ (I_F _ _ _ _ I)) by lia.
      set (v := V dim (pts (pre ++ [p1]))).
      assert (I1 : Inv pre p1 todo st1).
      { destruct I. constructor; auto.
        - intros i Hi. eapply dels_same; eauto. apply L1.
        - intros i Hi. eapply same_trans. apply I_links'0; auto. apply L1.
        - intros i p Hi. destruct (L2 i p) as [-> ->]; auto. lia.
        - intros i Hi. rewrite L3 by lia. auto.
        - intros i. rewrite L4. auto.
        - intros i Hi. apply L5. lia.
        - intros a q b Eq. destruct (I_done0 a q b Eq) as [A B]. destruct (L2 dim q ltac:(lia)) as [C D].
          split; congruence.
        - intros p Hp. pose proof (I_ig4 p Hp) as E'. rewrite L6 by lia. auto.
        - intros p Hp. specialize (I_ig5 p Hp). destruct (Nat.le_gt_cases (ign st p) dim').
          specialize (L7 p H). lia. rewrite L6; auto.
        - intros p Sp. rewrite L8; auto. destruct (minus S todo p) eqn:Em; auto. apply minus_true in Em. destruct Em; congruence.
        - intros p Sp Hp. destruct (Nat.le_gt_cases (ign st p) dim').
          + specialize (L7 p H). lia.
          + rewrite L6 in * by auto. apply I_J4; auto.
        - intros p Sp Hp. rewrite <- Hp. apply L9; auto. lia.
        - intros p Hp. rewrite L8. auto. destruct (minus S todo p) eqn:Em; auto. apply minus_true in Em. tauto. }
      assert (I2 := Hsetinv st1 v I1).
      set (st2 := set_area dim p1 v st1) in *.
      assert (Hv1 : vol st1 dim p1 = spart dim pre p1) by (rewrite (proj2 (L2 dim p1 ltac:(lia))); auto).
      assert (A2 : area_ok st2 dim pre p1) by (split; [apply Hset2|exact Hv1]).
      assert (Hprev2 : prv st2 dim p1 = last pre 0%nat)
        by (apply (prev_dim pre p1 todo st2 (I_F _ _ _ _ I2) (I_links' _ _ _ _ I2 dim ltac:(lia)))).
      assert (Hprevarea2 : area st2 dim (last pre 0%nat) = V dim (pts pre)).
      { destruct pre as [|a pre _] using rev_ind.
        - cbn [last]. rewrite (I_head _ _ _ _ I2), Hab by lia. symmetry. apply V_nil.
        - rewrite last_last. apply (I_done _ _ _ _ I2 pre a []). auto. }
      rewrite Hprev2, Hprevarea2, (proj1 A2).
      destruct (Z.leb_spec (V dim (pts (pre ++ [p1]))) (V dim (pts pre))) as [Hle|Hgt].
      * (* p1 is covered by an earlier point *)
        assert (Hins : inside lo ref dim (pt p1)).
        { destruct N7 as [_ N7]. intros i Hi. apply N7. lia. }
        destruct (V_add_le lo ref dim (pts pre) (pt p1) Hins) as (q' & Hq' & L).
        { rewrite (V_perm lo ref dim (pt p1 :: pts pre) (pts (pre ++ [p1]))); auto.
          unfold pts_of. rewrite map_app. simpl. apply Permutation_cons_append. }
        apply in_map_iff in Hq'. destruct Hq' as (q & <- & Hq).
        assert (W : S q = true /\ wit dim q p1).
        { split. auto. split; auto. intros i Hi.
          destruct (HS q (N4 q Hq)) as [Hnq _]. unfold node in *. eapply (Hord dim i); eauto; try lia.
          eapply filter_before. apply (I_F _ _ _ _ I). auto. }
        eexists. split; [reflexivity|]. split; [|exact A2].
        assert (Hign : forall p, ign (set_ign p1 dim st2) p = if (p =? p1)%nat then dim else ign st2 p) by reflexivity.
        assert (Hsb : (ign sb p1 <= dim)%nat).
        { destruct (Nat.le_gt_cases (ign sb p1) dim); auto. pose proof (I_ig1 _ _ _ _ I p1 H). lia. }
        destruct I2. constructor; auto.
        -- intros p Hp. rewrite Hign. destruct (Nat.eqb_spec p p1); auto. subst. lia.
        -- intros p Hp. rewrite Hign. destruct (Nat.eqb_spec p p1); auto.
        -- intros p Hp. rewrite Hign. destruct (Nat.eqb_spec p p1); auto. subst. congruence.
        -- intros p Sp Hp. rewrite Hign in *. destruct (Nat.eqb_spec p p1); auto. subst.
           exists q. auto.
        -- intros p Sp Hp. rewrite Hign in *. destruct (Nat.eqb_spec p p1); auto. subst. lia.
        -- intros p Hp. rewrite Hign. destruct (Nat.eqb_spec p p1); auto.
      * eexists. split; [reflexivity|]. split; auto.
Qed.

Hypothesis HCb : forall i, (3 <= i <= dim)%nat -> CV sb S i.
Hypothesis HIb : forall p, S p = true -> (dim <= ign sb p)%nat ->
  exists q, S q = true /\ wit (ign sb p) q p.
Hypothesis HRb : forall p, S p = true -> ign sb p = 0%nat \/ (dim <= ign sb p)%nat.

Record DW (keep : list nat) (p1 : nat) (todo : list nat) (st : hvst) : Prop := mkDW {
  D_F : lst S dim = keep ++ p1 :: todo;
  D_links : forall i, (2 <= i < dim)%nat ->
     dels todo (nxt sb i) (prv sb i) (nxt st i) (prv st i);
  D_links' : forall i, ~ (2 <= i < dim)%nat -> links_eq sb st i;
  D_ign : ign st = ign sb;
  D_area : area st = area sb;
  D_vol : vol st = vol sb;
  D_bnd : forall i, ~ (2 <= i < dim)%nat -> bnd st i = bnd sb i;
  D_cv : forall i, (3 <= i < dim)%nat -> CV st (minus S todo) i
}.

Lemma in_seq_dim : forall i, In i (seq 2 (dim - 2)) <-> (2 <= i < dim)%nat.
Proof. intros. rewrite in_seq. lia. Qed.

Lemma prv_ne : forall todo st t i, Sgood S -> (2 <= i < dim)%nat -> NoDup todo ->
  (forall t, In t todo -> S t = true) -> S t = true -> ~ In t todo ->
  dels todo (nxt sb i) (prv sb i) (nxt st i) (prv st i) -> prv st i t <> t.
Proof.
  intros. assert (HD : dll (nxt st i) (prv st i) (lst (minus S todo) i)).
  { eapply dels_dll; eauto. lia. apply HDb; lia. }
  apply (dll_in _ _ _ t HD). apply lst_in; try lia. now apply Sgood_minus. apply minus_true; auto.
Qed.

Lemma delete_while_ok : forall keep p1 todo st fuel,
  DW keep p1 todo st -> (length keep < fuel)%nat ->
  exists keep' p1' todo' st',
    hv_delete_while fuel data dim (hd 0%nat todo) p1 (length keep + 1) st
      = Ret (hd 0%nat todo', p1', (length keep' + 1)%nat, st') /\
    DW keep' p1' todo' st' /\
    (keep' = [] \/ node_x data dim (last keep' 0%nat) < bnd sb dim).
Proof.
  induction keep as [|a keep IH] using rev_ind; intros p1 todo st fuel D Hf.
  all: destruct fuel as [|fuel]; [lia|]; cbn [hv_delete_while].
  - cbn [length Nat.add]. exists [], p1, todo, st. simpl. auto.
  - assert (EF := D_F _ _ _ _ D).
    destruct (todo_facts _ _ _ EF) as (N1 & N2 & N3 & N4 & N5 & N6 & N7 & N8 & N9).
    rewrite app_length. cbn [length].
    replace (1 <? length keep + 1 + 1)%nat with true by (symmetry; apply Nat.ltb_lt; lia).
    assert (Na : node data a) by (apply HS, N4, in_app_iff; simpl; auto).
    destruct (prev_dim _ p1 todo st EF (D_links' _ _ _ _ D dim ltac:(lia))) as [Hprev _].
    rewrite last_last in Hprev. rewrite Hprev.
    rewrite !(getx_ok data d) by (auto; lia). cbn [bind].
    rewrite (D_bnd _ _ _ _ D dim) by lia.
    assert (Hb : forall T (f : bool -> outcome T) x y, (b <- (if bnd sb dim <? x then Ret true else Ret (bnd sb dim <=? y)) ;; f b)
       = f ((bnd sb dim <? x) || (bnd sb dim <=? y))).
    { intros. destruct (bnd sb dim <? x); reflexivity. }
    rewrite Hb. destruct (_ || _) eqn:Ec.
    + unfold delete.
      destruct (delete_loop_ok data d Hwf (seq 2 (dim - 2)) p1 st N9) as (st1 & E & B1 & B2 & B3 & B4 & B5).
      { apply seq_NoDup. }
      { intros i Hi. apply in_seq_dim in Hi. lia. }
      { intros i Hi. apply in_seq_dim in Hi. apply (prv_ne todo); auto. apply (D_links _ _ _ _ D). auto. }
      rewrite E. cbn [bind].
      assert (D1 : DW keep a (p1 :: todo) st1).
      { destruct D. constructor.
        - rewrite EF, <- app_assoc. reflexivity.
        - intros i Hi. destruct (B1 i) as [Hdel _]. apply in_seq_dim; auto.
          exists (nxt st i), (prv st i). auto.
        - intros i Hi. destruct (B2 i) as [Hl _]. rewrite in_seq_dim; auto.
          eapply same_trans. apply D_links'0; auto. exact Hl.
        - congruence.
        - congruence.
        - congruence.
        - intros i Hi. destruct (B2 i) as [_ Hl]. rewrite in_seq_dim; auto. rewrite Hl. auto.
        - intros i Hi. destruct (lst_minus_split S i p1 todo) as (l1 & l2 & E1 & E2); auto; try lia.
          destruct (B1 i) as [_ Hl]. apply in_seq_dim; lia.
          apply (CV_change st st1 (minus S todo) _ i l1 p1 l2); auto. lia. }
      replace (prv st1 dim p1) with a.
      2:{ destruct (B2 dim) as [[_ Hl] _]. rewrite in_seq_dim; lia. now rewrite Hl. }
      replace (length keep + 1 + 1 - 1)%nat with (length keep + 1)%nat by lia.
      change p1 with (hd 0%nat (p1 :: todo)) at 1.
      apply IH; auto. rewrite app_length in Hf. simpl in Hf. lia.
    + exists (keep ++ [a]), p1, todo, st. rewrite app_length. cbn [length].
      split; auto. split; auto. right. rewrite last_last.
      apply orb_false_iff in Ec. destruct Ec as [_ Ec]. apply Z.leb_gt in Ec. auto.
Qed.

Lemma area_prefix_ok : forall m a p st, node data p -> (1 <= a)%nat -> (a + m <= d)%nat ->
  area st (a - 1) p = box ref (a - 1) (pt p) ->
  exists st', area_prefix data ref p (seq a m) st = Ret st' /\
    nxt st' = nxt st /\ prv st' = prv st /\ ign st' = ign st /\ vol st' = vol st /\ bnd st' = bnd st /\
    (forall i q, area st' i q = if (q =? p)%nat && (a <=? i)%nat && (i <? a + m)%nat then box ref i (pt p) else area st i q).
Proof.
  induction m as [|m IH]; intros a p st Np Ha Hm Hb; cbn [seq area_prefix].
  - exists st. repeat (split; auto). intros i q.
    destruct (Nat.leb_spec a i), (Nat.ltb_spec i (a + 0)); rewrite ?andb_false_r, ?andb_true_r; auto; lia.
  - rewrite (getx_ok data d) by (auto; lia). cbn [bind].
    set (s1 := set_area _ _ _ _).
    assert (Hs1 : forall i q, area s1 i q = if (i =? a)%nat && (q =? p)%nat then box ref a (pt p) else area st i q).
    { intros i q. unfold s1. cbn [area set_area]. unfold fupd2. destruct (_ && _); auto.
      rewrite Hb. destruct a; [lia|]. cbn [box]. replace (Datatypes.S a - 1)%nat with a by lia. reflexivity. }
    destruct (IH (Datatypes.S a) p s1) as (st' & E & B1 & B2 & B3 & B4 & B5 & B6); auto; try lia.
    { rewrite Hs1. replace (Datatypes.S a - 1)%nat with a by lia. now rewrite !Nat.eqb_refl. }
    exists st'. split; auto. repeat (split; auto). intros i q. rewrite B6, Hs1.
    destruct (Nat.eqb_spec q p); subst; rewrite ?andb_false_r; cbn [andb]; auto.
    destruct (Nat.leb_spec (Datatypes.S a) i), (Nat.ltb_spec i (Datatypes.S a + m)),
      (Nat.eqb_spec i a), (Nat.leb_spec a i), (Nat.ltb_spec i (a + Datatypes.S m)); subst; cbn [andb]; auto; lia.
Qed.

Definition init_phase (p1 c : nat) (st : hvst) : outcome (Z * hvst) :=
  if (1 <? c)%nat then
    let pr := prv st dim p1 in
    x1 <- getx data p1 dim ;;
    xp <- getx data pr dim ;;
    let hyperv := vol st dim pr + area st dim pr * (x1 - xp) in
    Ret (hyperv, set_vol dim p1 hyperv st)
  else
    st <- area_prefix data ref p1 (seq 1 dim) (set_area 0 p1 1 st) ;;
    Ret (0, set_vol dim p1 0 st).

Lemma init_ok : forall keep p1 todo st, DW keep p1 todo st ->
  (keep = [] \/ node_x data dim (last keep 0%nat) < bnd sb dim) ->
  exists st', init_phase p1 (length keep + 1) st = Ret (spart dim keep p1, st') /\
    Inv keep p1 todo st' /\ vol st' dim p1 = spart dim keep p1.
Proof.
  intros keep p1 todo st D Hex. assert (EF := D_F _ _ _ _ D).
  destruct (todo_facts _ _ _ EF) as (N1 & N2 & N3 & N4 & N5 & N6 & N7 & N8 & N9).
  assert (Hp10 : p1 <> 0%nat) by (unfold node in N9; lia).
  assert (Hdone : forall a q b, keep = a ++ q :: b -> area_ok sb dim a q).
  { intros a q b E. destruct Hex as [->|Hex]; [destruct a; discriminate|].
    apply (HCb dim ltac:(lia) a q (b ++ p1 :: todo)).
    - rewrite EF, E, <- app_assoc. reflexivity.
    - eapply Z.le_lt_trans; [|exact Hex].
      pose proof (lst_sorted S dim Hdimd) as Hs. rewrite EF in Hs.
      apply StronglySorted_app_inv in Hs. destruct Hs as (Hs & _). rewrite E in *.
      rewrite last_app_cons. apply StronglySorted_app_inv in Hs. destruct Hs as (_ & Hs & _).
      pose proof (last_in b q 0%nat) as Hl. destruct Hl as [<-|Hl]; [lia|].
      inversion Hs; subst. rewrite Forall_forall in H2. auto. }
  assert (HJ2 : forall p, minus S todo p = true -> ign sb p = dim' ->
           exists q, minus S todo q = true /\ wit dim' q p).
  { intros p Sp Hp. apply minus_true in Sp. destruct (HRb p ltac:(tauto)); lia. }
  assert (HJ3 : forall p, In p todo -> ign sb p = 0%nat \/ (dim <= ign sb p)%nat).
  { intros p Hp. apply HRb. auto. }
  unfold init_phase.
  destruct keep as [|a keep _] using rev_ind.
  - cbn [length Nat.add]. change (1 <? 1)%nat with false. cbv iota.
    destruct (area_prefix_ok dim 1 p1 (set_area 0 p1 1 st)) as (st' & E & B1 & B2 & B3 & B4 & B5 & B6); auto; try lia.
    { cbn [area set_area Nat.sub box]. unfold fupd2. cbn [Nat.eqb andb]. now rewrite Nat.eqb_refl. }
    rewrite E. cbn [bind]. rewrite spart_nil by (auto; lia).
    eexists. split; [reflexivity|].
    assert (Hv2 : vol (set_vol dim p1 0 st') dim p1 = 0) by (cbn [vol set_vol]; unfold fupd2; now rewrite !Nat.eqb_refl).
    split; auto.
    assert (Harea : forall i q, ~ (i <= dim /\ q = p1)%nat -> area st' i q = area sb i q).
    { intros i q Hne. rewrite B6. rewrite <- (D_area _ _ _ _ D). cbn [area set_area]. unfold fupd2.
      destruct (Nat.eqb_spec q p1), (Nat.leb_spec 1 i), (Nat.ltb_spec i (1 + dim)), (Nat.eqb_spec i 0); cbn [andb]; auto; lia. }
    destruct D. constructor; auto.
    + intros i Hi. cbn [nxt prv set_vol]. rewrite B1, B2. apply D_links0; auto.
    + intros i Hi. unfold links_eq. cbn [nxt prv set_vol]. rewrite B1, B2. apply D_links'0; auto.
    + intros i p Hi. cbn [area vol set_vol]. rewrite B4. cbn [vol set_area]. unfold fupd2 at 1.
      destruct (Nat.eqb_spec i dim); [lia|]. cbn [andb]. split. apply Harea; lia. congruence.
    + intros i Hi. cbn [bnd set_vol]. rewrite B5. apply D_bnd0. lia.
    + intros i. cbn [area set_vol]. apply Harea. intros [_ H]; congruence.
    + intros i Hi. assert (EL : lst (minus S todo) i = [p1]).
      { assert (P : Permutation (lst (minus S todo) i) [p1]).
        { change [p1] with ([] ++ [p1]). rewrite <- (lst_done [] p1 todo EF). apply lst_perm; try lia. now apply Sgood_minus. }
        apply Permutation_sym, Permutation_length_1_inv in P. auto. }
      intros pre p post Epp Hb. rewrite EL in Epp. destruct pre as [|x pre]; [|destruct pre; discriminate].
      inversion Epp; subst p post.
      destruct (D_cv0 i ltac:(lia) [] p1 [] EL) as [A B]. { cbn [bnd set_vol] in Hb. rewrite B5 in Hb. exact Hb. }
      split.
      * cbn [area set_vol]. rewrite B6, Nat.eqb_refl.
        destruct (Nat.leb_spec 1 i), (Nat.ltb_spec i (1 + dim)); cbn [andb]; try lia.
        cbn [pts_of map app]. rewrite V_single; auto. destruct N7 as [_ N7]. intros j Hj. apply N7. lia.
      * cbn [vol set_vol]. rewrite B4. cbn [vol set_area]. unfold fupd2.
        destruct (Nat.eqb_spec i dim); [lia|]. auto.
    + intros a q b H. destruct a; discriminate.
    + intros p Hp. cbn [ign set_vol]. rewrite B3. cbn [ign set_area]. now rewrite D_ign0.
    + intros p Hp. cbn [ign set_vol]. rewrite B3. cbn [ign set_area]. now rewrite D_ign0.
    + intros p Hp. cbn [ign set_vol]. rewrite B3. cbn [ign set_area]. now rewrite D_ign0.
    + cbn [ign set_vol]. rewrite B3. cbn [ign set_area]. rewrite D_ign0. auto.
    + cbn [ign set_vol]. rewrite B3. cbn [ign set_area]. rewrite D_ign0. auto.
    + cbn [ign set_vol]. rewrite B3. cbn [ign set_area]. rewrite D_ign0. auto.
  - rewrite app_length. cbn [length].
    replace (1 <? length keep + 1 + 1)%nat with true by (symmetry; apply Nat.ltb_lt; lia).
    assert (Na : node data a) by (apply HS, N4, in_app_iff; simpl; auto).
    destruct (prev_dim _ p1 todo st EF (D_links' _ _ _ _ D dim ltac:(lia))) as [Hprev _].
    rewrite last_last in Hprev. rewrite Hprev.
    rewrite !(getx_ok data d) by (auto; lia). cbn [bind].
    destruct (Hdone keep a [] eq_refl) as [Aa Va].
    assert (Ehv : vol st dim a + area st dim a * (node_x data dim p1 - node_x data dim a) = spart dim (keep ++ [a]) p1).
    { rewrite (D_area _ _ _ _ D), (D_vol _ _ _ _ D), Aa, Va. rewrite spart_snoc; auto.
      - pose proof (lst_sorted S dim Hdimd) as Hs. rewrite EF in Hs.
        replace ((keep ++ [a]) ++ p1 :: todo) with ((keep ++ [a; p1]) ++ todo) in Hs by (rewrite <- !app_assoc; auto).
        apply StronglySorted_app_inv in Hs. tauto.
      - intros e He. apply HS. apply in_app_iff in He. simpl in He.
        destruct He as [He|[<-|[<-|[]]]]; auto; apply N4, in_app_iff; simpl; auto. }
    rewrite Ehv. eexists. split; [reflexivity|].
    assert (Hv2 : vol (set_vol dim p1 (spart dim (keep ++ [a]) p1) st) dim p1 = spart dim (keep ++ [a]) p1)
      by (cbn [vol set_vol]; unfold fupd2; now rewrite !Nat.eqb_refl).
    split; auto.
    assert (Hvol : forall i q v, ~ (i = dim /\ q = p1)%nat -> vol (set_vol dim p1 v st) i q = vol sb i q).
    { intros i q v Hne. rewrite <- (D_vol _ _ _ _ D). cbn [vol set_vol]. unfold fupd2.
      destruct (Nat.eqb_spec i dim), (Nat.eqb_spec q p1); cbn [andb]; auto. tauto. }
    destruct D. constructor; auto.
    + intros i p Hi. rewrite Hvol by lia. cbn [area set_vol]. rewrite D_area0. auto.
    + intros i Hi. cbn [bnd set_vol]. apply D_bnd0. lia.
    + intros i. cbn [area set_vol]. rewrite D_area0. auto.
    + intros i Hi pre p post Epp Hb. destruct (D_cv0 i Hi pre p post Epp Hb) as [A B]. split; auto.
      rewrite Hvol by lia. congruence.
    + intros x q b H. destruct (Hdone x q b H) as [A B]. split. cbn [area set_vol]. congruence.
      rewrite Hvol; auto. intros [_ ->]. apply N6. rewrite H. apply in_app_iff; simpl; auto.
    + intros p Hp. cbn [ign set_vol]. now rewrite D_ign0.
    + intros p Hp. cbn [ign set_vol]. now rewrite D_ign0.
    + intros p Hp. cbn [ign set_vol]. now rewrite D_ign0.
    + cbn [ign set_vol]. rewrite D_ign0. auto.
    + cbn [ign set_vol]. rewrite D_ign0. auto.
    + cbn [ign set_vol]. rewrite D_ign0. auto.
Qed.

Lemma reinsert_while_ok : forall todo pre p1 st fuel,
  Inv pre p1 todo st -> area_ok st dim pre p1 -> (length todo < fuel)%nat ->
  exists pre' p1' st',
    hv_reinsert_while fuel rec data dim (hd 0%nat todo) p1 (length (pre ++ [p1])) (spart dim pre p1) st
      = Ret (p1', spart dim pre' p1', st') /\
    Inv pre' p1' [] st' /\ area_ok st' dim pre' p1'.
Proof.
  induction todo as [|t ts IH]; intros pre p1 st fuel I A Hf.
  all: destruct fuel as [|fuel]; [simpl in Hf; lia|]; cbn [hv_reinsert_while hd].
  - exists pre, p1, st. auto.
  - assert (EF := I_F _ _ _ _ I).
    destruct (todo_facts _ _ _ EF) as (N1 & N2 & N3 & N4 & N5 & N6 & N7 & N8 & N9).
    assert (St : S t = true) by (apply N2; simpl; auto).
    assert (Nt : node data t) by (apply HS; auto).
    assert (Ht0 : t <> 0%nat) by (unfold node in Nt; lia).
    apply Nat.eqb_neq in Ht0. rewrite Ht0. apply Nat.eqb_neq in Ht0.
    rewrite !(getx_ok data d) by (auto; lia). cbn [bind].
    assert (EF2 : lst S dim = (pre ++ [p1]) ++ t :: ts) by (rewrite <- app_assoc; auto).
    rewrite (proj1 A).
    assert (Ehv : spart dim pre p1 + V dim (pts (pre ++ [p1])) * (node_x data dim t - node_x data dim p1)
                  = spart dim (pre ++ [p1]) t).
    { rewrite spart_snoc; auto.
      - pose proof (lst_sorted S dim Hdimd) as Hs. rewrite EF in Hs.
        replace (pre ++ p1 :: t :: ts) with ((pre ++ [p1; t]) ++ ts) in Hs by (rewrite <- !app_assoc; auto).
        apply StronglySorted_app_inv in Hs. tauto.
      - intros e He. apply HS. apply in_app_iff in He. simpl in He.
        destruct He as [He|[<-|[<-|[]]]]; auto. }
    rewrite Ehv. set (s1 := set_bnd dim _ st).
    inversion N1 as [|? ? N1a N1b]; subst.
    assert (Hdl : forall i, (2 <= i < dim)%nat -> exists nx1 pv1, dels ts (nxt sb i) (prv sb i) nx1 pv1 /\
        is_del t nx1 pv1 (nxt st i) (prv st i) /\ dll nx1 pv1 (lst (minus S ts) i) /\ In t (lst (minus S ts) i)).
    { intros i Hi. destruct (I_links _ _ _ _ I i Hi) as (nx1 & pv1 & D1 & D2). exists nx1, pv1.
      split; auto. split; auto. split. eapply dels_dll; eauto. lia. apply HDb; lia.
      intros; apply N2; simpl; auto. apply lst_in; try lia. now apply Sgood_minus. apply minus_true; auto. }
    unfold reinsert.
    destruct (reinsert_loop_ok data d Hwf (seq 2 (dim - 2)) t s1 Nt) as (s2 & E & B1 & B2 & B3 & B4 & B5).
    { apply seq_NoDup. }
    { intros i Hi. apply in_seq_dim in Hi. lia. }
    { intros i Hi. apply in_seq_dim in Hi. destruct (Hdl i Hi) as (nx1 & pv1 & _ & [D2 D3] & D4 & D5).
      cbn [prv set_bnd s1]. rewrite D3. destruct (dll_in _ _ _ _ D4 D5) as (_ & _ & X1 & X2).
      destruct (Nat.eqb_spec t (nx1 t)); auto. }
    rewrite E. cbn [bind].
    assert (Hnext : nxt s2 dim t = hd 0%nat ts).
    { destruct (B2 dim) as [[Hl _] _]. rewrite in_seq_dim; lia. rewrite Hl. cbn [nxt set_bnd s1].
      destruct (prev_dim (pre ++ [p1]) t ts st EF2 (I_links' _ _ _ _ I dim ltac:(lia))) as [_ Hn]. exact Hn. }
    rewrite Hnext. set (s3 := set_vol dim t _ s2).
    assert (Hvol : forall i q, ~ (i = dim /\ q = t)%nat -> vol s3 i q = vol st i q).
    { intros i q Hne. unfold s3. cbn [vol set_vol]. unfold fupd2. rewrite B5.
      destruct (Nat.eqb_spec i dim), (Nat.eqb_spec q t); cbn [andb]; auto. tauto. }
    assert (I3 : Inv (pre ++ [p1]) t ts s3).
    { destruct I. constructor; auto.
      - intros i Hi. destruct (Hdl i Hi) as (nx1 & pv1 & D1 & D2 & D3 & D4).
        destruct (B1 i) as [Hins _]. apply in_seq_dim; auto. cbn [nxt prv set_vol s3].
        eapply dels_same; [exact D1|]. eapply ins_del; eauto.
      - intros i Hi. destruct (B2 i) as [Hl _]. rewrite in_seq_dim; auto.
        eapply same_trans. apply I_links'0; auto. exact Hl.
      - intros i p Hi. rewrite Hvol by lia. cbn [area set_vol s3]. rewrite B4. apply I_high0. auto.
      - intros i Hi. cbn [bnd set_vol s3]. destruct (B2 i) as [_ Hl]. rewrite in_seq_dim; lia. rewrite Hl.
        cbn [bnd set_bnd s1]. unfold fupd. destruct (Nat.eqb_spec i dim); [lia|]. auto.
      - intros i. cbn [area set_vol s3]. rewrite B4. apply I_head0.
      - intros i Hi. destruct (lst_minus_split S i t ts) as (l1 & l2 & E1 & E2); auto; try lia.
        destruct (B1 i) as [_ Hl]. apply in_seq_dim; lia.
        assert (HC2 : CV s2 (minus S ts) i).
        { apply (CV_change s1 s2 (minus S (t :: ts)) _ i l1 t l2); auto. lia.
          intros pr p po Ep Hb. apply I_cv0 in Ep; auto. cbn [bnd set_bnd s1] in Hb. unfold fupd in Hb.
          destruct (Nat.eqb_spec i dim); [lia|]. auto. }
        intros pr p po Ep Hb. destruct (HC2 pr p po Ep Hb) as [X1 X2]. split; auto.
        rewrite Hvol by lia. rewrite <- X2. now rewrite B5.
      - intros a q b Eq.
        assert (Hq : area_ok st dim a q).
        { destruct b as [|b0 b _] using rev_ind.
          - apply app_inj_tail in Eq. destruct Eq; subst. exact A.
          - change (a ++ q :: b ++ [b0]) with (a ++ (q :: b) ++ [b0]) in Eq. rewrite app_assoc in Eq.
            apply app_inj_tail in Eq. destruct Eq as [Eq _]. apply (I_done0 a q b Eq). }
        assert (Hqt : q <> t).
        { intros ->. destruct (todo_facts _ _ _ EF2) as (_ & _ & _ & _ & _ & T & _).
          apply T. rewrite Eq. apply in_app_iff; simpl; auto. }
        destruct Hq as [X1 X2]. split. cbn [area set_vol s3]. rewrite B4. exact X1.
        rewrite Hvol by tauto. auto.
      - intros p Hp. cbn [ign set_vol s3]. rewrite B3. apply I_ig4; auto.
      - intros p Hp. cbn [ign set_vol s3]. rewrite B3. apply I_ig5; auto.
      - intros p Hp. cbn [ign set_vol s3]. rewrite B3. apply I_ig6; auto.
      - intros p. cbn [ign set_vol s3]. rewrite B3. apply I_J4; auto.
      - intros p Hp. cbn [ign set_vol s3]. rewrite B3. cbn [ign set_bnd s1]. intros Hi.
        destruct (Nat.eq_dec p t) as [->|Hpt].
        { destruct (I_J6 t); simpl; auto; lia. }
        destruct (I_J5 p) as (q & Sq & W); auto.
        { rewrite minus_cons. apply minus_true. split; auto. intros [H|[]]; congruence. }
        exists q. split; auto. rewrite minus_cons in Sq. apply minus_true in Sq. tauto.
      - intros p Hp. cbn [ign set_vol s3]. rewrite B3. apply I_J6. simpl; auto. }
    assert (Hv3 : vol s3 dim t = spart dim (pre ++ [p1]) t)
      by (unfold s3; cbn [vol set_vol]; unfold fupd2; now rewrite !Nat.eqb_refl).
    destruct (skip_or_recurse_ok _ _ _ _ I3 Hv3) as (s4 & E4 & I4 & A4).
    replace (Datatypes.S (length (pre ++ [p1]))) with (length ((pre ++ [p1]) ++ [t])) by (rewrite !app_length; simpl; lia).
    rewrite E4. cbn [bind].
    apply IH; auto. simpl in Hf. lia.
Qed.

End Level.

Lemma lst_length : forall S i, (i < d)%nat -> (length (lst S i) <= length data)%nat.
Proof.
  intros. unfold lst. rewrite <- (seq_length (length data) 1), (Permutation_length (HGp i H)).
  induction (G i); simpl; auto. destruct (S a); simpl; lia.
Qed.

Lemma Spec_step : forall dim' rec, Spec dim' rec -> (2 <= dim')%nat -> (S dim' < d)%nat ->
  Spec (S dim') (hv_rec_step rec data ref (S dim')).
Proof.
  intros dim' rec Hrec Hdim2 Hdimd st S HS HD Hne Ha HC Hi.
  set (dim := Datatypes.S dim') in *. set (n := length data).
  assert (HDd := HD dim ltac:(unfold dim; lia)).
  destruct (reset_ignore_ok dim (lst S dim) st [] (Datatypes.S n)) as (sb & E & B1 & B2 & B3 & B4 & B5 & B6).
  { rewrite app_nil_r. apply HDd. }
  { destruct HDd as [N _]. inversion N; auto. }
  { apply lst_nodup; auto. }
  { pose proof (lst_length S dim Hdimd). unfold n. lia. }
  unfold hv_rec_step. fold n.
  assert (Ep1 : prv st dim 0 = last (lst S dim) 0%nat).
  { destruct HDd as [_ HDd]. apply (seg_prev _ _ _ _ _ HDd). }
  rewrite Ep1, E. cbn [bind].
  assert (HDb : forall i, (2 <= i <= dim)%nat -> dll (nxt sb i) (prv sb i) (lst S i)).
  { rewrite B1, B2. auto. }
  assert (Hab : forall i, (3 <= i <= dim)%nat -> area sb i 0%nat = 0) by (rewrite B3; auto).
  assert (HCb : forall i, (3 <= i <= dim)%nat -> CV sb S i).
  { intros i Hii pre p post Epp Hb. unfold area_ok. rewrite B3, B4. rewrite B5 in Hb. apply (HC i Hii pre p post); auto. }
  assert (Hex : forall p, S p = true -> existsb (Nat.eqb p) (lst S dim) = true).
  { intros p Sp. apply existsb_eqb. apply lst_in; auto. }
  assert (HRb : forall p, S p = true -> ign sb p = 0%nat \/ (dim <= ign sb p)%nat).
  { intros p Sp. rewrite B6, (Hex p Sp). cbn [andb]. destruct (Nat.ltb_spec (ign st p) dim); auto. }
  assert (Hsb_hi : forall p, (dim <= ign st p)%nat -> ign sb p = ign st p).
  { intros p Hp. rewrite B6. destruct (Nat.ltb_spec (ign st p) dim); [lia|]. now rewrite andb_false_r. }
  assert (Hsb_lo : forall p, (ign st p <= dim)%nat -> (ign sb p <= dim)%nat).
  { intros p Hp. rewrite B6. destruct (_ && _); lia. }
  assert (Hsb_out : forall p, S p = false -> ign sb p = ign st p).
  { intros p Sp. rewrite B6. destruct (existsb (Nat.eqb p) (lst S dim)) eqn:Ex; auto.
    apply existsb_eqb in Ex. apply lst_in in Ex; auto. congruence. }
  assert (HIb : forall p, S p = true -> (dim <= ign sb p)%nat -> exists q, S q = true /\ wit (ign sb p) q p).
  { intros p Sp Hp. destruct (Nat.le_gt_cases dim (ign st p)).
    - rewrite Hsb_hi in * by auto. auto.
    - exfalso. rewrite B6, (Hex p Sp) in Hp. cbn [andb] in Hp.
      destruct (Nat.ltb_spec (ign st p) dim); unfold dim in *; lia. }
  destruct (lst S dim) as [|p1 keep _] eqn:EF using rev_ind; [congruence|].
  rewrite last_last, app_length. cbn [length].
  assert (D0 : DW dim' sb S keep p1 [] sb).
  { constructor; auto.
    - intros i Hii. simpl. apply same_refl.
    - intros i Hii. apply same_refl.
    - intros i Hii pre p post Epp Hb. rewrite (lst_ext _ _ i (minus_nil S)) in Epp.
      apply (HCb i ltac:(fold dim in Hii; lia) pre p post); auto. }
  assert (Hlen : (length (keep ++ [p1]) <= n)%nat) by (rewrite <- EF; apply lst_length; auto).
  rewrite app_length in Hlen. cbn [length] in Hlen.
  destruct (delete_while_ok dim' Hdim2 Hdimd sb S HS HDb keep p1 [] sb (Datatypes.S n) D0)
    as (keep' & p1' & todo' & st1 & E1 & D1 & Hexit); [lia|].
  cbn [hd] in E1. fold dim in E1. rewrite E1. cbn [bind].
  destruct (init_ok dim' Hdim2 Hdimd sb S HS HDb HCb HIb HRb keep' p1' todo' st1 D1 Hexit) as (st2 & E2 & I2 & V2).
  unfold init_phase in E2. fold dim in E2. rewrite E2. cbn [bind].
  destruct (skip_or_recurse_ok dim' rec Hrec Hdim2 Hdimd sb S HS HDb Hab _ _ _ _ I2 V2) as (st3 & E3 & I3 & A3).
  fold dim in E3. replace (length keep' + 1)%nat with (length (keep' ++ [p1'])) by (rewrite app_length; auto).
  rewrite E3. cbn [bind].
  destruct (reinsert_while_ok dim' rec Hrec Hdim2 Hdimd sb S HS HDb Hab todo' keep' p1' st3 (Datatypes.S n) I3 A3)
    as (pre & q1 & st4 & E4 & I4 & A4).
  { pose proof (I_F _ _ _ _ _ _ _ I3) as E5. fold dim in E5.
    assert (L5 := f_equal (@length nat) E5). rewrite EF, !app_length in L5. cbn [length] in L5. lia. }
  fold dim in E4. rewrite E4. cbn [bind].
  assert (EFq := I_F _ _ _ _ _ _ _ I4). fold dim in EFq.
  destruct (todo_facts dim' Hdimd S HS _ _ _ EFq) as (_ & _ & Sq & _ & _ & _ & Gq & _ & Nq).
  rewrite (getx_ok data d) by auto. cbn [bind].
  exists st4. split.
  { do 2 f_equal. rewrite <- EF, EFq. pose proof (proj1 A4) as A5. fold dim in A5. rewrite A5. unfold spart. lia. }
  destruct I4. subst dim.
  repeat split; auto.
  - intros a. destruct (Nat.lt_ge_cases i 2). { destruct (I_links'0 i) as [X _]. lia. rewrite X, B1; auto. }
    destruct (Nat.lt_ge_cases i (Datatypes.S dim')). { destruct (I_links0 i) as [X _]. lia. rewrite X, B1; auto. }
    destruct (I_links'0 i) as [X _]. lia. rewrite X, B1; auto.
  - intros a. destruct (Nat.lt_ge_cases i 2). { destruct (I_links'0 i) as [_ X]. lia. rewrite X, B2; auto. }
    destruct (Nat.lt_ge_cases i (Datatypes.S dim')). { destruct (I_links0 i) as [_ X]. lia. rewrite X, B2; auto. }
    destruct (I_links'0 i) as [_ X]. lia. rewrite X, B2; auto.
  - rewrite (proj1 (I_high0 i p H)), B3. auto.
  - rewrite (proj2 (I_high0 i p H)), B4. auto.
  - intros i H. rewrite I_bnd0, B5 by auto. auto.
  - intros i. rewrite I_head0, B3. auto.
  - destruct (Nat.eq_dec i (Datatypes.S dim')) as [->|Hid].
    + rewrite EFq in H0. destruct post as [|b0 post _] using rev_ind.
      * apply app_inj_tail in H0. destruct H0; subst. apply A4.
      * change (pre0 ++ p :: post ++ [b0]) with (pre0 ++ (p :: post) ++ [b0]) in H0. rewrite app_assoc in H0.
        apply app_inj_tail in H0. destruct H0 as [H0 _]. apply (I_done0 _ _ _ H0).
    + apply (I_cv0 i ltac:(lia) pre0 p post); auto. rewrite (lst_ext _ _ i (minus_nil S)). auto.
  - destruct (Nat.eq_dec i (Datatypes.S dim')) as [->|Hid].
    + rewrite EFq in H0. destruct post as [|b0 post _] using rev_ind.
      * apply app_inj_tail in H0. destruct H0; subst. apply A4.
      * change (pre0 ++ p :: post ++ [b0]) with (pre0 ++ (p :: post) ++ [b0]) in H0. rewrite app_assoc in H0.
        apply app_inj_tail in H0. destruct H0 as [H0 _]. apply (I_done0 _ _ _ H0).
    + apply (I_cv0 i ltac:(lia) pre0 p post); auto. rewrite (lst_ext _ _ i (minus_nil S)). auto.
  - intros p Hp. rewrite I_ig4. apply Hsb_hi. lia. rewrite Hsb_hi; lia.
  - intros p Hp. rewrite I_ig6; auto.
Qed.

Lemma hv_recursive_Spec : forall k, (k + 2 < d)%nat -> Spec (k + 2) (hv_recursive_ref k data ref).
Proof.
  induction k; intros.
  - exact Spec_2.
  - assert (HSp := Spec_step (k + 2) (hv_recursive_ref k data ref) (IHk ltac:(lia)) ltac:(lia) ltac:(lia)).
    exact HSp.
Qed.

End Main.
