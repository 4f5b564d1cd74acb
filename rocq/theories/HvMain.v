(** [fpli_hv] computes the hypervolume (c/hv.c:1136-1167). *)
From Coq Require Import List ZArith Lia Bool Arith Permutation Sorted Psatz.
From Verif Require Import Base NondomModel HvSpec Hv2dModel Hv2dProofs HvModel HvLinks Hv3dProofs HvNdProofs.
Import ListNotations.
Open Scope Z_scope.

(** ** [setup_cdllist] *)

Lemma link_chain_ok : forall l j a st, NoDup (a :: l) -> ~ In 0%nat l ->
  let st' := link_chain j a l st in
  seg (nxt st' j) (prv st' j) a l 0 /\
  (forall i x, i <> j \/ ~ In x (a :: l) -> nxt st' i x = nxt st i x) /\
  (forall i x, i <> j \/ ~ In x (l ++ [0%nat]) -> prv st' i x = prv st i x) /\
  ign st' = ign st /\ area st' = area st /\ vol st' = vol st /\ bnd st' = bnd st.
Proof.
  induction l as [|b l IH]; intros j a st HN H0; cbn [link_chain].
  - cbn. unfold fupd2. rewrite !Nat.eqb_refl. cbn [andb].
    repeat split; auto.
    + intros i x H. destruct (Nat.eqb_spec i j), (Nat.eqb_spec x a); cbn [andb]; auto. subst. tauto.
    + intros i x H. destruct (Nat.eqb_spec i j), (Nat.eqb_spec x 0); cbn [andb]; auto. subst. tauto.
  - set (s1 := set_prv j b a (set_nxt j a b st)).
    inversion HN as [|? ? HN1 HN2]; subst.
    destruct (IH j b s1) as (A1 & A2 & A3 & A4); auto. { intros H; apply H0; simpl; auto. }
    inversion HN2 as [|? ? HN3 HN4]; subst.
    cbv zeta. split; [|split; [|split]]; auto.
    + cbn [seg]. split; [|split; auto].
      * rewrite A2 by (right; auto). cbn. unfold fupd2. now rewrite !Nat.eqb_refl.
      * rewrite A3. cbn. unfold fupd2. now rewrite !Nat.eqb_refl.
        right. rewrite in_app_iff. simpl. intros [H|[H|[]]]; auto. apply H0; simpl; auto.
    + intros i x H. rewrite A2.
      * cbn. unfold fupd2. destruct (Nat.eqb_spec i j), (Nat.eqb_spec x a); cbn [andb]; auto. subst. simpl in H. tauto.
      * simpl in *. tauto.
    + intros i x H. rewrite A3.
      * cbn. unfold fupd2. destruct (Nat.eqb_spec i j), (Nat.eqb_spec x b); cbn [andb]; auto. subst. simpl in H. tauto.
      * simpl in *. tauto.
Qed.

Section Setup.
Variable sortd : (nat -> Z) -> list nat -> list nat.
Variable data : list point.
Variable d : nat.
Hypothesis Hsort : valid_sort sortd.

Notation G := (order_of sortd data d).

Lemma scratch_perm : forall k j, Permutation (seq 1 (length data)) (scratch_after sortd data k j).
Proof.
  induction k; intros; cbn [scratch_after]. apply Permutation_refl.
  eapply Permutation_trans. apply (IHk (S j)). apply Hsort.
Qed.

Lemma G_perm : forall i, Permutation (seq 1 (length data)) (G i).
Proof. intros. apply scratch_perm. Qed.

Lemma G_sorted : forall i, (i < d)%nat ->
  StronglySorted (fun a b => node_x data i a <= node_x data i b) (G i).
Proof.
  intros. unfold order_of. replace (d - i)%nat with (S (d - i - 1)) by lia. cbn [scratch_after].
  apply Hsort.
Qed.

Lemma G_step : forall i, (i < d)%nat -> G i = sortd (node_x data i) (G (S i)).
Proof.
  intros. unfold order_of. replace (d - i)%nat with (S (d - S i)) by lia. reflexivity.
Qed.

Lemma G_NoDup0 : forall i, NoDup (0%nat :: G i).
Proof.
  intros. constructor.
  - intros H. apply Permutation_in with (l' := seq 1 (length data)) in H. apply in_seq in H. lia.
    apply Permutation_sym, G_perm.
  - eapply Permutation_NoDup. apply G_perm. apply seq_NoDup.
Qed.

Lemma link_all_ok : forall js st, NoDup js ->
  let st' := link_all sortd data d js st in
  (forall j, In j js -> dll (nxt st' j) (prv st' j) (G j)) /\
  (forall j x, ~ In j js -> nxt st' j x = nxt st j x /\ prv st' j x = prv st j x) /\
  ign st' = ign st /\ area st' = area st /\ vol st' = vol st /\ bnd st' = bnd st.
Proof.
  induction js as [|j js IH]; intros st HN; cbn [link_all].
  - cbv zeta. repeat match goal with |- _ /\ _ => split end; auto; intros; exfalso; auto.
  - inversion HN as [|? ? HN1 HN2]; subst.
    pose proof (G_NoDup0 j) as N0. inversion N0; subst.
    destruct (link_chain_ok (G j) j 0 st) as (A1 & A2 & A3 & A4 & A5 & A6 & A7); auto.
    set (s1 := link_chain j 0 (G j) st) in *.
    destruct (IH s1 HN2) as (B1 & B2 & B3 & B4 & B5 & B6).
    set (s2 := link_all sortd data d js s1) in *.
    split; [|split].
    + intros i [<-|Hi]; auto. split; auto. eapply seg_ext; [..|exact A1]; intros; apply B2; auto.
    + intros i x Hi. destruct (B2 i x) as [C1 C2]. { intros H; apply Hi; simpl; auto. }
      rewrite C1, C2. split; [apply A2|apply A3]; left; intros ->; apply Hi; simpl; auto.
    + rewrite B3, B4, B5, B6. auto.
Qed.

Lemma set_area_head : forall js st,
  let st' := fold_left (fun s j => set_area j 0 0 s) js st in
  nxt st' = nxt st /\ prv st' = prv st /\ ign st' = ign st /\ vol st' = vol st /\ bnd st' = bnd st /\
  (forall j, In j js -> area st' j 0%nat = 0) /\
  (forall j, area st j 0%nat = 0 -> area st' j 0%nat = 0).
Proof.
  induction js as [|j js IH]; intros st; cbn [fold_left].
  - cbv zeta. repeat match goal with |- _ /\ _ => split end; auto; try (intros; exfalso; auto; fail); intros ?; split; auto.
  - destruct (IH (set_area j 0 0 st)) as (A1 & A2 & A3 & A4 & A5 & A6 & A7). cbv zeta.
    repeat match goal with |- _ /\ _ => split end; auto.
    + intros i [<-|Hi]; auto. apply A7. cbn. unfold fupd2. now rewrite !Nat.eqb_refl.
    + intros i Hi. apply A7. cbn. unfold fupd2. destruct (_ && _); auto.
Qed.

Lemma setup_ok : forall g,
  let st := setup_cdllist sortd data d g in
  (forall j, (j < d)%nat -> dll (nxt st j) (prv st j) (G j)) /\
  (forall p, ign st p = 0%nat) /\
  (forall j, (j < d)%nat -> area st j 0%nat = 0).
Proof.
  intros g. unfold setup_cdllist.
  set (s0 := mkst _ _ _ _ _ _).
  destruct (link_all_ok (rev (seq 0 d)) s0) as (A1 & A2 & A3 & A4 & A5 & A6).
  { apply NoDup_rev, seq_NoDup. }
  set (s1 := link_all _ _ _ _ _) in *.
  destruct (set_area_head (seq 0 d) s1) as (B1 & B2 & B3 & B4 & B5 & B6 & B7).
  cbv zeta. split; [|split].
  - intros j Hj. rewrite B1, B2. apply A1. apply in_rev. rewrite rev_involutive. apply in_seq. lia.
  - intros p. rewrite B3, A3. reflexivity.
  - intros j Hj. apply B6. apply in_seq. lia.
Qed.

(** ** Stability *)
Hypothesis Hstable : stable_sort sortd.

Lemma stable_before : forall key l a b, NoDup l -> before l a b -> key a <= key b ->
  before (sortd key l) a b.
Proof.
  intros key l a b HN Hb Hk. destruct (Hsort key l) as [P S0].
  destruct (before_in _ _ _ Hb) as [Ia Ib].
  assert (Hab : a <> b). { intros ->. eapply before_asym; eauto. }
  destruct (before_total (sortd key l) a b) as [H|H]; auto.
  - eapply Permutation_in; eauto.
  - eapply Permutation_in; eauto.
  - destruct H as (l1 & l2 & E & H). rewrite E in S0.
    apply StronglySorted_app_inv in S0. destruct S0 as (_ & _ & C).
    specialize (C b a H (or_introl eq_refl)).
    assert (Ek : key a = key b) by lia.
    destruct Hb as (m1 & m2 & Em & Hm).
    destruct Hstable as [_ Hst]. specialize (Hst key l (key b)).
    assert (Ef : filter (fun x => key x =? key b) l =
       filter (fun x => key x =? key b) m1 ++ b :: filter (fun x => key x =? key b) m2).
    { rewrite Em, filter_app. simpl. now rewrite Z.eqb_refl. }
    rewrite Ef in Hst. eapply filter_before. exact Hst. apply filter_In. split; auto.
    apply Z.eqb_eq; auto.
Qed.

Lemma stable_Hord : forall k i q p, (2 <= i <= k)%nat -> (k < d)%nat -> (1 <= q)%nat -> (1 <= p)%nat ->
  leq_upto k (pt data q) (pt data p) -> before (G k) q p -> before (G i) q p.
Proof.
  intros k i q p Hi Hk Hq Hp L Hb.
  assert (H : forall m, (m <= k)%nat -> before (G (k - m)) q p).
  { induction m; intros. now rewrite Nat.sub_0_r.
    replace (k - m)%nat with (S (k - S m)) in IHm by lia.
    rewrite G_step by lia. apply stable_before.
    - pose proof (G_NoDup0 (S (k - S m))) as N. inversion N; auto.
    - apply IHm. lia.
    - apply L. lia. }
  replace i with (k - (k - i))%nat by lia. apply H. lia.
Qed.
End Setup.

(** no two rows have the same value in an objective that is sorted both by an
    inner and by an outer level of the recursion *)
Definition no_ties (data : list point) (d : nat) : Prop :=
  forall i a b, (2 <= i)%nat -> (i + 1 < d)%nat -> (a < length data)%nat -> (b < length data)%nat ->
    a <> b -> coord (row data a) i <> coord (row data b) i.

Lemma no_ties_Hord : forall sortd data d, valid_sort sortd -> no_ties data d ->
  forall k i q p, (2 <= i <= k)%nat -> (k < d)%nat -> (1 <= q)%nat -> (1 <= p)%nat ->
  leq_upto k (pt data q) (pt data p) -> before (order_of sortd data d k) q p ->
  before (order_of sortd data d i) q p.
Proof.
  intros sortd data d Hs Hn k i q p Hi Hk Hq Hp L Hb.
  destruct (Nat.eq_dec i k) as [->|Hik]; auto.
  set (G := order_of sortd data d) in *.
  pose proof (fun i => G_perm sortd data d Hs i) as HGp. fold G in HGp.
  destruct (before_in _ _ _ Hb) as [Iq Ip].
  assert (In' : forall x j, In x (G k) -> In x (G j)).
  { intros x j Hx. eapply Permutation_in; [apply HGp|]. eapply Permutation_in; [|exact Hx].
    apply Permutation_sym, HGp. }
  assert (Hnode : forall x, In x (G k) -> (1 <= x <= length data)%nat).
  { intros x Hx. apply Permutation_in with (l' := seq 1 (length data)) in Hx. apply in_seq in Hx. lia.
    apply Permutation_sym, HGp. }
  pose proof (Hnode _ Iq). pose proof (Hnode _ Ip).
  pose proof (G_NoDup0 sortd data d Hs k) as N0. inversion N0 as [|? ? _ N1]; subst.
  assert (Hqp : q <> p). { intros ->. eapply before_asym; eauto. }
  destruct (before_total (G i) q p) as [H1|H1]; auto.
  exfalso. destruct H1 as (l1 & l2 & E & H1).
  pose proof (G_sorted sortd data d Hs i ltac:(lia)) as S0. fold G in S0. rewrite E in S0.
  apply StronglySorted_app_inv in S0. destruct S0 as (_ & _ & C).
  specialize (C p q H1 (or_introl eq_refl)). specialize (L i ltac:(lia)).
  unfold node_x in C. unfold pt in L.
  apply (Hn i (q - 1)%nat (p - 1)%nat); lia.
Qed.

(** ** Filtering *)
Section Filter.
Variable data : list point.
Variable ref : point.
Variable d : nat.
Variable G : nat -> list nat.
Hypothesis Hd : (1 <= d)%nat.
Hypothesis Hwf : wf_points d data.
Hypothesis HGp : forall i, (i < d)%nat -> Permutation (seq 1 (length data)) (G i).
Hypothesis HGs : forall i, (i < d)%nat ->
  StronglySorted (fun a b => node_x data i a <= node_x data i b) (G i).

Notation lst := (lst G).

Definition Snode (S : nat -> bool) : Prop := forall p, S p = true -> node data p.

Lemma lst_in' : forall S i p, Snode S -> (i < d)%nat -> (In p (lst S i) <-> S p = true).
Proof.
  intros. unfold HvNdProofs.lst. rewrite filter_In. split; [tauto|]. intros. split; auto.
  apply (G_in data d G HGp); auto.
Qed.

Lemma lst_perm' : forall S i j, Snode S -> (i < d)%nat -> (j < d)%nat -> Permutation (lst S i) (lst S j).
Proof.
  intros. apply NoDup_Permutation; try (apply (lst_nodup data d G HGp); auto).
  intros. rewrite !lst_in'; tauto.
Qed.

Lemma filter_delete_ok : forall js p st, NoDup js -> (forall i, In i js -> nxt st i p <> p) ->
  let st' := fold_left (fun st i =>
     let st := set_prv i (nxt st i p) (prv st i p) st in
     set_nxt i (prv st i p) (nxt st i p) st) js st in
  (forall i, In i js -> is_del p (nxt st i) (prv st i) (nxt st' i) (prv st' i)) /\
  (forall i, ~ In i js -> links_eq st st' i) /\
  ign st' = ign st /\ area st' = area st /\ vol st' = vol st /\ bnd st' = bnd st.
Proof.
  induction js as [|j js IH]; intros p st HN Hne; cbn [fold_left].
  - cbv zeta. repeat match goal with |- _ /\ _ => split end; auto; try (intros; exfalso; auto; fail); intros ?; split; auto.
  - inversion HN as [|? ? HN1 HN2]; subst.
    match goal with |- context[fold_left _ js ?x] => set (s1 := x) end.
    assert (Hdel : is_del p (nxt st j) (prv st j) (nxt s1 j) (prv s1 j)).
    { split; intros a; cbn; rewrite !fupd2_same_dim; auto.
      assert (Hn : (p =? nxt st j p)%nat = false) by (apply Nat.eqb_neq; intros E; apply (Hne j); simpl; auto).
      rewrite Hn. auto. }
    assert (Hoth : forall i a, i <> j -> nxt s1 i a = nxt st i a /\ prv s1 i a = prv st i a).
    { intros i a Hij. cbn. rewrite !fupd2_other; auto. }
    destruct (IH p s1 HN2) as (B1 & B2 & B3).
    { intros i Hi. rewrite (proj1 (Hoth i p ltac:(intros ->; tauto))). apply Hne; simpl; auto. }
    cbv zeta. split; [|split; auto].
    + intros i [<-|Hi].
      * destruct (B2 j HN1) as [C1 C2]. destruct Hdel as [D1 D2].
        split; intros a. rewrite C1; auto. rewrite C2; auto.
      * assert (Hij : i <> j) by (intros ->; tauto).
        destruct (B1 i Hi) as [C1 C2].
        split; intros a; [rewrite C1|rewrite C2]; rewrite !(proj1 (Hoth i _ Hij)), !(proj2 (Hoth i _ Hij)); auto.
    + intros i Hi. assert (Hij : i <> j) by (intros ->; apply Hi; simpl; auto).
      destruct (B2 i) as [C1 C2]. { intros H; apply Hi; simpl; auto. }
      split; intros a; [rewrite C1|rewrite C2]; apply Hoth; auto.
Qed.

Lemma filter_inner_ok : forall m i S st, (i < d)%nat -> Snode S ->
  (forall j, (j < d)%nat -> dll (nxt st j) (prv st j) (lst S j)) ->
  m = length (lst S i) ->
  exists S' st', filter_inner m data ref d i (last (lst S i) 0%nat) m st = Ret (length (lst S' i), st') /\
    (forall p, S' p = true <-> S p = true /\ node_x data i p < coord ref i) /\
    (forall j, (j < d)%nat -> dll (nxt st' j) (prv st' j) (lst S' j)) /\
    ign st' = ign st /\ area st' = area st /\ vol st' = vol st /\ bnd st' = bnd st.
Proof.
  induction m as [|m IH]; intros i S st Hi HS HD Hm; cbn [filter_inner].
  - exists S, st. rewrite <- Hm. split; auto. split; auto.
    intros p. split; [|tauto]. intros Sp. apply (lst_in' S i) in Sp; auto.
    destruct (lst S i); [contradiction|discriminate].
  - destruct (lst S i) as [|a l _] eqn:EL using rev_ind; [discriminate|].
    rewrite last_last.
    assert (Sa : S a = true) by (apply (lst_in' S i); auto; rewrite EL; apply in_app_iff; simpl; auto).
    rewrite (getx_ok data d) by auto. cbn [bind].
    assert (Hmax : forall p, S p = true -> node_x data i p <= node_x data i a).
    { intros p Sp. apply (lst_in' S i) in Sp; auto. rewrite EL in Sp. apply in_app_iff in Sp.
      pose proof (lst_sorted data d G HGs S i Hi) as Hs. unfold sortedn in Hs. rewrite EL in Hs.
      apply StronglySorted_app_inv in Hs. destruct Hs as (_ & _ & C).
      destruct Sp as [Sp|[->|[]]]; [|lia]. apply C; simpl; auto. }
    destruct (Z.ltb_spec (node_x data i a) (coord ref i)).
    + exists S, st. split. { rewrite EL, Hm. auto. } split; auto.
      intros p. split; [|tauto]. intros Sp. specialize (Hmax p Sp). split; auto. lia.
    + unfold filter_delete_node.
      destruct (filter_delete_ok (seq 0 d) a st) as (B1 & B2 & B3 & B4 & B5 & B6).
      { apply seq_NoDup. }
      { intros j Hj. apply in_seq in Hj. apply (dll_in _ _ _ a (HD j ltac:(lia))). apply lst_in'; auto. lia. }
      match goal with |- context[filter_inner m data ref d i (prv ?s i a)] => set (st1 := s) in * end.
      assert (HS1 : Snode (minus S [a])). { intros p Hp. apply minus_true in Hp. apply HS. tauto. }
      assert (HD1 : forall j, (j < d)%nat -> dll (nxt st1 j) (prv st1 j) (lst (minus S [a]) j)).
      { intros j Hj. assert (Ia : In a (lst S j)) by (apply lst_in'; auto).
        apply in_split in Ia. destruct Ia as (l1 & l2 & E).
        unfold HvNdProofs.lst. rewrite (filter_minus1 S (G j) l1 a l2); auto.
        - eapply del_dll. 2:{ apply B1. apply in_seq. lia. } rewrite <- E. apply HD; auto.
        - apply (G_nodup data d G HGp); auto. }
      assert (EL1 : lst (minus S [a]) i = l).
      { unfold HvNdProofs.lst. rewrite (filter_minus1 S (G i) l a []); auto. apply app_nil_r. apply (G_nodup data d G HGp); auto. }
      assert (Hprev : prv st1 i a = last l 0%nat).
      { pose proof (HD i Hi) as HDi. rewrite EL in HDi. destruct (dll_at _ _ _ _ _ HDi) as (A1 & A2 & _ & _ & A3 & _).
        destruct (B1 i) as [_ C]. apply in_seq; lia. rewrite C.
        destruct (Nat.eqb_spec a (nxt st i a)); auto. }
      rewrite Hprev. replace (Datatypes.S m - 1)%nat with m by lia.
      destruct (IH i (minus S [a]) st1 Hi HS1 HD1) as (S' & st' & E & C1 & C2 & C3).
      { rewrite EL1. rewrite app_length in Hm. simpl in Hm. lia. }
      rewrite EL1 in E. exists S', st'. split; auto. split.
      { intros p. rewrite C1, minus_true. simpl. split; [tauto|]. intros [Sp Hp].
        split; auto. split; auto. intros [->|[]]. lia. }
      split; auto. rewrite B3, B4, B5, B6 in C3. auto.
Qed.

Lemma filter_ref_ok : forall is S st n, (forall i, In i is -> (i < d)%nat) -> Snode S ->
  (forall j, (j < d)%nat -> dll (nxt st j) (prv st j) (lst S j)) ->
  n = length (lst S 0) ->
  exists S' st', filter_ref data ref d is n st = Ret (length (lst S' 0), st') /\
    (forall p, S' p = true <-> S p = true /\ forall i, In i is -> node_x data i p < coord ref i) /\
    (forall j, (j < d)%nat -> dll (nxt st' j) (prv st' j) (lst S' j)) /\
    ign st' = ign st /\ area st' = area st /\ vol st' = vol st /\ bnd st' = bnd st.
Proof.
  induction is as [|i is IH]; intros S st n Hi HS HD Hn; cbn [filter_ref].
  - exists S, st. rewrite Hn. split; auto. split; auto. intros p. split; [|tauto]. intros. split; auto. intros i [].
  - assert (Hid : (i < d)%nat) by (apply Hi; simpl; auto).
    assert (Hn2 : n = length (lst S i)) by (rewrite Hn; apply Permutation_length, lst_perm'; auto; lia).
    assert (Ep : prv st i 0 = last (lst S i) 0%nat) by (apply (seg_prev _ _ _ _ _ (proj2 (HD i Hid)))).
    rewrite Ep.
    destruct (filter_inner_ok n i S st Hid HS HD Hn2) as (S1 & st1 & E & C1 & C2 & C3 & C4 & C5 & C6).
    rewrite E. cbn [bind fst snd].
    assert (HS1 : Snode S1). { intros p Hp. apply C1 in Hp. apply HS. tauto. }
    destruct (IH S1 st1 (length (lst S1 i))) as (S2 & st2 & E2 & D1 & D2 & D3 & D4 & D5 & D6); auto.
    { intros; apply Hi; simpl; auto. }
    { apply Permutation_length, lst_perm'; auto; lia. }
    exists S2, st2. split; auto. split.
    { intros p. rewrite D1, C1. split.
      - intros [[A B] C]. split; auto. intros j [<-|Hj]; auto.
      - intros [A B]. split; [split; auto|]; intros; apply B; simpl; auto. }
    split; auto. rewrite D3, D4, D5, D6. auto.
Qed.
End Filter.

Lemma box_loop_ok : forall data ref d p, wf_points d data -> node data p ->
  forall m, (m <= d)%nat ->
  box_loop data ref p (seq 0 m) 1 = Ret (box ref m (pt data p)).
Proof.
  intros data ref d p W N m Hm.
  assert (H : forall k a, (a + k <= d)%nat ->
     box_loop data ref p (seq a k) (box ref a (pt data p)) = Ret (box ref (a + k) (pt data p))).
  { induction k; intros; cbn [seq box_loop]. now rewrite Nat.add_0_r.
    rewrite (getx_ok data d) by (auto; lia). cbn [bind].
    change (box ref a (pt data p) * (coord ref a - node_x data a p)) with (box ref (S a) (pt data p)).
    rewrite IHk by lia. do 2 f_equal. lia. }
  apply (H m 0%nat). lia.
Qed.

(** the state after [setup_cdllist] and [filter_ref]: the lists contain exactly
    the rows strictly better than the reference *)
Lemma prep_ok : forall sortd g data d ref, valid_sort sortd -> wf_points d data -> length ref = d ->
  (1 <= d)%nat ->
  let G := order_of sortd data d in
  let lo := min_coord data in
  exists S1 st1,
    filter_ref data ref d (seq 0 d) (length data) (setup_cdllist sortd data d g)
      = Ret (length (lst G S1 0), st1) /\
    Sgood data ref d lo S1 /\
    (forall j, (j < d)%nat -> dll (nxt st1 j) (prv st1 j) (lst G S1 j)) /\
    (forall p, ign st1 p = 0%nat) /\
    (forall j, (j < d)%nat -> area st1 j 0%nat = 0) /\
    (forall i, (i < d)%nat -> Permutation (lst G S1 i) (lst G S1 (d - 1))) /\
    hypervolume data ref (V lo ref d (pts_of data (lst G S1 (d - 1)))).
Proof.
  intros sortd g data d ref Hs Hwf Hr Hd G lo.
  assert (HGp : forall i, (i < d)%nat -> Permutation (seq 1 (length data)) (G i)) by (intros; now apply G_perm).
  assert (HGs : forall i, (i < d)%nat -> StronglySorted (fun a b => node_x data i a <= node_x data i b) (G i))
    by (intros; now apply G_sorted).
  destruct (setup_ok sortd data d Hs g) as (A1 & A2 & A3). fold G in A1.
  set (st := setup_cdllist sortd data d g) in *.
  set (S0 := fun p => (1 <=? p)%nat && (p <=? length data)%nat).
  assert (HS0 : Snode data S0).
  { intros p Hp. unfold S0 in Hp. apply andb_true_iff in Hp. destruct Hp as [P1 P2].
    apply Nat.leb_le in P1, P2. split; auto. }
  assert (HG0 : forall j, (j < d)%nat -> lst G S0 j = G j).
  { intros j Hj. apply filter_all. intros p Hp. apply (G_in data d G HGp) in Hp; auto. unfold node in Hp.
    unfold S0. apply andb_true_iff. split; apply Nat.leb_le; lia. }
  assert (Hlen0 : length data = length (lst G S0 0)).
  { rewrite HG0 by lia. rewrite <- (Permutation_length (HGp 0%nat ltac:(lia))), seq_length. auto. }
  destruct (filter_ref_ok data ref d G Hd Hwf HGp HGs (seq 0 d) S0 st (length data))
    as (S1 & st1 & E & B1 & B2 & B3 & B4 & B5 & B6); auto; try lia.
  { intros i Hi. apply in_seq in Hi. lia. }
  { intros j Hj. rewrite HG0; auto. }
  assert (HS1 : Sgood data ref d lo S1).
  { intros p Hp. apply B1 in Hp. destruct Hp as [P1 P2]. split. now apply HS0.
    intros i Hi. split.
    - apply min_coord_ok. apply In_row. specialize (HS0 p P1). unfold node in HS0. lia.
    - apply P2. apply in_seq. lia. }
  assert (HVd : V lo ref d data = V lo ref d (pts_of data (lst G S1 (d - 1)))).
  { rewrite V_filter. apply V_same. intros p. rewrite filter_In. unfold pts_of. rewrite in_map_iff. split.
    - intros [Hp Hb]. apply row_In_inv in Hp. destruct Hp as (i & Hi & <-).
      exists (S i). split. { unfold pt. simpl. now rewrite Nat.sub_0_r. }
      assert (Hpt : pt data (S i) = row data i) by (unfold pt; simpl; now rewrite Nat.sub_0_r).
      apply (lst_in data ref d lo G HGp S1); auto; try lia. apply B1. split.
      + unfold S0. apply andb_true_iff. split; apply Nat.leb_le; lia.
      + intros j Hj. apply in_seq in Hj. rewrite below_ref_iff in Hb. specialize (Hb j ltac:(lia)).
        unfold node_x. fold (pt data (S i)). rewrite Hpt. auto.
    - intros (e & <- & He). apply (lst_in data ref d lo G HGp S1) in He; auto; try lia.
      destruct (HS1 e He) as [Ne Ie]. split.
      + apply In_row. unfold node in Ne. lia.
      + apply below_ref_iff. intros i Hi. apply Ie. auto. }
  exists S1, st1. split; [exact E|]. split; [exact HS1|]. split; [exact B2|].
  split. { intros p. rewrite B3. apply A2. }
  split. { intros j Hj. rewrite B4. auto. }
  split. { intros i Hi. apply (lst_perm data ref d lo G HGp S1); auto; lia. }
  rewrite <- HVd, <- Hr. apply V_hypervolume. intros p i Hp _. now apply min_coord_ok.
Qed.

Theorem fpli_hv_with_ok : forall rec sort2d sortd dbl_max g data d ref,
  (forall lo G, (3 <= d)%nat ->
    (forall i, (i < d)%nat -> Permutation (seq 1 (length data)) (G i)) ->
    (forall i, (i < d)%nat -> StronglySorted (fun a b => node_x data i a <= node_x data i b) (G i)) ->
    (forall k i q p, (2 <= i <= k)%nat -> (k < d)%nat -> (1 <= q)%nat -> (1 <= p)%nat ->
       leq_upto k (pt data q) (pt data p) -> before (G k) q p -> before (G i) q p) ->
    Spec data ref d lo G (d - 1) rec) ->
  valid_sort2d sort2d -> valid_sort sortd ->
  (d <= 3)%nat \/ stable_sort sortd \/ no_ties data d ->
  wf_points d data -> length ref = d -> (2 <= d)%nat ->
  (forall p i, In p data -> (i < d)%nat -> - dbl_max <= coord p i) ->
  exists v, fpli_hv_with rec sort2d sortd dbl_max g data d ref = Ret v /\ hypervolume data ref v.
Proof.
  intros rec sort2d sortd dbl_max g data d ref Hrec Hs2 Hs Hst Hwf Hr Hd2 Hmax.
  unfold fpli_hv_with. destruct (Nat.eqb_spec (length data) 0) as [E0|E0].
  { destruct data; [|discriminate]. exists 0. split; auto.
    rewrite <- (V_nil 0 ref (length ref)). apply V_hypervolume. intros p i []. }
  destruct (Nat.eqb_spec d 2) as [E2|E2]. { apply hv2d_ok; auto. congruence. }
  replace (2 <? d)%nat with true by (symmetry; apply Nat.ltb_lt; lia). cbn [assert_ bind].
  assert (Hd : (3 <= d)%nat) by lia.
  set (G := order_of sortd data d).
  assert (HGp : forall i, (i < d)%nat -> Permutation (seq 1 (length data)) (G i)) by (intros; now apply G_perm).
  assert (HGs : forall i, (i < d)%nat -> StronglySorted (fun a b => node_x data i a <= node_x data i b) (G i))
    by (intros; now apply G_sorted).
  assert (Hord : forall k i q p, (2 <= i <= k)%nat -> (k < d)%nat -> (1 <= q)%nat -> (1 <= p)%nat ->
     leq_upto k (pt data q) (pt data p) -> before (G k) q p -> before (G i) q p).
  { intros k i q p Hi Hk Hq Hp L Hb. destruct Hst as [Hd3|[Hst|Hst]].
    - replace i with k by lia. auto.
    - eapply stable_Hord; eauto.
    - eapply no_ties_Hord; eauto. }
  destruct (prep_ok sortd g data d ref Hs Hwf Hr ltac:(lia)) as (S1 & st1 & E & HS1 & B2 & B3 & B4 & Hperm & HV).
  fold G in E, B2, Hperm, HV. set (lo := min_coord data) in *.
  rewrite E. cbn [bind].
  destruct (Nat.eqb_spec (length (lst G S1 0)) 0) as [EL|EL].
  { exists 0. split; auto. apply length_zero_iff_nil in EL.
    pose proof (Hperm 0%nat ltac:(lia)) as P. rewrite EL in P. apply Permutation_nil in P.
    rewrite P in HV. unfold pts_of in HV. simpl map in HV. rewrite V_nil in HV. auto. }
  destruct (Nat.eqb_spec (length (lst G S1 0)) 1) as [EL1|EL1].
  { destruct (lst G S1 0) as [|p [|? ?]] eqn:EL2; try discriminate.
    pose proof (B2 0%nat ltac:(lia)) as D0. rewrite EL2 in D0. destruct D0 as [_ D0]. simpl in D0.
    replace (nxt st1 0 0) with p by (symmetry; tauto).
    assert (Sp : S1 p = true). { apply (lst_in data ref d lo G HGp S1 0); auto; try lia. rewrite EL2. simpl; auto. }
    destruct (HS1 p Sp) as [Np Ip].
    rewrite (box_loop_ok data ref d p Hwf Np d (le_n _)). eexists. split; [reflexivity|].
    pose proof (Hperm 0%nat ltac:(lia)) as P. rewrite EL2 in P. apply Permutation_length_1_inv in P.
    rewrite P in HV. cbn [pts_of map] in HV. rewrite V_single in HV; auto. }
  set (st2 := mkst _ _ _ _ _ _).
  pose proof (Hrec lo G Hd HGp HGs Hord) as HSp.
  destruct (HSp st2 S1) as (st' & E' & _); auto.
  - intros i Hi. apply B2. lia.
  - intros H. pose proof (Hperm 0%nat ltac:(lia)) as P. rewrite H in P.
    apply Permutation_sym, Permutation_nil in P. rewrite P in EL. simpl in EL. lia.
  - intros i Hi. cbn [area st2]. apply B4. lia.
  - intros i Hi pre p post Ep Hb. exfalso. cbn [bnd st2] in Hb.
    destruct (Nat.ltb_spec i d); [|lia].
    assert (Ip : In p (lst G S1 i)) by (rewrite Ep; apply in_app_iff; simpl; auto).
    apply (lst_in data ref d lo G HGp S1) in Ip; auto. destruct (HS1 p Ip) as [Np _].
    assert (In (row data (p - 1)) data) by (apply In_row; unfold node in Np; lia).
    specialize (Hmax _ i H0 ltac:(lia)). unfold node_x in Hb. lia.
  - intros p Sp Hp. exfalso. cbn [ign st2] in Hp. rewrite B3 in Hp. lia.
  - rewrite (Permutation_length (Hperm 0%nat ltac:(lia))). rewrite E'. cbn [bind fst].
    eexists. split; [reflexivity|]. replace (S (d - 1)) with d by lia. exact HV.
Qed.

Theorem fpli_hv_ok_gen : forall sort2d sortd dbl_max g data d ref,
  valid_sort2d sort2d -> valid_sort sortd ->
  (d <= 3)%nat \/ stable_sort sortd \/ no_ties data d ->
  wf_points d data -> length ref = d -> (2 <= d)%nat ->
  (forall p i, In p data -> (i < d)%nat -> - dbl_max <= coord p i) ->
  exists v, fpli_hv sort2d sortd dbl_max g data d ref = Ret v /\ hypervolume data ref v.
Proof.
  intros sort2d sortd dbl_max g data d ref Hs2 Hs Hst Hwf. intros. unfold fpli_hv. apply fpli_hv_with_ok; auto.
  intros lo G Hd HGp HGs Hord.
  pose proof (hv_recursive_Spec data ref d lo G Hwf Hd HGp HGs Hord (d - 3) ltac:(lia)) as HSp.
  replace (d - 3 + 2)%nat with (d - 1)%nat in HSp by lia. exact HSp.
Qed.
