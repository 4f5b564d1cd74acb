(** Proofs about c/nondominated.h, part 2: the two-objective sweep. *)
From Coq Require Import List ZArith Lia Bool Arith Permutation Sorted.
From Verif Require Import Base Spec NondomModel.
Import ListNotations.
Open Scope Z_scope.

Lemma compare_le_lex : forall p q,
  compare_x_asc_y_asc p q <= 0 <->
  coord p 0 < coord q 0 \/ (coord p 0 = coord q 0 /\ coord p 1 <= coord q 1).
Proof.
  intros. unfold compare_x_asc_y_asc.
  destruct (Z.ltb_spec (coord p 0) (coord q 0));
  destruct (Z.ltb_spec (coord q 0) (coord p 0));
  destruct (Z.ltb_spec (coord p 1) (coord q 1));
  destruct (Z.ltb_spec (coord q 1) (coord p 1)); lia.
Qed.

Lemma sort2d_exec_valid : valid_sort2d sort2d_exec.
Proof.
  intros pts. apply sort_by_is_qsort.
  - intros. now apply Z.leb_le.
  - intros a b H. apply Z.leb_gt in H.
    rewrite compare_le_lex. assert (~ (compare_x_asc_y_asc (row pts a) (row pts b) <= 0)) by lia.
    rewrite compare_le_lex in H0. lia.
  - intros a b c. rewrite !compare_le_lex. lia.
Qed.

Lemma countb_upd_false : forall nd j, (j < length nd)%nat -> nth j nd false = true ->
  countb negb (upd nd j false) = S (countb negb nd).
Proof.
  induction nd; simpl; intros; try lia.
  destruct j; simpl in *.
  - subst. reflexivity.
  - rewrite IHnd; auto; try lia. destruct a; auto.
Qed.

Lemma countb_negb_true : forall n, countb negb (repeat true n) = O.
Proof. induction n; simpl; auto. Qed.

Section Sweep.
  Variable pts : list point.
  Variable pp : list nat.
  Variable kw : bool.
  Let n := length pts.
  Hypothesis Hsort : is_qsort_of
    (fun i j => compare_x_asc_y_asc (row pts i) (row pts j) <= 0) (seq 0 n) pp.

  Let P (j : nat) : point := row pts (nth j pp O).
  Let X j := coord (P j) 0.
  Let Y j := coord (P j) 1.

  Lemma pp_length : length pp = n.
  Proof. destruct Hsort as [H _]. apply Permutation_length in H. now rewrite seq_length in H. Qed.

  Lemma pp_range : forall j, (j < n)%nat -> (nth j pp O < n)%nat.
  Proof.
    intros. destruct Hsort as [HP _].
    assert (In (nth j pp O) pp) by (apply nth_In; rewrite pp_length; auto).
    eapply Permutation_in in H0; [|apply Permutation_sym; eauto].
    apply in_seq in H0. lia.
  Qed.

  Lemma pp_surj : forall i, (i < n)%nat -> exists j, (j < n)%nat /\ nth j pp O = i.
  Proof.
    intros. destruct Hsort as [HP _].
    assert (In i pp). { eapply Permutation_in; eauto. apply in_seq. lia. }
    apply In_nth with (d := O) in H0. destruct H0 as (j & Hj & E).
    exists j. rewrite pp_length in Hj. auto.
  Qed.

  Lemma pp_nodup : NoDup pp.
  Proof. destruct Hsort as [HP _]. eapply Permutation_NoDup; eauto. apply seq_NoDup. Qed.

  Lemma P_lex : forall i j, (i < j < n)%nat -> X i < X j \/ (X i = X j /\ Y i <= Y j).
  Proof.
    intros. destruct Hsort as [_ HS].
    apply compare_le_lex.
    apply StronglySorted_nth with (l := pp) (d := O) (i := i) (j := j) in HS; auto.
    rewrite pp_length. auto.
  Qed.

  Lemma deref_ok : forall j, (j < n)%nat -> deref pts pp j = Ret (P j).
  Proof.
    intros. unfold deref. rewrite (rd_ok _ pp j O) by (rewrite pp_length; auto).
    cbn [bind]. rewrite (rd_ok _ pts _ []) by (apply pp_range; auto). reflexivity.
  Qed.

  (** position [j] of the sorted array is removed *)
  Definition dead (j : nat) : Prop :=
    exists i, (i < j)%nat /\ Y i <= Y j /\ (kw = true -> X i <> X j \/ Y i <> Y j).

  (** what is known about [k] and [j] at the head of the inner loop *)
  Definition KInv (k j : nat) : Prop :=
    (k < j)%nat /\ (j <= n)%nat /\
    (forall i, (i < j)%nat -> Y k <= Y i) /\
    (forall i, (i < k)%nat -> Y k < Y i).

  Lemma KInv_dead : forall k j, KInv k j -> (j < n)%nat -> Y k <= Y j ->
    (negb kw || (negb (X j =? X k) || negb (Y j =? Y k)) = true <-> dead j).
  Proof.
    intros k j (Hkj & Hj & Hmin & Hfst) Hjn HY. split.
    - intros H. exists k. split; auto. split; auto. intros Hkw.
      rewrite Hkw in H. simpl in H. rewrite orb_true_iff, !negb_true_iff, !Z.eqb_neq in H.
      lia.
    - intros (i & Hi & HYi & Hne).
      destruct (negb kw || (negb (X j =? X k) || negb (Y j =? Y k))) eqn:E; auto.
      exfalso. rewrite !orb_false_iff, !negb_false_iff, !Z.eqb_eq in E.
      destruct E as (Ekw & EX & EY).
      destruct (Nat.lt_trichotomy i k) as [L|[->|L]].
      + specialize (Hfst i L). lia.
      + specialize (Hne Ekw). lia.
      + pose proof (P_lex k i ltac:(lia)). pose proof (P_lex i j ltac:(lia)).
        specialize (Hmin i Hi). specialize (Hne Ekw). lia.
  Qed.

  Lemma KInv_next : forall k j, KInv k j -> (j < n)%nat -> Y k <= Y j -> KInv k (S j).
  Proof.
    intros k j (Hkj & Hj & Hmin & Hfst) Hjn HY.
    split; [lia|]. split; [lia|]. split; auto.
    intros i Hi. destruct (Nat.eq_dec i j); [subst; auto|]. apply Hmin; lia.
  Qed.

  Lemma KInv_new : forall k j, KInv k j -> (j < n)%nat -> Y j < Y k -> KInv j (S j).
  Proof.
    intros k j (Hkj & Hj & Hmin & Hfst) Hjn HY.
    split; [lia|]. split; [lia|]. split.
    - intros i Hi. destruct (Nat.eq_dec i j); [subst; lia|].
      specialize (Hmin i ltac:(lia)). lia.
    - intros i Hi. specialize (Hmin i ltac:(lia)). lia.
  Qed.

  Lemma KInv_new_alive : forall k j, KInv k j -> (j < n)%nat -> Y j < Y k -> ~ dead j.
  Proof.
    intros k j (Hkj & Hj & Hmin & Hfst) Hjn HY (i & Hi & HYi & _).
    specialize (Hmin i Hi). lia.
  Qed.

  (** flags after the positions below [j] have been treated *)
  Definition FInv (j : nat) (nd : list bool) (c : nat) : Prop :=
    length nd = n /\
    (forall i, (i < j)%nat -> (i < n)%nat -> (nth i nd false = false <-> dead i)) /\
    (forall i, (j <= i < n)%nat -> nth i nd false = true) /\
    c = countb negb nd.

  Lemma nondom_2d_while_ok : forall fuel k j nd c,
    KInv k j -> FInv j nd c -> (n - j < fuel)%nat ->
    exists j' nd' c', nondom_2d_while fuel pts pp kw k j nd c = Ret (j', nd', c') /\
      (j <= j')%nat /\ KInv k j' /\ FInv j' nd' c' /\ ((j' < n)%nat -> Y j' < Y k).
  Proof.
    induction fuel; intros k j nd c HK HF Hfuel; try lia.
    cbn [nondom_2d_while]. fold n.
    destruct (Nat.ltb_spec j n) as [Hj|Hj].
    2:{ exists j, nd, c. repeat (split; auto). lia. }
    rewrite !deref_ok by (destruct HK; lia). cbn [bind].
    fold (Y k) (Y j) (X k) (X j).
    destruct (Z.leb_spec (Y k) (Y j)) as [HY|HY].
    2:{ exists j, nd, c. repeat (split; auto). }
    pose proof (KInv_dead k j HK Hj HY) as HD.
    destruct HF as (L & F1 & F2 & F3).
    destruct (negb kw || (negb (X j =? X k) || negb (Y j =? Y k))) eqn:E.
    - rewrite wr_ok by lia. cbn [bind].
      destruct (IHfuel k (S j) (upd nd j false) (S c)) as (j' & nd' & c' & R & R1 & R2).
      + apply KInv_next; auto.
      + split; [now rewrite upd_length|]. split; [|split].
        * intros i Hi Hin. rewrite nth_upd by lia. destruct (Nat.eqb_spec j i).
          subst. tauto. apply F1; lia.
        * intros i Hi. rewrite nth_upd by lia. destruct (Nat.eqb_spec j i); try lia.
          apply F2; lia.
        * rewrite countb_upd_false; [lia | lia | apply F2; lia].
      + lia.
      + exists j', nd', c'. split; auto. split; auto. lia.
    - destruct (IHfuel k (S j) nd c) as (j' & nd' & c' & R & R1 & R2).
      + apply KInv_next; auto.
      + split; [auto|]. split; [|split]; auto.
        * intros i Hi Hin. destruct (Nat.eq_dec i j).
          { subst. rewrite F2 by lia. split; intros K; [discriminate|].
            apply HD in K. discriminate. }
          apply F1; lia.
        * intros; apply F2; lia.
      + lia.
      + exists j', nd', c'. split; auto. split; auto. lia.
  Qed.

  Lemma nondom_2d_do_ok : forall fuel k j nd c,
    KInv k j -> FInv j nd c -> (n - j < fuel)%nat ->
    exists nd' c', nondom_2d_do fuel pts pp kw k j nd c = Ret (nd', c') /\
      FInv n nd' c'.
  Proof.
    induction fuel; intros k j nd c HK HF Hfuel; try lia.
    cbn [nondom_2d_do]. fold n.
    destruct (nondom_2d_while_ok (S n) k j nd c HK HF ltac:(lia))
      as (j' & nd' & c' & E & Hle & HK' & HF' & Hex).
    rewrite E. cbn [bind].
    assert (Hfin : (j' < n)%nat -> FInv (S j') nd' c').
    { intros Hj'. destruct HF' as (L & F1 & F2 & F3).
      split; [auto|]. split; [|split]; auto.
      - intros i Hi Hin. destruct (Nat.eq_dec i j').
        { subst. rewrite F2 by lia. split; intros K; [discriminate|].
          exfalso. eapply KInv_new_alive; eauto. }
        apply F1; lia.
      - intros. apply F2. lia. }
    destruct (Nat.ltb_spec (S j') n).
    - apply IHfuel. eapply KInv_new; eauto; try apply Hex; lia.
      apply Hfin; lia. lia.
    - exists nd', c'. split; auto.
      destruct (Nat.lt_ge_cases j' n).
      + specialize (Hfin H0). replace n with (S j') by lia. exact Hfin.
      + destruct HK' as (_ & HK' & _). replace n with j' by lia. exact HF'.
  Qed.

  Lemma scatter_ok : forall l k dst nd,
    length nd = n -> length dst = n -> NoDup l -> (forall i, In i l -> (i < n)%nat) ->
    (k + length l <= n)%nat ->
    exists dst', scatter_flags l nd k dst = Ret dst' /\ length dst' = n /\
      (forall m, (m < length l)%nat -> nth (nth m l O) dst' false = nth (k + m) nd false) /\
      (forall i, ~ In i l -> nth i dst' false = nth i dst false).
  Proof.
    induction l; intros k dst nd Hnd Hdst HN Hr Hk; simpl in *.
    - exists dst. repeat (split; auto). lia.
    - rewrite (rd_ok _ nd k false) by lia. cbn [bind].
      rewrite wr_ok by (rewrite Hdst; auto). cbn [bind].
      inversion HN; subst.
      destruct (IHl (S k) (upd dst a (nth k nd false)) nd) as (d' & E & L & R1 & R2); auto.
      now rewrite upd_length. lia.
      exists d'. split; auto. split; auto. split.
      + intros m Hm. destruct m.
        * rewrite R2 by auto. rewrite nth_upd_same by (rewrite Hdst; auto).
          f_equal; lia.
        * rewrite R1 by lia. f_equal; lia.
      + intros i Hi. rewrite R2 by tauto. apply nth_upd_other. tauto.
  Qed.

  (** *** The whole two-objective function *)
  Lemma find_nondominated_set_2d_ok : forall sort2d,
    sort2d pts = pp -> (2 <= n)%nat ->
    exists nd, find_nondominated_set_2d_ sort2d pts kw (nondom_init n)
               = Ret (nd, countb negb nd) /\
      length nd = n /\
      (forall j, (j < n)%nat -> (nth (nth j pp O) nd false = false <-> dead j)).
  Proof.
    intros sort2d Hs Hn. unfold find_nondominated_set_2d_. rewrite Hs.
    destruct (nondom_2d_do_ok (S n) 0 1 (nondom_init n) 0) as (nd' & c & E & HF).
    - split; [lia|]. split; [lia|]. split; intros; try lia.
      replace i with O by lia. lia.
    - split; [apply repeat_length|]. split; [|split].
      + intros i Hi Hin. replace i with O in * by lia.
        unfold nondom_init. destruct n; try lia. simpl. split; intros K; [discriminate|].
        destruct K as (i' & Hi' & _). lia.
      + intros. unfold nondom_init.
        rewrite nth_indep with (d' := true) by (rewrite repeat_length; lia).
        apply nth_repeat.
      + unfold nondom_init. now rewrite countb_negb_true.
    - lia.
    - fold n. rewrite E. cbn [bind].
      destruct HF as (L & F1 & _ & F3).
      destruct (scatter_ok pp 0 (repeat false n) nd') as (d' & E' & L' & R1 & R2); auto.
      apply repeat_length. apply pp_nodup.
      { intros i Hi. destruct Hsort as [HP _]. eapply Permutation_in in Hi; [|apply Permutation_sym; eauto].
        apply in_seq in Hi. lia. }
      rewrite pp_length. lia.
      rewrite E'. cbn [bind].
      assert (C : countb negb d' = c).
      { rewrite F3. rewrite !countb_filter.
        (* [d'] is a permutation of [nd'] *)
        assert (PM : Permutation nd' d').
        { assert (E1 : nd' = map (fun i => nth i d' false) pp).
          { apply (list_ext _ false). rewrite map_length, pp_length; auto.
            intros i Hi. rewrite L in Hi.
            rewrite (nth_map_lt _ _ _ pp i false O) by (rewrite pp_length; auto).
            rewrite R1 by (rewrite pp_length; auto). reflexivity. }
          assert (E2 : d' = map (fun i => nth i d' false) (seq 0 n)).
          { apply (list_ext _ false). now rewrite map_length, seq_length.
            intros i Hi. rewrite L' in Hi.
            rewrite (nth_map_lt _ _ _ (seq 0 n) i false O) by (rewrite seq_length; auto).
            now rewrite seq_nth by auto. }
          rewrite E1.
          apply Permutation_trans with (map (fun i => nth i d' false) (seq 0 n)).
          - apply Permutation_map. apply Permutation_sym. apply Hsort.
          - rewrite <- E2. apply Permutation_refl. }
        clear - PM. induction PM; simpl; auto.
        - destruct (negb x); simpl; congruence.
        - destruct (negb x), (negb y); simpl; auto.
        - congruence. }
      subst c. exists d'. rewrite <- C. split; auto. split; auto.
      intros j Hj. rewrite R1 by (rewrite pp_length; auto). simpl. apply F1; auto.
  Qed.

  (** *** The early-exit search *)
  Lemma find_dom_2d_while_ok : forall fuel k j,
    KInv k j -> (forall i, (i < j)%nat -> ~ dead i) -> (n - j < fuel)%nat ->
    exists r, find_dom_2d_while fuel pts pp kw k j = Ret r /\
      match r with
      | inl pos => exists m, (m < n)%nat /\ dead m /\ pos = nth m pp O
      | inr j' => (j <= j')%nat /\ KInv k j' /\ (forall i, (i < j')%nat -> ~ dead i) /\
                  ((j' < n)%nat -> Y j' < Y k)
      end.
  Proof.
    induction fuel; intros k j HK HF Hfuel; try lia.
    cbn [find_dom_2d_while]. fold n.
    destruct (Nat.ltb_spec j n) as [Hj|Hj].
    2:{ exists (inr j). repeat (split; auto). lia. }
    rewrite !deref_ok by (destruct HK; lia). cbn [bind].
    fold (Y k) (Y j) (X k) (X j).
    destruct (Z.leb_spec (Y k) (Y j)) as [HY|HY].
    2:{ exists (inr j). repeat (split; auto). }
    pose proof (KInv_dead k j HK Hj HY) as HD.
    rewrite <- orb_assoc.
    destruct (negb kw || (negb (X j =? X k) || negb (Y j =? Y k))) eqn:E.
    - rewrite (rd_ok _ pp j O) by (rewrite pp_length; auto). cbn [bind].
      eexists. split; [reflexivity|]. simpl. exists j. tauto.
    - destruct (IHfuel k (S j)) as (r & R & R1).
      + apply KInv_next; auto.
      + intros i Hi. destruct (Nat.eq_dec i j).
        * subst. intros K. apply HD in K. discriminate.
        * apply HF. lia.
      + lia.
      + exists r. split; auto. destruct r; auto. destruct R1. split; auto. lia.
  Qed.

  Lemma find_dom_2d_do_ok : forall fuel k j,
    KInv k j -> (forall i, (i < j)%nat -> ~ dead i) -> (n - j < fuel)%nat ->
    exists r, find_dom_2d_do fuel pts pp kw k j = Ret r /\
      ((r = -1 /\ forall i, (i < n)%nat -> ~ dead i) \/
       exists m, (m < n)%nat /\ dead m /\ r = Z.of_nat (nth m pp O)).
  Proof.
    induction fuel; intros k j HK HF Hfuel; try lia.
    cbn [find_dom_2d_do]. fold n.
    destruct (find_dom_2d_while_ok (S n) k j HK HF ltac:(lia)) as (r & E & Hr).
    rewrite E. cbn [bind]. destruct r as [pos|j'].
    - eexists. split; [reflexivity|]. right. destruct Hr as (m & A & B & C).
      exists m. subst; auto.
    - destruct Hr as (Hle & HK' & HF' & Hex).
      assert (Hfin : (j' < n)%nat -> forall i, (i < S j')%nat -> ~ dead i).
      { intros Hj' i Hi. destruct (Nat.eq_dec i j').
        - subst. eapply KInv_new_alive; eauto.
        - apply HF'. lia. }
      destruct (Nat.ltb_spec (S j') n).
      + apply IHfuel. eapply KInv_new; eauto; try apply Hex; lia.
        apply Hfin; lia. lia.
      + eexists. split; [reflexivity|]. left. split; auto. intros i Hi.
        destruct (Nat.lt_ge_cases j' n).
        * apply Hfin; auto. lia.
        * apply HF'. lia.
  Qed.

  Lemma find_dominated_2d_ok : forall sort2d,
    sort2d pts = pp -> (2 <= n)%nat ->
    exists r, find_dominated_2d_ sort2d pts kw = Ret r /\
      ((r = -1 /\ forall i, (i < n)%nat -> ~ dead i) \/
       exists m, (m < n)%nat /\ dead m /\ r = Z.of_nat (nth m pp O)).
  Proof.
    intros sort2d Hs Hn. unfold find_dominated_2d_. rewrite Hs.
    apply find_dom_2d_do_ok.
    - split; [lia|]. split; [lia|]. split; intros; try lia.
      replace i with O by lia. lia.
    - intros i Hi (i' & Hi' & _). lia.
    - lia.
  Qed.

  (** *** Meaning of [dead] *)

  (** With [keep_weakly], removed = dominated. *)
  Lemma dead_keep : kw = true -> forall j, (j < n)%nat ->
    (dead j <-> exists i, (i < n)%nat /\ X i <= X j /\ Y i <= Y j /\ (X i < X j \/ Y i < Y j)).
  Proof.
    intros Hkw j Hj. split.
    - intros (i & Hi & HY & Hne). specialize (Hne Hkw).
      exists i. pose proof (P_lex i j ltac:(lia)). split; [lia|]. lia.
    - intros (i & Hi & HX & HY & Hs).
      destruct (Nat.lt_trichotomy i j) as [L|[->|L]]; try lia.
      + exists i. split; auto. split; auto. intros. lia.
      + pose proof (P_lex j i ltac:(lia)). lia.
  Qed.

  Lemma dead_delete_wdom : kw = false -> forall j, (j < n)%nat -> dead j ->
    exists i, (i < n)%nat /\ i <> j /\ X i <= X j /\ Y i <= Y j.
  Proof.
    intros Hkw j Hj (i & Hi & HY & _). exists i.
    pose proof (P_lex i j ltac:(lia)). split; [lia|]. split; lia.
  Qed.

  Lemma alive_delete : kw = false -> forall j, (j < n)%nat -> ~ dead j ->
    forall i, (i < n)%nat -> X i <= X j -> Y i <= Y j -> X i = X j /\ Y i = Y j /\ (j <= i)%nat.
  Proof.
    intros Hkw j Hj Hd i Hi HX HY.
    destruct (Nat.lt_trichotomy i j) as [L|[->|L]].
    - exfalso. apply Hd. exists i. split; auto. split; auto. congruence.
    - auto.
    - pose proof (P_lex j i ltac:(lia)). lia.
  Qed.

  Lemma alive_cover : kw = false -> forall j, (j < n)%nat ->
    exists i, (i < n)%nat /\ ~ dead i /\ X i <= X j /\ Y i <= Y j.
  Proof.
    intros Hkw j. induction j as [j IH] using lt_wf_ind. intros Hj.
    destruct (existsb (fun i => Y i <=? Y j) (seq 0 j)) eqn:E.
    - apply existsb_exists in E. destruct E as (i & Hi & HY). apply in_seq in Hi.
      apply Z.leb_le in HY. destruct (IH i ltac:(lia) ltac:(lia)) as (i' & A & B & C & D).
      exists i'. pose proof (P_lex i j ltac:(lia)). split; [lia|]. split; auto. lia.
    - exists j. split; auto. split; [|lia].
      intros (i & Hi & HY & _).
      assert (existsb (fun i => Y i <=? Y j) (seq 0 j) = true).
      { apply existsb_exists. exists i. split. apply in_seq; lia. now apply Z.leb_le. }
      congruence.
  Qed.
End Sweep.
