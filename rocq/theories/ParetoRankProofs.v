(** Proofs about c/pareto.c. *)
From Coq Require Import List ZArith Lia Bool Arith Permutation Sorted.
From Verif Require Import Base Spec NondomModel NondomProofs NondomProofs2d NondomMain ParetoRankModel.
Import ListNotations.
Open Scope Z_scope.

(** ** Dominance ranks exist and are bounded *)
Section Rank.
  Variable mx : list bool.
  Variable pts : list point.
  Let n := length pts.
  Let D j i := dom mx (row pts j) (row pts i).
  Let R := is_rank mx pts.

  Lemma D_trans : forall a b c, D a b -> D b c -> D a c.
  Proof.
    unfold D. intros a b c. rewrite !dom_iff. intros [A1 A2] [B1 B2]. split.
    eapply wdom_trans; eauto. intro C. apply A2. eapply wdom_trans; eauto.
  Qed.

  Lemma D_irr : forall a, ~ D a a.
  Proof. unfold D. intros a. rewrite dom_iff. tauto. Qed.

  Lemma D_dec : forall a b, {D a b} + {~ D a b}.
  Proof.
    intros. unfold D.
    assert (W : forall p q, {wdom mx p q} + {~ wdom mx p q}).
    { intros p q. unfold wdom.
      assert (K : forall m, {forall d, (d < m)%nat -> as_good mx p q d} +
                            {~ forall d, (d < m)%nat -> as_good mx p q d}).
      { induction m. left; intros; lia.
        assert (G : {as_good mx p q m} + {~ as_good mx p q m}).
        { unfold as_good. destruct (nth m mx false); apply Z_le_dec. }
        destruct IHm as [IH|IH].
        - destruct G. left. intros d Hd. destruct (Nat.eq_dec d m). now subst. apply IH; lia.
          right. intro C. apply n0. apply C. lia.
        - right. intro C. apply IH. intros. apply C. lia. }
      apply K. }
    destruct (W (row pts a) (row pts b)), (W (row pts b) (row pts a)).
    right. rewrite dom_iff. tauto. left. rewrite dom_iff. tauto.
    right. rewrite dom_iff. tauto. right. rewrite dom_iff. tauto.
  Qed.

  Lemma chain_lt : forall i r, chain_ending mx pts i r -> (i < n)%nat /\ (1 <= r)%nat.
  Proof. induction 1; split; auto; lia. Qed.

  Lemma chain_list : forall i r, chain_ending mx pts i r ->
    exists l, length l = r /\ NoDup l /\ (forall x, In x l -> (x < n)%nat /\ (x = i \/ D x i)).
  Proof.
    induction 1.
    - exists [i]. split; auto. split. repeat constructor; auto.
      intros x [<-|[]]. auto.
    - destruct IHchain_ending as (l & L & N & HI).
      exists (i :: l). split. simpl. lia. split.
      + constructor; auto. intro C. destruct (HI i C) as [_ [E|E]].
        * subst. eapply D_irr; eauto.
        * eapply D_irr. eapply D_trans; eauto.
      + intros x [<-|Hx]; auto. destruct (HI x Hx) as [Hn [E|E]]; split; auto; right.
        subst; auto. eapply D_trans; eauto.
  Qed.

  Lemma chain_bound : forall i r, chain_ending mx pts i r -> (r <= n)%nat.
  Proof.
    intros. destruct (chain_list _ _ H) as (l & L & N & HI). subst r.
    rewrite <- (seq_length n 0). apply NoDup_incl_length; auto.
    intros x Hx. apply in_seq. destruct (HI x Hx). lia.
  Qed.

  Lemma R_unique : forall i r r', R i r -> R i r' -> r = r'.
  Proof. intros i r r' [C M] [C' M']. apply Nat.le_antisymm; auto. Qed.

  Lemma R_bound : forall i r, R i r -> (i < n)%nat /\ (1 <= r <= n)%nat.
  Proof.
    intros i r [C M]. pose proof (chain_lt _ _ C). pose proof (chain_bound _ _ C). lia.
  Qed.

  Lemma fin_max : forall l, (forall j, In j l -> exists r, R j r) ->
    l = [] \/ exists j r, In j l /\ R j r /\ forall j' r', In j' l -> R j' r' -> (r' <= r)%nat.
  Proof.
    induction l; intros; auto. right.
    destruct (H a) as (ra & Ra). simpl; auto.
    destruct IHl as [->|(j & r & I & Rj & M)].
    - intros. apply H. simpl; auto.
    - exists a, ra. split; simpl; auto. split; auto. intros j' r' [<-|[]] Rj'.
      rewrite (R_unique _ _ _ Rj' Ra). auto.
    - destruct (le_lt_dec ra r).
      + exists j, r. split; simpl; auto. split; auto. intros j' r' [<-|I'] Rj'; eauto.
        rewrite (R_unique _ _ _ Rj' Ra). auto.
      + exists a, ra. split; simpl; auto. split; auto. intros j' r' [<-|I'] Rj'; eauto.
        rewrite (R_unique _ _ _ Rj' Ra). auto.
        specialize (M j' r' I' Rj'). lia.
  Qed.

  Let cnt i := length (filter (fun j => if D_dec j i then true else false) (seq 0 n)).

  Lemma cnt_lt : forall j i, (j < n)%nat -> D j i -> (cnt j < cnt i)%nat.
  Proof.
    intros. unfold cnt. apply filter_length_lt with (x := j).
    - intros x _ Hx. destruct (D_dec x j); try discriminate.
      destruct (D_dec x i); auto. exfalso. apply n0. eapply D_trans; eauto.
    - apply in_seq. lia.
    - destruct (D_dec j j); auto. exfalso. eapply D_irr; eauto.
    - destruct (D_dec j i); auto.
  Qed.

  Lemma rank_exists_aux : forall m i, (i < n)%nat -> (cnt i < m)%nat -> exists r, R i r.
  Proof.
    induction m; intros; try lia.
    set (l := filter (fun j => if D_dec j i then true else false) (seq 0 n)).
    assert (HI : forall j, In j l <-> (j < n)%nat /\ D j i).
    { intros j. unfold l. rewrite filter_In, in_seq. destruct (D_dec j i); split; intuition; try lia; try discriminate. }
    destruct (fin_max l) as [E|(j & r & I & Rj & M)].
    - intros j Hj. apply HI in Hj. destruct Hj. apply IHm; auto.
      pose proof (cnt_lt j i H1 H2). lia.
    - exists 1%nat. split. constructor. auto. intros r' C. inversion C; subst. auto.
      exfalso. assert (In j l). apply HI. split; auto. eapply chain_lt; eauto.
      rewrite E in H4. destruct H4.
    - apply HI in I. destruct I. exists (1 + r)%nat. split.
      + econstructor; eauto. apply Rj.
      + intros r' C. inversion C; subst. lia.
        assert (Hj0 : In j0 l). apply HI. split; auto. eapply chain_lt; eauto.
        destruct (IHm j0) as (r1 & R1). eapply chain_lt; eauto.
        { pose proof (proj1 (HI j0) Hj0) as [HA HB]. pose proof (cnt_lt j0 i HA HB). lia. }
        assert (r1 <= r)%nat by eauto.
        destruct R1 as [_ M1]. specialize (M1 _ H3). lia.
  Qed.

  Lemma rank_exists : forall i, (i < n)%nat -> exists r, R i r.
  Proof. intros. eapply rank_exists_aux; eauto. Qed.

  Lemma rank_pred : forall i r, R i (S (S r)) -> exists j, (j < n)%nat /\ D j i /\ R j (S r).
  Proof.
    intros i r [C M]. inversion C; subst. exists j. split. eapply chain_lt; eauto.
    split; auto. split; auto. intros r' C'.
    assert (1 + r' <= S (S r))%nat. apply M. econstructor; eauto. lia.
  Qed.

  Lemma rank_below : forall m i r, R i (r + S m) -> (1 <= r)%nat -> exists j, (j < n)%nat /\ D j i /\ R j r.
  Proof.
    induction m; intros i r H Hr.
    - destruct r; try lia. replace (S r + 1)%nat with (S (S r)) in H by lia.
      now apply rank_pred.
    - destruct r; try lia. replace (S r + S (S m))%nat with (S (S (r + S m))) in H by lia.
      apply rank_pred in H. destruct H as (j & Hj & Dj & Rj).
      replace (S (r + S m)) with (S r + S m)%nat in Rj by lia.
      destruct (IHm _ _ Rj) as (j' & Hj' & Dj' & Rj'). lia.
      exists j'. split; auto. split; auto. eapply D_trans; eauto.
  Qed.

  Lemma rank_dom : forall i j ri rj, R i ri -> R j rj -> D j i -> (rj < ri)%nat.
  Proof.
    intros i j ri rj [Ci Mi] [Cj Mj] Hd. assert (1 + rj <= ri)%nat; try lia.
    apply Mi. econstructor; eauto. eapply chain_lt; eauto.
  Qed.

  Lemma rank_ok_is_rank : forall f : nat -> nat,
    (forall i j, (i < n)%nat -> (j < n)%nat -> D j i -> (f j < f i)%nat) ->
    (forall i, (i < n)%nat -> (1 <= f i)%nat /\
       ((1 < f i)%nat -> exists j, (j < n)%nat /\ D j i /\ f i = S (f j))) ->
    forall i, (i < n)%nat -> R i (f i).
  Proof.
    intros f Ha Hb i Hi. split.
    - assert (K : forall m i, (i < n)%nat -> (f i <= m)%nat -> chain_ending mx pts i (f i)).
      { clear i Hi. induction m; intros i Hi Hm.
        - destruct (Hb i Hi). lia.
        - destruct (Hb i Hi) as [H1 H2]. destruct (Nat.eq_dec (f i) 1).
          + rewrite e. constructor. auto.
          + destruct H2 as (j & Hj & Dj & E). lia. rewrite E.
            apply (chain_more mx pts j); auto. apply IHm; auto. lia. }
      eauto.
    - intros r' C. clear Hi. induction C.
      + apply Hb; auto.
      + specialize (Ha i j H (proj1 (chain_lt _ _ C)) H0). lia.
  Qed.
End Rank.

(** ** The general algorithm *)
Lemma dominates_fold : forall (pj pk : point) ds acc,
  fold_left (fun acc d => acc && (coord pj d <=? coord pk d)) ds acc =
  acc && forallb (fun d => coord pj d <=? coord pk d) ds.
Proof.
  induction ds; simpl; intros. now rewrite andb_true_r.
  rewrite IHds. now rewrite andb_assoc.
Qed.

Lemma dominates_iff : forall dim pj pk,
  dominates dim pj pk = true <-> wdom (minimise dim) pj pk.
Proof.
  intros. unfold dominates. rewrite dominates_fold. simpl. rewrite forallb_forall.
  rewrite wdom_minimise. split; intros.
  - apply Z.leb_le. apply H. apply in_seq. lia.
  - apply Z.leb_le. apply H. apply in_seq in H0. lia.
Qed.

Section RankND.
  Variable dim : nat.
  Variable pts : list point.
  Let n := length pts.
  Let mx := minimise dim.
  Let D j i := dom mx (row pts j) (row pts i).
  Let R := is_rank mx pts.

  Lemma dominates_D : forall j k, (j < n)%nat -> (k < n)%nat ->
    dominates dim (row pts j) (row pts k) && negb (dominates dim (row pts k) (row pts j)) = true
    <-> D j k.
  Proof.
    intros. unfold D. rewrite dom_iff. rewrite andb_true_iff, negb_true_iff, dominates_iff.
    rewrite <- not_true_iff_false, dominates_iff. reflexivity.
  Qed.

  Definition RInv (L : nat) (rank : list nat) : Prop :=
    length rank = n /\ forall i r, R i r -> nth i rank 0%nat = Nat.min r L.

  Definition PInv (L : nat) (rank : list nat) (nn : bool) : Prop :=
    length rank = n /\
    (forall i r, R i r -> (r <= L)%nat -> nth i rank 0%nat = r) /\
    (forall i r, R i r -> (L < r)%nat -> nth i rank 0%nat = L \/ nth i rank 0%nat = S L) /\
    (nn = true -> forall i r, R i r -> nth i rank 0%nat = Nat.min r L) /\
    (nn = false -> exists i r, R i r /\ (L < r)%nat).

  Lemma PInv_bump : forall L rank nn k rk, PInv L rank nn -> R k rk -> (L < rk)%nat ->
    nth k rank 0%nat = L ->
    PInv L (upd rank k (L + 1)%nat) false /\
    (forall i, (i < n)%nat -> nth i rank 0%nat <= nth i (upd rank k (L + 1)%nat) 0%nat)%nat.
  Proof.
    intros L rank nn k rk (HL & H1 & H2 & H3 & H4) Rk Hlt E.
    pose proof (R_bound _ _ _ _ Rk) as [Hk _].
    assert (Hk' : (k < length rank)%nat) by (rewrite HL; exact Hk).
    split.
    - split. rewrite upd_length; auto. split; [|split; [|split]].
      + intros i r Ri Hr. rewrite nth_upd by auto. destruct (Nat.eqb_spec k i); auto.
        subst. pose proof (R_unique _ _ _ _ _ Rk Ri). lia.
      + intros i r Ri Hr. rewrite nth_upd by auto. destruct (Nat.eqb_spec k i); auto. right; lia.
        eapply H2; eauto.
      + discriminate.
      + intros _. exists k, rk. auto.
    - intros i Hi. rewrite nth_upd by auto. destruct (Nat.eqb_spec k i); subst; lia.
  Qed.

  Lemma nth_L_rank : forall L rank nn k, PInv L rank nn -> (k < n)%nat -> nth k rank 0%nat = L ->
    exists r, R k r /\ (L <= r)%nat.
  Proof.
    intros L rank nn k (HL & H1 & H2 & H3 & H4) Hk E.
    destruct (rank_exists mx pts k Hk) as (r & Rk). exists r. split; auto.
    destruct (le_lt_dec L r); auto. assert (r <= L)%nat by lia.
    rewrite (H1 k r Rk H) in E. lia.
  Qed.

  Lemma rank_inner_ok : forall L j ks rank nn,
    PInv L rank nn -> (j < n)%nat -> nth j rank 0%nat = L ->
    (forall k, In k ks -> (k < n)%nat) ->
    exists rank' nn', rank_inner pts dim (S L) j ks rank nn = Ret (rank', nn') /\
      PInv L rank' nn' /\
      (forall i, (i < n)%nat -> nth i rank 0%nat <= nth i rank' 0%nat)%nat /\
      (R j L -> forall k, In k ks -> D j k -> nth k rank' 0%nat <> L).
  Proof.
    intros L j. induction ks; intros rank nn HP Hj EL Hks; cbn [rank_inner].
    - exists rank, nn. repeat (split; auto).
    - pose proof HP as (HL & _).
      assert (Ha : (a < n)%nat) by (apply Hks; simpl; auto).
      assert (Hks' : forall k, In k ks -> (k < n)%nat) by (intros; apply Hks; simpl; auto).
      replace (S L - 1)%nat with L in * by lia.
      destruct (Nat.eqb_spec a j).
      { subst a. destruct (IHks rank nn) as (rank' & nn' & E & P & M & F); auto.
        exists rank', nn'. split; auto. split; auto. split; auto.
        intros Rj k [<-|Hk] Dk; eauto. exfalso. eapply D_irr; eauto. }
      rewrite (rd_ok _ rank a 0%nat) by (rewrite HL; auto). cbn [bind].
      destruct (Nat.eqb_spec (nth a rank 0%nat) L); cbn [negb].
      2:{ destruct (IHks rank nn) as (rank' & nn' & E & P & M & F); auto.
        exists rank', nn'. split; auto. split; auto. split; auto.
        intros Rj k [<-|Hk] Dk; eauto.
        destruct (rank_exists mx pts a Ha) as (r & Ra).
        assert (L < r)%nat. { eapply rank_dom; eauto. }
        pose proof P as (_ & _ & P2 & _). pose proof HP as (_ & _ & P2' & _).
        destruct (P2' a r Ra H); try contradiction. specialize (M a Ha).
        destruct (P2 a r Ra H); lia. }
      rewrite (rd_ok _ pts j []) by auto. cbn [bind].
      rewrite (rd_ok _ pts a []) by auto. cbn [bind].
      fold (row pts j). fold (row pts a).
      destruct (dominates dim (row pts j) (row pts a) && negb (dominates dim (row pts a) (row pts j))) eqn:E1.
      + apply dominates_D in E1; auto.
        rewrite wr_ok by (rewrite HL; auto). cbn [bind]. rewrite e.
        destruct (nth_L_rank _ _ _ _ HP Hj EL) as (rj & Rj & Hrj).
        destruct (rank_exists mx pts a Ha) as (ra & Ra).
        assert (L < ra)%nat. { pose proof (rank_dom _ _ _ _ _ _ Ra Rj E1). lia. }
        destruct (PInv_bump L rank nn a ra HP Ra H e) as [HP' HM'].
        destruct (IHks (upd rank a (L+1)%nat) false) as (rank' & nn' & E & P & M & F); auto.
        { rewrite nth_upd_other; auto. }
        exists rank', nn'. split; auto. split; auto. split.
        * intros. eapply Nat.le_trans; [apply HM'|apply M]; auto.
        * intros Rj' k [<-|Hk] Dk; eauto. specialize (M a Ha).
          rewrite nth_upd_same in M by (rewrite HL; auto). lia.
      + destruct (negb (dominates dim (row pts j) (row pts a)) && dominates dim (row pts a) (row pts j)) eqn:E2.
        * rewrite andb_comm in E2. apply dominates_D in E2; auto.
          rewrite (rd_ok _ rank j 0%nat) by (rewrite HL; auto). cbn [bind].
          rewrite wr_ok by (rewrite HL; auto). cbn [bind]. rewrite EL.
          destruct (nth_L_rank _ _ _ _ HP Ha e) as (ra & Ra & Hra).
          destruct (rank_exists mx pts j Hj) as (rj & Rj).
          assert (L < rj)%nat. { pose proof (rank_dom _ _ _ _ _ _ Rj Ra E2). lia. }
          destruct (PInv_bump L rank nn j rj HP Rj H EL) as [HP' HM'].
          exists (upd rank j (L+1)%nat), false. split; auto. split; auto. split; auto.
          intros RjL. pose proof (R_unique _ _ _ _ _ Rj RjL). lia.
        * destruct (IHks rank nn) as (rank' & nn' & E & P & M & F); auto.
          exists rank', nn'. split; auto. split; auto. split; auto.
          intros Rj k [<-|Hk] Dk; eauto. exfalso.
          apply dominates_D in Dk; auto. congruence.
  Qed.

  Lemma rank_middle_ok : forall L js rank nn,
    PInv L rank nn -> (forall k, In k js -> (k < n)%nat) ->
    exists rank' nn', rank_middle pts dim (S L) js rank nn = Ret (rank', nn') /\
      PInv L rank' nn' /\
      (forall i, (i < n)%nat -> nth i rank 0%nat <= nth i rank' 0%nat)%nat /\
      (forall j, In j js -> R j L -> forall k, (k < n)%nat -> D j k -> nth k rank' 0%nat <> L).
  Proof.
    intros L. induction js; intros rank nn HP Hjs; cbn [rank_middle].
    - exists rank, nn. repeat (split; auto).
    - pose proof HP as (HL & H1 & H2 & _).
      assert (Ha : (a < n)%nat) by (apply Hjs; simpl; auto).
      assert (Hjs' : forall k, In k js -> (k < n)%nat) by (intros; apply Hjs; simpl; auto).
      rewrite (rd_ok _ rank a 0%nat) by (rewrite HL; auto). cbn [bind].
      destruct (rank_exists mx pts a Ha) as (ra & Ra).
      assert (Hle : (nth a rank 0 <= S L)%nat).
      { destruct (le_lt_dec ra L). rewrite (H1 a ra); auto. destruct (H2 a ra); auto; lia. }
      apply Nat.leb_le in Hle. rewrite Hle. cbn [assert_ bind].
      replace (S L - 1)%nat with L by lia.
      destruct (Nat.eqb_spec (nth a rank 0%nat) L); cbn [negb].
      + destruct (rank_inner_ok L a (seq 0 n) rank nn) as (rank1 & nn1 & E & P & M & F); auto.
        { intros k Hk. apply in_seq in Hk. lia. }
        unfold n in E. rewrite E. cbn [bind fst snd].
        destruct (IHjs rank1 nn1) as (rank' & nn' & E' & P' & M' & F'); auto.
        exists rank', nn'. split; auto. split; auto. split.
        * intros. eapply Nat.le_trans; [apply M|apply M']; auto.
        * intros j [<-|Hj] Rj k Hk Dk; eauto.
          assert (K : nth k rank1 0%nat <> L). { apply F; auto. apply in_seq. lia. }
          destruct (rank_exists mx pts k Hk) as (r & Rk).
          assert (L < r)%nat. { eapply rank_dom; eauto. }
          pose proof P as (_ & _ & P2 & _). pose proof P' as (_ & _ & P2' & _).
          specialize (M' k Hk). destruct (P2 k r Rk H), (P2' k r Rk H); lia.
      + destruct (IHjs rank nn) as (rank' & nn' & E' & P' & M' & F'); auto.
        exists rank', nn'. split; auto. split; auto. split; auto.
        intros j [<-|Hj] Rj k Hk Dk; eauto.
  Qed.

  Lemma rank_do_ok : forall fuel L rank, RInv L rank -> (1 <= L)%nat ->
    (n + 1 < L + fuel)%nat ->
    (L <= n \/ fuel <> 0)%nat ->
    exists rank', rank_do fuel pts dim (S L) rank = Ret rank' /\ length rank' = n /\
      forall i r, R i r -> nth i rank' 0%nat = r.
  Proof.
    induction fuel; intros L rank HR HL1 Hf Hor. lia.
    cbn [rank_do].
    assert (HP : PInv L rank true).
    { destruct HR as [HL H]. split; auto. split; [|split; [|split]]; auto; try discriminate.
      - intros. rewrite (H i r); auto. lia.
      - intros. left. rewrite (H i r); auto. lia. }
    destruct (rank_middle_ok L (seq 0 n) rank true HP) as (rank' & nn' & E & P & M & F).
    { intros k Hk. apply in_seq in Hk. lia. }
    unfold n in E. rewrite E. cbn [bind fst snd].
    destruct P as (HL' & P1 & P2 & P3 & P4).
    assert (Fin : forall i r, R i r -> (L < r)%nat -> nth i rank' 0%nat = S L).
    { intros i r Ri Hr. pose proof (R_bound _ _ _ _ Ri) as [Hi _].
      replace r with (L + S (r - L - 1))%nat in Ri by lia.
      destruct (rank_below mx pts _ _ _ Ri HL1) as (j & Hj & Dj & Rj).
      assert (nth i rank' 0%nat <> L). { apply (F j); auto. apply in_seq. fold n in Hj. lia. }
      destruct (P2 i _ Ri); auto; try lia. }
    destruct nn'.
    - exists rank'. split; auto. split; auto. intros i r Ri.
      destruct (le_lt_dec r L); auto.
      pose proof (Fin i r Ri l). pose proof (P3 eq_refl i r Ri). lia.
    - destruct (P4 eq_refl) as (i0 & r0 & Ri0 & Hr0).
      pose proof (R_bound _ _ _ _ Ri0) as [_ Hb]. fold n in Hb.
      apply IHfuel; try lia. split; auto. intros i r Ri.
      destruct (le_lt_dec r L).
      + rewrite (P1 i r); auto. lia.
      + rewrite (Fin i r); auto. lia.
  Qed.

  Lemma pareto_rank_nd_ok : exists rank, pareto_rank_nd pts dim = Ret rank /\
    length rank = n /\ forall i, (i < n)%nat -> R i (nth i rank 0%nat).
  Proof.
    unfold pareto_rank_nd.
    destruct (rank_do_ok (S n) 1 (repeat 1%nat n)) as (rank & E & L & H); try lia.
    { split. apply repeat_length. intros i r Ri.
      pose proof (R_bound _ _ _ _ Ri) as [Hi Hr]. fold n in Hi.
      assert (K : forall m i, (i < m)%nat -> nth i (repeat 1%nat m) 0%nat = 1%nat).
      { clear. induction m; intros [|i] Hi; simpl; auto; try lia. apply IHm; lia. }
      rewrite K by auto. lia. }
    exists rank. split; auto. split; auto. intros i Hi.
    destruct (rank_exists mx pts i Hi) as (r & Ri). rewrite (H i r Ri). auto.
  Qed.
End RankND.

(** ** The two-objective algorithm *)
Section Rank2D.
  Variable pts : list point.
  Variable pp : list nat.
  Let n := length pts.
  Hypothesis Hsort : is_qsort_of
    (fun i j => compare_x_asc_y_asc (row pts i) (row pts j) <= 0) (seq 0 n) pp.
  Let P (j : nat) : point := row pts (nth j pp O).
  Let X j := coord (P j) 0.
  Let Y j := coord (P j) 1.
  Let D i j := X i <= X j /\ Y i <= Y j /\ (X i <> X j \/ Y i <> Y j).

  Let lex i j := Y i < Y j \/ (Y i = Y j /\ X i < X j).

  Definition FrontInv (k : nat) (fl : list nat) (nf : nat) (f : list nat) : Prop :=
    (nf < k <= n)%nat /\ length fl = n /\ length f = n /\
    (forall t, (t <= nf)%nat -> (nth t fl 0 < k)%nat /\ nth (nth t fl 0%nat) f 0%nat = t) /\
    (forall i, (i < k)%nat -> (nth i f 0 <= nf)%nat) /\
    (forall i, (i < k)%nat -> let l := nth (nth i f 0%nat) fl 0%nat in
        Y l < Y i \/ (X l = X i /\ Y l = Y i)) /\
    (forall s t, (s < t <= nf)%nat -> lex (nth s fl 0%nat) (nth t fl 0%nat)) /\
    (forall i j, (i < k)%nat -> (j < k)%nat -> D i j -> (nth i f 0 < nth j f 0)%nat) /\
    (forall i, (i < k)%nat -> (0 < nth i f 0)%nat ->
        exists j, (j < k)%nat /\ D j i /\ S (nth j f 0%nat) = nth i f 0%nat).

  Lemma FrontInv_step : forall k fl nf f low,
    FrontInv k fl nf f -> (k < n)%nat -> (low <= S nf)%nat ->
    (forall t, (t < low)%nat -> lex (nth t fl 0%nat) k) ->
    ((low <= nf)%nat -> Y k < Y (nth low fl 0%nat) \/
        (X k = X (nth low fl 0%nat) /\ Y k = Y (nth low fl 0%nat))) ->
    (low < n)%nat /\
    FrontInv (S k) (upd fl low k) (Nat.max nf low) (upd f k low).
  Proof.
    intros k fl nf f low (Hk & Lfl & Lf & H1 & H2 & H3 & H4 & H5 & H6) Hkn Hlow HA HB.
    assert (Hln : (low < n)%nat) by lia.
    split; auto.
    assert (Pl : forall i, (i < k)%nat -> X i < X k \/ (X i = X k /\ Y i <= Y k)).
    { intros. apply (P_lex pts pp Hsort). lia. }
    assert (Fo : forall i, (i < k)%nat -> nth i (upd f k low) 0%nat = nth i f 0%nat).
    { intros. apply nth_upd_other. lia. }
    assert (Fs : nth k (upd f k low) 0%nat = low) by (apply nth_upd_same; lia).
    assert (Ls : nth low (upd fl low k) 0%nat = k) by (apply nth_upd_same; lia).
    assert (Lo : forall t, t <> low -> nth t (upd fl low k) 0%nat = nth t fl 0%nat).
    { intros. apply nth_upd_other. auto. }
    (* points of fronts >= low do not dominate k *)
    assert (ND : forall i, (i < k)%nat -> D i k -> (nth i f 0 < low)%nat).
    { intros i Hi Hd. destruct (Nat.lt_ge_cases (nth i f 0%nat) low); auto. exfalso.
      pose proof (H2 i Hi) as Hfi. pose proof (H3 i Hi) as HY. cbn zeta in HY.
      assert (Hl : (low <= nf)%nat) by lia. specialize (HB Hl).
      unfold D in Hd. destruct Hd as (DX & DY & DN).
      set (li := nth (nth i f 0%nat) fl 0%nat) in *. set (ll := nth low fl 0%nat) in *.
      destruct (Nat.eq_dec (nth i f 0%nat) low) as [E|E].
      - assert (li = ll) by (unfold li, ll; now rewrite E). rewrite H0 in HY. lia.
      - assert (LX : lex ll li) by (apply H4; lia). unfold lex in LX. lia. }
    split; [lia|]. split; [now rewrite upd_length|]. split; [now rewrite upd_length|].
    split; [|split; [|split; [|split; [|split]]]].
    - intros t Ht. destruct (Nat.eq_dec t low).
      + subst t. rewrite Ls, Fs. lia.
      + rewrite Lo by auto. destruct (H1 t) as [Q1 Q2]; try lia.
        rewrite Fo by auto. split; auto; lia.
    - intros i Hi. destruct (Nat.eq_dec i k). subst; rewrite Fs; lia.
      rewrite Fo by lia. specialize (H2 i). lia.
    - intros i Hi. cbn zeta. destruct (Nat.eq_dec i k).
      + subst. rewrite Fs, Ls. right; auto.
      + rewrite Fo by lia. assert (Hi' : (i < k)%nat) by lia.
        pose proof (H3 i Hi') as HY. cbn zeta in HY. pose proof (H2 i Hi') as Hfi.
        destruct (Nat.eq_dec (nth i f 0%nat) low) as [E|E].
        * rewrite E in *. rewrite Ls. destruct HB; try lia.
        * rewrite Lo by auto. auto.
    - intros s t Hst.
      destruct (Nat.eq_dec t low).
      + subst t. rewrite Ls. rewrite Lo by lia. apply HA. lia.
      + rewrite (Lo t) by auto. destruct (Nat.eq_dec s low).
        * subst s. rewrite Ls. assert (LX : lex (nth low fl 0%nat) (nth t fl 0%nat)) by (apply H4; lia).
          unfold lex in *. destruct HB; try lia.
        * rewrite Lo by auto. apply H4. lia.
    - intros i j Hi Hj Hd.
      destruct (Nat.eq_dec i k) as [Ei|Ei], (Nat.eq_dec j k) as [Ej|Ej].
      + subst. unfold D in Hd. lia.
      + subst i. exfalso. assert (Hj' : (j < k)%nat) by lia. specialize (Pl j Hj').
        unfold D in Hd. lia.
      + subst j. rewrite Fs, Fo by lia. apply ND; auto. lia.
      + rewrite !Fo by lia. apply H5; auto; lia.
    - intros i Hi Hpos. destruct (Nat.eq_dec i k).
      + subst i. rewrite Fs in *. destruct (H1 (low - 1)%nat) as [Q1 Q2]; try lia.
        exists (nth (low - 1) fl 0%nat). split; [lia|]. split.
        * specialize (HA (low - 1)%nat ltac:(lia)). specialize (Pl _ Q1).
          unfold lex in HA. unfold D. lia.
        * rewrite Fo by auto. lia.
      + rewrite Fo in * by lia. destruct (H6 i) as (j & Hj & Dj & E); auto. lia.
        exists j. split; [lia|]. split; auto. rewrite Fo by auto. auto.
  Qed.

  Lemma rank2d_search_ok : forall fuel fl nf f k low high,
    FrontInv k fl nf f -> (k < n)%nat -> Y k < Y (nth nf fl 0%nat) ->
    (low < high <= nf + 1)%nat -> (high - low <= fuel)%nat ->
    (forall t, (t < low)%nat -> lex (nth t fl 0%nat) k) ->
    (forall t, (high <= t <= nf)%nat -> Y k < Y (nth t fl 0%nat)) ->
    exists l, rank2d_search fuel pts pp fl nf (P k) low high = Ret l /\ (l <= nf)%nat /\
      (forall t, (t < l)%nat -> lex (nth t fl 0%nat) k) /\
      (Y k < Y (nth l fl 0%nat) \/ (X k = X (nth l fl 0%nat) /\ Y k = Y (nth l fl 0%nat))).
  Proof.
    induction fuel; intros fl nf f k low high HI Hk HY Hlh Hf HA HB; [lia|].
    cbn [rank2d_search]. cbn zeta.
    set (mid := (low + (high - low) / 2)%nat).
    assert (Hmid : (low <= mid < high)%nat).
    { unfold mid. pose proof (Nat.div_lt (high - low) 2). lia. }
    clearbody mid.
    destruct (Nat.leb_spec mid nf); [|lia]. cbn [assert_ bind].
    pose proof HI as (Hk' & Lfl & Lf & H1 & H2 & H3 & H4 & _).
    rewrite (rd_ok _ fl mid 0%nat) by lia. cbn [bind].
    destruct (H1 mid H) as [Q1 Q2].
    rewrite (deref_ok pts pp Hsort) by (fold n; lia). cbn [bind].
    fold (P (nth mid fl 0%nat)). fold (P k).
    change (coord (P k) 1) with (Y k). change (coord (P k) 0) with (X k).
    change (coord (P (nth mid fl 0%nat)) 1) with (Y (nth mid fl 0%nat)).
    change (coord (P (nth mid fl 0%nat)) 0) with (X (nth mid fl 0%nat)).
    assert (Pl : X (nth mid fl 0%nat) < X k \/ (X (nth mid fl 0%nat) = X k /\ Y (nth mid fl 0%nat) <= Y k)).
    { apply (P_lex pts pp Hsort). fold n. lia. }
    destruct (Z.ltb_spec (Y k) (Y (nth mid fl 0%nat))).
    - destruct (Nat.ltb_spec low mid).
      + eapply IHfuel; eauto; try lia.
        intros t Ht. destruct (Nat.lt_ge_cases t high).
        * destruct (Nat.eq_dec t mid). subst; auto.
          assert (LX : lex (nth mid fl 0%nat) (nth t fl 0%nat)) by (apply H4; lia).
          unfold lex in LX. lia.
        * apply HB. lia.
      + exists low. assert (low = mid) by lia. subst. split; auto.
    - destruct ((Y (nth mid fl 0%nat) <? Y k) || ((Y k =? Y (nth mid fl 0%nat)) && (X (nth mid fl 0%nat) <? X k))) eqn:E.
      + assert (LXm : lex (nth mid fl 0%nat) k).
        { unfold lex. lia. }
        assert (HA' : forall t, (t < mid + 1)%nat -> lex (nth t fl 0%nat) k).
        { intros t Ht. destruct (Nat.eq_dec t mid). subst; auto.
          assert (LX : lex (nth t fl 0%nat) (nth mid fl 0%nat)) by (apply H4; lia).
          unfold lex in *. lia. }
        destruct (Nat.ltb_spec (mid + 1) high).
        * eapply IHfuel; eauto; try lia.
        * exists (mid + 1)%nat. split; auto.
          destruct (Nat.eq_dec mid nf).
          { subst mid. unfold lex in LXm. lia. }
          split; [lia|]. split; auto. left. apply HB. lia.
      + exists mid. split; auto. split; auto. split.
        * intros t Ht.
          assert (LX : lex (nth t fl 0%nat) (nth mid fl 0%nat)) by (apply H4; lia).
          unfold lex in *. lia.
        * right. lia.
  Qed.

  Lemma rank2d_loop_ok : forall m k fl nf f,
    FrontInv k fl nf f -> (k + m = n)%nat ->
    exists f', rank2d_loop pts pp (seq k m) fl nf f = Ret f' /\
      exists fl' nf', FrontInv n fl' nf' f'.
  Proof.
    induction m; intros k fl nf f HI Hkm; cbn [seq rank2d_loop].
    - exists f. split; auto. exists fl, nf. replace n with k by lia. auto.
    - pose proof HI as (Hk' & Lfl & Lf & H1 & H2 & H3 & H4 & _).
      rewrite (deref_ok pts pp Hsort) by (fold n; lia). cbn [bind]. fold (P k).
      rewrite (rd_ok _ fl nf 0%nat) by lia. cbn [bind].
      destruct (H1 nf (le_n _)) as [Q1 Q2].
      rewrite (deref_ok pts pp Hsort) by (fold n; lia). cbn [bind]. fold (P (nth nf fl 0%nat)).
      change (coord (P k) 1) with (Y k). change (coord (P k) 0) with (X k).
      change (coord (P (nth nf fl 0%nat)) 1) with (Y (nth nf fl 0%nat)).
      change (coord (P (nth nf fl 0%nat)) 0) with (X (nth nf fl 0%nat)).
      assert (Pl : X (nth nf fl 0%nat) < X k \/ (X (nth nf fl 0%nat) = X k /\ Y (nth nf fl 0%nat) <= Y k)).
      { apply (P_lex pts pp Hsort). fold n. lia. }
      destruct (Z.ltb_spec (Y k) (Y (nth nf fl 0%nat))).
      + destruct (rank2d_search_ok (S nf) fl nf f k 0 (nf + 1)) as (low & E & Hl & HA & HB); auto; try lia.
        rewrite E. cbn [bind]. destruct (Nat.leb_spec low nf); [|lia]. cbn [assert_ bind].
        rewrite (rd_ok _ fl low 0%nat) by lia. cbn [bind].
        destruct (H1 low Hl) as [Q3 Q4].
        rewrite (deref_ok pts pp Hsort) by (fold n; lia). cbn [bind]. fold (P (nth low fl 0%nat)).
        change (coord (P (nth low fl 0%nat)) 1) with (Y (nth low fl 0%nat)).
        change (coord (P (nth low fl 0%nat)) 0) with (X (nth low fl 0%nat)).
        replace ((Y k <? Y (nth low fl 0%nat)) || ((Y k =? Y (nth low fl 0%nat)) && (X k =? X (nth low fl 0%nat))))
          with true by lia.
        cbn [assert_ bind]. rewrite wr_ok by lia. cbn [bind]. rewrite wr_ok by lia. cbn [bind].
        destruct (FrontInv_step k fl nf f low HI) as [_ HI']; auto; try lia.
        replace (Nat.max nf low) with nf in HI' by lia.
        apply IHm; auto. lia.
      + destruct ((Y k =? Y (nth nf fl 0%nat)) && (X k =? X (nth nf fl 0%nat))) eqn:E.
        * rewrite wr_ok by lia. cbn [bind]. rewrite wr_ok by lia. cbn [bind].
          destruct (FrontInv_step k fl nf f nf HI) as [_ HI']; auto; try lia.
          { intros t Ht. assert (LX : lex (nth t fl 0%nat) (nth nf fl 0%nat)) by (apply H4; lia).
            unfold lex in *. lia. }
          replace (Nat.max nf nf) with nf in HI' by lia.
          apply IHm; auto. lia.
        * destruct (FrontInv_step k fl nf f (S nf) HI) as [Hn HI']; auto; try lia.
          { intros t Ht. destruct (Nat.eq_dec t nf).
            - subst. unfold lex. lia.
            - assert (LX : lex (nth t fl 0%nat) (nth nf fl 0%nat)) by (apply H4; lia).
              unfold lex in *. lia. }
          rewrite wr_ok by lia. cbn [bind]. rewrite wr_ok by lia. cbn [bind].
          replace (Nat.max nf (S nf)) with (S nf) in HI' by lia.
          apply IHm; auto. lia.
  Qed.

  Lemma scatter_ranks_ok : forall l k dst f,
    length f = n -> length dst = n -> NoDup l -> (forall i, In i l -> (i < n)%nat) ->
    (k + length l <= n)%nat ->
    exists dst', scatter_ranks l f k dst = Ret dst' /\ length dst' = n /\
      (forall m, (m < length l)%nat -> nth (nth m l O) dst' 0%nat = (nth (k + m) f 0 + 1)%nat) /\
      (forall i, ~ In i l -> nth i dst' 0%nat = nth i dst 0%nat).
  Proof.
    induction l; intros k dst nd Hnd Hdst HN Hr Hk; simpl in *.
    - exists dst. repeat (split; auto). lia.
    - rewrite (rd_ok _ nd k 0%nat) by lia. cbn [bind].
      rewrite wr_ok by (rewrite Hdst; auto). cbn [bind].
      inversion HN; subst.
      destruct (IHl (S k) (upd dst a (nth k nd 0 + 1)%nat) nd) as (d' & E & L & R1 & R2); auto.
      now rewrite upd_length. lia.
      exists d'. split; auto. split; auto. split.
      + intros m Hm. destruct m.
        * rewrite R2 by auto. rewrite nth_upd_same by (rewrite Hdst; auto).
          now rewrite Nat.add_0_r.
        * rewrite R1 by lia. replace (S k + m)%nat with (k + S m)%nat by lia. reflexivity.
      + intros i Hi. rewrite R2 by tauto. apply nth_upd_other. tauto.
  Qed.

  Lemma dom_D : forall i j, dom (minimise 2) (P i) (P j) <-> D i j.
  Proof.
    intros. rewrite dom_iff, !wdom_minimise. unfold D. split.
    - intros [A B]. pose proof (A 0%nat ltac:(lia)). pose proof (A 1%nat ltac:(lia)).
      fold (X i) in *. fold (X j) in *. fold (Y i) in *. fold (Y j) in *.
      split; auto. split; auto.
      destruct (Z.eq_dec (X i) (X j)); auto. destruct (Z.eq_dec (Y i) (Y j)); auto.
      exfalso. apply B. intros d Hd. destruct d as [|[|]]; try lia.
      fold (X i) (X j). lia. fold (Y i) (Y j). lia.
    - intros (A & B & C). split.
      + intros d Hd. destruct d as [|[|]]; try lia; auto.
      + intro K. pose proof (K 0%nat ltac:(lia)). pose proof (K 1%nat ltac:(lia)).
        fold (X i) in *. fold (X j) in *. fold (Y i) in *. fold (Y j) in *. lia.
  Qed.

  Lemma pareto_rank_2D_ok : forall sort2d garbage, sort2d pts = pp -> (1 <= n)%nat ->
    exists rank, pareto_rank_2D sort2d garbage pts = Ret rank /\ length rank = n /\
      forall i, (i < n)%nat -> is_rank (minimise 2) pts i (nth i rank 0%nat).
  Proof.
    intros sort2d g Es Hn. unfold pareto_rank_2D. fold n. rewrite Es.
    rewrite wr_ok by (rewrite repeat_length; lia). cbn [bind].
    rewrite wr_ok by (rewrite repeat_length; lia). cbn [bind].
    assert (R0 : forall m i, nth i (repeat 0%nat m) 0%nat = 0%nat).
    { induction m; destruct i; simpl; auto. }
    destruct (rank2d_loop_ok (n - 1) 1 (upd (repeat g n) 0 0%nat) 0 (upd (repeat 0%nat n) 0 0%nat))
      as (f & E & fl & nf & HI); try lia.
    { split; [lia|]. rewrite !upd_length, !repeat_length. split; auto. split; auto.
      assert (E0 : nth 0 (upd (repeat g n) 0 0%nat) 0%nat = 0%nat).
      { apply nth_upd_same. rewrite repeat_length. lia. }
      assert (F0 : nth 0 (upd (repeat 0%nat n) 0 0%nat) 0%nat = 0%nat).
      { apply nth_upd_same. rewrite repeat_length. lia. }
      split; [|split; [|split; [|split; [|split]]]].
      - intros t Ht. assert (t = 0%nat) by lia. subst. rewrite E0, F0. lia.
      - intros i Hi. assert (i = 0%nat) by lia. subst. rewrite F0. lia.
      - intros i Hi. assert (i = 0%nat) by lia. subst. cbn zeta. rewrite F0, E0. right; auto.
      - intros; lia.
      - intros i j Hi Hj Hd. assert (i = j) by lia. subst. unfold D in Hd. lia.
      - intros i Hi. assert (i = 0%nat) by lia. subst. rewrite F0. lia. }
    rewrite E. cbn [bind].
    destruct HI as (_ & Lfl & Lf & _ & _ & _ & _ & H5 & H6).
    destruct (scatter_ranks_ok pp 0 (repeat g n) f) as (rank & E' & L & S1 & _); auto.
    { apply repeat_length. } { eapply pp_nodup; eauto. }
    { intros i Hi. destruct Hsort as [HP _]. eapply Permutation_in in Hi; [|apply Permutation_sym; eauto].
      apply in_seq in Hi. lia. }
    { rewrite (pp_length pts pp Hsort). fold n. lia. }
    exists rank. split; auto. split; auto.
    rewrite (pp_length pts pp Hsort) in S1. fold n in S1.
    apply (rank_ok_is_rank (minimise 2) pts (fun i => nth i rank 0%nat)); fold n.
    - intros i j Hi Hj Hd.
      destruct (pp_surj pts pp Hsort i Hi) as (i' & Hi' & Ei).
      destruct (pp_surj pts pp Hsort j Hj) as (j' & Hj' & Ej). fold n in Hi', Hj'. subst i j.
      rewrite !S1 by auto. cbn [Nat.add]. apply dom_D in Hd.
      specialize (H5 j' i' Hj' Hi' Hd). lia.
    - intros i Hi. destruct (pp_surj pts pp Hsort i Hi) as (i' & Hi' & Ei). fold n in Hi'. subst i.
      rewrite S1 by auto. cbn [Nat.add]. split; [lia|]. intros Hgt.
      destruct (H6 i' Hi') as (j' & Hj' & Dj & Ej). lia.
      exists (nth j' pp 0%nat). split. apply (pp_range pts pp Hsort); auto.
      split. apply dom_D. auto. rewrite S1 by auto. cbn [Nat.add]. lia.
  Qed.
End Rank2D.

(** ** [pareto_rank] *)
Lemma pareto_rank_ok : forall sort2d garbage debug pts dim,
  valid_sort2d sort2d -> (1 <= length pts)%nat \/ dim <> 2%nat ->
  exists rank, pareto_rank sort2d garbage debug pts dim = Ret rank /\
    length rank = length pts /\
    forall i, (i < length pts)%nat -> is_rank (minimise dim) pts i (nth i rank 0%nat).
Proof.
  intros sort2d g dbg pts dim Hs Hn. unfold pareto_rank.
  destruct (Nat.eqb_spec dim 2).
  - subst dim. destruct Hn as [Hn|]; [|congruence].
    destruct (pareto_rank_2D_ok pts (sort2d pts) (Hs pts) sort2d g eq_refl Hn) as (rank2 & E2 & L2 & R2).
    rewrite E2. cbn [bind]. destruct dbg; cbn [negb].
    + destruct (pareto_rank_nd_ok 2 pts) as (rank & E & L & R). rewrite E. cbn [bind].
      assert (A : forallb (fun k => (nth k rank 0 =? nth k rank2 0)%nat) (seq 0 (length pts)) = true).
      { apply forallb_forall. intros k Hk. apply in_seq in Hk. apply Nat.eqb_eq.
        eapply R_unique; [apply R|apply R2]; lia. }
      rewrite A. cbn [assert_ bind]. exists rank. auto.
    + exists rank2. auto.
  - apply pareto_rank_nd_ok.
Qed.
