(** [hv2d] computes the hypervolume. *)
From Coq Require Import List ZArith Lia Bool Arith Permutation Sorted.
From Verif Require Import Base Spec HvSpec NondomModel NondomProofs2d Hv2dModel.
Import ListNotations.
Open Scope Z_scope.

Section Hv2d.
  Variable pts : list point.
  Variable pp : list nat.
  Variable ref : point.
  Variable lo : Z.
  Let n := length pts.
  Hypothesis Hsort : is_qsort_of
    (fun i j => compare_x_asc_y_asc (row pts i) (row pts j) <= 0) (seq 0 n) pp.
  Hypothesis Hlo : forall p i, In p pts -> lo <= coord p i.
  Hypothesis Hlor : lo <= coord ref 1.

  Let P (j : nat) : point := row pts (nth j pp O).
  Let X j := coord (P j) 0.
  Let Y j := coord (P j) 1.
  Let f z := V lo ref 1 (below 1 z pts).

  Lemma hv_P_in : forall k, (k < n)%nat -> In (P k) pts.
  Proof. intros. apply In_row. now apply (pp_range pts pp Hsort). Qed.

  Lemma hv_in_P : forall p, In p pts -> exists k, (k < n)%nat /\ P k = p.
  Proof.
    intros. apply row_In_inv in H. destruct H as (i & Hi & E).
    destruct (pp_surj pts pp Hsort i Hi) as (k & Hk & Ek). exists k. split; auto.
    unfold P. now rewrite Ek.
  Qed.

  Definition HInv (hv prev : Z) (j : nat) : Prop :=
    (j <= n)%nat /\ lo <= prev <= coord ref 1 /\
    (forall k, (k < j)%nat -> prev <= Y k) /\
    hv = sumf f (zrange prev (coord ref 1)).

  Lemma hv2d_skip_ok : forall fuel hv prev j, HInv hv prev j -> (n < fuel + j)%nat ->
    exists j', hv2d_skip fuel pts pp prev j = Ret j' /\ HInv hv prev j' /\
      ((j' < n)%nat -> Y j' < prev).
  Proof.
    induction fuel; intros hv prev j (Hj & Hp & HY & E) Hf; [lia|].
    cbn [hv2d_skip]. fold n.
    destruct (Nat.ltb_spec j n).
    - rewrite (deref_ok pts pp Hsort) by auto. cbn [bind]. fold (P j).
      change (coord (P j) 1) with (Y j).
      destruct (Z.leb_spec prev (Y j)).
      + apply (IHfuel hv); try lia. split; [lia|]. split; auto. split; auto.
        intros k Hk. destruct (Nat.eq_dec k j). subst; auto. apply HY. lia.
      + exists j. split; auto. split; auto. split; auto.
    - exists j. split; auto. split; [split; auto|]. lia.
  Qed.

  Lemma hv2d_finish : forall hv prev j, HInv hv prev j ->
    (forall k, (j <= k < n)%nat -> prev <= Y k \/ coord ref 0 <= X k) ->
    hv = V lo ref 2 pts.
  Proof.
    intros hv prev j (Hj & Hp & HY & E) HX. cbn [V].
    change (fun z => sumf _ _) with f.
    rewrite (zrange_split lo prev (coord ref 1)) by lia.
    rewrite sumf_app, <- E. rewrite (sumf_zrange_const f lo prev 0); [lia|lia|].
    intros z Hz. apply V_outside. intros p Hp'. apply in_below in Hp'.
    destruct Hp' as [Hp' Hz']. exists O. split; [lia|].
    destruct (hv_in_P p Hp') as (k & Hk & <-). fold (Y k) in Hz'. fold (X k).
    destruct (Nat.lt_ge_cases k j).
    - specialize (HY k H). lia.
    - destruct (HX k ltac:(lia)); auto. lia.
  Qed.

  Lemma hv2d_do_ok : forall fuel hv prev j, HInv hv prev j -> (n < fuel + j)%nat ->
    hv2d_do fuel pts pp ref hv prev j = Ret (V lo ref 2 pts).
  Proof.
    induction fuel; intros hv prev j HI Hf.
    { destruct HI. lia. }
    cbn [hv2d_do]. fold n.
    assert (Hj : (j <= n)%nat) by (destruct HI; auto).
    destruct (hv2d_skip_ok (S n) hv prev j HI) as (j' & E & HI' & HY'); [lia|].
    assert (Hjj : (j <= j')%nat).
    { clear - E. revert E. generalize (S n) as fu. intros fu. revert j.
      induction fu; intros j E; cbn [hv2d_skip] in E; [discriminate|].
      destruct (j <? length pts)%nat.
      - destruct (deref pts pp j); cbn [bind] in E; try discriminate.
        destruct (prev <=? coord a 1). apply IHfu in E. lia. inversion E; lia.
      - inversion E; lia. }
    rewrite E. cbn [bind].
    destruct (Nat.eqb_spec j' n).
    { f_equal. eapply hv2d_finish; eauto. intros. lia. }
    assert (Hj' : (j' < n)%nat) by (destruct HI'; lia).
    rewrite (deref_ok pts pp Hsort) by auto. cbn [bind]. fold (P j').
    change (coord (P j') 1) with (Y j'). change (coord (P j') 0) with (X j').
    specialize (HY' Hj').
    assert (HXm : forall k, (j' < k < n)%nat -> X j' <= X k).
    { intros. pose proof (P_lex pts pp Hsort j' k H). fold (P j') (P k) in *. unfold X, P in *. lia. }
    destruct (Z.leb_spec (coord ref 0) (X j')).
    { f_equal. eapply hv2d_finish; eauto. intros k Hk. right.
      destruct (Nat.eq_dec k j'). subst; auto. specialize (HXm k). lia. }
    assert (HI2 : HInv (hv + (coord ref 0 - X j') * (prev - Y j')) (Y j') (S j')).
    { pose proof HI' as (A1 & A2 & A3 & A4).
      assert (lo <= Y j') by (apply Hlo; now apply hv_P_in).
      split; [lia|]. split; [lia|]. split.
      - intros k Hk. destruct (Nat.eq_dec k j'). subst; lia. specialize (A3 k). lia.
      - rewrite (zrange_split (Y j') prev (coord ref 1)) by lia.
        rewrite sumf_app, <- A4.
        rewrite (sumf_zrange_const f (Y j') prev (coord ref 0 - X j')); [lia|lia|].
        intros z Hz. unfold f. apply V_dim1.
        + apply in_below. split. now apply hv_P_in. fold (Y j'). lia.
        + fold (X j'). split; auto. apply Hlo; now apply hv_P_in.
        + intros q Hq. apply in_below in Hq. destruct Hq as [Hq Hzq].
          destruct (hv_in_P q Hq) as (k & Hk & <-). fold (Y k) in Hzq. fold (X j') (X k).
          destruct (Nat.lt_trichotomy k j') as [C|[C|C]].
          * specialize (A3 k C). lia.
          * subst; lia.
          * apply HXm; lia. }
    destruct (Nat.ltb_spec (S j') n).
    - rewrite (deref_ok pts pp Hsort) by auto. cbn [bind]. fold (P (S j')).
      change (coord (P (S j')) 0) with (X (S j')).
      destruct (Z.ltb_spec (X (S j')) (coord ref 0)).
      + apply IHfuel; auto. lia.
      + f_equal. eapply hv2d_finish; eauto. intros k Hk. right.
        destruct (Nat.eq_dec k (S j')). subst; auto.
        pose proof (P_lex pts pp Hsort (S j') k ltac:(fold n; lia)). unfold X, P in *. lia.
    - f_equal. eapply hv2d_finish; eauto. intros; lia.
  Qed.
End Hv2d.

Lemma hv2d_ok : forall sort2d pts ref, valid_sort2d sort2d -> length ref = 2%nat ->
  exists v, hv2d sort2d pts ref = Ret v /\ hypervolume pts ref v.
Proof.
  intros sort2d pts ref Hs Hr.
  set (lo := Z.min (min_coord pts) (coord ref 1)).
  assert (Hlo : forall p i, In p pts -> lo <= coord p i).
  { intros. pose proof (min_coord_ok pts p i H). unfold lo. lia. }
  exists (V lo ref 2 pts). split.
  - unfold hv2d. apply hv2d_do_ok; auto; unfold lo in *; try lia.
    split; [lia|]. split; [lia|]. split. intros; lia. rewrite zrange_nil by lia. reflexivity.
  - rewrite <- Hr. apply V_hypervolume. auto.
Qed.
