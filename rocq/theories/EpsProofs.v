(** Proofs about the epsilon indicators and dominatedsets. *)
From Coq Require Import List ZArith QArith Lia Bool Arith Permutation.
From Verif Require Import Base Spec NondomModel NondomMain IndSpec EpsModel.
Import ListNotations.
Open Scope Z_scope.

(** ** Folds of MAX and MIN over extended numbers *)
Section Ext.
Context {T : Type} (leb : T -> T -> bool).
Hypothesis leb_total : forall x y, leb x y = true \/ leb y x = true.
Hypothesis leb_trans : forall x y z, leb x y = true -> leb y z = true -> leb x z = true.

Notation "x [<=] y" := (eleb leb x y = true) (at level 70).

Lemma eleb_total : forall x y, x [<=] y \/ y [<=] x.
Proof. intros [|x|] [|y|]; simpl; auto. Qed.

Lemma eleb_trans : forall x y z, x [<=] y -> y [<=] z -> x [<=] z.
Proof. intros [|x|] [|y|] [|z|]; simpl; auto; try discriminate. apply leb_trans. Qed.

Lemma eleb_refl : forall x, x [<=] x.
Proof. intros. destruct (eleb_total x x); auto. Qed.

Lemma emax_le : forall x y z, emax leb x y [<=] z <-> x [<=] z /\ y [<=] z.
Proof.
  intros. unfold emax. destruct (eleb leb x y) eqn:E.
  - split; [intro H; split; auto; eapply eleb_trans; eauto | tauto].
  - destruct (eleb_total x y); try congruence.
    split; [intro H'; split; auto; eapply eleb_trans; eauto | tauto].
Qed.

Lemma emax_ge : forall x y z, z [<=] emax leb x y <-> z [<=] x \/ z [<=] y.
Proof.
  intros. unfold emax. destruct (eleb leb x y) eqn:E.
  - split; auto. intros [H|H]; auto. eapply eleb_trans; eauto.
  - destruct (eleb_total x y); try congruence.
    split; auto. intros [H'|H']; auto. eapply eleb_trans; eauto.
Qed.

Lemma emin_le : forall x y z, emin leb x y [<=] z <-> x [<=] z \/ y [<=] z.
Proof.
  intros. unfold emin. destruct (eleb leb y x) eqn:E.
  - split; auto. intros [H|H]; auto. eapply eleb_trans; eauto.
  - destruct (eleb_total x y); try congruence.
    split; auto. intros [H'|H']; auto. eapply eleb_trans; eauto.
Qed.

Lemma emin_ge : forall x y z, z [<=] emin leb x y <-> z [<=] x /\ z [<=] y.
Proof.
  intros. unfold emin. destruct (eleb leb y x) eqn:E.
  - split; [intro H; split; auto; eapply eleb_trans; eauto | tauto].
  - destruct (eleb_total x y); try congruence.
    split; [intro H'; split; auto; eapply eleb_trans; eauto | tauto].
Qed.

Lemma fold_emax_le : forall I (f : I -> ext T) l x0 z,
  fold_left (fun m i => emax leb m (f i)) l x0 [<=] z <->
  x0 [<=] z /\ forall i, In i l -> f i [<=] z.
Proof.
  induction l; simpl; intros.
  - split; [intro; split; auto; intros; tauto | tauto].
  - rewrite IHl, emax_le. split.
    + intros [[H1 H2] H3]. split; auto. intros i [->|H]; auto.
    + intros [H1 H2]. auto.
Qed.

Lemma fold_emax_ge : forall I (f : I -> ext T) l x0 z,
  z [<=] fold_left (fun m i => emax leb m (f i)) l x0 <->
  z [<=] x0 \/ exists i, In i l /\ z [<=] f i.
Proof.
  induction l; simpl; intros.
  - split; auto. intros [H|(i & [] & _)]; auto.
  - rewrite IHl, emax_ge. split.
    + intros [[H1|H2]|(i & H3 & H4)]; eauto.
    + intros [H1|(i & [->|H] & H2)]; eauto.
Qed.

Lemma fold_emin_le : forall I (f : I -> ext T) l x0 z,
  fold_left (fun m i => emin leb m (f i)) l x0 [<=] z <->
  x0 [<=] z \/ exists i, In i l /\ f i [<=] z.
Proof.
  induction l; simpl; intros.
  - split; auto. intros [H|(i & [] & _)]; auto.
  - rewrite IHl, emin_le. split.
    + intros [[H1|H2]|(i & H3 & H4)]; eauto.
    + intros [H1|(i & [->|H] & H2)]; eauto.
Qed.

Lemma fold_emin_ge : forall I (f : I -> ext T) l x0 z,
  z [<=] fold_left (fun m i => emin leb m (f i)) l x0 <->
  z [<=] x0 /\ forall i, In i l -> z [<=] f i.
Proof.
  induction l; simpl; intros.
  - split; [intro; split; auto; intros; tauto | tauto].
  - rewrite IHl, emin_ge. split.
    + intros [[H1 H2] H3]. split; auto. intros i [->|H]; auto.
    + intros [H1 H2]. auto.
Qed.
End Ext.

Lemma Zleb_total : forall x y, (x <=? y) = true \/ (y <=? x) = true.
Proof. intros. rewrite !Z.leb_le. lia. Qed.
Lemma Zleb_trans : forall x y z, (x <=? y) = true -> (y <=? z) = true -> (x <=? z) = true.
Proof. intros x y z. rewrite !Z.leb_le. lia. Qed.
Lemma Qleb_total : forall x y, Qle_bool x y = true \/ Qle_bool y x = true.
Proof. intros. rewrite !Qle_bool_iff. destruct (Qlt_le_dec x y); auto. left. now apply Qlt_le_weak. Qed.
Lemma Qleb_trans : forall x y z, Qle_bool x y = true -> Qle_bool y z = true -> Qle_bool x z = true.
Proof. intros x y z. rewrite !Qle_bool_iff. apply Qle_trans. Qed.

(** ** Additive indicator *)

Lemma eps_add_le : forall dim mm A B z,
  eleb Z.leb (epsilon_additive_minmax dim mm A B) (Fin z) = true <->
  forall b, In b B -> exists a, In a A /\
    forall d, (d < dim)%nat -> eps_temp_add mm a b d <= z.
Proof.
  intros. unfold epsilon_additive_minmax.
  rewrite (fold_emax_le _ Zleb_total Zleb_trans).
  unfold eps_min_add, eps_max_add. simpl.
  split.
  - intros [_ H] b Hb. specialize (H b Hb).
    rewrite (fold_emin_le _ Zleb_total Zleb_trans) in H. simpl in H.
    destruct H as [H|(a & Ha & H)]; try discriminate.
    rewrite (fold_emax_le _ Zleb_total Zleb_trans) in H. destruct H as [_ H].
    exists a. split; auto. intros d Hd. specialize (H d). simpl in H.
    apply Z.leb_le. apply H. apply in_seq. lia.
  - intros H. split; auto. intros b Hb. destruct (H b Hb) as (a & Ha & K).
    rewrite (fold_emin_le _ Zleb_total Zleb_trans). right. exists a. split; auto.
    rewrite (fold_emax_le _ Zleb_total Zleb_trans). split; auto.
    intros d Hd. apply in_seq in Hd. simpl. apply Z.leb_le. apply K. lia.
Qed.

Lemma eps_add_ge : forall dim mm A B z,
  eleb Z.leb (Fin z) (epsilon_additive_minmax dim mm A B) = true <->
  exists b, In b B /\ forall a, In a A ->
    exists d, (d < dim)%nat /\ z <= eps_temp_add mm a b d.
Proof.
  intros. unfold epsilon_additive_minmax.
  rewrite (fold_emax_ge _ Zleb_total Zleb_trans).
  unfold eps_min_add, eps_max_add.
  split.
  - intros [H|(b & Hb & H)]; try discriminate. exists b. split; auto. intros a Ha.
    rewrite (fold_emin_ge _ Zleb_total Zleb_trans) in H. destruct H as [_ H].
    specialize (H a Ha).
    rewrite (fold_emax_ge _ Zleb_total Zleb_trans) in H.
    destruct H as [H|(d & Hd & H)]; try discriminate.
    apply in_seq in Hd. exists d. split; [lia|]. now apply Z.leb_le.
  - intros (b & Hb & H). right. exists b. split; auto.
    rewrite (fold_emin_ge _ Zleb_total Zleb_trans). split; auto. intros a Ha.
    destruct (H a Ha) as (d & Hd & K).
    rewrite (fold_emax_ge _ Zleb_total Zleb_trans). right. exists d.
    split. apply in_seq; lia. now apply Z.leb_le.
Qed.

Lemma eps_temp_min_max : forall mx a b d e, (d < length mx)%nat ->
  eps_temp_add (minmax_from_bool mx) a b d <= e <->
  (if nth d mx false then coord b d <= coord a d + e else coord a d - e <= coord b d).
Proof.
  intros. unfold eps_temp_add. rewrite coord_minmax by auto.
  destruct (nth d mx false); simpl; lia.
Qed.

(** finite list maxima/minima *)
Lemma list_min_ex : forall I (f : I -> Z) l, l <> [] ->
  exists i, In i l /\ forall j, In j l -> f i <= f j.
Proof.
  induction l; intros; try tauto. destruct l as [|b l].
  - exists a. split; simpl; auto. intros j [->|[]]. lia.
  - destruct IHl as (i & Hi & K); try discriminate.
    destruct (Z_le_gt_dec (f a) (f i)).
    + exists a. split. now left. intros j [->|Hj]; try lia. specialize (K j Hj). lia.
    + exists i. split. now right. intros j [->|Hj]; try lia. auto.
Qed.

Lemma exists_lt_dec : forall (P : nat -> Prop) (Q : nat -> Prop) n,
  (forall d, (d < n)%nat -> P d \/ Q d) ->
  (forall d, (d < n)%nat -> P d) \/ exists d, (d < n)%nat /\ Q d.
Proof.
  induction n; intros. left; intros; lia.
  destruct IHn as [K|(d & Hd & K)].
  - intros; apply H; lia.
  - destruct (H n ltac:(lia)).
    + left. intros d Hd. destruct (Nat.eq_dec d n); subst; auto. apply K. lia.
    + right; exists n; auto.
  - right. exists d. split; auto.
Qed.

(** The value is finite for non-empty sets and at least one objective, with an
    upper and a lower witness. *)
Lemma eps_add_finite : forall dim mm A B, A <> [] -> B <> [] -> (1 <= dim)%nat ->
  exists v, epsilon_additive_minmax dim mm A B = Fin v.
Proof.
  intros dim mm A B HA HB Hd.
  destruct (epsilon_additive_minmax dim mm A B) as [|v|] eqn:E; eauto; exfalso.
  - (* -inf: no value below *)
    destruct B as [|b B]; try tauto.
    (* take z = min over a of temp a b 0 *)
    destruct (list_min_ex _ (fun a => eps_temp_add mm a b 0) A HA) as (a0 & Ha0 & K).
    assert (C : eleb Z.leb (Fin (eps_temp_add mm a0 b 0)) (epsilon_additive_minmax dim mm A (b :: B)) = true).
    { apply eps_add_ge. exists b. split. now left. intros a Ha. exists 0%nat. split; auto. }
    rewrite E in C. discriminate.
  - (* +inf *)
    destruct A as [|a A]; try tauto.
    assert (M : forall b, exists z, forall d, (d < dim)%nat -> eps_temp_add mm a b d <= z).
    { intro b. clear -mm. induction dim. exists 0; intros; lia.
      destruct IHdim as (z & Hz). exists (Z.max z (eps_temp_add mm a b dim)).
      intros d Hd. destruct (Nat.eq_dec d dim); subst; try lia. specialize (Hz d ltac:(lia)). lia. }
    assert (M' : exists z, forall b, In b B -> forall d, (d < dim)%nat -> eps_temp_add mm a b d <= z).
    { clear -M. induction B. exists 0; intros b []. destruct IHB as (z & Hz).
      destruct (M a0) as (z' & Hz'). exists (Z.max z z'). intros b [->|Hb] d Hd.
      specialize (Hz' d Hd); lia. specialize (Hz b Hb d Hd). lia. }
    destruct M' as (z & Hz).
    assert (C : eleb Z.leb (epsilon_additive_minmax dim mm (a :: A) B) (Fin z) = true).
    { apply eps_add_le. intros b Hb. exists a. split. now left. auto. }
    rewrite E in C. discriminate.
Qed.

(** ** Multiplicative indicator *)

Definition mult_fold_d mm a b ds m : ext Q :=
  fold_left (fun m d => emax Qle_bool m (Fin (eps_temp_mult mm a b d))) ds m.

Lemma temp_mult_nonneg : forall mm a b d, 0 < coord a d -> 0 < coord b d ->
  Qle_bool 0 (eps_temp_mult mm a b d) = true.
Proof.
  intros. apply Qle_bool_iff. unfold eps_temp_mult.
  assert (0 < inject_Z (coord a d))%Q by (unfold Qlt; simpl; lia).
  assert (0 < inject_Z (coord b d))%Q by (unfold Qlt; simpl; lia).
  assert (forall x y, (0 < x -> 0 < y -> 0 <= x / y)%Q).
  { intros. apply Qle_shift_div_l; auto. rewrite Qmult_0_l. now apply Qlt_le_weak. }
  destruct (coord mm d <? 0); auto. destruct (0 <? coord mm d); auto. discriminate.
Qed.

Lemma eps_max_mult_eq : forall mm a b ds m,
  (forall d, In d ds -> 0 < coord a d /\ 0 < coord b d) ->
  eps_max_mult mm a b ds m = Ret (mult_fold_d mm a b ds m).
Proof.
  induction ds; simpl; intros; auto. unfold mult_fold_d. simpl.
  destruct (H a0) as [H1 H2]; auto.
  destruct (Z.leb_spec (coord a a0) 0); try lia.
  destruct (Z.leb_spec (coord b a0) 0); try lia. cbn [orb].
  rewrite temp_mult_nonneg by auto. cbn [negb]. apply IHds. auto.
Qed.

Lemma eps_max_mult_inv : forall mm a b ds m,
  (forall d, In d ds -> 0 < coord a d /\ 0 < coord b d) \/
  eps_max_mult mm a b ds m = AssertFailed.
Proof.
  induction ds; simpl; intros; auto. left; tauto.
  destruct (Z.leb_spec (coord a a0) 0); cbn [orb]; auto.
  destruct (Z.leb_spec (coord b a0) 0); auto.
  rewrite temp_mult_nonneg by auto. cbn [negb].
  destruct (IHds (emax Qle_bool m (Fin (eps_temp_mult mm a b a0)))) as [K|K]; auto.
  left. intros d [->|Hd]; auto.
Qed.

Definition mult_fold_a dim mm A b m : ext Q :=
  fold_left (fun m a => emin Qle_bool m (mult_fold_d mm a b (seq 0 dim) (Fin 0%Q))) A m.

Lemma eps_min_mult_eq : forall dim mm A b m,
  (forall a, In a A -> pos_point dim a) -> pos_point dim b ->
  eps_min_mult dim mm A b m = Ret (mult_fold_a dim mm A b m).
Proof.
  induction A; simpl; intros; auto.
  rewrite eps_max_mult_eq.
  2:{ intros d Hd. apply in_seq in Hd. split. apply (H a); auto; lia. apply H0; lia. }
  cbn [bind]. rewrite IHA by auto. reflexivity.
Qed.

Lemma eps_min_mult_inv : forall dim mm A b m,
  (forall a, In a A -> pos_point dim a /\ pos_point dim b) \/
  eps_min_mult dim mm A b m = AssertFailed.
Proof.
  induction A; simpl; intros; auto. left; tauto.
  destruct (eps_max_mult_inv mm a b (seq 0 dim) (Fin 0%Q)) as [K|K].
  - rewrite eps_max_mult_eq by auto. cbn [bind].
    destruct (IHA b (emin Qle_bool m (mult_fold_d mm a b (seq 0 dim) (Fin 0%Q)))) as [K'|K']; auto.
    left. intros a' [->|Ha]; auto. split; intros d Hd; apply K; apply in_seq; lia.
  - rewrite K. auto.
Qed.

Definition mult_fold_b dim mm A B m : ext Q :=
  fold_left (fun m b => emax Qle_bool m (mult_fold_a dim mm A b PosInf)) B m.

Lemma eps_loop_mult_eq : forall dim mm A B m,
  (forall a, In a A -> pos_point dim a) -> (forall b, In b B -> pos_point dim b) ->
  eps_loop_mult dim mm A B m = Ret (mult_fold_b dim mm A B m).
Proof.
  induction B; simpl; intros; auto.
  rewrite eps_min_mult_eq by auto. cbn [bind]. rewrite IHB by auto. reflexivity.
Qed.

Lemma eps_min_mult_nil_b : forall dim mm b m, eps_min_mult dim mm [] b m = Ret m.
Proof. reflexivity. Qed.

Lemma eps_loop_mult_inv : forall dim mm A B m,
  (forall a b, In a A -> In b B -> pos_point dim a /\ pos_point dim b) \/
  eps_loop_mult dim mm A B m = AssertFailed.
Proof.
  intros dim mm A B. induction B; intros. left; simpl; tauto.
  simpl eps_loop_mult.
  destruct (eps_min_mult_inv dim mm A a PosInf) as [K|K].
  - destruct A as [|a0 A]. left; simpl; tauto.
    rewrite eps_min_mult_eq.
    + cbn [bind].
      destruct (IHB (emax Qle_bool m (mult_fold_a dim mm (a0 :: A) a PosInf))) as [K'|K']; auto.
      left. intros a1 b Ha [->|Hb]; auto.
    + intros; apply K; auto.
    + apply (K a0). now left.
  - rewrite K. auto.
Qed.

Lemma eps_mult_le : forall dim mm A B z, (0 <= z)%Q ->
  eleb Qle_bool (mult_fold_b dim mm A B (Fin 0%Q)) (Fin z) = true <->
  forall b, In b B -> exists a, In a A /\
    forall d, (d < dim)%nat -> (eps_temp_mult mm a b d <= z)%Q.
Proof.
  intros dim mm A B z Hz. unfold mult_fold_b.
  rewrite (fold_emax_le _ Qleb_total Qleb_trans).
  unfold mult_fold_a, mult_fold_d.
  assert (Z0 : eleb Qle_bool (Fin 0%Q) (Fin z) = true) by (now apply Qle_bool_iff).
  split.
  - intros [_ H] b Hb. specialize (H b Hb).
    rewrite (fold_emin_le _ Qleb_total Qleb_trans) in H.
    destruct H as [H|(a & Ha & H)]; try discriminate.
    rewrite (fold_emax_le _ Qleb_total Qleb_trans) in H. destruct H as [_ H].
    exists a. split; auto. intros d Hd. specialize (H d).
    apply Qle_bool_iff. apply H. apply in_seq. lia.
  - intros H. split; auto. intros b Hb. destruct (H b Hb) as (a & Ha & K).
    rewrite (fold_emin_le _ Qleb_total Qleb_trans). right. exists a. split; auto.
    rewrite (fold_emax_le _ Qleb_total Qleb_trans). split; auto.
    intros d Hd. apply in_seq in Hd. simpl. apply Qle_bool_iff. apply K. lia.
Qed.

Lemma eps_mult_ge0 : forall dim mm A B,
  eleb Qle_bool (Fin 0%Q) (mult_fold_b dim mm A B (Fin 0%Q)) = true.
Proof.
  intros. unfold mult_fold_b. rewrite (fold_emax_ge _ Qleb_total Qleb_trans).
  left. reflexivity.
Qed.

Lemma eps_mult_finite : forall dim mm A B, A <> [] ->
  exists v, mult_fold_b dim mm A B (Fin 0%Q) = Fin v /\ (0 <= v)%Q.
Proof.
  intros dim mm A B HA. pose proof (eps_mult_ge0 dim mm A B) as G.
  destruct (mult_fold_b dim mm A B (Fin 0%Q)) as [|v|] eqn:E; try discriminate.
  - exists v. split; auto. now apply Qle_bool_iff.
  - exfalso. destruct A as [|a A]; try tauto.
    assert (M : forall b, exists z, (0 <= z)%Q /\ forall d, (d < dim)%nat -> (eps_temp_mult mm a b d <= z)%Q).
    { intro b. clear -mm. induction dim. exists 0%Q; split; [discriminate|intros; lia].
      destruct IHdim as (z & Hz0 & Hz).
      destruct (Qlt_le_dec z (eps_temp_mult mm a b dim)).
      - exists (eps_temp_mult mm a b dim). split.
        + apply Qlt_le_weak in q. eapply Qle_trans; eauto.
        + intros d Hd. destruct (Nat.eq_dec d dim); subst. apply Qle_refl.
          apply Qlt_le_weak in q. eapply Qle_trans; [apply Hz; lia|auto].
      - exists z. split; auto.
        intros d Hd. destruct (Nat.eq_dec d dim); subst; auto. apply Hz; lia. }
    assert (M' : exists z, (0 <= z)%Q /\ forall b, In b B -> forall d, (d < dim)%nat -> (eps_temp_mult mm a b d <= z)%Q).
    { clear -M. induction B. exists 0%Q; split; [discriminate|intros b []].
      destruct IHB as (z & Hz0 & Hz).
      destruct (M a0) as (z' & Hz0' & Hz').
      destruct (Qlt_le_dec z z').
      - apply Qlt_le_weak in q. exists z'. split; auto. intros b [->|Hb] d Hd; auto.
        eapply Qle_trans; [apply (Hz b); auto|auto].
      - exists z. split; auto. intros b [->|Hb] d Hd; auto.
        eapply Qle_trans; [apply Hz'; auto|auto]. }
    destruct M' as (z & Hz0 & Hz).
    assert (C : eleb Qle_bool (mult_fold_b dim mm (a :: A) B (Fin 0%Q)) (Fin z) = true).
    { apply eps_mult_le; auto. intros b Hb. exists a. split. now left. auto. }
    rewrite E in C. discriminate.
Qed.

(** ** dominatedsets *)

Lemma dominance_spec : forall mx a b,
  (dominance (length mx) (minmax_from_bool mx) a b = 1 /\ dom mx a b) \/
  (dominance (length mx) (minmax_from_bool mx) a b = 0 /\ wdom mx a b /\ wdom mx b a) \/
  (dominance (length mx) (minmax_from_bool mx) a b = -1 /\ ~ wdom mx a b).
Proof.
  intros. unfold dominance.
  destruct (existsb _ _) eqn:E.
  - right; right. split; auto. intro W. apply existsb_exists in E. destruct E as (d & Hd & E).
    apply in_seq in Hd. specialize (W d ltac:(lia)). unfold as_good in W.
    rewrite coord_minmax in E by lia. destruct (nth d mx false); simpl in E;
    apply Z.ltb_lt in E || (rewrite orb_false_r in E; apply Z.ltb_lt in E); lia.
  - assert (W : wdom mx a b).
    { intros d Hd. assert (F : In d (seq 0 (length mx))) by (apply in_seq; lia).
      destruct ((coord (minmax_from_bool mx) d <? 0) && (coord b d <? coord a d)
                    || (0 <? coord (minmax_from_bool mx) d) && (coord a d <? coord b d)) eqn:G.
      - exfalso. rewrite <- not_true_iff_false in E. apply E. apply existsb_exists. eauto.
      - rewrite coord_minmax in G by lia. unfold as_good. destruct (nth d mx false); simpl in G.
        + apply Z.ltb_ge in G. auto.
        + rewrite orb_false_r in G. apply Z.ltb_ge in G. auto. }
    clear E.
    destruct (existsb _ _) eqn:E.
    + left. split; auto. split; auto. apply existsb_exists in E. destruct E as (d & Hd & E).
      apply in_seq in Hd. exists d. split; [lia|]. unfold better.
      rewrite coord_minmax in E by lia. destruct (nth d mx false); simpl in E.
      now apply Z.ltb_lt. rewrite orb_false_r in E; now apply Z.ltb_lt.
    + right; left. split; auto. split; auto. intros d Hd.
      assert (F : In d (seq 0 (length mx))) by (apply in_seq; lia).
      destruct ((coord (minmax_from_bool mx) d <? 0) && (coord a d <? coord b d)
                    || (0 <? coord (minmax_from_bool mx) d) && (coord b d <? coord a d)) eqn:G.
      * exfalso. rewrite <- not_true_iff_false in E. apply E. apply existsb_exists. eauto.
      * rewrite coord_minmax in G by lia. unfold as_good. destruct (nth d mx false); simpl in G.
        -- apply Z.ltb_ge in G. auto.
        -- rewrite orb_false_r in G. apply Z.ltb_ge in G. auto.
Qed.

(** what the loop over x establishes *)
Lemma set_dom_x_spec : forall mx X y xd w xd',
  set_dom_x (length mx) (minmax_from_bool mx) X y xd = (w, xd') ->
  (w = true <-> exists x, In x X /\ wdom mx x y) /\
  (xd' = true -> xd = true \/ exists x, In x X /\ dom mx x y) /\
  (xd = true -> xd' = true) /\
  (w = true -> xd' = false -> exists x, In x X /\ wdom mx x y /\ wdom mx y x).
Proof.
  induction X; simpl; intros.
  - inversion H; subst. split; [|split; [|split]]; auto.
    + split; [discriminate|intros (x & [] & _)].
    + intros; discriminate.
  - destruct (dominance_spec mx a y) as [[E D]|[[E [D D']]|[E D]]]; rewrite E in H; simpl in H.
    + inversion H; subst. split; [|split; [|split]]; auto; try (intros; discriminate).
      * split; auto. intros _. exists a. split; auto. apply D.
      * intros _. right. exists a. auto.
    + inversion H; subst. split; [|split; [|split]]; auto.
      * split; auto. intros _. exists a. auto.
      * intros _ _. exists a. auto.
    + apply IHX in H. destruct H as (H1 & H2 & H3 & H4).
      split; [|split; [|split]]; auto.
      * rewrite H1. split. intros (x & Hx & W); eauto.
        intros (x & [->|Hx] & W); try tauto. eauto.
      * intro Q. destruct (H2 Q) as [Q'|(x & Hx & W)]; eauto.
      * intros Q1 Q2. destruct (H4 Q1 Q2) as (x & Hx & W). eauto.
Qed.

Lemma set_dom_y_spec : forall mx X Y xw xd w xd',
  set_dom_y (length mx) (minmax_from_bool mx) X Y xw xd = (w, xd') ->
  (w = true <-> (Y = [] -> xw = true) /\ forall y, In y Y -> exists x, In x X /\ wdom mx x y) /\
  (xd' = true -> xd = true \/ exists x y, In x X /\ In y Y /\ dom mx x y) /\
  (xd = true -> xd' = true) /\
  (w = true -> xd' = false -> forall y, In y Y -> exists x, In x X /\ wdom mx x y /\ wdom mx y x).
Proof.
  induction Y; simpl; intros.
  - inversion H; subst. split; [|split; [|split]]; auto; try tauto.
  - destruct (set_dom_x _ _ _ _ _) as [w0 xd0] eqn:E0.
    apply set_dom_x_spec in E0. destruct E0 as (G1 & G2 & G3 & G4).
    destruct w0.
    + apply IHY in H. destruct H as (H1 & H2 & H3 & H4).
      split; [|split; [|split]]; auto.
      * rewrite H1. split.
        -- intros [_ K]. split; [discriminate|]. intros y [->|Hy]; auto. now apply G1.
        -- intros [_ K]. split; auto.
      * intro Q. destruct (H2 Q) as [Q'|(x & y & Hx & Hy & W)]; [|right; exists x, y; auto].
        destruct (G2 Q') as [|(x & Hx & W)]; auto. right. exists x, a. auto.
      * intros Q1 Q2 y [->|Hy]; auto. apply G4; auto.
        destruct xd0; auto. rewrite H3 in Q2; auto.
    + inversion H; subst. split; [|split; [|split]]; auto.
      * split; [discriminate|]. intros [_ K]. apply G1. apply K. now left.
      * intro Q. destruct (G2 Q) as [Q'|(x & Hx & W)]; auto. right. exists x, a. auto.
      * discriminate.
Qed.

Lemma set_dominates_spec : forall mx X Y, Y <> [] ->
  let r := set_dominates (length mx) (minmax_from_bool mx) X Y in
  (r = 1 /\ ~ set_wdom mx X Y) \/
  (r = -1 /\ set_wdom mx X Y /\
     (length X <> length Y \/ exists x y, In x X /\ In y Y /\ dom mx x y)) \/
  (r = 0 /\ set_wdom mx X Y /\ length X = length Y /\
     forall y, In y Y -> exists x, In x X /\ wdom mx x y /\ wdom mx y x).
Proof.
  intros mx X Y HY r. subst r. unfold set_dominates.
  destruct (set_dom_y _ _ _ _ _ _) as [w xd] eqn:E.
  apply set_dom_y_spec in E. destruct E as (H1 & H2 & _ & H4).
  destruct w; simpl.
  - assert (W : set_wdom mx X Y) by (unfold set_wdom; now apply H1).
    destruct (Nat.eqb_spec (length X) (length Y)); simpl.
    + destruct xd; simpl.
      * right; left. split; auto. split; auto. right. destruct (H2 eq_refl); auto. discriminate.
      * right; right. auto.
    + right; left. auto.
  - left. split; auto. intro W. assert (false = true); [|discriminate].
    apply H1. split; [tauto|auto].
Qed.

Lemma wf_points_In : forall d S p, wf_points d S -> In p S -> length p = d.
Proof. unfold wf_points. intros. rewrite Forall_forall in H. auto. Qed.

Lemma eps_le0_iff : forall mx A B,
  eleb Z.leb (epsilon_additive_minmax (length mx) (minmax_from_bool mx) A B) (Fin 0) = true
  <-> set_wdom mx A B.
Proof.
  intros. rewrite eps_add_le. unfold set_wdom.
  split; intros H b Hb; destruct (H b Hb) as (a & Ha & K); exists a; split; auto.
  - intros d Hd. specialize (K d Hd). rewrite eps_temp_min_max in K by auto.
    unfold as_good. destruct (nth d mx false); lia.
  - intros d Hd. rewrite eps_temp_min_max by auto. specialize (K d Hd).
    unfold as_good in K. destruct (nth d mx false); lia.
Qed.

Lemma NoDup_incl_len : forall (A B : list point), NoDup A -> NoDup B ->
  incl A B -> incl B A -> length A = length B.
Proof. intros. apply Nat.le_antisymm; apply NoDup_incl_length; auto. Qed.

Lemma nds_wdom_eq : forall mx A p q, nondominated_set mx A -> In p A -> In q A ->
  wdom mx p q -> p = q.
Proof.
  intros mx A p q (W & N & D) Hp Hq H.
  apply wdom_antisym with (mx := mx); auto.
  - eapply wf_points_In; eauto.
  - eapply wf_points_In; eauto.
  - destruct (exists_lt_dec (fun d => as_good mx q p d) (fun d => better mx p q d) (length mx)) as [K|K].
    + intros d Hd. unfold as_good, better. destruct (nth d mx false); lia.
    + exact K.
    + exfalso. apply (D p q); auto. split; auto.
Qed.

(** results of [set_dominates] on nondominated sets *)
Lemma set_dominates_nds : forall mx A B,
  nondominated_set mx A -> nondominated_set mx B -> B <> [] ->
  let r := set_dominates (length mx) (minmax_from_bool mx) A B in
  (r = 1 /\ ~ set_wdom mx A B) \/
  (r = -1 /\ set_wdom mx A B /\ ~ set_wdom mx B A) \/
  (r = 0 /\ set_wdom mx A B /\ set_wdom mx B A).
Proof.
  intros mx A B HA HB NB r.
  destruct (set_dominates_spec mx A B NB) as [[E W]|[(E & W & K)|(E & W & L & K)]];
    fold r in E.
  - left; auto.
  - right; left. split; auto. split; auto. intro W'.
    destruct K as [K|(x & y & Hx & Hy & D)].
    + (* the sets are mutually weakly dominated, hence equal *)
      apply K. apply NoDup_incl_len; try apply HA; try apply HB.
      * intros a Ha. destruct (W' a Ha) as (b & Hb & Q).
        destruct (W b Hb) as (a' & Ha' & Q').
        assert (a' = a) by (apply (nds_wdom_eq mx A); auto; apply (wdom_trans mx a' b a); auto). subst a'.
        assert (a = b); [|subst; auto].
        apply wdom_antisym with (mx := mx); auto.
        apply (wf_points_In _ A); auto; apply HA. apply (wf_points_In _ B); auto; apply HB.
      * intros b Hb. destruct (W b Hb) as (a & Ha & Q).
        destruct (W' a Ha) as (b' & Hb' & Q').
        assert (b' = b) by (apply (nds_wdom_eq mx B); auto; apply (wdom_trans mx b' a b); auto). subst b'.
        assert (a = b); [|subst; auto].
        apply wdom_antisym with (mx := mx); auto.
        apply (wf_points_In _ A); auto; apply HA. apply (wf_points_In _ B); auto; apply HB.
    + destruct (W' x Hx) as (y' & Hy' & Q).
      destruct HB as (_ & _ & D2). apply (D2 y' y); auto.
      rewrite dom_iff in *. destruct D as [D D']. split. eapply wdom_trans; eauto.
      intro C. apply D'. eapply wdom_trans; eauto.
  - right; right. split; auto. split; auto.
    (* B is included in A with the same size, so A is included in B *)
    assert (I : incl B A).
    { intros y Hy. destruct (K y Hy) as (x & Hx & Q1 & Q2).
      assert (x = y); [|subst; auto].
      apply wdom_antisym with (mx := mx); auto.
      apply (wf_points_In _ A); auto; apply HA. apply (wf_points_In _ B); auto; apply HB. }
    assert (I' : incl A B) by (apply NoDup_length_incl; auto; [apply HB | lia]).
    intros a Ha. exists a. split; auto. apply wdom_refl.
Qed.

Lemma ind_spec : forall mx A B,
  let r := epsilon_additive_ind (length mx) (minmax_from_bool mx) A B in
  (r = -1 /\ set_wdom mx A B /\ ~ set_wdom mx B A) \/
  (r = 1 /\ ~ set_wdom mx A B /\ set_wdom mx B A) \/
  (r = 0 /\ (set_wdom mx A B <-> set_wdom mx B A)).
Proof.
  intros mx A B r. subst r. unfold epsilon_additive_ind.
  pose proof (eps_le0_iff mx A B) as E1. pose proof (eps_le0_iff mx B A) as E2.
  destruct (eleb _ _ _); destruct (eleb _ _ _); simpl;
  assert (F : false = true -> False) by discriminate;
  [right; right | left | right; left | right; right]; tauto.
Qed.

Lemma pareto_better_ok : forall mx A B,
  nondominated_set mx A -> nondominated_set mx B -> A <> [] -> B <> [] ->
  exists r, pareto_better (length mx) (minmax_from_bool mx) A B = Ret r /\
  ((r = -1 /\ set_wdom mx A B /\ ~ set_wdom mx B A) \/
   (r = 1 /\ ~ set_wdom mx A B /\ set_wdom mx B A) \/
   (r = 0 /\ (set_wdom mx A B <-> set_wdom mx B A))).
Proof.
  intros mx A B HA HB NA NB. unfold pareto_better.
  pose proof (set_dominates_nds mx A B HA HB NB) as S1.
  pose proof (set_dominates_nds mx B A HB HA NA) as S2.
  pose proof (ind_spec mx A B) as I.
  cbv zeta in *.
  destruct S1 as [[-> S1]|[(-> & S1 & S1')|(-> & S1 & S1')]]; cbn [Z.eqb].
  - change (1 =? 1) with true. cbv iota.
    destruct S2 as [[-> S2]|[(-> & S2 & S2')|(-> & S2 & S2')]]; simpl.
    + destruct I as [(E & I)|[(E & I)|(E & I)]]; rewrite E; simpl; try tauto.
      eexists; split; [reflexivity|tauto].
    + destruct I as [(E & I)|[(E & I)|(E & I)]]; rewrite E; simpl; try tauto.
      eexists; split; [reflexivity|tauto].
    + tauto.
  - destruct I as [(E & I)|[(E & I)|(E & I)]]; rewrite E; simpl; try tauto.
    eexists; split; [reflexivity|tauto].
  - destruct I as [(E & I)|[(E & I)|(E & I)]]; rewrite E; simpl; try tauto.
    eexists; split; [reflexivity|tauto].
Qed.
