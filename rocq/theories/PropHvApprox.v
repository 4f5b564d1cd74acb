(** Property C55: hv_approx, the Monte-Carlo approximation of the hypervolume.

    Specification: weak dominance of points and sets (PropEpsFloat.rwdom,
    rset_wdom), strict dominance of the reference point, the volume of HvSpec.
    Model: HvApproxModel.v, for IEEE doubles ([rnd]) and for exact arithmetic. *)
From Coq Require Import List ZArith Lia Bool Arith Reals Lra.
From Flocq Require Import Core.
From Verif Require Import Base EpsModel PctFloatModel EpsFloatModel HvApproxModel PropPctFloat PropEpsFloat.
From Verif Require HvSpec.
Import ListNotations.
Open Scope R_scope.
#[local] Existing Instance dexp_valid.

(** ** Specification *)
(** every component of [p] is better than the one of [ref] *)
Definition strictly_better (mx : list bool) (p ref : rpoint) : Prop :=
  forall d, (d < length mx)%nat -> if nth d mx false then rcoord ref d < rcoord p d else rcoord p d < rcoord ref d.
(** the direction of every sample has a component that is not zero *)
Definition proper (rd : R -> R) (norm : list R -> R) (dim : nat) (normals : list rpoint) : Prop :=
  forall g, In g normals -> exists d, (d < dim)%nat /\ rcoord (direction rd norm g) d <> 0.
(** what is assumed of rounding; true of rounding to doubles and of exact arithmetic *)
Definition rounding (rd : R -> R) : Prop := mono rd /\ rd 0 = 0 /\ (forall x, rd (- x) = - rd x).
Definition exact (x : R) : R := x.

Lemma rounding_rnd : rounding rnd.
Proof.
  split; [|split].
  - intros x y. apply rnd_mono.
  - apply rnd_zero.
  - intros x. unfold rnd. now rewrite round_NE_opp.
Qed.
Lemma rounding_exact : rounding exact.
Proof. unfold rounding, mono, exact. repeat split; auto. Qed.

(** ** Extended numbers *)
Definition ege (x : ext R) (e : R) : Prop :=
  match x with NegInf => False | Fin v => e <= v | PosInf => True end.
Lemma ege_emax : forall x y e, ege (emax Rle_bool x y) e <-> ege x e \/ ege y e.
Proof.
  intros x y e. destruct x as [|x|], y as [|y|]; unfold emax; cbn; try tauto.
  destruct (Rle_bool_spec x y); cbn; split; intros; try lra.
Qed.
Lemma ege_emin : forall x y e, ege (emin Rle_bool x y) e <-> ege x e /\ ege y e.
Proof.
  intros x y e. destruct x as [|x|], y as [|y|]; unfold emin; cbn; try tauto.
  destruct (Rle_bool_spec y x); cbn; split; intros; try lra.
Qed.
Lemma ege_eq : forall x y, (forall e, ege x e <-> ege y e) -> x = y.
Proof.
  intros x y H. destruct x as [|x|], y as [|y|]; cbn in H; auto.
  - pose proof (H y). cbn in *. exfalso. apply H0. lra.
  - pose proof (H 0). tauto.
  - pose proof (H x). exfalso. apply H0. lra.
  - f_equal. pose proof (H x). pose proof (H y). destruct H0 as [A _], H1 as [_ B]. specialize (A ltac:(lra)). specialize (B ltac:(lra)). lra.
  - pose proof (H (x + 1)) as [_ A]. specialize (A I). lra.
  - pose proof (H 0). tauto.
  - pose proof (H (y + 1)) as [A _]. specialize (A I). lra.
Qed.

Lemma reach_ge : forall rd w q e,
  ege (reach rd w q) e <-> forall d, (d < length q)%nat -> rcoord w d = 0 \/ e <= rd (rcoord q d / rcoord w d).
Proof.
  intros rd w q e. unfold reach.
  assert (G : forall l m, ege (fold_left (fun m d => emin Rle_bool m (quotient rd (rcoord q d) (rcoord w d))) l m) e <->
     ege m e /\ forall d, In d l -> rcoord w d = 0 \/ e <= rd (rcoord q d / rcoord w d)).
  { induction l as [|d l IH]; intros m; cbn [fold_left In].
    - split; [intros; split; auto; intros; tauto|tauto].
    - rewrite IH, ege_emin.
      assert (Q : ege (quotient rd (rcoord q d) (rcoord w d)) e <-> rcoord w d = 0 \/ e <= rd (rcoord q d / rcoord w d)).
      { unfold quotient. destruct (Req_bool_spec (rcoord w d) 0); cbn; tauto. }
      rewrite Q. split.
      + intros [[H1 H2] H3]. split; auto. intros d' [->|H]; auto.
      + intros [H1 H2]. split; [split; auto|auto]. }
  rewrite G. cbn [ege]. split.
  - intros [_ H] d Hd. apply H. apply in_seq. lia.
  - intros H. split; auto. intros d Hd. apply in_seq in Hd. apply H. lia.
Qed.
Lemma sample_ge : forall rd w rows x e, sample rd w rows = Ret x ->
  (ege x e <-> exists q, In q rows /\ ege (reach rd w q) e).
Proof.
  intros rd w rows x e E. unfold sample in E. destruct rows as [|q0 rows]; [discriminate|].
  assert (Ex : x = fold_left (fun m q => emax Rle_bool m (reach rd w q)) (q0 :: rows) NegInf) by congruence.
  rewrite Ex. clear E Ex. generalize (q0 :: rows). intros l0.
  assert (G : forall l m, ege (fold_left (fun m q => emax Rle_bool m (reach rd w q)) l m) e <->
     ege m e \/ exists q, In q l /\ ege (reach rd w q) e).
  { clear. induction l as [|a l IH]; intros m; cbn [fold_left In].
    - split; [auto|]. intros [H|(a & [] & _)]; auto.
    - rewrite IH, ege_emax. split.
      + intros [[H|H]|(a' & H1 & H2)]; eauto.
      + intros [H|(a' & [->|H1] & H2)]; eauto. }
  rewrite G. cbn [ege]. split; [intros [[]|H]; auto|auto].
Qed.

(** ** Gains *)
Lemma gain_length : forall rd mx ref p, length (gain rd mx ref p) = length mx.
Proof. intros. unfold gain. now rewrite map_length, seq_length. Qed.
Lemma gain_coord : forall rd mx ref p d, (d < length mx)%nat ->
  rcoord (gain rd mx ref p) d = let v := rd (rcoord ref d - rcoord p d) in if nth d mx false then - v else v.
Proof.
  intros. unfold gain, rcoord at 1. rewrite nth_map_lt with (d0 := 0%nat) by (rewrite seq_length; auto).
  now rewrite seq_nth by auto.
Qed.
Lemma all_positive_iff : forall q, all_positive q = true <-> forall d, (d < length q)%nat -> 0 < rcoord q d.
Proof.
  intros q. unfold all_positive. rewrite forallb_forall. split.
  - intros H d Hd. specialize (H (rcoord q d) (nth_In _ _ Hd)). apply negb_true_iff in H.
    destruct (Rle_bool_spec (rcoord q d) 0); [discriminate|lra].
  - intros H x Hx. apply In_nth with (d := 0) in Hx. destruct Hx as (d & Hd & <-).
    rewrite Rle_bool_false; auto. apply (H d Hd).
Qed.
Lemma gain_mono : forall rd mx ref a b d, mono rd -> rwdom mx a b -> (d < length mx)%nat ->
  rcoord (gain rd mx ref b) d <= rcoord (gain rd mx ref a) d.
Proof.
  intros rd mx ref a b d M W Hd. rewrite !gain_coord by auto. cbn zeta. specialize (W d Hd).
  destruct (nth d mx false).
  - apply Ropp_le_contravar. apply M. lra.
  - apply M. lra.
Qed.
Lemma in_gains : forall rd mx ref A q, In q (gains rd mx ref A) <->
  exists a, In a A /\ q = gain rd mx ref a /\ forall d, (d < length mx)%nat -> 0 < rcoord q d.
Proof.
  intros. unfold gains. rewrite filter_In, in_map_iff, all_positive_iff. split.
  - intros [(a & <- & Ha) P]. exists a. rewrite gain_length in P. auto.
  - intros (a & Ha & -> & P). rewrite gain_length. split; eauto.
Qed.
Lemma gains_dominated : forall rd mx ref A B q, mono rd -> rset_wdom mx A B -> In q (gains rd mx ref B) ->
  exists q', In q' (gains rd mx ref A) /\ length q' = length q /\ forall d, (d < length q)%nat -> rcoord q d <= rcoord q' d.
Proof.
  intros rd mx ref A B q M W H. apply in_gains in H. destruct H as (b & Hb & -> & P).
  destruct (W b Hb) as (a & Ha & D). exists (gain rd mx ref a). rewrite !gain_length.
  assert (K : forall d, (d < length mx)%nat -> rcoord (gain rd mx ref b) d <= rcoord (gain rd mx ref a) d).
  { intros. now apply gain_mono. }
  split; auto. apply in_gains. exists a. split; auto. split; auto. intros d Hd. specialize (P d Hd). specialize (K d Hd). lra.
Qed.

(** ** One direction *)
Definition nonneg (w : rpoint) : Prop := forall d, 0 <= rcoord w d.
Lemma direction_nonneg : forall rd norm g, rounding rd -> (forall v, 0 <= norm v) -> nonneg (direction rd norm g).
Proof.
  intros rd norm g (M & Z & _) N d. unfold direction, rcoord.
  destruct (Nat.lt_ge_cases d (length (map Rabs g))) as [L|L].
  - rewrite nth_map_lt with (d0 := 0) by auto. rewrite <- Z. apply M.
    rewrite map_length in L. rewrite nth_map_lt with (d0 := 0) by auto.
    specialize (N (map Rabs g)). pose proof (Rabs_pos (nth d g 0)). unfold Rdiv. apply Rmult_le_pos; auto.
    destruct N as [N| <-]. left. now apply Rinv_0_lt_compat. rewrite Rinv_0. lra.
  - rewrite nth_overflow by (rewrite map_length; auto). lra.
Qed.
Lemma reach_mono : forall rd w q q' e, mono rd -> nonneg w -> length q' = length q ->
  (forall d, (d < length q)%nat -> rcoord q d <= rcoord q' d) -> ege (reach rd w q) e -> ege (reach rd w q') e.
Proof.
  intros rd w q q' e M N L H. rewrite !reach_ge, L. intros K d Hd. destruct (K d Hd) as [Z|Z]; auto.
  destruct (N d) as [P|P]; [|auto]. right. eapply Rle_trans; [exact Z|]. apply M.
  apply Rmult_le_compat_r; [|auto]. left. now apply Rinv_0_lt_compat.
Qed.
Lemma sample_mono : forall rd mx ref A B w xA xB e, mono rd -> nonneg w -> rset_wdom mx A B ->
  sample rd w (gains rd mx ref A) = Ret xA -> sample rd w (gains rd mx ref B) = Ret xB -> ege xB e -> ege xA e.
Proof.
  intros rd mx ref A B w xA xB e M N W EA EB H.
  rewrite (sample_ge _ _ _ _ _ EB) in H. rewrite (sample_ge _ _ _ _ _ EA).
  destruct H as (q & Hq & H). destruct (gains_dominated _ _ _ _ _ _ M W Hq) as (q' & Hq' & L & K).
  exists q'. split; auto. eapply reach_mono; eauto.
Qed.
Lemma sample_defined : forall rd w rows, (exists x, sample rd w rows = Ret x) <-> rows <> [].
Proof.
  intros. unfold sample. destruct rows; split; intros.
  - destruct H. discriminate.
  - tauto.
  - discriminate.
  - eauto.
Qed.
Lemma gains_nonempty : forall rd mx ref A B, mono rd -> rset_wdom mx A B ->
  gains rd mx ref B <> [] -> gains rd mx ref A <> [].
Proof.
  intros rd mx ref A B M W H. destruct (gains rd mx ref B) as [|q l] eqn:E; [tauto|].
  destruct (gains_dominated rd mx ref A B q M W) as (q' & Hq' & _). rewrite E. simpl; auto.
  destruct (gains rd mx ref A); [destruct Hq'|discriminate].
Qed.
Lemma sample_same : forall rd mx ref A B w, mono rd -> nonneg w -> rset_wdom mx A B -> rset_wdom mx B A ->
  sample rd w (gains rd mx ref A) = sample rd w (gains rd mx ref B).
Proof.
  intros rd mx ref A B w M N AB BA.
  destruct (sample rd w (gains rd mx ref A)) as [x| | |] eqn:EA;
  destruct (sample rd w (gains rd mx ref B)) as [y| | |] eqn:EB; auto;
  try (unfold sample in EA; destruct (gains rd mx ref A); discriminate);
  try (unfold sample in EB; destruct (gains rd mx ref B); discriminate).
  - f_equal. apply ege_eq. intros e. split; intros H.
    + eapply (sample_mono rd mx ref B A); eauto.
    + eapply (sample_mono rd mx ref A B); eauto.
  - assert (G : gains rd mx ref A <> []) by (apply sample_defined with (rd := rd) (w := w); eauto).
    apply (gains_nonempty rd mx ref B A M BA) in G. apply sample_defined with (rd := rd) (w := w) in G. destruct G. congruence.
  - assert (G : gains rd mx ref B <> []) by (apply sample_defined with (rd := rd) (w := w); eauto).
    apply (gains_nonempty rd mx ref A B M AB) in G. apply sample_defined with (rd := rd) (w := w) in G. destruct G. congruence.
Qed.

(** ** C55: dominated points, duplicates and the order of the rows do not matter, bit
    for bit, whatever the random numbers (docstring: "Dominated points are ignored") *)
Theorem C55_dominated_points_ignored :
  forall rd norm pw mean c normals A B ref mx, rounding rd -> (forall v, 0 <= norm v) ->
  rset_wdom mx A B -> rset_wdom mx B A ->
  hv_approx rd norm pw mean c normals A ref mx = hv_approx rd norm pw mean c normals B ref mx.
Proof.
  intros rd norm pw mean c normals A B ref mx HR HN AB BA. unfold hv_approx.
  assert (E : samples rd (map (direction rd norm) normals) (gains rd mx ref A) =
              samples rd (map (direction rd norm) normals) (gains rd mx ref B)).
  { induction normals as [|g l IH]; cbn [map samples]; auto.
    rewrite (sample_same rd mx ref A B); auto. now rewrite IH. apply HR. now apply direction_nonneg. }
  now rewrite E.
Qed.
Print Assumptions C55_dominated_points_ignored.

(** ** C55: weakly Pareto compliant: with the same random numbers a set that weakly
    dominates another one never gets a smaller value *)
Definition mono_mean (mean : list R -> R) : Prop := forall l l', Forall2 Rle l l' -> mean l <= mean l'.
Lemma samples_mono : forall rd mx ref A B ws la lb, mono rd -> rset_wdom mx A B -> (forall w, In w ws -> nonneg w) ->
  samples rd ws (gains rd mx ref A) = Ret la -> samples rd ws (gains rd mx ref B) = Ret lb ->
  Forall2 (fun a b => forall e, ege b e -> ege a e) la lb.
Proof.
  intros rd mx ref A B ws. induction ws as [|w ws IH]; intros la lb M W N EA EB; cbn [samples] in *.
  - injection EA as <-. injection EB as <-. constructor.
  - destruct (sample rd w (gains rd mx ref A)) as [x| | |] eqn:E1; cbn [bind] in EA; try discriminate.
    destruct (sample rd w (gains rd mx ref B)) as [y| | |] eqn:E2; cbn [bind] in EB; try discriminate.
    destruct (samples rd ws (gains rd mx ref A)) as [la'| | |]; cbn [bind] in EA; try discriminate.
    destruct (samples rd ws (gains rd mx ref B)) as [lb'| | |]; cbn [bind] in EB; try discriminate.
    injection EA as <-. injection EB as <-. constructor.
    + intros e. eapply sample_mono; eauto. apply N. simpl; auto.
    + apply IH; auto. intros. apply N. simpl; auto.
Qed.
Lemma finite_mono : forall la lb ra rb, Forall2 (fun a b => forall e, ege b e -> ege a e) la lb ->
  finite la = Ret ra -> finite lb = Ret rb -> Forall2 Rle rb ra.
Proof.
  intros la lb ra rb H. revert ra rb. induction H as [|a b la lb Hab H IH]; intros ra rb EA EB; cbn [finite] in *.
  - injection EA as <-. injection EB as <-. constructor.
  - destruct a as [|a|]; try discriminate. destruct b as [|b|]; try discriminate.
    destruct (finite la) as [ra'| | |]; cbn [bind] in EA; try discriminate.
    destruct (finite lb) as [rb'| | |]; cbn [bind] in EB; try discriminate.
    injection EA as <-. injection EB as <-. constructor; auto. apply (Hab b). cbn. lra.
Qed.
Lemma Forall2_map_mono : forall pw l l', (forall x y, In x l -> x <= y -> pw x <= pw y) -> Forall2 Rle l l' ->
  Forall2 Rle (map pw l) (map pw l').
Proof.
  intros pw l l' M H. induction H as [|x y l l' Hxy H IH]; cbn [map]; constructor.
  - apply M; simpl; auto.
  - apply IH. intros. apply M; simpl; auto.
Qed.

(** the values of the samples are not negative *)
Lemma samples_nonneg : forall rd mx ref A ws l r, rounding rd -> (forall w, In w ws -> nonneg w) ->
  samples rd ws (gains rd mx ref A) = Ret l -> finite l = Ret r -> forall x, In x r -> 0 <= x.
Proof.
  intros rd mx ref A ws. induction ws as [|w ws IH]; intros l r (M & Z & O) N EA EB; cbn [samples] in *.
  - injection EA as <-. injection EB as <-. intros x [].
  - destruct (sample rd w (gains rd mx ref A)) as [x| | |] eqn:E1; cbn [bind] in EA; try discriminate.
    destruct (samples rd ws (gains rd mx ref A)) as [la'| | |] eqn:E2; cbn [bind] in EA; try discriminate.
    injection EA as <-. cbn [finite] in EB. destruct x as [|x|]; try discriminate.
    destruct (finite la') as [r'| | |] eqn:E3; cbn [bind] in EB; try discriminate. injection EB as <-.
    intros y [<-|Hy].
    + change (ege (Fin x) 0). rewrite (sample_ge _ _ _ _ _ E1).
      destruct (gains rd mx ref A) as [|q l] eqn:G; [discriminate|]. exists q. split; simpl; auto.
      assert (Hq : In q (gains rd mx ref A)) by (rewrite G; simpl; auto).
      apply in_gains in Hq. destruct Hq as (a & _ & Eq & P). apply reach_ge. intros d Hd.
      rewrite Eq, gain_length in Hd. specialize (P d Hd). specialize (N w (or_introl eq_refl) d).
      destruct N as [N|N]; auto. right. rewrite <- Z. apply M. left. now apply Rdiv_lt_0_compat.
    + eapply IH; eauto. repeat split; auto. intros. apply N. simpl; auto.
Qed.

Theorem C55_weakly_pareto_compliant :
  forall rd norm pw mean c normals A B ref mx va vb, rounding rd -> (forall v, 0 <= norm v) -> 0 <= c ->
  (forall x y, 0 <= x <= y -> pw x <= pw y) -> mono_mean mean -> rset_wdom mx A B ->
  hv_approx rd norm pw mean c normals A ref mx = Ret va ->
  hv_approx rd norm pw mean c normals B ref mx = Ret vb -> vb <= va.
Proof.
  intros rd norm pw mean c normals A B ref mx va vb HR HN Hc HP HM W EA EB.
  assert (NN : forall w, In w (map (direction rd norm) normals) -> nonneg w).
  { intros w Hw. apply in_map_iff in Hw. destruct Hw as (g & <- & _). now apply direction_nonneg. }
  unfold hv_approx in *. destruct (assert_ _); cbn [bind] in *; try discriminate.
  destruct (samples rd _ (gains rd mx ref A)) as [la| | |] eqn:SA; cbn [bind] in EA; try discriminate.
  destruct (samples rd _ (gains rd mx ref B)) as [lb| | |] eqn:SB; cbn [bind] in EB; try discriminate.
  destruct (finite la) as [ra| | |] eqn:FA; cbn [bind] in EA; try discriminate.
  destruct (finite lb) as [rb| | |] eqn:FB; cbn [bind] in EB; try discriminate.
  injection EA as <-. injection EB as <-. apply HR. apply Rmult_le_compat_l; auto. apply HM.
  apply Forall2_map_mono.
  - intros x y Hx Hxy. apply HP. split; auto. eapply samples_nonneg with (rd := rd) (A := B); eauto.
  - apply (finite_mono la lb); auto. eapply samples_mono; eauto. apply HR.
Qed.
Print Assumptions C55_weakly_pareto_compliant.

Lemma power_mono : forall dim x y, 0 <= x <= y -> power dim x <= power dim y.
Proof. intros. unfold power. now apply pow_incr. Qed.
Lemma average_mono : mono_mean average.
Proof.
  intros l l' H. unfold average.
  assert (L : length l = length l') by (clear - H; induction H; simpl; congruence). rewrite <- L.
  unfold Rdiv. apply Rmult_le_compat_r.
  - destruct (length l) eqn:E; [cbn; rewrite Rinv_0; lra|]. left. apply Rinv_0_lt_compat. apply lt_0_INR. lia.
  - clear L. induction H; cbn [rsum fold_right]; [lra|]. unfold rsum in IHForall2. lra.
Qed.

(** ** C55: a value is returned exactly when some point strictly dominates the
    reference point; otherwise an exception is raised *)
Lemma gain_positive_rnd : forall mx ref p, doubles (length mx) [p] -> doubles (length mx) [ref] ->
  ((forall d, (d < length mx)%nat -> 0 < rcoord (gain rnd mx ref p) d) <-> strictly_better mx p ref).
Proof.
  intros mx ref p Dp Dr. unfold strictly_better. unfold doubles in *.
  assert (K : forall d, (d < length mx)%nat ->
     (0 < rcoord (gain rnd mx ref p) d <-> if nth d mx false then rcoord ref d < rcoord p d else rcoord p d < rcoord ref d)).
  { intros d Hd. rewrite gain_coord by auto. cbn zeta.
    pose proof (Dp p d (or_introl eq_refl) Hd) as D1. pose proof (Dr ref d (or_introl eq_refl) Hd) as D2.
    destruct (nth d mx false).
    - pose proof (minus_sign _ _ D1 D2) as S.
      replace (rnd (rcoord ref d - rcoord p d)) with (- rnd (rcoord p d - rcoord ref d)).
      2:{ rewrite <- (proj2 (proj2 rounding_rnd)). f_equal. lra. }
      split; intros; apply Rnot_le_lt; intros C; [apply S in C; lra|]. assert (rcoord p d <= rcoord ref d) by (apply S; lra). lra.
    - pose proof (minus_sign _ _ D2 D1) as S.
      split; intros; apply Rnot_le_lt; intros C; [apply S in C; lra|]. assert (rcoord ref d <= rcoord p d) by (apply S; lra). lra. }
  split; intros H d Hd; [exact (proj1 (K d Hd) (H d Hd))|exact (proj2 (K d Hd) (H d Hd))].
Qed.
Lemma reach_finite : forall rd w q d, (d < length q)%nat -> rcoord w d <> 0 -> reach rd w q <> PosInf.
Proof.
  intros rd w q d Hd Hw C.
  assert (H : ege (reach rd w q) (rd (rcoord q d / rcoord w d) + 1)) by (rewrite C; exact I).
  rewrite reach_ge in H. destruct (H d Hd); [auto|lra].
Qed.
Lemma reach_not_neg : forall rd w q, reach rd w q <> NegInf.
Proof.
  intros rd w q C.
  set (lo := fold_right (fun d m => Rmin m (rd (rcoord q d / rcoord w d))) 0 (seq 0 (length q))).
  assert (H : ege (reach rd w q) lo).
  { apply reach_ge. intros d Hd. right. unfold lo.
    assert (I : In d (seq 0 (length q))) by (apply in_seq; lia). revert I. generalize (seq 0 (length q)).
    induction l as [|x l IH]; intros []; cbn [fold_right].
    - subst. apply Rmin_r.
    - eapply Rle_trans; [apply Rmin_l|auto]. }
  rewrite C in H. exact H.
Qed.
Lemma sample_fin : forall rd w rows dim d, rows <> [] -> (forall q, In q rows -> length q = dim) -> (d < dim)%nat ->
  rcoord w d <> 0 -> exists v, sample rd w rows = Ret (Fin v).
Proof.
  intros rd w rows dim d Hne HL Hd Hw. unfold sample. destruct rows as [|q rows]; [tauto|].
  assert (G : forall l x, (forall q, In q l -> length q = dim) ->
    exists v, fold_left (fun m q => emax Rle_bool m (reach rd w q)) l (Fin x) = Fin v).
  { clear - Hd Hw. induction l as [|q l IH]; intros x HL; cbn [fold_left]; eauto.
    assert (Hq : exists y, reach rd w q = Fin y).
    { destruct (reach rd w q) eqn:E; eauto. now apply reach_not_neg in E.
      exfalso. apply (reach_finite rd w q d) in E; auto. rewrite HL; simpl; auto. }
    destruct Hq as (y & ->). unfold emax at 2. cbn [eleb]. destruct (Rle_bool x y); apply IH; intros; apply HL; simpl; auto. }
  cbn [fold_left].
  assert (Hq : exists y, reach rd w q = Fin y).
  { destruct (reach rd w q) eqn:E; eauto. now apply reach_not_neg in E.
    exfalso. apply (reach_finite rd w q d) in E; auto. rewrite HL; simpl; auto. }
  destruct Hq as (y & ->). change (emax Rle_bool NegInf (Fin y)) with (Fin y).
  destruct (G rows y) as (v & ->). intros; apply HL; simpl; auto. eauto.
Qed.

Theorem C55_defined_iff :
  forall norm pw mean c normals data ref mx, normals <> [] -> length ref = length mx ->
  proper rnd norm (length mx) normals -> doubles (length mx) data -> doubles (length mx) [ref] ->
  ((exists v, hv_approx rnd norm pw mean c normals data ref mx = Ret v) <->
   (exists p, In p data /\ strictly_better mx p ref)) /\
  ((forall v, hv_approx rnd norm pw mean c normals data ref mx <> Ret v) ->
   hv_approx rnd norm pw mean c normals data ref mx = AssertFailed).
Proof.
  intros norm pw mean c normals data ref mx Hn HL HP DD DR.
  assert (G : gains rnd mx ref data <> [] <-> exists p, In p data /\ strictly_better mx p ref).
  { split.
    - intros H. destruct (gains rnd mx ref data) as [|q l] eqn:E; [tauto|].
      assert (Hq : In q (gains rnd mx ref data)) by (rewrite E; simpl; auto).
      apply in_gains in Hq. destruct Hq as (p & Hp & -> & P). exists p. split; auto.
      apply gain_positive_rnd; auto. intros p' d [<-|[]] Hd; auto.
    - intros (p & Hp & S) C. assert (In (gain rnd mx ref p) (gains rnd mx ref data)).
      { apply in_gains. exists p. split; auto. split; auto. apply gain_positive_rnd; auto. intros p' d [<-|[]] Hd; auto. }
      rewrite C in H. destruct H. }
  assert (LQ : forall q, In q (gains rnd mx ref data) -> length q = length mx).
  { intros q Hq. apply in_gains in Hq. destruct Hq as (a & _ & -> & _). apply gain_length. }
  assert (K : gains rnd mx ref data <> [] -> exists v, hv_approx rnd norm pw mean c normals data ref mx = Ret v).
  { intros Hg. unfold hv_approx. rewrite (proj2 (Nat.eqb_eq _ _) HL). cbn [assert_ bind].
    assert (S : exists r, (e <- samples rnd (map (direction rnd norm) normals) (gains rnd mx ref data);; finite e) = Ret r).
    { clear Hn. induction normals as [|g l IH]; cbn [map samples]. exists []. reflexivity.
      destruct (HP g (or_introl eq_refl)) as (d & Hd & Hw).
      destruct (sample_fin rnd (direction rnd norm g) (gains rnd mx ref data) (length mx) d Hg LQ Hd Hw) as (v & ->).
      cbn [bind]. destruct IH as (r & E). intros g' Hg'. apply HP. simpl; auto.
      destruct (samples rnd (map (direction rnd norm) l) (gains rnd mx ref data)); cbn [bind] in *; try discriminate.
      cbn [finite]. rewrite E. cbn [bind]. eauto. }
    destruct S as (r & S). destruct (samples rnd _ _); cbn [bind] in *; try discriminate. rewrite S. cbn [bind]. eauto. }
  assert (K' : gains rnd mx ref data = [] -> hv_approx rnd norm pw mean c normals data ref mx = AssertFailed).
  { intros Hg. unfold hv_approx. rewrite (proj2 (Nat.eqb_eq _ _) HL), Hg. cbn [assert_ bind].
    destruct normals; [tauto|]. reflexivity. }
  split.
  - rewrite <- G. split; auto. intros (v & E) C. rewrite K' in E by auto. discriminate.
  - intros H. destruct (gains rnd mx ref data) eqn:E; auto. destruct K as (v & Ev). discriminate. now apply H in Ev.
Qed.
Print Assumptions C55_defined_iff.

(** "the value for a set without a point that strictly dominates the reference point
    is 0, as it is for hypervolume" is false: the call raises an exception *)
Theorem C55_zero_without_contribution_refuted :
  exists data ref v, HvSpec.hypervolume data ref v /\ v = 0%Z /\
  forall norm pw mean c normals, normals <> [] ->
    hv_approx rnd norm pw mean c normals (map (map IZR) data) (map IZR ref) [false; false] = AssertFailed.
Proof.
  exists [[2; 0]%Z], [1; 1]%Z, (HvSpec.V 0 [1; 1]%Z 2 [[2; 0]%Z]). split; [|split].
  - apply HvSpec.V_hypervolume. intros p i [<-|[]] Hi. destruct i as [|[|i]]; cbn in *; lia.
  - reflexivity.
  - intros norm pw mean c normals Hn. unfold hv_approx. cbn [map length Nat.eqb assert_ bind].
    assert (E : gains rnd [false; false] [1; 1] [[2; 0]] = []).
    { unfold gains, gain. cbn [map length seq nth rcoord filter]. unfold all_positive. cbn [forallb].
      unfold rcoord; cbn [nth]. rewrite Rle_bool_true; [reflexivity|].
      apply Rle_trans with (rnd 0); [apply rnd_mono; lra|rewrite rnd_zero; lra]. }
    rewrite E. destruct normals; [tauto|]. reflexivity.
Qed.
Print Assumptions C55_zero_without_contribution_refuted.

(** ** C55: maximising is minimising the negated objectives *)
Definition negate (mx : list bool) (p : rpoint) : rpoint :=
  map (fun d => if nth d mx false then - rcoord p d else rcoord p d) (seq 0 (length mx)).
Lemma negate_coord : forall mx p d, (d < length mx)%nat ->
  rcoord (negate mx p) d = if nth d mx false then - rcoord p d else rcoord p d.
Proof.
  intros. unfold negate, rcoord at 1. rewrite nth_map_lt with (d0 := 0%nat) by (rewrite seq_length; auto).
  now rewrite seq_nth by auto.
Qed.
Theorem C55_maximise_is_negation :
  forall rd norm pw mean c normals data ref mx, rounding rd -> length ref = length mx ->
  hv_approx rd norm pw mean c normals data ref mx =
  hv_approx rd norm pw mean c normals (map (negate mx) data) (negate mx ref) (repeat false (length mx)).
Proof.
  intros rd norm pw mean c normals data ref mx (M & Z & O) HL. unfold hv_approx.
  assert (E : gains rd mx ref data = gains rd (repeat false (length mx)) (negate mx ref) (map (negate mx) data)).
  { unfold gains. f_equal. rewrite map_map. apply map_ext. intros p. unfold gain. rewrite repeat_length.
    apply map_ext_in. intros d Hd. apply in_seq in Hd. cbn zeta. rewrite nth_repeat, !negate_coord by lia.
    destruct (nth d mx false); auto. rewrite <- O. f_equal. lra. }
  rewrite <- E. replace (length (negate mx ref)) with (length mx).
  - now rewrite HL, repeat_length.
  - unfold negate. now rewrite map_length, seq_length.
Qed.
Print Assumptions C55_maximise_is_negation.

(** ** A case that meets the hypotheses: a dominated point is added to the set *)
Example C55_case :
  let A := [[1; 1]] in let B := [[1; 1]; [2; 1]] in
  rset_wdom [false; false] A B /\ rset_wdom [false; false] B A /\
  proper rnd (fun _ => 1) 2 [[1; -1]] /\ doubles 2 B /\ doubles 2 [[3; 3]] /\
  (exists p, In p B /\ strictly_better [false; false] p [3; 3]) /\
  (exists v, hv_approx rnd (fun _ => 1) (power 2) average 1 [[1; -1]] B [3; 3] [false; false] = Ret v).
Proof.
  intros A B.
  assert (W : rset_wdom [false; false] A B /\ rset_wdom [false; false] B A).
  { split; intros b Hb; cbn in Hb.
    - exists [1; 1]. split; [simpl; auto|]. intros d Hd. cbn [length] in Hd.
      destruct Hb as [<-|[<-|[]]]; destruct d as [|[|d]]; unfold rcoord; cbn [nth]; try lra; lia.
    - exists b. split; [simpl; tauto|]. intros d Hd. destruct (nth d [false; false] false); lra. }
  assert (P : proper rnd (fun _ => 1) 2 [[1; -1]]).
  { intros g [<-|[]]. exists 0%nat. split; [lia|]. unfold direction, rcoord. cbn [map nth].
    rewrite Rabs_pos_eq by lra. replace (1 / 1) with 1 by lra. rewrite (rnd_int 1) by lia. lra. }
  assert (I : forall z, (Z.abs z <= 100)%Z -> is_double (IZR z)).
  { intros z Hz. apply double_int. lia. }
  assert (D : doubles 2 B).
  { intros p d Hp Hd. cbn in Hp. destruct Hp as [<-|[<-|[]]]; destruct d as [|[|d]]; unfold rcoord; cbn [nth]; try lia; apply I; lia. }
  assert (D' : doubles 2 [[3; 3]]).
  { intros p d Hp Hd. cbn in Hp. destruct Hp as [<-|[]]; destruct d as [|[|d]]; unfold rcoord; cbn [nth]; try lia; apply I; lia. }
  assert (S : exists p, In p B /\ strictly_better [false; false] p [3; 3]).
  { exists [1; 1]. split; [simpl; auto|]. intros d Hd. cbn [length] in Hd.
    destruct d as [|[|d]]; unfold rcoord; cbn [nth]; try lra; lia. }
  split; [tauto|]. split; [tauto|]. split; auto. split; auto. split; auto. split; auto.
  apply C55_defined_iff; auto. discriminate.
Qed.
