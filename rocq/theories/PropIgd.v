(** Properties C18 and C19 (GD, IGD, averaged Hausdorff distance, IGD+). *)
From Coq Require Import List ZArith Reals Lia Lra Bool Arith.
From Verif Require Import Base Spec NondomModel NondomMain IndSpec EpsModel EpsProofs
  IgdSpec IgdModel IgdProofs.
Import ListNotations.
Open Scope R_scope.

Lemma euclid_sq : forall mx a s,
  euclid (length mx) a s = sqrt (IZR (sq_dist (length mx) (minmax_from_bool mx) false a s)).
Proof. intros. unfold euclid. now rewrite sq_dist_euclid. Qed.

(** ** C18

    [v] is the p-mean over the rows of [A] of the distance to the nearest row of
    [S]. *)
Definition p_mean_nearest (n : nat) (A S : list point) (p : nat) (v : R) : Prop :=
  0 <= v /\ exists ms, nearest_dists (euclid n) A S ms /\
    v ^ p = rlist_sum (map (fun m => m ^ p) ms) / INR (length A).

Theorem C18_gd_p_definition :
  forall (mx : list bool) (A S : list point) (p : nat),
  A <> [] -> S <> [] -> (1 <= p)%nat ->
  exists v, GD_p A S mx p = Fin v /\ p_mean_nearest (length mx) A S p v.
Proof.
  intros. unfold GD_p.
  destruct (gd_common_ok (length mx) (minmax_from_bool mx) false true p
    (euclid (length mx)) A S) as (v & ms & E & H2 & H3 & H4 & H5); auto using euclid_sq.
  exists v. split; auto. split; auto. exists ms. auto.
Qed.
Print Assumptions C18_gd_p_definition.

Theorem C18_igd_p_definition :
  forall (mx : list bool) (A S : list point) (p : nat),
  A <> [] -> S <> [] -> (1 <= p)%nat ->
  exists v, IGD_p A S mx p = Fin v /\ p_mean_nearest (length mx) S A p v.
Proof. intros. exact (C18_gd_p_definition mx S A p H0 H H1). Qed.
Print Assumptions C18_igd_p_definition.

(** GD and IGD: arithmetic means *)
Theorem C18_gd_igd_definition :
  forall (mx : list bool) (A S : list point),
  A <> [] -> S <> [] ->
  (exists v ms, GD A S mx = Fin v /\ nearest_dists (euclid (length mx)) A S ms /\
     v = rlist_sum ms / INR (length A)) /\
  (exists v ms, IGD A S mx = Fin v /\ nearest_dists (euclid (length mx)) S A ms /\
     v = rlist_sum ms / INR (length S)).
Proof.
  assert (K : forall mx A S, A <> [] -> S <> [] ->
    exists v ms, GD A S mx = Fin v /\ nearest_dists (euclid (length mx)) A S ms /\
     v = rlist_sum ms / INR (length A)).
  { intros. unfold GD.
    destruct (gd_common_ok (length mx) (minmax_from_bool mx) false false 1
      (euclid (length mx)) A S) as (v & ms & E & H2 & H3 & H4 & H5); auto using euclid_sq.
    exists v, ms. split; auto. split; auto. rewrite pow_1 in H5. rewrite H5.
    f_equal. f_equal. rewrite <- (map_id ms) at 2. apply map_ext. intros. apply pow_1. }
  intros. split. apply K; auto. exact (K mx S A H0 H).
Qed.
Print Assumptions C18_gd_igd_definition.

(** 0 exactly when every row of the first set occurs in the second one *)
Theorem C18_zero_iff_included :
  forall (mx : list bool) (A S : list point) (p : nat) v,
  wf_points (length mx) A -> wf_points (length mx) S ->
  A <> [] -> S <> [] -> (1 <= p)%nat ->
  (IGD_p A S mx p = Fin v -> (v = 0 <-> incl S A)) /\
  (IGD A S mx = Fin v -> (v = 0 <-> incl S A)) /\
  (GD_p A S mx p = Fin v -> (v = 0 <-> incl A S)) /\
  (GD A S mx = Fin v -> (v = 0 <-> incl A S)).
Proof.
  assert (K : forall mx A S p v psize, wf_points (length mx) A -> wf_points (length mx) S ->
    A <> [] -> S <> [] -> (1 <= p)%nat -> psize = true \/ p = 1%nat ->
    gd_common (length mx) (minmax_from_bool mx) A S false psize p = Fin v -> (v = 0 <-> incl A S)).
  { intros mx A S p v psize WA WS HA HS Hp Hps HE.
    destruct (gd_common_ok (length mx) (minmax_from_bool mx) false psize p
      (euclid (length mx)) A S) as (v' & ms & E & H2 & H3 & H4 & H5); auto using euclid_sq.
    rewrite HE in E. inversion E; subst v'.
    rewrite (mean_zero_iff p ms v (INR (length A))); auto using INR_len_pos.
    rewrite (nearest_dists_zero (euclid (length mx)) A S ms); auto using euclid_nonneg.
    split.
    - intros K a Ha. destruct (K a Ha) as (s & Hs & Q).
      apply euclid_zero in Q; [now subst|apply (wf_points_In _ A)|apply (wf_points_In _ S)]; auto.
    - intros I a Ha. exists a. split; auto.
      apply euclid_zero; auto; apply (wf_points_In _ A); auto. }
  intros mx A S p v WA WS HA HS Hp.
  repeat match goal with |- _ /\ _ => split end; intros H.
  - apply (K mx S A p v true); auto.
  - apply (K mx S A 1%nat v false); auto.
  - apply (K mx A S p v true); auto.
  - apply (K mx A S 1%nat v false); auto.
Qed.
Print Assumptions C18_zero_iff_included.

(** averaged Hausdorff distance: the larger of the two directions; 0 iff the two
    sets have the same rows *)
Theorem C18_avg_hausdorff_definition :
  forall (mx : list bool) (A S : list point) (p : nat),
  A <> [] -> S <> [] -> (1 <= p)%nat ->
  exists v gd igd, avg_Hausdorff_dist A S mx p = Fin v /\
    p_mean_nearest (length mx) A S p gd /\ p_mean_nearest (length mx) S A p igd /\
    v = Rmax gd igd /\ 0 <= v /\
    (wf_points (length mx) A -> wf_points (length mx) S ->
       (v = 0 <-> forall x, In x A <-> In x S)).
Proof.
  intros mx A S p HA HS Hp.
  destruct (C18_gd_p_definition mx A S p HA HS Hp) as (gd & E1 & M1).
  destruct (C18_gd_p_definition mx S A p HS HA Hp) as (igd & E2 & M2).
  exists (Rmax gd igd), gd, igd.
  unfold avg_Hausdorff_dist. fold (GD_p A S mx p). fold (GD_p S A mx p).
  rewrite E1, E2. split.
  { unfold emax, eleb, Rleb, Rmax. destruct (Rle_dec gd igd); auto. }
  split; auto. split; auto. split; auto.
  pose proof (proj1 M1). pose proof (proj1 M2).
  split. { eapply Rle_trans; [|apply Rmax_l]. auto. }
  intros WA WS.
  destruct (C18_zero_iff_included mx A S p gd WA WS HA HS Hp) as (_ & _ & K1 & _).
  destruct (C18_zero_iff_included mx S A p igd WS WA HS HA Hp) as (_ & _ & K2 & _).
  specialize (K1 E1). specialize (K2 E2).
  split.
  - intros Z. pose proof (Rmax_l gd igd). pose proof (Rmax_r gd igd).
    assert (I1 : incl A S) by (apply K1; lra). assert (I2 : incl S A) by (apply K2; lra).
    intros x. split; auto.
  - intros I. replace gd with 0. replace igd with 0. apply Rmax_left; lra.
    symmetry; apply K2; intros x; apply I. symmetry; apply K1; intros x; apply I.
Qed.
Print Assumptions C18_avg_hausdorff_definition.

Lemma fold_posinf : forall dim mm plus p A g, g = PosInf \/ A <> [] -> g <> NegInf ->
  fold_left (fun gd a => add_ext gd (pow_ext (sqrt_ext (min_sq_dist dim mm plus [] a)) p)) A g = PosInf.
Proof.
  intros dim mm plus p. induction A; intros g H N; cbn [fold_left].
  - destruct H; auto. tauto.
  - cbn [min_sq_dist fold_left sqrt_ext pow_ext].
    assert (Q : add_ext g PosInf = PosInf) by (destruct g; simpl; auto; tauto).
    apply IHA; unfold min_sq_dist; cbn [fold_left sqrt_ext pow_ext]; rewrite Q; auto. discriminate.
Qed.

(** an empty set on either side gives +infinity *)
Theorem C18_empty_sets :
  forall (mx : list bool) (A S : list point) (p : nat), A = [] \/ S = [] ->
  GD A S mx = PosInf /\ IGD A S mx = PosInf /\ GD_p A S mx p = PosInf /\
  IGD_p A S mx p = PosInf /\ IGD_plus A S mx = PosInf /\
  avg_Hausdorff_dist A S mx p = PosInf.
Proof.
  assert (K : forall dim mm plus psize p A S, A = [] \/ S = [] ->
    gd_common dim mm A S plus psize p = PosInf).
  { intros. unfold gd_common. destruct A as [|a A]; auto. destruct H; subst; try discriminate.
    rewrite fold_posinf; [|right; discriminate|discriminate].
    destruct (Nat.eqb p 1); auto. destruct psize; auto. }
  intros. assert (S = [] \/ A = []) by tauto.
  unfold GD, IGD, GD_p, IGD_p, IGD_plus, avg_Hausdorff_dist.
  rewrite !K by auto. repeat split; auto.
Qed.
Print Assumptions C18_empty_sets.

Example C18_nonvacuous :
  exists ms, nearest_dists (euclid 2) [[0;0];[3;4]]%Z [[3;4]]%Z ms /\ ms = [5; 0].
Proof.
  exists [5; 0]. split; auto. constructor; [split|constructor; [split|constructor]].
  - exists [3;4]%Z. split. now left. unfold euclid, rsum, coord. simpl.
    replace (_ + _) with (5 * 5) by ring. symmetry. apply sqrt_square. lra.
  - intros s [<-|[]]. unfold euclid, rsum, coord. simpl.
    replace (_ + _) with (5 * 5) by ring. rewrite sqrt_square; lra.
  - exists [3;4]%Z. split. now left. symmetry. now apply euclid_zero.
  - intros. apply euclid_nonneg.
Qed.

(** ** C19 *)
Theorem C19_igd_plus_definition :
  forall (mx : list bool) (A Rf : list point), A <> [] -> Rf <> [] ->
  exists v ms, IGD_plus A Rf mx = Fin v /\
    nearest_dists (fun r a => dist_plus mx a r) Rf A ms /\
    v = rlist_sum ms / INR (length Rf).
Proof.
  intros. unfold IGD_plus.
  destruct (gd_common_ok (length mx) (minmax_from_bool mx) true true 1
      (fun r a => dist_plus mx a r) Rf A) as (v & ms & E & H2 & H3 & H4 & H5); auto.
  { intros. unfold dist_plus. now rewrite sq_dist_plus. }
  exists v, ms. split; auto. split; auto. rewrite pow_1 in H5. rewrite H5.
  f_equal. f_equal. rewrite <- (map_id ms) at 2. apply map_ext. intros. apply pow_1.
Qed.
Print Assumptions C19_igd_plus_definition.

Theorem C19_igd_plus_weakly_compliant :
  forall (mx : list bool) (A B Rf : list point) va vb,
  A <> [] -> B <> [] -> Rf <> [] ->
  set_wdom mx A B ->
  IGD_plus A Rf mx = Fin va -> IGD_plus B Rf mx = Fin vb ->
  va <= vb.
Proof.
  intros mx A B Rf va vb HA HB HR W EA EB.
  destruct (C19_igd_plus_definition mx A Rf HA HR) as (v & ms & E & N & ->).
  destruct (C19_igd_plus_definition mx B Rf HB HR) as (v' & ms' & E' & N' & ->).
  rewrite EA in E. rewrite EB in E'. inversion E; inversion E'.
  unfold Rdiv. apply Rmult_le_compat_r.
  - left. apply Rinv_0_lt_compat. now apply INR_len_pos.
  - apply Forall2_sum_le.
    eapply nearest_dists_compare; [exact N|exact N'|]. intros r b Hb. cbv beta.
    destruct (W b Hb) as (a & Ha & D). exists a. split; auto. now apply dist_plus_mono.
Qed.
Print Assumptions C19_igd_plus_weakly_compliant.

Theorem C19_zero_iff_weakly_dominates :
  forall (mx : list bool) (A Rf : list point) v,
  A <> [] -> Rf <> [] -> IGD_plus A Rf mx = Fin v ->
  0 <= v /\ (v = 0 <-> set_wdom mx A Rf).
Proof.
  intros mx A Rf v HA HR EA. unfold IGD_plus in EA.
  destruct (gd_common_ok (length mx) (minmax_from_bool mx) true true 1
      (fun r a => dist_plus mx a r) Rf A) as (v' & ms & E & H2 & H3 & H4 & H5); auto.
  { intros. unfold dist_plus. now rewrite sq_dist_plus. }
  rewrite EA in E. inversion E; subst v'. split; auto.
  rewrite (mean_zero_iff 1 ms v (INR (length Rf))); auto using INR_len_pos.
  rewrite (nearest_dists_zero _ Rf A ms (fun r a => dist_plus_nonneg mx a r)); auto.
  unfold set_wdom. split; intros K r Hr; destruct (K r Hr) as (a & Ha & Q); exists a; split; auto;
    now apply dist_plus_zero.
Qed.
Print Assumptions C19_zero_iff_weakly_dominates.

(** The plain IGD is not compliant: here A weakly dominates B, and yet
    IGD(A) > IGD(B). *)
Theorem C19_igd_not_compliant :
  exists (mx : list bool) (A B Rf : list point) va vb,
    set_wdom mx A B /\ IGD A Rf mx = Fin va /\ IGD B Rf mx = Fin vb /\ va > vb.
Proof.
  exists [false;false], [[0;0]]%Z, [[3;4]]%Z, [[3;4]]%Z.
  destruct (C18_gd_igd_definition [false;false] [[0;0]]%Z [[3;4]]%Z) as [_ (v & ms & E & N & V)];
    try discriminate.
  destruct (C18_gd_igd_definition [false;false] [[3;4]]%Z [[3;4]]%Z) as [_ (v' & ms' & E' & N' & V')];
    try discriminate.
  exists v, v'. split; [|split; [auto|split; [auto|]]].
  - intros b [<-|[]]. exists [0;0]%Z. split. now left. intros d Hd.
    destruct d as [|[|d]]; unfold as_good, coord; simpl; try lia. simpl in Hd; lia.
  - destruct (C18_zero_iff_included [false;false] [[3;4]]%Z [[3;4]]%Z 1 v') as (_ & Z & _);
      try discriminate; try (repeat constructor).
    assert (v' = 0) by (apply (Z E'); intros x; auto). subst v'.
    destruct (C18_zero_iff_included [false;false] [[0;0]]%Z [[3;4]]%Z 1 v) as (_ & Z' & _);
      try discriminate; try (repeat constructor).
    assert (v <> 0).
    { intro C. apply (Z' E) in C. destruct (C [3;4]%Z (or_introl eq_refl)) as [Q|[]]. discriminate. }
    assert (0 <= v); [|lra].
    rewrite V. unfold Rdiv. apply Rmult_le_pos.
    + apply rlist_sum_nonneg. eapply nearest_dists_nonneg; [|exact N]. apply euclid_nonneg.
    + left. apply Rinv_0_lt_compat. simpl. lra.
Qed.
Print Assumptions C19_igd_not_compliant.

Example C19_nonvacuous :
  set_wdom [false;true] [[1;5]]%Z [[2;5];[1;4]]%Z /\
  ~ set_wdom [false;true] [[2;5];[1;4]]%Z [[1;5]]%Z.
Proof.
  split.
  - intros b [<-|[<-|[]]]; exists [1;5]%Z; (split; [now left|]); intros d Hd;
    destruct d as [|[|d]]; unfold as_good, coord; simpl; try lia; simpl in Hd; lia.
  - intros W. destruct (W [1;5]%Z (or_introl eq_refl)) as (a & [<-|[<-|[]]] & D).
    specialize (D 0%nat ltac:(simpl; lia)). unfold as_good, coord in D. simpl in D. lia.
    specialize (D 1%nat ltac:(simpl; lia)). unfold as_good, coord in D. simpl in D. lia.
Qed.
