(** Property C55, continued: what hv_approx estimates.  In exact arithmetic every
    sample is the distance from the reference point to the end of the dominated region
    along one ray, and the mean of the estimate over the directions is the
    hypervolume.

    Specification: [on_ray] below and HvSpec.hypervolume.  The integral is the Riemann
    integral of Coquelicot. *)
From Coq Require Import List ZArith Lia Bool Arith Reals Lra.
From Coquelicot Require Import Coquelicot.
From Flocq Require Import Core.
From Verif Require Import Base EpsModel EpsFloatModel HvApproxModel PropEpsFloat PropHvApprox.
From Verif Require HvSpec.
Import ListNotations.
Open Scope R_scope.

(** the point at distance [t] from [ref] in the improving direction [w] *)
Definition on_ray (mx : list bool) (ref w : rpoint) (t : R) : rpoint :=
  map (fun d => if nth d mx false then rcoord ref d + t * rcoord w d else rcoord ref d - t * rcoord w d)
      (seq 0 (length mx)).
(** a direction of the positive orthant *)
Definition direction_of (dim : nat) (w : rpoint) : Prop :=
  nonneg w /\ exists d, (d < dim)%nat /\ 0 < rcoord w d.

Lemma on_ray_coord : forall mx ref w t d, (d < length mx)%nat ->
  rcoord (on_ray mx ref w t) d = if nth d mx false then rcoord ref d + t * rcoord w d else rcoord ref d - t * rcoord w d.
Proof.
  intros. unfold on_ray, rcoord at 1. rewrite nth_map_lt with (d0 := 0%nat) by (rewrite seq_length; auto).
  now rewrite seq_nth by auto.
Qed.
Lemma gain_positive_exact : forall mx ref p,
  (forall d, (d < length mx)%nat -> 0 < rcoord (gain exact mx ref p) d) <-> strictly_better mx p ref.
Proof.
  intros mx ref p. unfold strictly_better. split; intros H d Hd; specialize (H d Hd);
  [rewrite gain_coord in H by auto|rewrite gain_coord by auto]; unfold exact in *; cbn zeta in *;
  destruct (nth d mx false); lra.
Qed.
Lemma div_ge : forall x w e, 0 < w -> (e <= x / w <-> e * w <= x).
Proof.
  intros x w e Hw. split; intros H.
  - apply Rmult_le_compat_r with (r := w) in H; [|lra]. replace (x / w * w) with x in H by (field; lra). auto.
  - apply Rmult_le_reg_r with w; auto. replace (x / w * w) with x by (field; lra). auto.
Qed.
Lemma reach_ray : forall mx ref p w t, nonneg w -> strictly_better mx p ref ->
  (ege (reach exact w (gain exact mx ref p)) t <-> rwdom mx p (on_ray mx ref w t)).
Proof.
  intros mx ref p w t N S. rewrite reach_ge, gain_length. unfold rwdom.
  assert (K : forall d, (d < length mx)%nat ->
    ((rcoord w d = 0 \/ t <= exact (rcoord (gain exact mx ref p) d / rcoord w d)) <->
     if nth d mx false then rcoord (on_ray mx ref w t) d <= rcoord p d else rcoord p d <= rcoord (on_ray mx ref w t) d)).
  { intros d Hd. rewrite on_ray_coord, gain_coord by auto. unfold exact. cbn zeta. specialize (S d Hd).
    destruct (N d) as [P|Z].
    - rewrite div_ge by auto. destruct (nth d mx false); split; intros H; try (destruct H; lra); right; lra.
    - rewrite <- Z. destruct (nth d mx false); split; intros H; auto; lra. }
  split; intros H d Hd; [exact (proj1 (K d Hd) (H d Hd))|exact (proj2 (K d Hd) (H d Hd))].
Qed.

(** ** C55: the sample of direction [w] is the length of the part of the ray that is
    dominated *)
Theorem C55_sample_is_ray_length : forall mx ref data w, direction_of (length mx) w ->
  (exists p, In p data /\ strictly_better mx p ref) ->
  exists s, sample exact w (gains exact mx ref data) = Ret (Fin s) /\ 0 < s /\
  forall t, t <= s <-> exists p, In p data /\ strictly_better mx p ref /\ rwdom mx p (on_ray mx ref w t).
Proof.
  intros mx ref data w (N & d0 & Hd0 & P0) (p & Hp & S).
  assert (Hin : In (gain exact mx ref p) (gains exact mx ref data)).
  { apply in_gains. exists p. split; auto. split; auto. now apply gain_positive_exact. }
  destruct (sample_fin exact w (gains exact mx ref data) (length mx) d0) as (s & E); auto; try lra.
  { intros C. rewrite C in Hin. destruct Hin. }
  { intros q Hq. apply in_gains in Hq. destruct Hq as (a & _ & -> & _). apply gain_length. }
  assert (K : forall t, t <= s <-> exists p, In p data /\ strictly_better mx p ref /\ rwdom mx p (on_ray mx ref w t)).
  { intros t. change (t <= s) with (ege (Fin s) t). rewrite (sample_ge _ _ _ _ _ E). split.
    - intros (q & Hq & H). apply in_gains in Hq. destruct Hq as (a & Ha & -> & G). apply gain_positive_exact in G.
      exists a. split; auto. split; auto. now apply reach_ray.
    - intros (a & Ha & G & W). exists (gain exact mx ref a). split.
      + apply in_gains. exists a. split; auto. split; auto. now apply gain_positive_exact.
      + now apply reach_ray. }
  exists s. split; auto. split; auto.
  set (M := fold_right (fun d m => Rmin m (rcoord (gain exact mx ref p) d / (rcoord w d + 1))) 1 (seq 0 (length mx))).
  assert (MP : 0 < M).
  { unfold M. assert (I : forall d, In d (seq 0 (length mx)) -> (d < length mx)%nat) by (intros d H; apply in_seq in H; lia).
    revert I. generalize (seq 0 (length mx)). induction l as [|d l IH]; intros I; cbn [fold_right]; [lra|].
    apply Rmin_glb_lt. apply IH. intros; apply I; simpl; auto. apply Rdiv_lt_0_compat.
    apply (proj2 (gain_positive_exact mx ref p) S). apply I; simpl; auto. pose proof (N d). lra. }
  assert (ML : forall d, (d < length mx)%nat -> M * rcoord w d <= rcoord (gain exact mx ref p) d).
  { intros d Hd. assert (L : M <= rcoord (gain exact mx ref p) d / (rcoord w d + 1)).
    { unfold M. assert (I : In d (seq 0 (length mx))) by (apply in_seq; lia). revert I. generalize (seq 0 (length mx)).
      induction l as [|x l IH]; intros []; cbn [fold_right]. subst; apply Rmin_r. eapply Rle_trans; [apply Rmin_l|auto]. }
    pose proof (N d). apply div_ge in L; [|lra]. lra. }
  apply Rlt_le_trans with M; auto. apply K. exists p. split; auto. split; auto.
  intros d Hd. rewrite on_ray_coord by auto. specialize (ML d Hd). rewrite gain_coord in ML by auto.
  unfold exact in ML. cbn zeta in ML. destruct (nth d mx false); lra.
Qed.
Print Assumptions C55_sample_is_ray_length.

(** ** The estimate is the average of the powers of the ray lengths *)
Definition value (mx : list bool) (ref : rpoint) (data : list rpoint) (w : rpoint) : R :=
  match sample exact w (gains exact mx ref data) with Ret (Fin s) => s ^ length mx | _ => 0 end.

Theorem C55_estimate_is_average :
  forall norm c normals data ref mx, length ref = length mx ->
  (forall g, In g normals -> direction_of (length mx) (direction exact norm g)) ->
  (exists p, In p data /\ strictly_better mx p ref) ->
  hv_approx exact norm (power (length mx)) average c normals data ref mx =
  Ret (c * average (map (fun g => value mx ref data (direction exact norm g)) normals)).
Proof.
  intros norm c normals data ref mx HL HD HP. unfold hv_approx. rewrite (proj2 (Nat.eqb_eq _ _) HL). cbn [assert_ bind].
  assert (S : exists r, (e <- samples exact (map (direction exact norm) normals) (gains exact mx ref data);; finite e) = Ret r /\
     map (power (length mx)) r = map (fun g => value mx ref data (direction exact norm g)) normals).
  { induction normals as [|g l IH]; cbn [map samples]. exists []. split; reflexivity.
    destruct (C55_sample_is_ray_length mx ref data (direction exact norm g)) as (s & E & _ & _); auto. apply HD; simpl; auto.
    rewrite E. cbn [bind]. destruct IH as (r & Er & Em). intros; apply HD; simpl; auto.
    destruct (samples exact (map (direction exact norm) l) (gains exact mx ref data)); cbn [bind] in *; try discriminate.
    cbn [finite]. rewrite Er. cbn [bind]. exists (s :: r). split; auto. cbn [map]. rewrite Em. f_equal.
    unfold value. now rewrite E. }
  destruct S as (r & E & Em). destruct (samples exact _ _); cbn [bind] in *; try discriminate. rewrite E. cbn [bind].
  rewrite Em. reflexivity.
Qed.
Print Assumptions C55_estimate_is_average.

(** ** Integer data, all objectives minimised *)
Definition rp (p : point) : rpoint := map IZR p.
Definition zvalue (ref : point) (data : list point) (w : rpoint) : R :=
  value (repeat false (length ref)) (rp ref) (map rp data) w.
Lemma rp_coord : forall p d, rcoord (rp p) d = IZR (coord p d).
Proof. intros. unfold rcoord, rp, coord. change 0 with (IZR 0). apply map_nth. Qed.

Definition zbelow (ref p : point) : Prop := forall d, (d < length ref)%nat -> (coord p d < coord ref d)%Z.
Lemma zbelow_iff : forall ref p, strictly_better (repeat false (length ref)) (rp p) (rp ref) <-> zbelow ref p.
Proof.
  intros. unfold strictly_better, zbelow. rewrite repeat_length. split; intros H d Hd; specialize (H d Hd).
  - rewrite nth_repeat, !rp_coord in H. now apply lt_IZR.
  - rewrite nth_repeat, !rp_coord. now apply IZR_lt.
Qed.

(** a sample in terms of the integer points *)
Definition zge (ref : point) (A : list point) (w : rpoint) (t : R) : Prop :=
  exists p, In p A /\ zbelow ref p /\ forall d, (d < length ref)%nat -> IZR (coord p d) <= IZR (coord ref d) - t * rcoord w d.
Lemma zsample : forall ref A w, direction_of (length ref) w -> (exists p, In p A /\ zbelow ref p) ->
  exists s, zvalue ref A w = s ^ length ref /\ 0 < s /\ forall t, t <= s <-> zge ref A w t.
Proof.
  intros ref A w D (p & Hp & B).
  destruct (C55_sample_is_ray_length (repeat false (length ref)) (rp ref) (map rp A) w) as (s & E & P & K).
  - now rewrite repeat_length.
  - exists (rp p). split. now apply in_map. now apply zbelow_iff.
  - exists s. split. unfold zvalue, value. now rewrite E, repeat_length. split; auto.
    intros t. rewrite K. unfold zge. split.
    + intros (q & Hq & S & W). apply in_map_iff in Hq. destruct Hq as (a & <- & Ha). exists a. split; auto.
      split. now apply zbelow_iff. intros d Hd. unfold rwdom in W. rewrite repeat_length in W. specialize (W d Hd).
      rewrite nth_repeat, on_ray_coord, nth_repeat, !rp_coord in W by (rewrite repeat_length; auto). auto.
    + intros (a & Ha & S & W). exists (rp a). split. now apply in_map. split. now apply zbelow_iff.
      intros d Hd. rewrite repeat_length in Hd. specialize (W d Hd).
      rewrite nth_repeat, on_ray_coord, nth_repeat, !rp_coord by (rewrite repeat_length; auto). auto.
Qed.
Lemma zvalue_none : forall ref A w, (forall p, In p A -> ~ zbelow ref p) -> zvalue ref A w = 0.
Proof.
  intros ref A w H. unfold zvalue, value.
  replace (gains exact (repeat false (length ref)) (rp ref) (map rp A)) with (@nil rpoint). reflexivity.
  destruct (gains exact (repeat false (length ref)) (rp ref) (map rp A)) as [|q l] eqn:E; auto. exfalso.
  assert (Hq : In q (gains exact (repeat false (length ref)) (rp ref) (map rp A))) by (rewrite E; simpl; auto).
  apply in_gains in Hq. destruct Hq as (a & Ha & -> & G). apply in_map_iff in Ha. destruct Ha as (p & <- & Hp).
  apply (H p Hp). apply zbelow_iff. now apply gain_positive_exact.
Qed.

(** the corner of the intersection of two boxes *)
Definition join (dim : nat) (p q : point) : point := map (fun d => Z.max (coord p d) (coord q d)) (seq 0 dim).
Lemma join_coord : forall dim p q d, (d < dim)%nat -> coord (join dim p q) d = Z.max (coord p d) (coord q d).
Proof.
  intros. unfold join, coord at 1. rewrite nth_map_lt with (d0 := 0%nat) by (rewrite seq_length; auto).
  now rewrite seq_nth by auto.
Qed.
Lemma join_zbelow : forall ref p q, zbelow ref (join (length ref) p q) <-> zbelow ref p /\ zbelow ref q.
Proof.
  intros. unfold zbelow. split.
  - intros H. split; intros d Hd; specialize (H d Hd); rewrite join_coord in H by auto; lia.
  - intros [H1 H2] d Hd. rewrite join_coord by auto. specialize (H1 d Hd). specialize (H2 d Hd). lia.
Qed.
Lemma IZR_max : forall a b, IZR (Z.max a b) = Rmax (IZR a) (IZR b).
Proof.
  intros. destruct (Z.max_spec a b) as [[H ->]|[H ->]].
  - rewrite Rmax_right; auto. apply IZR_le. lia.
  - rewrite Rmax_left; auto. now apply IZR_le.
Qed.

Lemma zvalue_valuation : forall ref p A w, direction_of (length ref) w -> zbelow ref p -> A <> [] ->
  (forall a, In a A -> zbelow ref a) ->
  zvalue ref (p :: A) w = zvalue ref A w + zvalue ref [p] w - zvalue ref (map (join (length ref) p) A) w.
Proof.
  intros ref p A w D Hp Hne HA. destruct A as [|a0 A0] eqn:EA; [tauto|]. rewrite <- EA in *.
  assert (Ha0 : In a0 A) by (rewrite EA; simpl; auto). clear EA.
  destruct (zsample ref (p :: A) w D) as (s & E & P & K). { exists p. simpl; auto. }
  destruct (zsample ref A w D) as (s1 & E1 & P1 & K1). { exists a0. auto. }
  destruct (zsample ref [p] w D) as (s2 & E2 & P2 & K2). { exists p. simpl; auto. }
  destruct (zsample ref (map (join (length ref) p) A) w D) as (s3 & E3 & P3 & K3).
  { exists (join (length ref) p a0). split. now apply in_map. apply join_zbelow. auto. }
  rewrite E, E1, E2, E3.
  assert (M : forall t, t <= s <-> t <= s1 \/ t <= s2).
  { intros t. rewrite K, K1, K2. unfold zge. split.
    - intros (q & [<-|Hq] & H); [right|left]; eauto. exists p. simpl; auto.
    - intros [(q & Hq & H)|(q & [<-|[]] & H)]; eauto. exists q; simpl; auto. exists p. simpl; auto. }
  assert (N : forall t, t <= s3 <-> t <= s1 /\ t <= s2).
  { intros t. rewrite K3, K1, K2. unfold zge. split.
    - intros (q & Hq & B & H). apply in_map_iff in Hq. destruct Hq as (a & <- & Ha). apply join_zbelow in B.
      assert (J : forall d, (d < length ref)%nat -> IZR (coord p d) <= IZR (coord ref d) - t * rcoord w d /\
                           IZR (coord a d) <= IZR (coord ref d) - t * rcoord w d).
      { intros d Hd. specialize (H d Hd). rewrite join_coord, IZR_max in H by auto.
        pose proof (Rmax_l (IZR (coord p d)) (IZR (coord a d))). pose proof (Rmax_r (IZR (coord p d)) (IZR (coord a d))). lra. }
      split; [exists a|exists p]; (split; [simpl; auto|]); (split; [tauto|]); intros d Hd; apply J; auto.
    - intros [(a & Ha & B & H) (q & [<-|[]] & B' & H')]. exists (join (length ref) p a). split. now apply in_map.
      split. apply join_zbelow; auto. intros d Hd. rewrite join_coord, IZR_max by auto. apply Rmax_lub; auto. }
  assert (S : (s = s1 /\ s3 = s2) \/ (s = s2 /\ s3 = s1)).
  { destruct (Rle_lt_dec s1 s2) as [L|L].
    - right. pose proof (proj1 (M s) ltac:(lra)). pose proof (proj2 (M s2) ltac:(lra)).
      pose proof (proj1 (N s3) ltac:(lra)). pose proof (proj2 (N s1) ltac:(lra)). lra.
    - left. pose proof (proj1 (M s) ltac:(lra)). pose proof (proj2 (M s1) ltac:(lra)).
      pose proof (proj1 (N s3) ltac:(lra)). pose proof (proj2 (N s2) ltac:(lra)). lra. }
  destruct S as [[-> ->]|[-> ->]]; lra.
Qed.

(** the volume obeys the same law *)
Lemma V_valuation : forall lo ref m dim p A, (m <= dim)%nat ->
  HvSpec.V lo ref m (p :: A) = (HvSpec.V lo ref m A + HvSpec.V lo ref m [p] - HvSpec.V lo ref m (map (join dim p) A))%Z.
Proof.
  induction m as [|m IH]; intros dim p A Hm.
  - cbn [HvSpec.V]. destruct A; cbn; lia.
  - cbn [HvSpec.V].
    assert (E : forall l, HvSpec.sumf (fun z => HvSpec.V lo ref m (HvSpec.below m z (p :: A))) l =
      (HvSpec.sumf (fun z => HvSpec.V lo ref m (HvSpec.below m z A)) l +
       HvSpec.sumf (fun z => HvSpec.V lo ref m (HvSpec.below m z [p])) l -
       HvSpec.sumf (fun z => HvSpec.V lo ref m (HvSpec.below m z (map (join dim p) A))) l)%Z); [|apply E].
    induction l as [|z l IHl]; [reflexivity|]. unfold HvSpec.sumf, zsum in *. cbn [map fold_right] in *.
    assert (EZ : HvSpec.V lo ref m (HvSpec.below m z (p :: A)) =
      (HvSpec.V lo ref m (HvSpec.below m z A) + HvSpec.V lo ref m (HvSpec.below m z [p]) -
       HvSpec.V lo ref m (HvSpec.below m z (map (join dim p) A)))%Z).
    { unfold HvSpec.below. cbn [filter]. destruct (Z.leb_spec (coord p m) z) as [L|L].
      - rewrite (IH dim) by lia. f_equal. f_equal. clear -L Hm. induction A as [|a A IH]; cbn [filter map]; auto.
        rewrite join_coord by lia. destruct (Z.leb_spec (coord a m) z); destruct (Z.leb_spec (Z.max (coord p m) (coord a m)) z); try lia; cbn [map]; auto.
        now rewrite IH.
      - replace (filter (fun q => (coord q m <=? z)%Z) (map (join dim p) A)) with (@nil point).
        rewrite HvSpec.V_nil. lia.
        clear -L Hm. induction A as [|a A IH]; cbn [filter map]; auto.
        rewrite join_coord by lia. destruct (Z.leb_spec (Z.max (coord p m) (coord a m)) z); try lia. auto. }
    rewrite EZ. lia.
Qed.

(** ** C55: unbiased as soon as single boxes are *)
(** [E] is a mean value, defined on the functions of the direction in the class [C] *)
Definition mean_value (dim : nat) (C : (rpoint -> R) -> Prop) (E : (rpoint -> R) -> R) : Prop :=
  (forall f g, C f -> (forall w, direction_of dim w -> f w = g w) -> C g /\ E g = E f) /\
  (forall f g, C f -> C g -> C (fun w => f w + g w) /\ E (fun w => f w + g w) = E f + E g) /\
  (forall f g, C f -> C g -> C (fun w => f w - g w) /\ E (fun w => f w - g w) = E f - E g).

Fixpoint zbox (ref p : point) (m : nat) : Z :=
  match m with O => 1%Z | S m' => (zbox ref p m' * (coord ref m' - coord p m'))%Z end.

Theorem C55_unbiased_from_boxes :
  forall ref C E c, mean_value (length ref) C E ->
  (forall p, zbelow ref p -> C (zvalue ref [p]) /\ c * E (zvalue ref [p]) = IZR (zbox ref p (length ref))) ->
  forall data v, (exists p, In p data /\ zbelow ref p) -> HvSpec.hypervolume data ref v ->
  C (zvalue ref data) /\ c * E (zvalue ref data) = IZR v.
Proof.
  intros ref C E c (Hext & Hplus & Hminus) HB.
  set (dim := length ref) in *.
  assert (G1 : forall p lo, zbelow ref p -> (forall d, (d < dim)%nat -> (lo <= coord p d)%Z) ->
    C (zvalue ref [p]) /\ c * E (zvalue ref [p]) = IZR (HvSpec.V lo ref dim [p])).
  { intros p lo HA Hlo. destruct (HB p HA) as [C1 E1].
    split; auto. rewrite E1. f_equal. rewrite HvSpec.V_single.
    + clear. unfold dim. generalize (length ref). induction n; cbn; auto. now rewrite IHn.
    + intros d Hd. split. now apply Hlo. now apply HA. }
  assert (G : forall n A lo, length A = S n -> (forall a, In a A -> zbelow ref a) ->
    (forall a d, In a A -> (d < dim)%nat -> (lo <= coord a d)%Z) ->
    C (zvalue ref A) /\ c * E (zvalue ref A) = IZR (HvSpec.V lo ref dim A)).
  { induction n as [|n IH]; intros A lo HL HA Hlo.
    - destruct A as [|p [|]]; try discriminate. apply G1. apply HA; simpl; auto. intros; apply Hlo; simpl; auto.
    - destruct A as [|p A]; [discriminate|]. cbn [length] in HL.
      destruct (IH A lo) as [C1 E1]; [lia|intros; apply HA; simpl; auto|intros; apply Hlo; simpl; auto|].
      destruct (IH (map (join dim p) A) lo) as [C2 E2].
      + rewrite map_length. lia.
      + intros a Ha. apply in_map_iff in Ha. destruct Ha as (b & <- & Hb). apply join_zbelow. split; apply HA; simpl; auto.
      + intros a d Ha Hd. apply in_map_iff in Ha. destruct Ha as (b & <- & Hb). rewrite join_coord by auto.
        pose proof (Hlo p d (or_introl eq_refl) Hd). lia.
      + destruct (HB p) as [C3 E3]. apply HA; simpl; auto.
        destruct (Hplus _ _ C1 C3) as [C4 E4]. destruct (Hminus _ _ C4 C2) as [C5 E5].
        destruct (Hext _ (zvalue ref (p :: A)) C5) as [C6 E6].
        { intros w Hw. symmetry. apply zvalue_valuation; auto. apply HA; simpl; auto. destruct A; [discriminate|discriminate].
          intros; apply HA; simpl; auto. }
        split; auto. rewrite E6, E5, E4.
        rewrite (V_valuation lo ref dim dim p A) by lia. rewrite minus_IZR, plus_IZR, <- E1, <- E2.
        destruct (G1 p lo) as [_ E7]. apply HA; simpl; auto. intros; apply Hlo; simpl; auto.
        rewrite <- E7. lra. }
  intros data v (p & Hp & Bp) HV.
  set (A := filter (HvSpec.below_ref ref dim) data).
  assert (HA : forall a, In a A -> zbelow ref a).
  { intros a Ha. apply filter_In in Ha. destruct Ha as [_ Ha]. rewrite HvSpec.below_ref_iff in Ha. exact Ha. }
  assert (HpA : In p A). { apply filter_In. split; auto. apply HvSpec.below_ref_iff. exact Bp. }
  destruct (G (length A - 1)%nat A (HvSpec.min_coord data)) as [C1 E1]; auto.
  { destruct A; [destruct HpA|simpl; lia]. }
  { intros a d Ha _. apply HvSpec.min_coord_ok. apply filter_In in Ha. tauto. }
  destruct (Hext _ (zvalue ref data) C1) as [C2 E2].
  { intros w Hw. destruct (zsample ref A w Hw) as (s & Es & Ps & Ks). { eauto. }
    destruct (zsample ref data w Hw) as (s' & Es' & Ps' & Ks'). { eauto. }
    rewrite Es, Es'. f_equal.
    assert (K : forall t, t <= s <-> t <= s').
    { intros t. rewrite Ks, Ks'. unfold zge. split.
      - intros (a & Ha & H). exists a. split; auto. apply filter_In in Ha. tauto.
      - intros (a & Ha & B & H). exists a. split; auto. apply filter_In. split; auto. apply HvSpec.below_ref_iff. exact B. }
    pose proof (proj1 (K s) ltac:(lra)). pose proof (proj2 (K s') ltac:(lra)). lra. }
  split; auto. rewrite E2, E1. f_equal.
  apply (HvSpec.hypervolume_unique data ref); auto. unfold A, dim. rewrite <- HvSpec.V_filter.
  apply HvSpec.V_hypervolume. intros. now apply HvSpec.min_coord_ok.
Qed.
Print Assumptions C55_unbiased_from_boxes.
