(** C25: the rectangle-weighted hypervolume. *)
From Coq Require Import List ZArith Lia Bool Arith Permutation Sorted.
From Verif Require Import Base Spec HvSpec RectSpec WhvSpec WhvModel WhvProofs.
Import ListNotations.
Open Scope Z_scope.

(** qsort returns some permutation sorted by the comparison function *)
Definition valid_sortd (sortd : list point -> list point) : Prop :=
  forall l, is_qsort_of (fun a b => cmp_data_y_desc a b <= 0) l (sortd l).
Definition valid_sortr (sortr : list crect -> list crect) : Prop :=
  forall l, is_qsort_of (fun a b => cmp_rectangles_y_desc a b <= 0) l (sortr l).

Lemma antichain_sorted_strictly : forall data data',
  wf_points 2 data -> antichain data -> is_qsort_of (fun a b => cmp_data_y_desc a b <= 0) data data' ->
  strictly data'.
Proof.
  intros data data' HW HA [HP HS].
  assert (ND : NoDup data).
  { apply (proj2 (NoDup_nth data [])). intros i j Hi Hj E.
    destruct (Nat.eq_dec i j) as [ | Hn ]; [ assumption | exfalso ].
    apply (HA i j Hi Hj Hn). unfold row. rewrite E. apply wdom_refl. }
  assert (HA2 : forall a b, In a data -> In b data -> a <> b -> ~ wdom [false; false] a b).
  { intros a b Ha Hb Hn. destruct (In_nth _ _ [] Ha) as [i [Hi <-]]. destruct (In_nth _ _ [] Hb) as [j [Hj <-]].
    apply HA; [ exact Hi | exact Hj | ]. intros ->. now apply Hn. }
  assert (ND' : NoDup data') by (eapply Permutation_NoDup; eauto).
  assert (HI : forall a, In a data' -> In a data) by (intros a Ha; eapply Permutation_in; [ symmetry; exact HP | exact Ha ]).
  clear HP HA ND. unfold strictly.
  induction HS as [ | a l HS IH HF ]; [ constructor | ].
  inversion ND' as [ | ? ? Hna ND2 ]; subst.
  constructor; [ apply IH; [ exact ND2 | intros; apply HI; now right ] | ].
  rewrite Forall_forall in *. intros b Hb. specialize (HF b Hb).
  assert (Hab : a <> b) by (intros ->; contradiction).
  assert (N : ~ wdom [false; false] a b) by (apply HA2; auto; apply HI; [ now left | now right ]).
  assert (M : ~ (coord a 0 <= coord b 0 /\ coord a 1 <= coord b 1)).
  { intros [H0 H1]. apply N. intros d Hd.
    destruct d as [ | [ | d ] ]; [ cbn; exact H0 | cbn; exact H1 | cbn in Hd; lia ]. }
  unfold cmp_data_y_desc in HF.
  destruct (Z.ltb_spec (coord b 1) (coord a 1)).
  - destruct (Z.ltb_spec (coord a 0) (coord b 0)); [ lia | ].
    exfalso. assert (N2 : ~ wdom [false; false] b a) by (apply HA2; auto; apply HI; [ now right | now left ]).
    apply N2. intros d Hd.
    destruct d as [ | [ | d ] ]; [ cbn; lia | cbn; lia | cbn in Hd; lia ].
  - destruct (Z.ltb_spec (coord a 1) (coord b 1)); [ lia | ].
    destruct (Z.ltb_spec (coord a 0) (coord b 0)); [ lia | ].
    destruct (Z.ltb_spec (coord b 0) (coord a 0)); lia.
Qed.

Lemma sortr_desc : forall cs cs', is_qsort_of (fun a b => cmp_rectangles_y_desc a b <= 0) cs cs' -> desc_u1 cs'.
Proof.
  intros cs cs' [_ HS]. unfold desc_u1. induction HS as [ | a l HS IH HF ]; constructor; [ exact IH | ].
  rewrite Forall_forall in *. intros b Hb. specialize (HF b Hb). unfold cmp_rectangles_y_desc in HF.
  destruct (Z.ltb_spec (c_u1 b) (c_u1 a)); [ lia | ].
  destruct (Z.ltb_spec (c_u1 a) (c_u1 b)); lia.
Qed.

Lemma clip_good : forall ref r, valid_rect r -> degenerate (clip_rect ref r) = false ->
  good_rect (clip_rect ref r).
Proof.
  intros ref [lx ly ux uy col] [H0 [H1 H2]] D. unfold degenerate in D.
  apply orb_false_iff in D. destruct D as [D0 D1]. apply Z.eqb_neq in D0, D1.
  unfold good_rect, clip_rect in *. cbn [r_lx r_ly r_ux r_uy r_col c_l0 c_l1 c_u0 c_u1 c_col] in *.
  unfold clip in *.
  repeat split; try exact H2.
  - destruct ux; cbn [below] in H0; [ destruct H0 as [H0 | H0]; [ lia | injection H0 as ->; lia ] | lia ].
  - destruct uy; cbn [below] in H1; [ destruct H1 as [H1 | H1]; [ lia | injection H1 as ->; lia ] | lia ].
Qed.
Lemma degenerate_remains : forall ref r, valid_rect r ->
  (degenerate (clip_rect ref r) = false <-> remains ref r).
Proof.
  intros ref r HV. split.
  - intros D. destruct (clip_good ref r HV D) as [H0 [H1 _]]. split; assumption.
  - intros [H0 H1]. unfold degenerate, clip_rect; cbn [c_l0 c_l1 c_u0 c_u1].
    apply orb_false_iff. split; apply Z.eqb_neq; lia.
Qed.

Lemma in_kept : forall ref rs c, In c (kept (map (clip_rect ref) rs)) <->
  exists r, In r rs /\ c = clip_rect ref r /\ degenerate (clip_rect ref r) = false.
Proof.
  intros ref rs c. unfold kept. rewrite filter_In, in_map_iff. split.
  - intros [[r [<- Hr]] D]. exists r. apply negb_true_iff in D. auto.
  - intros [r [Hr [-> D]]]. split; [ exists r; auto | now rewrite D ].
Qed.

Lemma max_right_ok : forall cs c, In c cs -> c_u0 c <= max_right cs.
Proof.
  assert (G : forall cs m, m <= fold_left (fun m c => Z.max m (c_u0 c)) cs m /\
    forall c, In c cs -> c_u0 c <= fold_left (fun m c => Z.max m (c_u0 c)) cs m).
  { induction cs as [ | a cs IH ]; intros m; cbn [fold_left].
    - split; [ lia | intros c [] ].
    - destruct (IH (Z.max m (c_u0 a))) as [H1 H2]. split; [ lia | ].
      intros c [<- | Hc]; [ lia | now apply H2 ]. }
  intros [ | a cs ] c H; [ destruct H | ]. cbn [max_right].
  destruct (G cs (c_u0 a)) as [H1 H2]. destruct H as [<- | H]; [ exact H1 | now apply H2 ].
Qed.

Lemma zsum_kept : forall (f : crect -> Z) cs,
  zsum (map f (kept cs)) = zsum (map (fun c => if degenerate c then 0 else f c) cs).
Proof.
  intros f cs. unfold kept. induction cs as [ | c cs IH ]; [ reflexivity | ]. cbn [filter map].
  destruct (degenerate c); cbn [negb map]; [ change (zsum (map f (filter (fun c0 => negb (degenerate c0)) cs)) =
     0 + zsum (map (fun c0 => if degenerate c0 then 0 else f c0) cs)); lia | ].
  change (f c + zsum (map f (filter (fun c0 => negb (degenerate c0)) cs)) =
     f c + zsum (map (fun c0 => if degenerate c0 then 0 else f c0) cs)). lia.
Qed.

Lemma zsum_map_zero : forall A (f : A -> Z) l, (forall x, f x = 0) -> zsum (map f l) = 0.
Proof.
  intros A f l H. induction l as [ | a l IH ]; [ reflexivity | ].
  change (f a + zsum (map f l) = 0). rewrite IH, H. reflexivity.
Qed.

Lemma combine_map_r : forall A B (f : A -> B) l, combine l (map f l) = map (fun x => (x, f x)) l.
Proof. induction l; [ reflexivity | ]. cbn [map combine]. now f_equal. Qed.

(** general form: areas given by any list of cells per rectangle *)
Lemma weighted_from_cells : forall (Q : point -> Prop) data ref rs (cells : crect -> list point),
  (forall r, In r rs -> degenerate (clip_rect ref r) = false ->
     NoDup (cells (clip_rect ref r)) /\
     forall z, In z (cells (clip_rect ref r)) <-> dominated_cell data ref z /\ in_rect r z /\ Q z) ->
  (forall r z, In r rs -> degenerate (clip_rect ref r) = true -> dominated_cell data ref z -> in_rect r z -> False) ->
  weighted_area_where Q data ref rs
    (zsum (map (fun c => c_col c * Z.of_nat (length (cells c))) (kept (map (clip_rect ref) rs)))).
Proof.
  intros Q data ref rs cells H1 H2.
  set (area := fun r => let c := clip_rect ref r in if degenerate c then 0 else Z.of_nat (length (cells c))).
  exists (map area rs). split; [ apply map_length | split ].
  - intros i r Hi.
    assert (Hin : In r rs) by (eapply nth_error_In; eauto).
    assert (Hl : (i < length rs)%nat) by (apply nth_error_Some; congruence).
    rewrite (nth_map_lt _ _ area rs i 0 r) by exact Hl.
    assert (En : nth i rs r = r) by (apply nth_error_nth; exact Hi). rewrite En.
    unfold area. cbv zeta. destruct (degenerate (clip_rect ref r)) eqn:D.
    + exists []. split; [ constructor | split; [ | reflexivity ] ].
      intros z. split; [ intros [] | ]. intros [Hd [Hr _]]. exfalso. exact (H2 r z Hin D Hd Hr).
    + destruct (H1 r Hin D) as [HN HI]. exists (cells (clip_rect ref r)).
      split; [ exact HN | split; [ exact HI | reflexivity ] ].
  - rewrite combine_map_r, map_map. cbn [fst snd]. rewrite zsum_kept, map_map.
    f_equal. apply map_ext. intros r. unfold area. cbv zeta.
    destruct (degenerate (clip_rect ref r)); [ lia | reflexivity ].
Qed.

Lemma valid_degenerate_empty : forall data ref r z, length ref = 2%nat -> valid_rect r ->
  degenerate (clip_rect ref r) = true -> dominated_cell data ref z -> in_rect r z -> False.
Proof.
  intros data ref [lx ly ux uy col] z HL HV D (_ & _ & Hz) (H0 & H1 & H2 & H3).
  rewrite HL in Hz. pose proof (Hz 0%nat ltac:(lia)). pose proof (Hz 1%nat ltac:(lia)).
  unfold degenerate, clip_rect in D.
  cbn [r_lx r_ly r_ux r_uy r_col c_l0 c_l1 c_u0 c_u1 c_col] in *.
  apply orb_true_iff in D. unfold clip in D.
  destruct ux, uy; cbn [below] in *; destruct D as [D | D]; apply Z.eqb_eq in D; lia.
Qed.

Lemma in_c_iff : forall ref r z, coord z 0 < coord ref 0 -> coord z 1 < coord ref 1 ->
  (in_c (clip_rect ref r) z <-> in_rect r z).
Proof.
  intros ref [lx ly ux uy col] z H0 H1. unfold in_c, in_rect, clip_rect, clip.
  cbn [r_lx r_ly r_ux r_uy r_col c_l0 c_l1 c_u0 c_u1 c_col].
  destruct ux, uy; cbn [below]; split; intros; repeat split; lia.
Qed.

(** What the function computes, for every valid list of rectangles and every
    antichain of points: the weighted area of the dominated region, except that
    if some point of the data lies exactly at the height of the lowest upper side
    of the (clipped) rectangles, everything below that height is lost. *)
Theorem C25_value_exactly : forall sortd sortr junk data rs ref,
  valid_sortd sortd -> valid_sortr sortr ->
  length ref = 2%nat -> wf_points 2 data -> antichain data -> (forall r, In r rs -> valid_rect r) ->
  exists v data', rect_weighted_hv2d sortd sortr junk data rs ref = Ret (v, data') /\
    Permutation data data' /\
    weighted_area_where
      (fun z => forall p y, In p data -> lowest_top ref rs y -> coord p 1 = y -> y <= coord z 1)
      data ref rs v.
Proof.
  intros sortd sortr junk data rs ref Hsd Hsr HL HW HA HV.
  unfold rect_weighted_hv2d.
  set (Q := fun z => forall p y, In p data -> lowest_top ref rs y -> coord p 1 = y -> y <= coord z 1).
  destruct (Nat.eqb_spec (length rs) 0) as [E0 | E0].
  { apply length_zero_iff_nil in E0. subst rs. exists 0, data. split; [ reflexivity | split; [ reflexivity | ] ].
    exists []. split; [ reflexivity | split; [ intros [ | i ] r H; discriminate | reflexivity ] ]. }
  destruct (Nat.eqb_spec (length data) 0) as [E1 | E1]; cbn [orb].
  { apply length_zero_iff_nil in E1. subst data. exists 0, (@nil point).
    split; [ reflexivity | split; [ reflexivity | ] ].
    pose proof (weighted_from_cells Q [] ref rs (fun _ => [])) as G.
    cbn [length] in G. replace (zsum (map (fun c => c_col c * Z.of_nat 0) (kept (map (clip_rect ref) rs)))) with 0 in G.
    - apply G.
      + intros r Hr D. split; [ constructor | ]. intros z. split; [ intros [] | ].
        intros [(_ & (p & [] & _) & _) _].
      + intros r z Hr D (_ & (p & [] & _) & _).
    - symmetry. apply zsum_map_zero. intros c. lia. }
  rewrite preprocess_ok. cbn [bind].
  set (cs := kept (map (clip_rect ref) rs)).
  destruct (Nat.eqb_spec (length cs) 0) as [E2 | E2].
  { exists 0, data. split; [ reflexivity | split; [ reflexivity | ] ].
    apply length_zero_iff_nil in E2.
    pose proof (weighted_from_cells Q data ref rs (fun _ => [])) as G.
    fold cs in G. rewrite E2 in G. apply G.
    - intros r Hr D. exfalso. assert (In (clip_rect ref r) cs) by (apply in_kept; eauto).
      rewrite E2 in H. destruct H.
    - intros r z Hr D. apply valid_degenerate_empty; auto. }
  cbv zeta.
  pose proof (Hsd data) as HQd. pose proof (Hsr cs) as HQr.
  set (sdata := sortd data) in *. set (srects := sortr cs) in *.
  assert (HSt : strictly sdata) by (eapply antichain_sorted_strictly; eauto).
  assert (HD : desc_u1 srects) by (eapply sortr_desc; eauto).
  destruct HQd as [HPd _]. destruct HQr as [HPr _].
  assert (HLd : length sdata = length data) by (symmetry; now apply Permutation_length).
  assert (HLr : length srects = length cs) by (symmetry; now apply Permutation_length).
  assert (HG : Forall good_rect srects).
  { apply Forall_forall. intros c Hc. apply (Permutation_in c (Permutation_sym HPr)) in Hc.
    apply in_kept in Hc. destruct Hc as [r [Hr [-> D]]]. apply clip_good; auto. }
  rewrite get_rectangle_ok by (assumption || lia). cbn [bind].
  rewrite (rd_ok _ srects (length srects - 1) c_zero) by lia. cbn [bind].
  set (lt := c_u1 (nth (length srects - 1) srects c_zero)).
  set (lr := max_right srects).
  set (c0 := nth 0 srects c_zero).
  (* the lowest upper side *)
  assert (Hlt : lowest_top ref rs lt).
  { split.
    - assert (Hin : In (nth (length srects - 1) srects c_zero) cs).
      { apply (Permutation_in _ (Permutation_sym HPr)). apply nth_In. lia. }
      apply in_kept in Hin. destruct Hin as [r [Hr [E D]]]. exists r.
      split; [ exact Hr | split; [ now apply degenerate_remains; auto | ] ].
      unfold lt. rewrite E. reflexivity.
    - intros r Hr Hrem. apply degenerate_remains in Hrem; [ | now apply HV ].
      assert (Hin : In (clip_rect ref r) srects).
      { apply (Permutation_in _ HPr). apply in_kept. eauto. }
      destruct (In_nth _ _ c_zero Hin) as [k [Hk E]].
      change (clip (r_uy r) (coord ref 1)) with (c_u1 (clip_rect ref r)). rewrite <- E. unfold lt.
      destruct (Nat.eq_dec k (length srects - 1)) as [-> | Hn]; [ lia | ].
      exact (StronglySorted_nth _ _ srects c_zero k (length srects - 1) HD ltac:(lia)). }
  assert (Hrun : run_val lt lr srects (c_u1 c0) sdata
                 = zsum (map (fun c => c_col c * Z.of_nat (length (run_cells lt lr c (c_u1 c0) sdata))) cs)).
  { rewrite run_val_cells. apply zsum_perm. apply Permutation_map.
    symmetry. exact HPr. }
  assert (HWA : weighted_area_where Q data ref rs (run_val lt lr srects (c_u1 c0) sdata)).
  { rewrite Hrun. apply weighted_from_cells.
    - intros r Hr D.
      assert (Hin : In (clip_rect ref r) srects).
      { apply (Permutation_in _ HPr). apply in_kept. eauto. }
      assert (Hur : c_u0 (clip_rect ref r) <= lr) by exact (max_right_ok srects _ Hin).
      assert (Hut : c_u1 (clip_rect ref r) <= c_u1 c0).
      { pose proof (all_below_c0 srects HD ltac:(lia)) as HB.
        rewrite Forall_forall in HB. exact (HB _ Hin). }
      assert (Htop : forall p, In p sdata -> coord p 1 < c_u1 c0 \/ c_u1 (clip_rect ref r) <= c_u1 c0)
        by (intros; right; exact Hut).
      split; [ now apply run_cells_nodup | ].
      intros z. rewrite (in_run_cells lt lr (clip_rect ref r) sdata (c_u1 c0) z HSt Hur Htop). split.
      + intros (HLz & HC & Ht & (p & Hp & Hp0 & Hp1) & Hall).
        assert (Hz0 : coord z 0 < coord ref 0).
        { destruct HC as [HC _]. unfold clip_rect, clip in HC; cbn [c_u0] in HC. destruct (r_ux r); lia. }
        assert (Hz1 : coord z 1 < coord ref 1).
        { destruct HC as [_ HC]. unfold clip_rect, clip in HC; cbn [c_u1] in HC. destruct (r_uy r); lia. }
        split; [ | split ].
        * split; [ lia | split ].
          -- exists p. split; [ apply (Permutation_in _ (Permutation_sym HPd)); exact Hp | ].
             rewrite HL. intros i Hi. destruct i as [ | [ | i ] ]; [ exact Hp0 | exact Hp1 | lia ].
          -- rewrite HL. intros i Hi. destruct i as [ | [ | i ] ]; [ exact Hz0 | exact Hz1 | lia ].
        * now apply (in_c_iff ref).
        * intros q y Hq Hy Ey.
          assert (y = lt).
          { destruct Hy as [(r1 & Hr1 & Hrem1 & E1') Hmin1]. destruct Hlt as [(r2 & Hr2 & Hrem2 & E2') Hmin2].
            specialize (Hmin1 r2 Hr2 Hrem2). specialize (Hmin2 r1 Hr1 Hrem1). lia. }
          subst y. rewrite H. apply (Hall q); [ | congruence ]. apply (Permutation_in _ HPd). exact Hq.
      + intros (HDc & HIr & HQz). destruct HDc as (HLz & (p & Hp & Hple) & Hzlt).
        rewrite HL in HLz, Hple, Hzlt.
        pose proof (Hzlt 0%nat ltac:(lia)) as Hz0. pose proof (Hzlt 1%nat ltac:(lia)) as Hz1.
        assert (HC : in_c (clip_rect ref r) z) by now apply in_c_iff.
        split; [ exact HLz | split; [ exact HC | split; [ | split ] ] ].
        * unfold in_c in HC. lia.
        * exists p. split; [ apply (Permutation_in _ HPd); exact Hp | ].
          split; apply Hple; lia.
        * intros q Hq Eq. apply (HQz q lt); auto. apply (Permutation_in _ (Permutation_sym HPd)). exact Hq.
    - intros r z Hr D. apply valid_degenerate_empty; auto. }
  destruct (find_first_ok lt lr srects sdata HD ltac:(lia) HSt (S (length sdata)) 0 (c_u1 c0))
    as [o [Eo Ho]]; [ lia | lia | now left | ].
  fold c0 in Eo. rewrite Eo. cbn [bind].
  destruct o as [ [pk top] | ].
  - destruct Ho as (Hpk & Hu & Ht & Hv).
    rewrite whv_loop_ok; try assumption; try lia. cbn [bind].
    exists (run_val lt lr srects (c_u1 c0) sdata), sdata.
    split; [ | split; [ exact HPd | exact HWA ] ].
    do 2 f_equal. cbn [skipn] in Hv. fold c0 in Hv. rewrite Hv. lia.
  - exists 0, sdata. split; [ reflexivity | split; [ exact HPd | ] ].
    cbn [skipn] in Ho. fold c0 in Ho. rewrite Ho in HWA. exact HWA.
Qed.

(** a valid qsort exists *)
Definition sortd_exec : list point -> list point := sort_by (fun a b => cmp_data_y_desc a b <=? 0).
Definition sortr_exec : list crect -> list crect := sort_by (fun a b => cmp_rectangles_y_desc a b <=? 0).
Lemma cmp_data_iff : forall a b, cmp_data_y_desc a b <= 0 <->
  coord b 1 < coord a 1 \/ (coord b 1 = coord a 1 /\ coord a 0 <= coord b 0).
Proof.
  intros a b. unfold cmp_data_y_desc.
  destruct (Z.ltb_spec (coord b 1) (coord a 1)), (Z.ltb_spec (coord a 1) (coord b 1)),
    (Z.ltb_spec (coord a 0) (coord b 0)), (Z.ltb_spec (coord b 0) (coord a 0)); lia.
Qed.
Lemma cmp_rect_iff : forall a b, cmp_rectangles_y_desc a b <= 0 <->
  c_u1 b < c_u1 a \/ (c_u1 b = c_u1 a /\ c_u0 a <= c_u0 b).
Proof.
  intros a b. unfold cmp_rectangles_y_desc.
  destruct (Z.ltb_spec (c_u1 b) (c_u1 a)), (Z.ltb_spec (c_u1 a) (c_u1 b)),
    (Z.ltb_spec (c_u0 a) (c_u0 b)), (Z.ltb_spec (c_u0 b) (c_u0 a)); lia.
Qed.
Lemma sortd_exec_ok : valid_sortd sortd_exec.
Proof.
  intros l. apply sort_by_is_qsort.
  - intros a b. apply Z.leb_le.
  - intros a b H. apply Z.leb_gt in H. assert (H1 : ~ cmp_data_y_desc a b <= 0) by lia.
    rewrite cmp_data_iff in *. lia.
  - intros a b c. rewrite !cmp_data_iff. lia.
Qed.
Lemma sortr_exec_ok : valid_sortr sortr_exec.
Proof.
  intros l. apply sort_by_is_qsort.
  - intros a b. apply Z.leb_le.
  - intros a b H. apply Z.leb_gt in H. assert (H1 : ~ cmp_rectangles_y_desc a b <= 0) by lia.
    rewrite cmp_rect_iff in *. lia.
  - intros a b c. rewrite !cmp_rect_iff. lia.
Qed.

(** ** C25: exact whenever no data point lies at the height of the lowest upper
    side.  (Missing for the full statement: the other inputs, for which the
    statement is false; see C25_early_exit_refuted.) *)
Theorem C25_weighted_area_partial : forall sortd sortr junk data rs ref,
  valid_sortd sortd -> valid_sortr sortr ->
  length ref = 2%nat -> wf_points 2 data -> antichain data -> (forall r, In r rs -> valid_rect r) ->
  (forall p y, In p data -> lowest_top ref rs y -> coord p 1 <> y) ->
  exists v data', rect_weighted_hv2d sortd sortr junk data rs ref = Ret (v, data') /\
    Permutation data data' /\ weighted_area data ref rs v.
Proof.
  intros sortd sortr junk data rs ref Hsd Hsr HL HW HA HV HN.
  destruct (C25_value_exactly sortd sortr junk data rs ref Hsd Hsr HL HW HA HV)
    as (v & data' & E & HP & areas & HLa & HR & Ev).
  exists v, data'. split; [ exact E | split; [ exact HP | ] ].
  exists areas. split; [ exact HLa | split; [ | exact Ev ] ].
  intros i r Hi. destruct (HR i r Hi) as (L & HNd & HI & El).
  exists L. split; [ exact HNd | split; [ | exact El ] ].
  intros z. rewrite HI. split; intros (H1 & H2 & _); (split; [ exact H1 | split; [ exact H2 | ] ]).
  - exact I.
  - intros p y Hp Hy E2. exfalso. exact (HN p y Hp Hy E2).
Qed.

Lemma zsum_combine_le : forall (rs : list (rect Z)) a b,
  (forall r, In r rs -> 0 <= r_col r) -> length a = length rs -> length b = length rs ->
  (forall i, (i < length rs)%nat -> nth i a 0 <= nth i b 0) ->
  zsum (map (fun ra => r_col (fst ra) * snd ra) (combine rs a)) <=
  zsum (map (fun ra => r_col (fst ra) * snd ra) (combine rs b)).
Proof.
  induction rs as [ | r rs IH ]; intros a b HC HLa HLb H; [ reflexivity | ].
  destruct a as [ | x a ]; [ discriminate | ]. destruct b as [ | y b ]; [ discriminate | ].
  cbn [combine map].
  change (r_col r * x + zsum (map (fun ra => r_col (fst ra) * snd ra) (combine rs a)) <=
          r_col r * y + zsum (map (fun ra => r_col (fst ra) * snd ra) (combine rs b))).
  apply Z.add_le_mono.
  - apply Z.mul_le_mono_nonneg_l; [ apply HC; now left | ]. apply (H 0%nat). cbn [length]. lia.
  - cbn [length] in *. apply IH; [ intros; apply HC; now right | lia | lia | ].
    intros i Hi. apply (H (S i)). lia.
Qed.

(** In all cases the value returned is at most the true weighted area. *)
Theorem C25_never_overestimates : forall sortd sortr junk data rs ref v data' w,
  valid_sortd sortd -> valid_sortr sortr ->
  length ref = 2%nat -> wf_points 2 data -> antichain data -> (forall r, In r rs -> valid_rect r) ->
  rect_weighted_hv2d sortd sortr junk data rs ref = Ret (v, data') ->
  weighted_area data ref rs w -> 0 <= v <= w.
Proof.
  intros sortd sortr junk data rs ref v data' w Hsd Hsr HL HW HA HV HE (bs & HLb & HRb & ->).
  destruct (C25_value_exactly sortd sortr junk data rs ref Hsd Hsr HL HW HA HV)
    as (v2 & data2 & E & HP & areas & HLa & HR & Ev).
  rewrite E in HE. injection HE as <- <-. subst v2.
  assert (HC : forall r, In r rs -> 0 <= r_col r) by (intros r Hr; apply HV; exact Hr).
  assert (HA0 : forall i, (i < length rs)%nat -> 0 <= nth i areas 0 <= nth i bs 0).
  { intros i Hi. destruct (nth_error rs i) as [ r | ] eqn:Er; [ | apply nth_error_None in Er; lia ].
    destruct (HR i r Er) as (L & HN & HI & ->). destruct (HRb i r Er) as (L' & HN' & HI' & ->).
    split; [ lia | ]. apply inj_le. apply NoDup_incl_length; [ exact HN | ].
    intros z Hz. apply HI'. apply HI in Hz. tauto. }
  split.
  - assert (Z0 : zsum (map (fun ra => r_col (fst ra) * snd ra) (combine rs (map (fun _ => 0) rs))) = 0).
    { rewrite combine_map_r, map_map. apply zsum_map_zero. intros. cbn. lia. }
    rewrite <- Z0. apply zsum_combine_le; auto; [ apply map_length | ].
    intros i Hi. rewrite (nth_map_lt _ _ _ rs i 0 (mkRect 0 0 Infty Infty 0)) by exact Hi.
    now apply HA0.
  - apply zsum_combine_le; auto. intros i Hi. apply HA0. exact Hi.
Qed.

(** non-vacuity: the examples of the Python documentation (coordinates doubled so
    that 2.5 and 3.5 become integers; areas are then four times larger) *)
Definition doc_rects : list (rect Z) :=
  [mkRect 2 6 (At 4) Infty 1; mkRect 4 7 (At 5) Infty 2; mkRect 4 6 (At 6) (At 7) 3].
Example C25_doc_valid : (forall r, In r doc_rects -> valid_rect r) /\ antichain [[4; 4]] /\ wf_points 2 [[4; 4]] /\
  (forall p y, In p [[4; 4]] -> lowest_top [12; 12] doc_rects y -> coord p 1 <> y).
Proof.
  repeat split.
  1-3: destruct H as [<- | [<- | [<- | []]]]; cbn; lia.
  - intros i j Hi Hj Hn. cbn in Hi, Hj. lia.
  - repeat constructor.
  - intros p y [<- | []] [(r & Hr & _ & E) _]. cbn in E.
    destruct Hr as [<- | [<- | [<- | []]]]; cbn in *; lia.
Qed.
Example C25_doc_1 :
  rect_weighted_hv2d sortd_exec sortr_exec (fun _ => c_zero) [[4; 4]] doc_rects [12; 12] = Ret (4 * 4, [[4; 4]]).
Proof. reflexivity. Qed.
Example C25_doc_2 :
  rect_weighted_hv2d sortd_exec sortr_exec (fun _ => c_zero) [[4; 2]] doc_rects [12; 12] = Ret (4 * 4, [[4; 2]]).
Proof. reflexivity. Qed.
Example C25_doc_3 :
  rect_weighted_hv2d sortd_exec sortr_exec (fun _ => c_zero) [[2; 4]] doc_rects [12; 12] = Ret (4 * 7, [[2; 4]]).
Proof. reflexivity. Qed.
(** a larger one, with rectangles outside the reference point and several points *)
Example C25_larger :
  rect_weighted_hv2d sortd_exec sortr_exec (fun _ => c_zero)
    [[5; 1]; [1; 7]; [3; 4]] (mkRect 20 20 Infty Infty 9 :: doc_rects ++ [mkRect 0 0 Infty (At 3) 5]) [10; 10]
  = Ret (1*(2*3 + 1) + 2*(1*3) + 3*(1*2) + 5*(5*2), [[1; 7]; [3; 4]; [5; 1]]) .
Proof. vm_compute. reflexivity. Qed.

(** ** The full claim is false: the scan stops when a data point is exactly at the
    height of the lowest upper side, although later points still contribute.
    The two points are mutually nondominated; the point (3,2) dominates the part
    [3,4) x [2,4) of the rectangle [0,4) x [0,4), of area 2; the result is 0. *)
Theorem C25_early_exit_refuted :
  exists data rs ref v w,
    wf_points 2 data /\ antichain data /\ (forall r, In r rs -> valid_rect r) /\ length ref = 2%nat /\
    rect_weighted_hv2d sortd_exec sortr_exec (fun _ => c_zero) data rs ref = Ret (v, data) /\
    weighted_area data ref rs w /\ v <> w.
Proof.
  exists [[2; 4]; [3; 2]], [mkRect 0 0 (At 4) (At 4) 1], [10; 10], 0, 2.
  split; [ repeat constructor | ].
  split.
  { intros i j Hi Hj Hn H. cbn in Hi, Hj.
    destruct i as [ | [ | i ] ], j as [ | [ | j ] ]; try lia.
    - specialize (H 0%nat ltac:(cbn; lia)) as H0. specialize (H 1%nat ltac:(cbn; lia)) as H1. cbn in H0, H1. lia.
    - specialize (H 0%nat ltac:(cbn; lia)) as H0. specialize (H 1%nat ltac:(cbn; lia)) as H1. cbn in H0, H1. lia. }
  split; [ intros r [<- | []]; unfold valid_rect; cbn; lia | ].
  split; [ reflexivity | ].
  split; [ vm_compute; reflexivity | ].
  split; [ | lia ].
  exists [2]. split; [ reflexivity | split; [ | reflexivity ] ].
  intros [ | i ] r Hi; [ | destruct i; discriminate ]. injection Hi as <-.
  exists [[3; 2]; [3; 3]].
  split; [ repeat constructor; cbn; intuition congruence | split; [ | reflexivity ] ].
  intros z. split.
  - intros [<- | [<- | []]].
    + split; [ | split; [ unfold in_rect, below, coord; cbn [r_lx r_ly r_ux r_uy nth]; lia | exact I ] ].
      split; [ reflexivity | split ].
      * exists [3; 2]. split; [ cbn; auto | ]. intros i Hi. cbn in Hi. destruct i as [ | [ | i ] ]; cbn; lia.
      * intros i Hi. cbn in Hi. destruct i as [ | [ | i ] ]; cbn; lia.
    + split; [ | split; [ unfold in_rect, below, coord; cbn [r_lx r_ly r_ux r_uy nth]; lia | exact I ] ].
      split; [ reflexivity | split ].
      * exists [3; 2]. split; [ cbn; auto | ]. intros i Hi. cbn in Hi. destruct i as [ | [ | i ] ]; cbn; lia.
      * intros i Hi. cbn in Hi. destruct i as [ | [ | i ] ]; cbn; lia.
  - intros [(HLz & (p & Hp & Hle) & _) [HIr _]].
    destruct z as [ | x [ | y [ | ] ] ]; cbn in HLz; try lia.
    pose proof (Hle 0%nat ltac:(cbn; lia)) as H0. pose proof (Hle 1%nat ltac:(cbn; lia)) as H1.
    unfold in_rect, below, coord in HIr. cbn [r_lx r_ly r_ux r_uy nth] in HIr.
    destruct Hp as [<- | [<- | []]]; cbn in H0, H1; [ lia | ].
    assert (x = 3) by lia. assert (y = 2 \/ y = 3) as [-> | ->] by lia; subst; cbn; auto.
Qed.

(** Repeated points abort (the assertion top > p[1] fails), and a dominated point
    may stop the scan before any point is counted: whv_rect needs filtered data. *)
Theorem C25_duplicate_point_refuted :
  rect_weighted_hv2d sortd_exec sortr_exec (fun _ => c_zero) [[1; 1]; [1; 1]] [mkRect 0 0 (At 4) (At 4) 1] [10; 10]
  = AssertFailed.
Proof. vm_compute. reflexivity. Qed.
Theorem C25_dominated_point_refuted :
  rect_weighted_hv2d sortd_exec sortr_exec (fun _ => c_zero) [[1; 2]] [mkRect 0 0 (At 4) (At 4) 1] [10; 10]
  = Ret (6, [[1; 2]]) /\
  rect_weighted_hv2d sortd_exec sortr_exec (fun _ => c_zero) [[9; 3]; [1; 2]] [mkRect 0 0 (At 4) (At 4) 1] [10; 10]
  = Ret (0, [[9; 3]; [1; 2]]).
Proof. split; vm_compute; reflexivity. Qed.

Print Assumptions C25_value_exactly.
Print Assumptions C25_weighted_area_partial.
Print Assumptions C25_never_overestimates.
Print Assumptions C25_early_exit_refuted.
Print Assumptions C25_duplicate_point_refuted.
Print Assumptions C25_dominated_point_refuted.
