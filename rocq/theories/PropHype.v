(** C26: the Monte-Carlo estimate counts exactly the dominated samples. *)
From Coq Require Import List ZArith Lia Bool Arith QArith Qfield Qabs Lqa.
From Verif Require Import Base NormSpec NormModel MtSpec MtModel MtProofs PropMt HypeSpec HypeModel.
Import ListNotations.
Open Scope Q_scope.

Lemma Qltb_lt : forall a b, Qltb a b = true <-> a < b.
Proof.
  intros a b. unfold Qltb. rewrite negb_true_iff. split; intros H.
  - apply Qnot_le_lt. intros L. apply Qle_bool_iff in L. congruence.
  - apply not_true_iff_false. intros L. apply Qle_bool_iff in L. lra.
Qed.

Lemma sample_dom_iff : forall s p, sample_dom s p = true <-> forall d, (d < 2)%nat -> nth d p 0 <= nth d s 0.
Proof.
  intros s p. unfold sample_dom. rewrite forallb_forall. split.
  - intros H d Hd. specialize (H d ltac:(apply in_seq; lia)). rewrite negb_true_iff in H.
    apply Qnot_lt_le. intros L. apply Qltb_lt in L. unfold qcoord in H. congruence.
  - intros H d Hd. apply in_seq in Hd. specialize (H d ltac:(lia)). rewrite negb_true_iff.
    apply not_true_iff_false. intros L. apply Qltb_lt in L. unfold qcoord in L. lra.
Qed.

(** ** The sum of 1/count over the dominators is 1 or 0 *)
Lemma sum_alpha_ok : forall bs c w, (0 < c)%nat ->
  exists w', sum_alpha bs c w = Ret w' /\
    w' == w + inject_Z (Z.of_nat (countb (fun b => b) bs)) / inject_Z (Z.of_nat c).
Proof.
  intros bs c. 
  intros w Hc.
  assert (Hcq : ~ inject_Z (Z.of_nat c) == 0).
  { unfold Qeq, inject_Z; cbn [Qnum Qden]. lia. }
  revert w. induction bs as [ | b bs IH ]; intros w; cbn [sum_alpha countb].
  - exists w. split; [ reflexivity | ]. change (inject_Z (Z.of_nat 0)) with 0. field. exact Hcq.
  - destruct b; cbn [bind].
    + assert (E : (0 <? c)%nat = true) by now apply Nat.ltb_lt. rewrite E. cbn [assert_ bind].
      destruct (IH (w + 1 / inject_Z (Z.of_nat c))) as [w' [R W]]. exists w'. split; [ exact R | ].
      rewrite W, Nat2Z.inj_succ. unfold Z.succ. rewrite inject_Z_plus. change (inject_Z 1) with 1. field. exact Hcq.
    + destruct (IH w) as [w' [R W]]. exists w'. split; [ exact R | exact W ].
Qed.
Lemma sum_alpha_none : forall bs c w, countb (fun b => b) bs = 0%nat -> sum_alpha bs c w = Ret w.
Proof.
  induction bs as [ | b bs IH ]; intros c w H; cbn [sum_alpha countb] in *; [ reflexivity | ].
  destruct b; [ discriminate | ]. cbn [bind]. now apply IH.
Qed.
Lemma countb_zero : forall A (f : A -> bool) l, countb f l = 0%nat <-> forall x, In x l -> f x = false.
Proof.
  intros A f. induction l as [ | x l IH ]; cbn [countb].
  - split; [ intros _ x [] | reflexivity ].
  - destruct (f x) eqn:E.
    + split; [ discriminate | intros H; rewrite (H x (or_introl eq_refl)) in E; discriminate ].
    + rewrite IH. split; [ intros H y [<- | Hy]; auto | intros H y Hy; apply H; now right ].
Qed.

Lemma estimate_ok : forall points samples w,
  exists w' k, estimate_whv points samples w = Ret w' /\
    holds_for (fun s => exists p, In p points /\ sample_dom s p = true) samples k /\
    w' == w + inject_Z (Z.of_nat k).
Proof.
  intros points. induction samples as [ | s samples IH ]; intros w; cbn [estimate_whv]; cbv zeta.
  - exists w, 0%nat. split; [ reflexivity | split; [ constructor | change (inject_Z (Z.of_nat 0)) with 0; lra ] ].
  - set (bs := map (sample_dom s) points). set (c := countb (fun b => b) bs).
    assert (Ex : (exists p, In p points /\ sample_dom s p = true) \/ c = 0%nat).
    { destruct (Nat.eq_dec c 0) as [E | E]; [ now right | left ].
      destruct (existsb (sample_dom s) points) eqn:X.
      - apply existsb_exists in X. exact X.
      - exfalso. apply E. unfold c. apply countb_zero. intros b Hb. unfold bs in Hb. apply in_map_iff in Hb.
        destruct Hb as [p [<- Hp]]. apply not_true_iff_false. intros T.
        assert (existsb (sample_dom s) points = true) by (apply existsb_exists; exists p; split; assumption). congruence. }
    destruct (Nat.eq_dec c 0) as [E | E].
    + rewrite sum_alpha_none by exact E. cbn [bind].
      destruct (IH w) as (w' & k & R & H & W). exists w', k. split; [ exact R | split; [ | exact W ] ].
      apply hf_no; [ | exact H ]. intros [p [Hp T]]. unfold c in E. rewrite countb_zero in E.
      rewrite (E (sample_dom s p)) in T; [ discriminate | ]. unfold bs. now apply in_map.
    + destruct (sum_alpha_ok bs c w ltac:(lia)) as [w1 [R1 W1]]. rewrite R1. cbn [bind].
      destruct (IH w1) as (w' & k & R & H & W). exists w', (S k). split; [ exact R | split ].
      * apply hf_yes; [ | exact H ]. destruct Ex as [Ex | Ex]; [ exact Ex | contradiction ].
      * rewrite W, W1. fold c. rewrite Nat2Z.inj_succ. unfold Z.succ. rewrite inject_Z_plus.
        change (inject_Z 1) with 1. field. unfold Qeq, inject_Z; cbn [Qnum Qden]. lia.
Qed.

Lemma holds_for_ext : forall A (P R : A -> Prop) l k,
  (forall x, In x l -> (P x <-> R x)) -> holds_for P l k -> holds_for R l k.
Proof.
  intros A P R l k H Hf. induction Hf; [ constructor | apply hf_yes | apply hf_no ].
  - apply H; [ now left | assumption ].
  - apply IHHf. intros; apply H; now right.
  - intros N. apply H0. apply H; [ now left | assumption ].
  - apply IHHf. intros; apply H; now right.
Qed.
Lemma holds_for_le : forall A (P : A -> Prop) l k, holds_for P l k -> (k <= length l)%nat.
Proof. induction 1; cbn [length]; lia. Qed.
Lemma holds_for_mono : forall A (P R : A -> Prop) l k k', (forall x, In x l -> P x -> R x) ->
  holds_for P l k -> holds_for R l k' -> (k <= k')%nat.
Proof.
  intros A P R l k k' H Hf. revert k' H. induction Hf; intros k' H' Hr; inversion Hr; subst.
  - lia.
  - apply le_n_S. apply IHHf; [ intros; apply H'; [ now right | assumption ] | assumption ].
  - exfalso. match goal with N : ~ R x |- _ => apply N end. apply H'; [ now left | assumption ].
  - apply le_S. apply IHHf; [ intros; apply H'; [ now right | assumption ] | assumption ].
  - apply IHHf; [ intros; apply H'; [ now right | assumption ] | assumption ].
Qed.

(** ** Normalised coordinates *)
Lemma norm01_nth : forall p lb ub d, (d < 2)%nat -> ~ nth d lb 0 == nth d ub 0 ->
  nth d (normalise_row 2 (repeat (-1)%Z 2) (-1)%Z 0 1 lb ub p) 0 ==
  (nth d p 0 - nth d lb 0) / (nth d ub 0 - nth d lb 0).
Proof.
  intros p lb ub d Hd Hne. unfold normalise_row. cbv zeta.
  rewrite (nth_map_lt _ _ _ (seq 0 2) d 0 0%nat) by (rewrite seq_length; exact Hd).
  rewrite seq_nth by exact Hd. cbn [Nat.add].
  assert (F : must_flip (repeat (-1)%Z 2) (-1) d = false).
  { unfold must_flip. destruct d as [ | [ | d ] ]; [ reflexivity | reflexivity | lia ]. }
  rewrite F.
  assert (D : norm_diff lb ub d = nth d ub 0 - nth d lb 0).
  { unfold norm_diff, qcoord. cbv zeta.
    destruct (Qeq_bool (nth d ub 0 - nth d lb 0) 0) eqn:E; [ | reflexivity ].
    apply Qeq_bool_eq in E. exfalso. apply Hne. lra. }
  rewrite D. unfold qcoord. field. intros E. apply Hne. lra.
Qed.

Lemma div_le_iff : forall a s c, 0 < c -> (a / c <= s <-> a <= s * c).
Proof.
  intros a s c Hc. assert (E : a / c * c == a) by (field; lra). split; intros H.
  - rewrite <- E. apply Qmult_le_compat_r; lra.
  - apply Qmult_lt_0_le_reg_r with c; [ exact Hc | ]. rewrite E. exact H.
Qed.

Lemma negate_nth : forall mx p d, (d < 2)%nat ->
  nth d (negate_max mx p) 0 = if nth d mx false then - nth d p 0 else nth d p 0.
Proof.
  intros mx p d Hd. unfold negate_max.
  rewrite (nth_map_lt _ _ _ (seq 0 2) d 0 0%nat) by (rewrite seq_length; exact Hd).
  rewrite seq_nth by exact Hd. reflexivity.
Qed.

Lemma sample_dom_norm : forall mx ideal ref p s, proper_box mx ideal ref ->
  (sample_dom s (normalise_row 2 (repeat (-1)%Z 2) (-1)%Z 0 1 (negate_max mx ideal) (negate_max mx ref) (negate_max mx p)) = true
   <-> q_wdom 2 mx p (location ideal ref s)).
Proof.
  intros mx ideal ref p s HB. rewrite sample_dom_iff. unfold q_wdom.
  assert (G : forall d, (d < 2)%nat ->
    (nth d (normalise_row 2 (repeat (-1)%Z 2) (-1)%Z 0 1 (negate_max mx ideal) (negate_max mx ref) (negate_max mx p)) 0 <= nth d s 0
     <-> if nth d mx false then nth d (location ideal ref s) 0 <= nth d p 0
         else nth d p 0 <= nth d (location ideal ref s) 0)).
  { intros d Hd. specialize (HB d Hd).
    assert (EL : nth d (location ideal ref s) 0 = nth d ideal 0 + nth d s 0 * (nth d ref 0 - nth d ideal 0)).
    { unfold location. rewrite (nth_map_lt _ _ _ (seq 0 2) d 0 0%nat) by (rewrite seq_length; exact Hd).
      rewrite seq_nth by exact Hd. reflexivity. }
    rewrite EL.
    assert (Hne : ~ nth d (negate_max mx ideal) 0 == nth d (negate_max mx ref) 0).
    { rewrite !negate_nth by exact Hd. destruct (nth d mx false); lra. }
    rewrite (norm01_nth _ _ _ d Hd Hne).
    assert (Hc : 0 < nth d (negate_max mx ref) 0 - nth d (negate_max mx ideal) 0).
    { rewrite !negate_nth by exact Hd. destruct (nth d mx false); lra. }
    rewrite (div_le_iff _ _ _ Hc). rewrite !negate_nth by exact Hd.
    destruct (nth d mx false).
    - assert (E : nth d s 0 * (- nth d ref 0 - - nth d ideal 0) == - (nth d s 0 * (nth d ref 0 - nth d ideal 0))) by ring.
      rewrite E. split; intros H; lra.
    - split; intros H; lra. }
  split; intros H d Hd; [ apply (proj1 (G d Hd)) | apply (proj2 (G d Hd)) ]; exact (H d Hd).
Qed.

Lemma volume_ok : forall mx ideal ref, proper_box mx ideal ref ->
  volume_between (negate_max mx ideal) (negate_max mx ref) 2 == Qabs (box_area ideal ref).
Proof.
  intros mx ideal ref HB. unfold volume_between, qcoord. cbn [seq fold_left].
  rewrite !negate_nth by lia. unfold box_area.
  pose proof (HB 0%nat ltac:(lia)) as H0. pose proof (HB 1%nat ltac:(lia)) as H1.
  rewrite Qabs_Qmult.
  destruct (nth 0 mx false), (nth 1 mx false);
    repeat match goal with
    | H : nth ?d ref 0 < nth ?d ideal 0 |- context [ Qabs (nth ?d ref 0 - nth ?d ideal 0) ] =>
        rewrite (Qabs_neg (nth d ref 0 - nth d ideal 0)) by lra
    | H : nth ?d ideal 0 < nth ?d ref 0 |- context [ Qabs (nth ?d ref 0 - nth ?d ideal 0) ] =>
        rewrite (Qabs_pos (nth d ref 0 - nth d ideal 0)) by lra
    end; ring.
Qed.

(** C26 (1): for any samples the estimate is the area of the box times the fraction
    of the samples whose location is weakly dominated by a point of the data. *)
Theorem C26_counts_dominated_samples : forall data ref ideal mx samples,
  proper_box mx ideal ref -> samples <> [] ->
  exists v k,
    py_whv_hype_value data ref ideal mx samples = Ret v /\
    holds_for (attained mx data ideal ref) samples k /\
    v == Qabs (box_area ideal ref) * (inject_Z (Z.of_nat k) / inject_Z (Z.of_nat (length samples))).
Proof.
  intros data ref ideal mx samples HB Hne. unfold py_whv_hype_value, whv_hype_value. cbv zeta.
  destruct (estimate_ok (normalise01 (map (negate_max mx) data) 2 (negate_max mx ideal) (negate_max mx ref)) samples 0)
    as (w & k & R & H & W).
  rewrite R. cbn [bind]. eexists. exists k. split; [ reflexivity | split ].
  - refine (holds_for_ext _ _ _ samples k _ H). intros s _. unfold attained, normalise01, c_normalise.
    rewrite map_map. split.
    + intros [q [Hq T]]. apply in_map_iff in Hq. destruct Hq as [p [<- Hp]].
      exists p. split; [ exact Hp | ]. apply sample_dom_norm; assumption.
    + intros [p [Hp T]].
      eexists. split; [ apply in_map_iff; exists p; split; [ reflexivity | exact Hp ] | ].
      apply sample_dom_norm; assumption.
  - rewrite W, (volume_ok mx) by exact HB. field.
    unfold Qeq, inject_Z; cbn [Qnum Qden]. destruct samples; [ congruence | cbn [length]; lia ].
Qed.

Lemma frac_bounds : forall k n, (k <= n)%nat -> (0 < n)%nat ->
  0 <= inject_Z (Z.of_nat k) / inject_Z (Z.of_nat n) <= 1.
Proof.
  intros k n Hk Hn.
  assert (P : 0 < inject_Z (Z.of_nat n)) by (unfold Qlt, inject_Z; cbn [Qnum Qden]; lia).
  assert (Z0 : 0 <= inject_Z (Z.of_nat k)) by (unfold Qle, inject_Z; cbn [Qnum Qden]; lia).
  assert (Z1 : inject_Z (Z.of_nat k) <= inject_Z (Z.of_nat n)) by (unfold Qle, inject_Z; cbn [Qnum Qden]; lia).
  split.
  - apply Qle_shift_div_l; [ exact P | lra ].
  - apply Qle_shift_div_r; [ exact P | lra ].
Qed.

(** C26 (2): the estimate lies between 0 and the area of the box. *)
Theorem C26_bounds : forall data ref ideal mx samples v,
  proper_box mx ideal ref -> samples <> [] ->
  py_whv_hype_value data ref ideal mx samples = Ret v ->
  0 <= v <= Qabs (box_area ideal ref).
Proof.
  intros data ref ideal mx samples v HB Hne R.
  destruct (C26_counts_dominated_samples data ref ideal mx samples HB Hne) as (v' & k & R' & H & W).
  rewrite R in R'. injection R' as <-.
  pose proof (frac_bounds k (length samples) (holds_for_le _ _ _ _ H) ltac:(destruct samples; [ congruence | cbn; lia ])) as [F0 F1].
  pose proof (Qabs_nonneg (box_area ideal ref)) as N. set (f := inject_Z (Z.of_nat k) / inject_Z (Z.of_nat (length samples))) in *.
  rewrite W. split.
  - apply Qmult_le_0_compat; assumption.
  - setoid_replace (Qabs (box_area ideal ref)) with (Qabs (box_area ideal ref) * 1) at 2 by ring.
    rewrite !(Qmult_comm (Qabs _)). apply Qmult_le_compat_r; assumption.
Qed.

(** C26 (3): with the same samples, a set that covers the other never gets a smaller
    estimate; hence dominated and repeated points make no difference. *)
Theorem C26_monotone : forall A B ref ideal mx samples va vb,
  proper_box mx ideal ref -> samples <> [] ->
  (forall a, In a A -> exists b, In b B /\ q_wdom 2 mx b a) ->
  py_whv_hype_value A ref ideal mx samples = Ret va ->
  py_whv_hype_value B ref ideal mx samples = Ret vb ->
  va <= vb.
Proof.
  intros A B ref ideal mx samples va vb HB Hne Hc Ra Rb.
  destruct (C26_counts_dominated_samples A ref ideal mx samples HB Hne) as (va' & ka & Ra' & Ha & Wa).
  destruct (C26_counts_dominated_samples B ref ideal mx samples HB Hne) as (vb' & kb & Rb' & Hb & Wb).
  rewrite Ra in Ra'. rewrite Rb in Rb'. injection Ra' as <-. injection Rb' as <-.
  assert (L : (ka <= kb)%nat).
  { refine (holds_for_mono _ _ _ samples ka kb _ Ha Hb). intros s _ [a [Ia Da]].
    destruct (Hc a Ia) as [b [Ib Db]]. exists b. split; [ exact Ib | ].
    intros d Hd. specialize (Da d Hd). specialize (Db d Hd). destruct (nth d mx false); lra. }
  rewrite Wa, Wb. rewrite !(Qmult_comm (Qabs _)). apply Qmult_le_compat_r; [ | apply Qabs_nonneg ].
  apply Qmult_le_compat_r.
  - unfold Qle, inject_Z; cbn [Qnum Qden]. lia.
  - apply Qlt_le_weak, Qinv_lt_0_compat. unfold Qlt, inject_Z; cbn [Qnum Qden].
    destruct samples; [ congruence | cbn [length]; lia ].
Qed.
Theorem C26_dominated_points_irrelevant : forall A extra ref ideal mx samples v v',
  proper_box mx ideal ref -> samples <> [] ->
  (forall e, In e extra -> exists a, In a A /\ q_wdom 2 mx a e) ->
  py_whv_hype_value A ref ideal mx samples = Ret v ->
  py_whv_hype_value (A ++ extra) ref ideal mx samples = Ret v' ->
  v == v'.
Proof.
  intros A extra ref ideal mx samples v v' HB Hne Hc R R'.
  assert (Hrefl : forall p, q_wdom 2 mx p p) by (intros p d Hd; destruct (nth d mx false); lra).
  apply Qle_antisym.
  - refine (C26_monotone A (A ++ extra) ref ideal mx samples v v' HB Hne _ R R').
    intros a Ha. exists a. split; [ apply in_or_app; now left | apply Hrefl ].
  - refine (C26_monotone (A ++ extra) A ref ideal mx samples v' v HB Hne _ R' R).
    intros a Ha. apply in_app_or in Ha. destruct Ha as [Ha | Ha]; [ exists a; split; [ exact Ha | apply Hrefl ] | now apply Hc ].
Qed.

(** ** The uniform sampler, for every seed *)
Lemma random_ok : forall x, mt_sequence x -> forall c st, st_inv x c st ->
  exists q st' c', rng_random st = Ret (q, st') /\ 0 <= q < 1 /\ st_inv x c' st'.
Proof.
  intros x Hx c st H.
  destruct (run_op_range x c st true DrawDouble Hx H) as (v & st' & c' & E & Hv & H').
  cbn [mt_run_op op_range] in E, Hv.
  exists (Qmake v 9007199254740992), st', c'. unfold rng_random. rewrite E. cbn [bind fst snd].
  split; [ reflexivity | split; [ | exact H' ] ].
  unfold Qle, Qlt; cbn [Qnum Qden]. lia.
Qed.

Definition in_unit_square (s : list Q) : Prop := length s = 2%nat /\ forall d, (d < 2)%nat -> 0 <= nth d s 0 < 1.

Lemma uniform_samples_ok : forall x, mt_sequence x -> forall n c st, st_inv x c st ->
  exists l, uniform_dist_sample n st = Ret l /\ length l = n /\ Forall in_unit_square l.
Proof.
  intros x Hx. induction n as [ | n IH ]; intros c st H; cbn [uniform_dist_sample].
  - exists []. auto.
  - destruct (random_ok x Hx c st H) as (q1 & st1 & c1 & E1 & B1 & H1).
    rewrite E1. cbn [bind snd fst].
    destruct (random_ok x Hx c1 st1 H1) as (q2 & st2 & c2 & E2 & B2 & H2).
    rewrite E2. cbn [bind snd fst].
    destruct (IH c2 st2 H2) as (l & E & L & F). rewrite E. cbn [bind].
    eexists. split; [ reflexivity | split; [ cbn [length]; now rewrite L | ] ].
    constructor; [ | exact F ]. split; [ reflexivity | ].
    intros [ | [ | d ] ] Hd; cbn [nth]; [ lra | lra | lia ].
Qed.

(** C26 (4): for every seed and every number of samples the uniform estimate is
    defined, all samples lie in the box, and the estimate is the area of the box
    times the fraction of samples that are weakly dominated. *)
Theorem C26_uniform_every_seed : forall key0 data ref ideal mx nsamples seed,
  length key0 = Z.to_nat 624 -> proper_box mx ideal ref -> (0 < nsamples)%nat ->
  exists samples v k,
    py_whv_hype_unif key0 data ref ideal mx nsamples seed = Ret v /\
    length samples = nsamples /\ Forall in_unit_square samples /\
    holds_for (attained mx data ideal ref) samples k /\
    v == Qabs (box_area ideal ref) * (inject_Z (Z.of_nat k) / inject_Z (Z.of_nat nsamples)) /\
    0 <= v <= Qabs (box_area ideal ref).
Proof.
  intros key0 data ref ideal mx n seed HL HB Hn.
  destruct (seed_ok key0 seed HL) as [key [E [Hk _]]].
  assert (Hs : mt_sequence (mt_seq key)) by (apply mt_seq_is_sequence; rewrite <- NN_n; apply Hk).
  destruct (uniform_samples_ok (mt_seq key) Hs n mt_n (mkMt key NN) ltac:(now apply fresh_inv)) as (l & El & Ll & Fl).
  assert (Hne : l <> []) by (intros ->; cbn in Ll; lia).
  destruct (C26_counts_dominated_samples data ref ideal mx l HB Hne) as (v & k & R & H & W).
  exists l, v, k. rewrite Ll in W.
  split; [ | split; [ exact Ll | split; [ exact Fl | split; [ exact H | split; [ exact W | ] ] ] ] ].
  - unfold py_whv_hype_unif, whv_hype_unif. rewrite E. cbn [bind]. rewrite El. cbn [bind]. exact R.
  - exact (C26_bounds data ref ideal mx l v HB Hne R).
Qed.

(** non-vacuity: three samples, two dominated, once by two points *)
Example C26_example :
  proper_box [false; true] [1;4] [4;1] /\
  match py_whv_hype_value [[2;3]; [3;4]] [4;1] [1;4] [false; true] [[1 # 2;1 # 2]; [9 # 10;1 # 3]; [1 # 4;0]] with
  | Ret v => Qred v | _ => 0 end = 6.
Proof.
  split; [ intros [ | [ | d ] ] H; [ reflexivity | reflexivity | lia ] | vm_compute; reflexivity ].
Qed.

(** ** The weight distribution "point" is documented to be centred at the goal mu.
    Without maximised objectives it is: the centre is located at mu. *)
Theorem C26_goal_centre_minimise : forall mu ref ideal d,
  (d < 2)%nat -> proper_box [false; false] ideal ref ->
  nth d (location ideal ref (py_gauss_centre mu ref ideal [false; false])) 0 == nth d mu 0.
Proof.
  intros mu ref ideal d Hd HB. specialize (HB d Hd).
  assert (F : nth d [false; false] false = false) by (destruct d as [ | [ | d ] ]; [ reflexivity | reflexivity | lia ]).
  rewrite F in HB.
  assert (EN : forall p, nth d (negate_max [false; false] p) 0 = nth d p 0)
    by (intros p; rewrite negate_nth, F by exact Hd; reflexivity).
  unfold location. rewrite (nth_map_lt _ _ _ (seq 0 2) d 0 0%nat) by (rewrite seq_length; exact Hd).
  rewrite seq_nth by exact Hd. cbn [Nat.add].
  unfold py_gauss_centre, normalise01, c_normalise. cbn [map nth].
  rewrite norm01_nth by (try exact Hd; rewrite !EN; lra). rewrite !EN. field. lra.
Qed.
(** With a maximised objective it is not: mu is not negated together with the data. *)
Theorem C26_goal_centre_maximise_refuted :
  exists mu ref ideal, proper_box [true; false] ideal ref /\
    ~ nth 0 (location ideal ref (py_gauss_centre mu ref ideal [true; false])) 0 == nth 0 mu 0.
Proof.
  exists [3;3], [0;4], [4;0]. split.
  - intros [ | [ | d ] ] H; [ reflexivity | reflexivity | lia ].
  - vm_compute. discriminate.
Qed.
(** A distribution object used for a second estimate has another centre. *)
Theorem C26_second_estimate_refuted :
  exists mu ideal ref, proper_box [false; false] ideal ref /\
    ~ nth 0 (estimate_centre 2 mu ideal ref) 0 == nth 0 (estimate_centre 1 mu ideal ref) 0.
Proof.
  exists [2;2], [1;1], [4;4]. split.
  - intros [ | [ | d ] ] H; [ reflexivity | reflexivity | lia ].
  - vm_compute. discriminate.
Qed.

Print Assumptions C26_counts_dominated_samples.
Print Assumptions C26_bounds.
Print Assumptions C26_monotone.
Print Assumptions C26_dominated_points_irrelevant.
Print Assumptions C26_uniform_every_seed.
Print Assumptions C26_goal_centre_minimise.
Print Assumptions C26_goal_centre_maximise_refuted.
Print Assumptions C26_second_estimate_refuted.
