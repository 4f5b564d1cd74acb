(** C76: whv_hype with dist = "point" and dist = "exponential". *)
From Coq Require Import List ZArith Reals Lra Lia Bool Arith.
From Verif Require Import Base MtModel MtSpec MtProofs PropMt ZigTables RngModel HypeDistModel HypeSpec HypeDistSpec ProbSpec ProbFacts.
Import ListNotations.
Open Scope R_scope.

Lemma nth_map2 : forall (f : nat -> R) d, (d < 2)%nat -> nth d (map f (seq 0 2)) 0 = f d.
Proof. intros f [ | [ | d ] ] H; [ reflexivity | reflexivity | lia ]. Qed.

(** ** The estimate for given samples *)
Lemma r_sum_alpha_ok : forall bs c w, (0 < c)%nat ->
  r_sum_alpha bs c w = Ret (w + INR (length (filter (fun b => b) bs)) / INR c).
Proof.
  induction bs as [ | b bs IH ]; intros c w Hc; cbn [r_sum_alpha filter length].
  - cbn [INR]. f_equal. unfold Rdiv. ring.
  - assert (L : (0 <? c)%nat = true) by now apply Nat.ltb_lt.
    assert (N : INR c <> 0) by (apply not_0_INR; lia).
    destruct b; cbn [bind]; [ rewrite L; cbn [assert_ bind] | ]; rewrite IH by exact Hc; f_equal.
    cbn [length]. rewrite S_INR. field. exact N.
Qed.
Lemma filter_none : forall bs, length (filter (fun b : bool => b) bs) = 0%nat -> forall c w, r_sum_alpha bs c w = Ret w.
Proof.
  induction bs as [ | b bs IH ]; intros H c w; cbn [r_sum_alpha]; [ reflexivity | ].
  destruct b; cbn [filter length] in H; [ lia | ]. cbn [bind]. now apply IH.
Qed.
Lemma r_sample_dom_iff : forall s p, r_sample_dom s p = true <-> forall d, (d < 2)%nat -> nth d p 0 <= nth d s 0.
Proof.
  intros s p. unfold r_sample_dom, rco, Rltb. cbn [seq forallb]. split.
  - intros H. apply andb_true_iff in H. destruct H as [A H]. apply andb_true_iff in H. destruct H as [B _].
    intros [ | [ | d ] ] Hd; [ destruct (Rlt_dec (nth 0 s 0) (nth 0 p 0)) | destruct (Rlt_dec (nth 1 s 0) (nth 1 p 0)) | lia ]; try discriminate; lra.
  - intros H. pose proof (H 0%nat ltac:(lia)). pose proof (H 1%nat ltac:(lia)).
    destruct (Rlt_dec (nth 0 s 0) (nth 0 p 0)); [ lra | ]. destruct (Rlt_dec (nth 1 s 0) (nth 1 p 0)); [ lra | ]. reflexivity.
Qed.
Lemma filter_some : forall (A : Type) (f : A -> bool) l,
  length (filter (fun b : bool => b) (map f l)) <> 0%nat <-> exists x, In x l /\ f x = true.
Proof.
  intros A f l. induction l as [ | a l IH ]; cbn [map filter].
  - split; [ intros H; now contradiction H | intros (x & [] & _) ].
  - destruct (f a) eqn:E; cbn [length].
    + split; [ intros _; exists a; split; [ now left | exact E ] | intros _; lia ].
    + rewrite IH. split; intros (x & I & F).
      * exists x. split; [ now right | exact F ].
      * destruct I as [-> | I]; [ congruence | ]. exists x. now split.
Qed.
Lemma r_estimate_ok : forall pts samples w,
  exists k, r_estimate_whv pts samples w = Ret (w + INR k) /\
            holds_for (fun s => exists p, In p pts /\ r_sample_dom s p = true) samples k.
Proof.
  intros pts samples. induction samples as [ | s ss IH ]; intros w; cbn [r_estimate_whv]; cbv zeta.
  - exists 0%nat. split; [ cbn [INR]; f_equal; lra | constructor ].
  - set (c := length (filter (fun b : bool => b) (map (r_sample_dom s) pts))).
    pose proof (filter_some _ (r_sample_dom s) pts) as F. fold c in F.
    destruct (Nat.eq_dec c 0) as [E | E].
    + rewrite filter_none by exact E. cbn [bind]. destruct (IH w) as (k & R & H).
      exists k. split; [ exact R | ]. apply hf_no; [ | exact H ]. intros X. apply F in X. now apply X.
    + rewrite r_sum_alpha_ok by lia. fold c. cbn [bind].
      destruct (IH (w + INR c / INR c)) as (k & R & H). exists (S k). rewrite R. split.
      * f_equal. rewrite S_INR. field. apply not_0_INR. exact E.
      * apply hf_yes; [ now apply F | exact H ].
Qed.

Lemma r_normalise_nth : forall p lb ub d, (d < 2)%nat -> nth d lb 0 <> nth d ub 0 ->
  nth d (r_normalise01 2 lb ub p) 0 = (nth d p 0 - nth d lb 0) / (nth d ub 0 - nth d lb 0).
Proof.
  intros p lb ub d Hd Hne. unfold r_normalise01. rewrite nth_map2 by exact Hd. cbv zeta. unfold rco.
  destruct (Req_EM_T (nth d ub 0 - nth d lb 0) 0); [ exfalso; apply Hne; lra | ]. field. exact n.
Qed.
Lemma r_negate_nth : forall mx p d, (d < 2)%nat ->
  nth d (r_negate_max mx p) 0 = if nth d mx false then - nth d p 0 else nth d p 0.
Proof. intros. unfold r_negate_max. now rewrite nth_map2. Qed.
Lemma rdiv_le_iff : forall a s c, 0 < c -> (a / c <= s <-> a <= s * c).
Proof.
  intros a s c Hc. split; intros H.
  - apply Rmult_le_compat_r with (r := c) in H; [ | lra ]. unfold Rdiv in H. rewrite Rmult_assoc, Rinv_l, Rmult_1_r in H by lra. exact H.
  - apply Rmult_le_reg_r with c; [ exact Hc | ]. unfold Rdiv. rewrite Rmult_assoc, Rinv_l, Rmult_1_r by lra. exact H.
Qed.
Lemma r_sample_dom_norm : forall mx ideal ref p s, r_proper_box mx ideal ref ->
  (r_sample_dom s (r_normalise01 2 (r_negate_max mx ideal) (r_negate_max mx ref) (r_negate_max mx p)) = true
   <-> r_wdom mx p (r_location ideal ref s)).
Proof.
  intros mx ideal ref p s HB. rewrite r_sample_dom_iff. unfold r_wdom.
  assert (G : forall d, (d < 2)%nat ->
    (nth d (r_normalise01 2 (r_negate_max mx ideal) (r_negate_max mx ref) (r_negate_max mx p)) 0 <= nth d s 0
     <-> if nth d mx false then r_location ideal ref s d <= nth d p 0 else nth d p 0 <= r_location ideal ref s d)).
  { intros d Hd. specialize (HB d Hd). unfold r_location.
    rewrite r_normalise_nth by (try exact Hd; rewrite !r_negate_nth by exact Hd; destruct (nth d mx false); lra).
    rewrite rdiv_le_iff by (rewrite !r_negate_nth by exact Hd; destruct (nth d mx false); lra).
    rewrite !r_negate_nth by exact Hd. destruct (nth d mx false).
    - replace (nth d s 0 * (- nth d ref 0 - - nth d ideal 0)) with (- (nth d s 0 * (nth d ref 0 - nth d ideal 0))) by ring.
      split; intros; lra.
    - split; intros; lra. }
  split; intros H d Hd; [ apply (proj1 (G d Hd)) | apply (proj2 (G d Hd)) ]; exact (H d Hd).
Qed.
Lemma r_volume_ok : forall mx ideal ref, r_proper_box mx ideal ref ->
  r_volume_between (r_negate_max mx ideal) (r_negate_max mx ref) 2 = r_area ideal ref.
Proof.
  intros mx ideal ref HB. unfold r_volume_between, rco. cbn [seq fold_left].
  rewrite !r_negate_nth by lia. unfold r_area.
  pose proof (HB 0%nat ltac:(lia)) as H0. pose proof (HB 1%nat ltac:(lia)) as H1.
  rewrite Rabs_mult. destruct (nth 0 mx false), (nth 1 mx false);
    repeat match goal with
    | H : nth ?d ref 0 < nth ?d ideal 0 |- context [ Rabs (nth ?d ref 0 - nth ?d ideal 0) ] =>
        rewrite (Rabs_left (nth d ref 0 - nth d ideal 0)) by lra
    | H : nth ?d ideal 0 < nth ?d ref 0 |- context [ Rabs (nth ?d ref 0 - nth ?d ideal 0) ] =>
        rewrite (Rabs_right (nth d ref 0 - nth d ideal 0)) by lra
    end; ring.
Qed.

Lemma hf_ext : forall A (P Q : A -> Prop) l k, (forall x, In x l -> (P x <-> Q x)) -> holds_for P l k -> holds_for Q l k.
Proof.
  intros A P Q l k H Hf. induction Hf as [ | x l k Hx Hf IH | x l k Hx Hf IH ]; [ constructor | apply hf_yes | apply hf_no ].
  - apply H; [ now left | exact Hx ].
  - apply IH. intros; apply H; now right.
  - intros Y. apply Hx. apply H; [ now left | exact Y ].
  - apply IH. intros; apply H; now right.
Qed.
Lemma hf_map : forall A B (f : A -> B) (P : B -> Prop) l k, holds_for P (map f l) k <-> holds_for (fun x => P (f x)) l k.
Proof.
  intros A B f P. induction l as [ | a l IH ]; intros k; cbn [map]; split; intros H; inversion H; subst; constructor; try assumption; now apply IH.
Qed.
Lemma hf_le : forall A (P : A -> Prop) l k, holds_for P l k -> (k <= length l)%nat.
Proof. intros A P l k H. induction H; cbn [length]; lia. Qed.
Lemma hf_fun : forall A (P : A -> Prop) l k, holds_for P l k -> forall k', holds_for P l k' -> k = k'.
Proof. intros A P l k H. induction H; intros k' H'; inversion H'; subst; try contradiction; auto. Qed.

Lemma estimate_value : forall data ref ideal mx samples, r_proper_box mx ideal ref ->
  exists k,
    r_whv_hype_value (map (r_negate_max mx) data) (r_negate_max mx ideal) (r_negate_max mx ref) samples
      = Ret (r_area ideal ref * (INR k / INR (length samples))) /\
    holds_for (fun s => r_attained mx data (r_location ideal ref s)) samples k.
Proof.
  intros data ref ideal mx samples HB. unfold r_whv_hype_value. cbv zeta.
  set (pts := map (r_normalise01 2 (r_negate_max mx ideal) (r_negate_max mx ref)) (map (r_negate_max mx) data)).
  destruct (r_estimate_ok pts samples 0) as (k & R & H). exists k. rewrite R. cbn [bind]. split.
  - rewrite r_volume_ok by exact HB. f_equal. unfold Rdiv. ring.
  - refine (hf_ext _ _ _ _ _ _ H). intros s _. unfold r_attained, pts. rewrite map_map. split.
    + intros (q & I & T). apply in_map_iff in I. destruct I as (p & <- & Ip). exists p. split; [ exact Ip | ].
      now apply r_sample_dom_norm.
    + intros (p & Ip & T). eexists. split; [ apply in_map_iff; exists p; split; [ reflexivity | exact Ip ] | ].
      now apply r_sample_dom_norm.
Qed.

(** ** dist = "point" *)
Lemma bivariate_rho1 : forall lf fuel mu1 mu2 n st out st',
  rng_bivariate_normal_fill lf fuel mu1 mu2 (1 / 4) (1 / 4) 1 n st = Ret (out, st') ->
  exists zs, length zs = n /\
    drawn_pairs (rng_standard_normal lf fuel) st zs /\
    rows_of_two out = map (fun z => [mu1 + fst z * (1 / 4); mu2 + fst z * (1 / 4)]) zs.
Proof.
  intros lf fuel mu1 mu2 n. unfold rng_bivariate_normal_fill.
  replace (1 / 4 * sqrt (1 - 1 * 1)) with 0 by (replace (1 - 1 * 1) with 0 by ring; rewrite sqrt_0; ring).
  induction n as [ | n IH ]; intros st out st' E; cbn [bivariate_loop] in E.
  - injection E as <- <-. exists []. repeat split; constructor.
  - destruct (rng_standard_normal lf fuel st) as [ [x1 s1] | | | ] eqn:E1; try discriminate. cbn [bind snd fst] in E.
    destruct (rng_standard_normal lf fuel s1) as [ [x2 s2] | | | ] eqn:E2; try discriminate. cbn [bind snd fst] in E.
    destruct (bivariate_loop lf fuel mu1 mu2 (1 / 4) (1 / 4 * 1) 0 n s2) as [ [l s3] | | | ] eqn:E3; try discriminate.
    cbn [bind snd fst] in E. injection E as <- <-.
    destruct (IH s2 l s3 E3) as (zs & L & F & M). exists ((x1, x2) :: zs). split; [ cbn [length]; now rewrite L | ]. split.
    + exists s1, s2. auto.
    + cbn [rows_of_two map fst]. rewrite M. f_equal. f_equal. f_equal. ring.
Qed.

(** C76 (1): with dist = "point" every sample lies on the line through the goal in
    the direction from the ideal point to the reference point: the estimate is the
    area of the box times the fraction of the samples for which a point of the data is
    at least as good as the location at z quarters of the box from the goal along the
    diagonal, where z is the first of the two numbers returned by the normal sampler
    for this sample; the second has no effect. *)
Theorem C76_point_on_diagonal : forall lf fuel key0 data ref ideal mx nsamples seed mu v,
  r_proper_box mx ideal ref ->
  py_whv_hype_point lf fuel key0 data ref ideal mx nsamples seed mu = Ret v ->
  exists st zs k,
    mt_seed key0 seed = Ret st /\
    length zs = nsamples /\
    drawn_pairs (rng_standard_normal lf fuel) st zs /\
    holds_for (fun z => r_attained mx data (on_diagonal mx mu ideal ref (fst z))) zs k /\
    v = r_area ideal ref * (INR k / INR nsamples).
Proof.
  intros lf fuel key0 data ref ideal mx n seed mu v HB H.
  unfold py_whv_hype_point, whv_hype_gaus, gaussian_dist_sample in H.
  destruct (mt_seed key0 seed) as [ st | | | ]; try discriminate. cbn [bind] in H.
  destruct (rng_bivariate_normal_fill _ _ _ _ _ _ _ _ _) as [ [out st'] | | | ] eqn:E; try discriminate.
  cbn [bind fst] in H. destruct (bivariate_rho1 _ _ _ _ _ _ _ _ E) as (zs & L & F & M).
  rewrite M in H. set (samples := map _ zs) in H.
  destruct (estimate_value data ref ideal mx samples HB) as (k & R & Hk). rewrite R in H. injection H as <-.
  exists st, zs, k. split; [ reflexivity | ]. split; [ exact L | ]. split; [ exact F | ]. unfold samples in Hk.
  rewrite hf_map in Hk. split.
  - refine (hf_ext _ _ _ _ _ _ Hk). intros z _. unfold r_attained, r_wdom.
    destruct z as [z z']. cbn [fst].
    assert (G : forall d, (d < 2)%nat ->
      r_location ideal ref [rco (r_normalise01 2 (r_negate_max mx ideal) (r_negate_max mx ref) mu) 0 + z * (1 / 4);
                            rco (r_normalise01 2 (r_negate_max mx ideal) (r_negate_max mx ref) mu) 1 + z * (1 / 4)] d
      = on_diagonal mx mu ideal ref z d).
    { intros d Hd. unfold r_location, on_diagonal.
      replace (nth d [rco (r_normalise01 2 (r_negate_max mx ideal) (r_negate_max mx ref) mu) 0 + z * (1 / 4);
                            rco (r_normalise01 2 (r_negate_max mx ideal) (r_negate_max mx ref) mu) 1 + z * (1 / 4)] 0)
        with (nth d (r_normalise01 2 (r_negate_max mx ideal) (r_negate_max mx ref) mu) 0 + z * (1 / 4))
        by (destruct d as [ | [ | d ] ]; [ reflexivity | reflexivity | lia ]).
      specialize (HB d Hd).
      rewrite r_normalise_nth by (try exact Hd; rewrite !r_negate_nth by exact Hd; destruct (nth d mx false); lra).
      rewrite !r_negate_nth by exact Hd. destruct (nth d mx false); field; lra. }
    split; intros (p & Ip & W); exists p; (split; [ exact Ip | ]); intros d Hd; specialize (W d Hd);
      rewrite (G d Hd) in *; exact W.
  - f_equal. f_equal. f_equal. unfold samples. rewrite map_length. exact L.
Qed.

(** the documentation promises a multivariate normal weight around the goal, which
    would distinguish these two data sets; the estimates coincide for every seed *)
Theorem C76_point_weight_refuted :
  exists p q mu ideal ref,
    r_proper_box [false; false] ideal ref /\
    (forall d, (d < 2)%nat -> nth d ideal 0 <= nth d p 0 <= nth d q 0 /\ nth d q 0 < nth d ref 0) /\
    nth 1 p 0 < nth 1 q 0 /\
    forall lf fuel key0 nsamples seed v v',
      py_whv_hype_point lf fuel key0 [p] ref ideal [false; false] nsamples seed mu = Ret v ->
      py_whv_hype_point lf fuel key0 [q] ref ideal [false; false] nsamples seed mu = Ret v' ->
      v = v'.
Proof.
  exists [1 / 2; 0], [1 / 2; 1 / 2], [0; 0], [0; 0], [1; 1].
  assert (HB : r_proper_box [false; false] [0; 0] [1; 1]).
  { intros [ | [ | d ] ] Hd; cbn [nth]; [ lra | lra | lia ]. }
  split; [ exact HB | ]. split; [ intros [ | [ | d ] ] Hd; cbn [nth]; [ lra | lra | lia ] | ]. split; [ cbn [nth]; lra | ].
  intros lf fuel key0 n seed v v' H H'.
  unfold py_whv_hype_point, whv_hype_gaus, gaussian_dist_sample in H, H'.
  destruct (mt_seed key0 seed) as [ st | | | ]; try discriminate. cbn [bind] in H, H'.
  destruct (rng_bivariate_normal_fill _ _ _ _ _ _ _ _ _) as [ [out st'] | | | ] eqn:E; try discriminate.
  cbn [bind fst] in H, H'. destruct (bivariate_rho1 _ _ _ _ _ _ _ _ E) as (zs & L & F & M).
  rewrite M in H, H'. set (samples := map _ zs) in H, H'.
  destruct (estimate_value [[1 / 2; 0]] [1; 1] [0; 0] [false; false] samples HB) as (k & R & Hk). rewrite R in H. injection H as <-.
  destruct (estimate_value [[1 / 2; 1 / 2]] [1; 1] [0; 0] [false; false] samples HB) as (k' & R' & Hk'). rewrite R' in H'. injection H' as <-.
  assert (k = k') as ->; [ | reflexivity ].
  refine (hf_fun _ _ _ _ _ _ Hk').
  refine (hf_ext _ _ _ _ _ _ Hk). intros s Hs. unfold samples in Hs. apply in_map_iff in Hs. destruct Hs as (z & <- & _).
  assert (C : forall d, (d < 2)%nat -> rco (r_normalise01 2 (r_negate_max [false; false] [0; 0]) (r_negate_max [false; false] [1; 1]) [0; 0]) d = 0).
  { intros d Hd. unfold rco. assert (Z0 : nth d [0; 0] 0 = 0) by (destruct d as [ | [ | d ] ]; [ reflexivity | reflexivity | lia ]).
    assert (Z1 : nth d [1; 1] 0 = 1) by (destruct d as [ | [ | d ] ]; [ reflexivity | reflexivity | lia ]).
    assert (ZF : nth d [false; false] false = false) by (destruct d as [ | [ | d ] ]; [ reflexivity | reflexivity | lia ]).
    rewrite r_normalise_nth; rewrite ?r_negate_nth by exact Hd; rewrite ?ZF, ?Z0, ?Z1; [ field | exact Hd | lra ]. }
  rewrite !C by lia. unfold r_attained, r_wdom, r_location. split; intros (p & [<- | []] & W).
  - eexists. split; [ now left | ]. pose proof (W 0%nat ltac:(lia)) as W0. cbn [nth] in W0.
    intros [ | [ | d ] ] Hd; cbn [nth]; [ lra | lra | lia ].
  - eexists. split; [ now left | ]. pose proof (W 0%nat ltac:(lia)) as W0. cbn [nth] in W0.
    intros [ | [ | d ] ] Hd; cbn [nth]; [ lra | lra | lia ].
Qed.

(** ** dist = "exponential" *)
Definition fraction53 (u : Z) : Prop := (0 <= u < 2 ^ 53)%Z.

Lemma draw53 : forall x, mt_sequence x -> forall i st, st_inv x (mt_n + 2 * i) st ->
  exists st', mt_next_double53 st = Ret (fraction_drawn x i, st') /\ fraction53 (fraction_drawn x i) /\
    st_inv x (mt_n + 2 * S i) st'.
Proof.
  intros x Hx i st H.
  destruct (run_op_range x _ st true DrawDouble Hx H) as (v & st' & c' & E & Hv & _).
  cbn [mt_run_op op_range] in E, Hv.
  destruct (next_ok x Hx _ _ H) as (_ & s1 & E1 & H1). destruct (next_ok x Hx _ _ H1) as (_ & s2 & E2 & H2).
  assert (R : mt_next_double53 st = Ret (fraction_drawn x i, s2)).
  { unfold mt_next_double53. rewrite E1. cbn [bind fst snd]. rewrite E2. cbn [bind fst snd].
    unfold fraction_drawn. rewrite !Z.shiftr_div_pow2 by lia. now replace (mt_n + 2 * i + 1)%nat with (S (mt_n + 2 * i)) by lia. }
  rewrite R in E. injection E as <- <-. exists s2. split; [ exact R | split; [ exact Hv | ] ].
  now replace (mt_n + 2 * S i)%nat with (S (S (mt_n + 2 * i))) by lia.
Qed.

Lemma exp_sample_first : forall mu u1 u2,
  [0 - mu * ln (frac53 u1); 0 + frac53 u2 * 1] = exp_sample mu true (u1, u2).
Proof. intros. unfold exp_sample. cbn [fst snd]. unfold frac53. f_equal; [ ring | ]. f_equal. ring. Qed.
Lemma exp_sample_second : forall mu u1 u2,
  [0 + frac53 u1 * 1; 0 - mu * ln (frac53 u2)] = exp_sample mu false (u1, u2).
Proof. intros. unfold exp_sample. cbn [fst snd]. unfold frac53. f_equal; [ ring | ]. f_equal. ring. Qed.

(** every fraction of the sequence is below 1 *)
Lemma fraction_range : forall x, mt_sequence x -> forall key, key_ok key -> (forall j, (j < NN)%nat -> nth j key 0%Z = x j) ->
  forall i, fraction53 (fraction_drawn x i).
Proof.
  intros x Hx key Hk Hn.
  assert (Hi : st_inv x (mt_n + 2 * 0) (mkMt key NN)).
  { exists 0%nat. cbn [mt_key mt_pos]. split; [ split; [ exact Hk | ] | rewrite NN_n; lia ].
    intros j Hj. rewrite Nat.add_0_l. now apply Hn. }
  assert (G : forall i, exists st, st_inv x (mt_n + 2 * i) st).
  { induction i as [ | i [st IH] ]; [ eexists; exact Hi | ]. destruct (draw53 x Hx i st IH) as (st' & _ & _ & H'). now exists st'. }
  intros i. destruct (G i) as [st H]. destruct (draw53 x Hx i st H) as (st' & _ & F & _). exact F.
Qed.
(** what the two loops do with the pairs of numerators they draw *)
Lemma exp_loop1_ok : forall x, mt_sequence x -> forall mu k i st, st_inv x (mt_n + 2 * (2 * i)) st ->
  let us := map (pair_drawn x) (seq i k) in
  Forall (fun u => fraction53 (fst u) /\ fraction53 (snd u)) us /\
  (Exists (fun u => exp_draw true u = 0%Z) us -> exp_loop1 k mu st = AssertFailed) /\
  (Forall (fun u => exp_draw true u <> 0%Z) us ->
     exists st', exp_loop1 k mu st = Ret (map (exp_sample mu true) us, st') /\ st_inv x (mt_n + 2 * (2 * (i + k))) st').
Proof.
  intros x Hx mu. induction k as [ | k IH ]; intros i st H; cbn [exp_loop1 seq map]; cbv zeta.
  - split; [ constructor | ]. split; [ intros X; inversion X | ]. intros _. exists st. rewrite Nat.add_0_r. now split.
  - destruct (draw53 x Hx (2 * i) st H) as (s1 & E1 & F1 & H1).
    destruct (draw53 x Hx (S (2 * i)) s1 H1) as (s2 & E2 & F2 & H2).
    replace (mt_n + 2 * S (S (2 * i)))%nat with (mt_n + 2 * (2 * S i))%nat in H2 by lia.
    destruct (IH (S i) s2 H2) as (F & A & B). cbv zeta in F, A, B.
    rewrite E1. cbn [bind fst snd]. 
    replace (pair_drawn x i) with (fraction_drawn x (2 * i), fraction_drawn x (S (2 * i))) by (unfold pair_drawn; do 2 f_equal; lia).
    set (u1 := fraction_drawn x (2 * i)) in *. set (u2 := fraction_drawn x (S (2 * i))) in *.
    split; [ constructor; [ now split | exact F ] | ].
    destruct (Z.ltb_spec 0 u1) as [L | L]; cbn [assert_ bind].
    + rewrite E2. cbn [bind fst snd]. split.
      * intros X. inversion X as [ ? ? Z0 | ? ? X' ]; subst; [ cbn in Z0; lia | ]. now rewrite (A X').
      * intros X. inversion X as [ | ? ? _ X' ]; subst. destruct (B X') as (s3 & E3 & H3). rewrite E3. cbn [bind fst snd].
        exists s3. split; [ cbn [map]; now rewrite <- exp_sample_first | ]. now replace (i + S k)%nat with (S i + k)%nat by lia.
    + split; [ reflexivity | ]. intros X. inversion X as [ | ? ? Z0 X' ]; subst. cbn in Z0. destruct F1. lia.
Qed.
Lemma exp_loop2_ok : forall x, mt_sequence x -> forall mu k i st, st_inv x (mt_n + 2 * (2 * i)) st ->
  let us := map (pair_drawn x) (seq i k) in
  Forall (fun u => fraction53 (fst u) /\ fraction53 (snd u)) us /\
  (Exists (fun u => exp_draw false u = 0%Z) us -> exp_loop2 k mu st = AssertFailed) /\
  (Forall (fun u => exp_draw false u <> 0%Z) us ->
     exists st', exp_loop2 k mu st = Ret (map (exp_sample mu false) us, st') /\ st_inv x (mt_n + 2 * (2 * (i + k))) st').
Proof.
  intros x Hx mu. induction k as [ | k IH ]; intros i st H; cbn [exp_loop2 seq map]; cbv zeta.
  - split; [ constructor | ]. split; [ intros X; inversion X | ]. intros _. exists st. rewrite Nat.add_0_r. now split.
  - destruct (draw53 x Hx (2 * i) st H) as (s1 & E1 & F1 & H1).
    destruct (draw53 x Hx (S (2 * i)) s1 H1) as (s2 & E2 & F2 & H2).
    replace (mt_n + 2 * S (S (2 * i)))%nat with (mt_n + 2 * (2 * S i))%nat in H2 by lia.
    destruct (IH (S i) s2 H2) as (F & A & B). cbv zeta in F, A, B.
    rewrite E1. cbn [bind fst snd]. rewrite E2. cbn [bind fst snd].
    replace (pair_drawn x i) with (fraction_drawn x (2 * i), fraction_drawn x (S (2 * i))) by (unfold pair_drawn; do 2 f_equal; lia).
    set (u1 := fraction_drawn x (2 * i)) in *. set (u2 := fraction_drawn x (S (2 * i))) in *.
    split; [ constructor; [ now split | exact F ] | ].
    destruct (Z.ltb_spec 0 u2) as [L | L]; cbn [assert_ bind].
    +  split.
      * intros X. inversion X as [ ? ? Z0 | ? ? X' ]; subst; [ cbn in Z0; lia | ]. now rewrite (A X').
      * intros X. inversion X as [ | ? ? _ X' ]; subst. destruct (B X') as (s3 & E3 & H3). rewrite E3. cbn [bind fst snd].
        exists s3. split; [ cbn [map]; now rewrite <- exp_sample_second | ]. now replace (i + S k)%nat with (S i + k)%nat by lia.
    + split; [ reflexivity | ]. intros X. inversion X as [ | ? ? Z0 X' ]; subst. cbn in Z0. destruct F2. lia.
Qed.

(** C76 (2): with dist = "exponential", for every seed: half of the samples (rounded
    down) are exponential in the first objective and uniform in the second, the
    others the other way round; they are made from the fractions the generator yields
    one after the other, and the estimate is the area of the box times the proportion
    of the samples at whose location a point of the data is at least as good.  The
    call stops at an assertion if and only if the logarithm would be applied to 0. *)
Theorem C76_exponential : forall key0 data ref ideal mx nsamples seed mu x,
  length key0 = Z.to_nat 624 -> r_proper_box mx ideal ref ->
  mt_sequence x -> (forall i, (i < Z.to_nat 624)%nat -> x i = knuth (seed mod 2 ^ 32) i) ->
  let half := (nsamples / 2)%nat in
  let us := map (pair_drawn x) (seq 0 half) in
  let us' := map (pair_drawn x) (seq half (nsamples - half)) in
  let zero_drawn := Exists (fun u => exp_draw true u = 0%Z) us \/ Exists (fun u => exp_draw false u = 0%Z) us' in
  Forall (fun u => fraction53 (fst u) /\ fraction53 (snd u)) (us ++ us') /\
  (zero_drawn -> py_whv_hype_expo key0 data ref ideal mx nsamples seed mu = AssertFailed) /\
  (~ zero_drawn ->
     exists k,
       py_whv_hype_expo key0 data ref ideal mx nsamples seed mu = Ret (r_area ideal ref * (INR k / INR nsamples)) /\
       holds_for (fun s => r_attained mx data (r_location ideal ref s))
                 (map (exp_sample mu true) us ++ map (exp_sample mu false) us') k).
Proof.
  intros key0 data ref ideal mx n seed mu x HL HB Hx Hs half us us' zd.
  destruct (seed_ok key0 seed HL) as [key [E [Hk Hn]]].
  assert (Hi : st_inv x (mt_n + 2 * (2 * 0)) (mkMt key NN)).
  { exists 0%nat. cbn [mt_key mt_pos]. split; [ split; [ exact Hk | ] | rewrite NN_n; lia ].
    intros j Hj. rewrite (Hn j Hj), Nat.add_0_l. symmetry. now apply Hs. }
  assert (D : (half <= n)%nat) by (apply Nat.div_le_upper_bound; lia).
  assert (FN : forall b l, ~ Exists (fun u => exp_draw b u = 0%Z) l -> Forall (fun u => exp_draw b u <> 0%Z) l).
  { intros b l. induction l as [ | u l IH ]; intros X; constructor.
    - intros Z0. apply X. now left.
    - apply IH. intros Z0. apply X. now right. }
  assert (DE : forall b l, Exists (fun u => exp_draw b u = 0%Z) l \/ ~ Exists (fun u => exp_draw b u = 0%Z) l).
  { intros b l. destruct (Exists_dec (fun u => exp_draw b u = 0%Z) l) as [X | X]; [ intros u; apply Z.eq_dec | now left | now right ]. }
  destruct (exp_loop1_ok x Hx mu half 0 _ Hi) as (F & A & B). fold us in F, A, B.
  unfold py_whv_hype_expo, whv_hype_expo, exp_dist_sample. rewrite E. cbn [bind]. cbv zeta. fold half.
  rewrite Nat.add_0_l in B.
  assert (F' : Forall (fun u => fraction53 (fst u) /\ fraction53 (snd u)) us').
  { apply Forall_map, Forall_forall. intros i _. unfold pair_drawn. cbn [fst snd]. assert (Fx : forall i, fraction53 (fraction_drawn x i)) by (apply (fraction_range x Hx key Hk); intros j Hj; rewrite (Hn j Hj); symmetry; now apply Hs). split; apply Fx. }
  split; [ apply Forall_app; now split | ].
  destruct (DE true us) as [X | X].
  { rewrite (A X). split; [ reflexivity | ]. intros NZ. destruct NZ. now left. }
  destruct (B (FN _ _ X)) as (s1 & R & H1). rewrite R. cbn [bind fst snd].
  destruct (exp_loop2_ok x Hx mu (n - half) half _ H1) as (_ & A' & B'). fold us' in A', B'. split.
  - intros [ Y | Y ]; [ contradiction | ]. now rewrite (A' Y).
  - intros NZ. destruct (B' (FN _ _ (fun Y => NZ (or_intror Y)))) as (s2 & R' & _). rewrite R'. cbn [bind fst snd].
    destruct (estimate_value data ref ideal mx (map (exp_sample mu true) us ++ map (exp_sample mu false) us') HB) as (k & V & Hh).
    exists k. split; [ | exact Hh ]. rewrite V. f_equal. f_equal. f_equal. f_equal.
    unfold us, us'. rewrite app_length, !map_length, !seq_length. lia.
Qed.

(** the number drawn in the exponential direction exceeds a when the fraction is at
    most exp (- a / mu) *)
Lemma exp_inverse : forall mu a u, 0 < mu -> 0 < u -> (a <= - mu * ln u <-> u <= exp (- a / mu)).
Proof.
  intros mu a u Hmu Hu. split; intros H.
  - rewrite <- (exp_ln u Hu) at 1.
    assert (L : ln u <= - a / mu).
    { apply Rmult_le_reg_l with mu; [ exact Hmu | ]. replace (mu * (- a / mu)) with (- a) by (field; lra). lra. }
    destruct L as [L | L]; [ left; now apply exp_increasing | right; now rewrite L ].
  - assert (L : ln u <= - a / mu).
    { destruct H as [H | H].
      - left. rewrite <- (ln_exp (- a / mu)). now apply ln_increasing.
      - right. rewrite H. apply ln_exp. }
    apply Rmult_le_compat_l with (r := mu) in L; [ | lra ]. replace (mu * (- a / mu)) with (- a) in L by (field; lra). lra.
Qed.

(** the sample drawn from the fractions with numerators u1 and u2 is defined and
    reaches the point (a, b), in coordinates relative to the box *)
Definition reaches (mu a b : R) (exp_first : bool) (u1 u2 : Z) : bool :=
  let s := exp_sample mu exp_first (u1, u2) in
  (0 <? exp_draw exp_first (u1, u2))%Z &&
  (if Rle_dec a (nth 0 s 0) then true else false) && (if Rle_dec b (nth 1 s 0) then true else false).

Lemma pos53 : 0 < IZR (2 ^ 53). Proof. apply IZR_lt. reflexivity. Qed.

Lemma chance_ge : forall b (P : Z -> bool), 0 <= b <= 1 ->
  (forall i, (0 <= i < 2 ^ 53)%Z -> P i = true <-> b <= IZR i / IZR (2 ^ 53)) ->
  Rabs (chance (2 ^ 53) P - (1 - b)) <= / IZR (2 ^ 53).
Proof.
  intros b P Hb H. pose proof pos53 as N.
  pose proof (chance_below (2 ^ 53) b (fun i => negb (P i)) ltac:(reflexivity)) as Q.
  rewrite clamp_id in Q by exact Hb.
  assert (E : chance (2 ^ 53) (fun i => negb (P i)) = 1 - chance (2 ^ 53) P).
  { unfold chance. rewrite (mean_ext (2 ^ 53) (fun i => indicator (negb (P i))) (fun i => 1 + (-1) * indicator (P i))).
    - rewrite mean_plus, mean_const, mean_scal by reflexivity. ring.
    - intros i _. destruct (P i); cbn; ring. }
  rewrite E in Q. rewrite Rabs_minus_sym.
  replace (1 - b - chance (2 ^ 53) P) with (1 - chance (2 ^ 53) P - b) by ring. apply Q.
  intros i Hi. specialize (H i Hi). destruct (P i); cbn [negb].
  - split; [ discriminate | ]. intros L. exfalso. assert (X : b <= IZR i / IZR (2 ^ 53)) by now apply H.
    apply Rmult_le_compat_r with (r := IZR (2 ^ 53)) in X; [ | lra ]. unfold Rdiv in X. rewrite Rmult_assoc, Rinv_l in X by lra. lra.
  - split; [ intros _ | reflexivity ]. destruct (Rlt_le_dec (IZR i) (b * IZR (2 ^ 53))) as [L | L]; [ exact L | exfalso ].
    assert (X : false = true); [ | discriminate ]. apply H. apply Rmult_le_reg_r with (IZR (2 ^ 53)); [ exact N | ].
    unfold Rdiv. rewrite Rmult_assoc, Rinv_l by lra. lra.
Qed.
Lemma count_upto : forall n th (Q : nat -> bool), (forall i, (i < n)%nat -> Q i = true <-> 0 < INR i <= th) -> 0 <= th ->
    let s := sum_to n (fun i => indicator (Q i)) in
    s <= th /\ Rmin (th - 1) (INR n - 1) <= s /\ (INR n - 1 <= th -> INR n - 1 <= s) /\ (s <= INR n - 1 \/ n = 0%nat).
Proof.
  induction n as [ | n IH ]; intros th Q HQ Hth; cbv zeta; cbn [sum_to].
    - cbn [INR]. unfold Rmin. destruct (Rle_dec (th - 1) (0 - 1)); repeat split; intros; try lra; now right.
    - specialize (IH th Q ltac:(intros; apply HQ; lia) Hth). cbv zeta in IH. destruct IH as (A & B & C & D).
      rewrite S_INR. pose proof (HQ n ltac:(lia)) as Qn. pose proof (pos_INR n) as N0.
      set (s := sum_to n (fun i => indicator (Q i))) in *.
      destruct (Q n) eqn:EQ; unfold indicator.
      + assert (L : 0 < INR n <= th) by now apply Qn. specialize (C ltac:(lra)).
        destruct D as [D | ->]; [ | cbn [INR] in L; lra ].
        unfold Rmin. destruct (Rle_dec (th - 1) (INR n + 1 - 1)); repeat split; intros; try lra; left; lra.
      + assert (L : INR n = 0 \/ th < INR n).
        { destruct (Rle_lt_dec (INR n) th); [ left | now right ]. destruct (Req_dec (INR n) 0); [ assumption | exfalso ].
          assert (false = true) by (apply Qn; lra). discriminate. }
        destruct L as [L | L].
        * assert (n = 0%nat) by (destruct n; [ reflexivity | rewrite S_INR in L; pose proof (pos_INR n); lra ]). subst n.
          unfold s in *. cbn [sum_to INR] in *. unfold Rmin. destruct (Rle_dec (th - 1) (0 + 1 - 1)); repeat split; intros; try lra; left; lra.
        * assert (D' : s <= INR n + 1 - 1) by (destruct D as [D | E0]; [ lra | subst n; unfold s; cbn [sum_to INR]; lra ]).
          revert B. unfold Rmin. destruct (Rle_dec (th - 1) (INR n - 1)), (Rle_dec (th - 1) (INR n + 1 - 1)); intros B;
            repeat split; intros; try lra; left; lra. 
Qed.
Lemma chance_upto : forall n c P, (0 < n)%Z -> 0 <= c <= 1 ->
  (forall i, (0 <= i < n)%Z -> P i = true <-> 0 < IZR i <= c * IZR n) ->
  Rabs (chance n P - c) <= / IZR n.
Proof.
  intros m c P Hm Hc H. assert (N : 0 < IZR m) by (apply IZR_lt; exact Hm).
  pose proof (count_upto (Z.to_nat m) (c * IZR m) (fun i => P (Z.of_nat i))) as KK. cbv zeta in KK.
  rewrite INR_to_nat in KK by lia. destruct KK as (A & B & _ & _).
  { intros i Hi. rewrite INR_IZR_INZ. apply H. lia. }
  { apply Rmult_le_pos; lra. }
  unfold chance, mean_of. set (s := sum_to _ _) in *. set (n := IZR m) in *.
  replace (s / n - c) with ((s - c * n) * / n) by (field; lra).
  rewrite Rabs_mult, (Rabs_right (/ n)) by (left; apply Rinv_0_lt_compat; exact N).
  rewrite <- (Rmult_1_l (/ n)) at 2. apply Rmult_le_compat_r; [ left; apply Rinv_0_lt_compat; exact N | ].
  apply Rabs_le. assert (c * n <= n) by (rewrite <- (Rmult_1_l n) at 2; apply Rmult_le_compat_r; lra).
  revert B. unfold Rmin. destruct (Rle_dec (c * n - 1) (n - 1)); intros B; split; lra.
Qed.
Lemma chance_exp : forall mu a (P : Z -> bool), 0 < mu -> 0 <= a ->
  (forall i, (0 <= i < 2 ^ 53)%Z -> P i = true <-> (0 < i)%Z /\ a <= - mu * ln (IZR i / IZR (2 ^ 53))) ->
  Rabs (chance (2 ^ 53) P - exp (- a / mu)) <= / IZR (2 ^ 53).
Proof.
  intros mu a P Hmu Ha H. pose proof pos53 as N. set (c := exp (- a / mu)).
  assert (C0 : 0 < c) by apply exp_pos.
  assert (C1 : c <= 1).
  { unfold c. rewrite <- exp_0. assert (X : - a / mu <= 0).
    { apply Rmult_le_reg_r with mu; [ exact Hmu | ]. replace (- a / mu * mu) with (- a) by (field; lra). lra. }
    destruct X as [X | X]; [ left; now apply exp_increasing | right; now rewrite X ]. }
  (* the integers i with 0 < i <= c n are shifted to those below c n *)
  assert (HP : forall i, (0 <= i < 2 ^ 53)%Z -> P i = true <-> 0 < IZR i <= c * IZR (2 ^ 53)).
  { intros i Hi. rewrite (H i Hi). split.
    - intros [Pi L]. assert (0 < IZR i) by (apply IZR_lt; exact Pi). split; [ assumption | ].
      apply exp_inverse in L; [ | exact Hmu | apply Rdiv_lt_0_compat; assumption ]. fold c in L.
      apply Rmult_le_compat_r with (r := IZR (2 ^ 53)) in L; [ | lra ]. unfold Rdiv in L. rewrite Rmult_assoc, Rinv_l in L by lra. lra.
    - intros [Pi L]. split; [ now apply lt_IZR | ]. apply exp_inverse; [ exact Hmu | apply Rdiv_lt_0_compat; assumption | ]. fold c.
      apply Rmult_le_reg_r with (IZR (2 ^ 53)); [ exact N | ]. unfold Rdiv. rewrite Rmult_assoc, Rinv_l by lra. lra. }
  clear H.
  apply chance_upto; [ reflexivity | lra | exact HP ].
Qed.

Lemma chance_range : forall n P, (0 < n)%Z -> 0 <= chance n P <= 1.
Proof.
  intros n P Hn. unfold chance. split.
  - rewrite <- (mean_const n 0 Hn). apply mean_le; [ exact Hn | ]. intros i _. destruct (P i); cbn; lra.
  - rewrite <- (mean_const n 1 Hn). apply mean_le; [ exact Hn | ]. intros i _. destruct (P i); cbn; lra.
Qed.

(** C76 (3): the weight of the part of the plane a point dominates.  Of all the pairs
    of fractions a sample can be drawn from, the proportion whose sample the point
    (a, b) dominates, in coordinates relative to the box, is exp (- a / mu) (1 - b) up
    to the resolution of the fractions; there is no upper limit on a. *)
Theorem C76_exponential_weight : forall mu a b, 0 < mu -> 0 <= a -> 0 <= b <= 1 ->
  Rabs (mean_of (2 ^ 53) (fun u1 => chance (2 ^ 53) (fun u2 => reaches mu a b true u1 u2)) - exp (- a / mu) * (1 - b))
    <= 2 / IZR (2 ^ 53) /\
  Rabs (mean_of (2 ^ 53) (fun u1 => chance (2 ^ 53) (fun u2 => reaches mu b a false u1 u2)) - (1 - b) * exp (- a / mu))
    <= 2 / IZR (2 ^ 53).
Proof.
  intros mu a b Hmu Ha Hb. pose proof pos53 as N.
  set (PE := fun i => ((0 <? i)%Z && (if Rle_dec a (- mu * ln (IZR i / IZR (2 ^ 53))) then true else false))%bool).
  set (PU := fun i => if Rle_dec b (IZR i / IZR (2 ^ 53)) then true else false).
  assert (CE : Rabs (chance (2 ^ 53) PE - exp (- a / mu)) <= / IZR (2 ^ 53)).
  { apply chance_exp; [ exact Hmu | exact Ha | ]. intros i _. unfold PE. rewrite andb_true_iff, Z.ltb_lt.
    destruct (Rle_dec a (- mu * ln (IZR i / IZR (2 ^ 53)))); intuition. discriminate. }
  assert (CU : Rabs (chance (2 ^ 53) PU - (1 - b)) <= / IZR (2 ^ 53)).
  { apply chance_ge; [ exact Hb | ]. intros i _. unfold PU. destruct (Rle_dec b (IZR i / IZR (2 ^ 53))); intuition. discriminate. }
  pose proof (chance_range (2 ^ 53) PE ltac:(reflexivity)) as RE.
  pose proof (chance_range (2 ^ 53) PU ltac:(reflexivity)) as RU.
  set (e := chance (2 ^ 53) PE) in *. set (u := chance (2 ^ 53) PU) in *. set (c := exp (- a / mu)) in *.
  assert (B : Rabs (e * u - c * (1 - b)) <= 2 / IZR (2 ^ 53)).
  { replace (e * u - c * (1 - b)) with (u * (e - c) + (c) * (u - (1 - b)) ) by ring.
    assert (C01 : 0 <= c <= 1).
    { unfold c. split; [ left; apply exp_pos | ]. rewrite <- exp_0. assert (X : - a / mu <= 0).
      { apply Rmult_le_reg_r with mu; [ exact Hmu | ]. replace (- a / mu * mu) with (- a) by (field; lra). lra. }
      destruct X as [X | X]; [ left; now apply exp_increasing | right; now rewrite X ]. }
    eapply Rle_trans; [ apply Rabs_triang | ]. rewrite !Rabs_mult, (Rabs_right u), (Rabs_right c) by lra.
    assert (u * Rabs (e - c) <= 1 * / IZR (2 ^ 53)) by (apply Rmult_le_compat; try lra; apply Rabs_pos).
    assert (c * Rabs (u - (1 - b)) <= 1 * / IZR (2 ^ 53)) by (apply Rmult_le_compat; try lra; apply Rabs_pos).
    unfold Rdiv. lra. }
  assert (IA : forall x y : bool, indicator (x && y) = indicator x * indicator y) by (intros [] []; cbn; ring).
  split.
  - replace (mean_of (2 ^ 53) (fun u1 => chance (2 ^ 53) (fun u2 => reaches mu a b true u1 u2))) with (e * u); [ exact B | ].
    unfold e at 1. unfold chance at 1. rewrite Rmult_comm, <- mean_scal. apply mean_ext. intros i _.
    unfold u, chance. rewrite Rmult_comm, <- mean_scal. apply mean_ext. intros j _. rewrite <- IA. reflexivity.
  - rewrite (Rmult_comm (1 - b)).
    replace (mean_of (2 ^ 53) (fun u1 => chance (2 ^ 53) (fun u2 => reaches mu b a false u1 u2))) with (e * u); [ exact B | ].
    unfold u at 1. unfold chance at 1. rewrite <- mean_scal. apply mean_ext. intros i _.
    unfold e, chance. rewrite Rmult_comm, <- mean_scal. apply mean_ext. intros j _. rewrite <- IA. f_equal.
    unfold reaches, PE, PU. cbn [exp_sample exp_draw fst snd nth]. cbv zeta.
    destruct (0 <? j)%Z, (Rle_dec b (IZR i / IZR (2 ^ 53))), (Rle_dec a (- mu * ln (IZR j / IZR (2 ^ 53)))); reflexivity.
Qed.

(** a point on the far side of the reference point is counted: the samples are not
    limited to the box *)
Theorem C76_beyond_reference_refuted :
  exists mu p ideal ref us, 0 < mu /\ r_proper_box [false; false] ideal ref /\
    nth 0 ref 0 < nth 0 p 0 /\ Forall (fun u => fraction53 (fst u) /\ fraction53 (snd u) /\ exp_draw true u <> 0%Z) us /\
    exists k, holds_for (fun s => r_attained [false; false] [p] (r_location ideal ref s)) (map (exp_sample mu true) us) k /\ (0 < k)%nat.
Proof.
  exists 1, [2; 0], [0; 0], [1; 1], [(1, 1)%Z].
  split; [ lra | ]. split; [ intros [ | [ | d ] ] Hd; cbn [nth]; [ lra | lra | lia ] | ]. split; [ cbn [nth]; lra | ].
  split; [ repeat constructor; cbn; try lia; discriminate | ].
  exists 1%nat. split; [ | lia ]. cbn [map]. apply hf_yes; [ | constructor ].
  exists [2; 0]. split; [ now left | ]. unfold r_wdom, r_location, exp_sample. cbv zeta. cbn [fst snd].
  pose proof pos53 as N.
  assert (L : 2 <= - (1) * ln (1 / IZR (2 ^ 53))).
  { apply exp_inverse; [ lra | apply Rdiv_lt_0_compat; lra | ].
    replace (- (2) / 1) with (-1 + -1) by field. rewrite exp_plus.
    assert (E : / 3 <= exp (-1)).
    { change (-1) with (IZR (Z.opp 1)); rewrite opp_IZR, exp_Ropp. apply Rinv_le_contravar; [ apply exp_pos | apply exp_le_3 ]. }
    assert (/ 3 * / 3 <= exp (-1) * exp (-1)) by (apply Rmult_le_compat; lra).
    assert (1 / IZR (2 ^ 53) <= / 9).
    { unfold Rdiv. rewrite Rmult_1_l. apply Rinv_le_contravar; [ lra | ]. apply IZR_le. lia. }
    lra. }
  assert (G : 0 <= 1 / IZR (2 ^ 53)) by (left; apply Rdiv_lt_0_compat; lra).
  intros [ | [ | d ] ] Hd; cbn [nth]; [ lra | lra | lia ].
Qed.

(** ** The hypotheses are met *)
Definition zig_fast (r : Z) : bool :=
  match rd wi_double (Z.to_nat (Z.land r 255)), rd ki_double (Z.to_nat (Z.land r 255)) with
  | Ret _, Ret ki => (Z.land (Z.shiftr (Z.shiftr r 8) 1) 0x000fffffffffffff <? ki)%Z
  | _, _ => false
  end.
Lemma zig_fast_ok : forall r, zig_fast r = true -> exists x, zig_first r = Ret (FValue x).
Proof.
  intros r H. unfold zig_fast in H. unfold zig_first. cbv zeta.
  destruct (rd wi_double _) as [ wi | | | ]; try discriminate. destruct (rd ki_double _) as [ ki | | | ]; try discriminate.
  cbn [bind]. rewrite H. eauto.
Qed.
(** two words that need no further draws *)
Definition two_fast (lf : bool) (key0 : list Z) (seed : Z) : bool :=
  match mt_seed key0 seed with
  | Ret st => match mt_next64 lf st with
              | Ret (r, s) => zig_fast r && match mt_next64 lf s with Ret (r', _) => zig_fast r' | _ => false end
              | _ => false
              end
  | _ => false
  end.
Lemma two_fast_ok : forall lf key0 seed data ref ideal mx mu, two_fast lf key0 seed = true ->
  exists v, py_whv_hype_point lf 1 key0 data ref ideal mx 1 seed mu = Ret v.
Proof.
  intros lf key0 seed data ref ideal mx mu H. unfold two_fast in H.
  unfold py_whv_hype_point, whv_hype_gaus, gaussian_dist_sample, rng_bivariate_normal_fill.
  destruct (mt_seed key0 seed) as [ st | | | ]; try discriminate. cbn [bind bivariate_loop rng_standard_normal].
  destruct (mt_next64 lf st) as [ [r s] | | | ]; try discriminate. cbn [bind fst snd].
  apply andb_true_iff in H. destruct H as [H1 H2]. destruct (zig_fast_ok r H1) as [x E]. rewrite E. cbn [bind fst snd].
  destruct (mt_next64 lf s) as [ [r' s'] | | | ]; try discriminate. cbn [bind fst snd].
  destruct (zig_fast_ok r' H2) as [x' E']. rewrite E'. cbn [bind fst snd].
  unfold r_whv_hype_value. set (pts := map _ (map _ data)). set (smp := rows_of_two _).
  destruct (r_estimate_ok pts smp 0) as (k & R & _). rewrite R. cbn [bind]. eauto.
Qed.
Example C76_point_example : forall lf mx ideal ref data mu,
  exists v, py_whv_hype_point lf 1 (repeat 7%Z (Z.to_nat 624)) data ref ideal mx 1 2 mu = Ret v.
Proof. intros. apply two_fast_ok. destruct lf; vm_compute; reflexivity. Qed.
Fixpoint draws_nonzero (k : nat) (st : mt_state) : bool :=
  match k with
  | O => true
  | S k => match mt_next_double53 st with Ret (u, s) => (0 <? u)%Z && draws_nonzero k s | _ => false end
  end.
Lemma draws_nonzero_ok : forall x, mt_sequence x -> forall k i st, st_inv x (mt_n + 2 * i) st -> draws_nonzero k st = true ->
  forall j, (i <= j < i + k)%nat -> fraction_drawn x j <> 0%Z.
Proof.
  intros x Hx. induction k as [ | k IH ]; intros i st H D j Hj; [ lia | ]. cbn [draws_nonzero] in D.
  destruct (draw53 x Hx i st H) as (s & E & _ & H'). rewrite E in D. apply andb_true_iff in D. destruct D as [D1 D2].
  apply Z.ltb_lt in D1. destruct (Nat.eq_dec i j) as [ -> | Hij ]; [ lia | ]. apply (IH (S i) s H' D2). lia.
Qed.
Example C76_exponential_example :
  exists x, mt_sequence x /\ (forall i, (i < Z.to_nat 624)%nat -> x i = knuth (42 mod 2 ^ 32) i) /\
    length (repeat 7%Z (Z.to_nat 624)) = Z.to_nat 624 /\ r_proper_box [false; true] [0; 3] [2; 1] /\
    let us := map (pair_drawn x) (seq 0 1) in let us' := map (pair_drawn x) (seq 1 2) in
    ~ (Exists (fun u => exp_draw true u = 0%Z) us \/ Exists (fun u => exp_draw false u = 0%Z) us').
Proof.
  pose proof (repeat_length 7%Z (Z.to_nat 624)) as HL.
  destruct (seed_ok _ 42 HL) as (key & E & Hk & Hn).
  assert (HK : length key = mt_n) by (rewrite <- NN_n; apply Hk).
  exists (mt_seq key). split; [ now apply mt_seq_is_sequence | ].
  split. { intros i Hi. rewrite mt_seq_init by (rewrite HK; exact Hi). now apply Hn. }
  split; [ exact HL | ]. split. { intros [ | [ | d ] ] Hd; cbn [nth]; [ lra | lra | lia ]. }
  assert (D : match mt_seed (repeat 7%Z (Z.to_nat 624)) 42 with Ret st => draws_nonzero 6 st | _ => false end = true)
    by (vm_compute; reflexivity).
  rewrite E in D. pose proof (fresh_inv key Hk) as I. replace mt_n with (mt_n + 2 * 0)%nat in I by lia.
  pose proof (draws_nonzero_ok _ (mt_seq_is_sequence key HK) 6 0 _ I D) as G.
  cbv zeta. cbn [seq map]. unfold pair_drawn, exp_draw.
  intros [X | X]; repeat (apply Exists_cons in X; destruct X as [X | X]; [ cbn [fst snd] in X; revert X; apply G; lia | ]); inversion X.
Qed.

Print Assumptions C76_point_on_diagonal.
Print Assumptions C76_point_weight_refuted.
Print Assumptions C76_exponential.
Print Assumptions C76_exponential_weight.
Print Assumptions C76_beyond_reference_refuted.
