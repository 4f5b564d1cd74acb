(** Property C82: the hypervolume contributions of two-objective points computed
    with doubles.  Uses Flocq and therefore the axioms of the Coq Reals library. *)
From Coq Require Import List ZArith Lia Bool Arith Reals Lra Permutation Sorted.
From Flocq Require Import Core Relative Plus_error.
From Verif Require Import Base Spec NondomModel HvSpec HvFacts Hv2dModel PctFloatModel PropPctFloat
  HvFloatModel PropHv PropHvFloat HvContribFloatModel HvShiftProofs NondomProofs2d.
Import ListNotations.
Open Scope Z_scope.
#[local] Existing Instance dexp_valid.

(** ** [hv2d] as a sweep over the sorted coordinates *)
Definition xy (p : point) : Z * Z := (coord p 0, coord p 1).
Definition lexle (a b : Z * Z) : Prop := fst a < fst b \/ fst a = fst b /\ snd a <= snd b.

Definition step (rx : Z) (st : R * Z) (p : Z * Z) : R * Z :=
  if (snd st <=? snd p) || (rx <=? fst p) then st
  else (rnd (fst st + rnd (rnd (dval rx - dval (fst p)) * rnd (dval (snd st) - dval (snd p)))), snd p).
Definition sweep (rx : Z) (L : list (Z * Z)) (st : R * Z) : R * Z := fold_left (step rx) L st.

Lemma sweep_app : forall rx A B st, sweep rx (A ++ B) st = sweep rx B (sweep rx A st).
Proof. intros. apply fold_left_app. Qed.

Lemma sweep_out : forall rx L st, (forall p, In p L -> rx <= fst p) -> sweep rx L st = st.
Proof.
  unfold sweep. induction L as [|p L IH]; intros st H; cbn [fold_left]; auto.
  unfold step at 2. replace (rx <=? fst p) with true. rewrite orb_true_r. apply IH. intros; apply H; simpl; auto.
  symmetry. apply Z.leb_le. apply H. simpl; auto.
Qed.

Section Sweep.
  Variables (pts : list point) (pp : list nat) (ref : point).
  Let L := map (fun i => xy (row pts i)) pp.
  Let n := length pts.
  Hypothesis Hlen : length pp = n.
  Hypothesis Hin : forall i, In i pp -> (i < n)%nat.
  Hypothesis Hsort : StronglySorted lexle L.

  Lemma sw_deref : forall j, (j < n)%nat -> exists p, deref pts pp j = Ret p /\ skipn j L = xy p :: skipn (S j) L.
  Proof.
    intros j Hj. unfold deref. rewrite (rd_ok _ pp j 0%nat) by lia. cbn [bind].
    rewrite (rd_ok _ pts _ []). 2: { apply Hin. apply nth_In. lia. }
    eexists. split; [reflexivity|]. unfold L. rewrite <- (firstn_skipn j pp) at 1.
    assert (G : skipn j pp = nth j pp 0%nat :: skipn (S j) pp).
    { clear -Hlen Hj. revert j Hlen Hj. generalize n. induction pp as [|a l IH]; intros m j H1 H2; simpl in *; [lia|].
      destruct j; auto. simpl. rewrite (IH (length l)); auto. lia. }
    rewrite firstn_skipn, !skipn_map, G. reflexivity.
  Qed.

  Lemma sw_skip : forall fuel prev j s, (n < fuel + j)%nat -> (j <= n)%nat ->
    exists j', hv2d_skip fuel pts pp prev j = Ret j' /\ (j <= j' <= n)%nat /\
      sweep (coord ref 0) (skipn j L) (s, prev) = sweep (coord ref 0) (skipn j' L) (s, prev) /\
      ((j' < n)%nat -> exists p, deref pts pp j' = Ret p /\ coord p 1 < prev).
  Proof.
    induction fuel as [|fuel IH]; intros prev j s Hf Hj; [lia|]. cbn [hv2d_skip]. fold n.
    destruct (Nat.ltb_spec j n) as [Lt|Ge].
    - destruct (sw_deref j Lt) as (p & D & E). rewrite D. cbn [bind].
      destruct (Z.leb_spec prev (coord p 1)) as [G|G].
      + destruct (IH prev (S j) s) as (j' & E1 & E2 & E3 & E4); try lia. exists j'.
        split; auto. split; [lia|]. split; auto. rewrite <- E3, E. unfold sweep. cbn [fold_left].
        unfold step at 2. cbn [snd xy]. replace (prev <=? coord p 1) with true; auto. symmetry. now apply Z.leb_le.
      + exists j. split; auto. split; [lia|]. split; auto. intros _. eauto.
    - exists j. split; auto. split; [lia|]. split; auto. intros; lia.
  Qed.

  Lemma sw_stop : forall j p st, (j < n)%nat -> deref pts pp j = Ret p -> coord ref 0 <= coord p 0 ->
    sweep (coord ref 0) (skipn j L) st = st.
  Proof.
    intros j p st Hj D G. apply sweep_out. intros q Hq.
    destruct (sw_deref j Hj) as (p' & D' & E). assert (p' = p) by congruence. subst p'.
    assert (S' : StronglySorted lexle (skipn j L)).
    { rewrite <- (firstn_skipn j L) in Hsort. now apply StronglySorted_app_inv in Hsort. }
    rewrite E in S', Hq. inversion S' as [|? ? ? F]; subst. rewrite Forall_forall in F.
    destruct Hq as [<-|Hq]; [auto|]. specialize (F q Hq). unfold lexle, xy in F. cbn [fst] in F. lia.
  Qed.

  Lemma sw_do : forall fuel s prev j, (n < fuel + j)%nat -> (j <= n)%nat ->
    hv2d_do_d fuel pts pp ref s prev j = Ret (fst (sweep (coord ref 0) (skipn j L) (s, prev))).
  Proof.
    induction fuel as [|fuel IH]; intros s prev j Hf Hj; [lia|]. cbn [hv2d_do_d]. fold n.
    destruct (sw_skip (S n) prev j s) as (j' & E1 & E2 & E3 & E4); try lia. rewrite E1. cbn [bind]. rewrite E3.
    assert (End : skipn n L = []). { apply skipn_all2. unfold L. rewrite map_length. lia. }
    destruct (Nat.eqb_spec j' n) as [->|N]. { now rewrite End. }
    destruct (E4 ltac:(lia)) as (p & D & G). rewrite D. cbn [bind].
    destruct (Z.leb_spec (coord ref 0) (coord p 0)) as [X|X]. { rewrite (sw_stop j' p) by (auto; lia). auto. }
    destruct (sw_deref j' ltac:(lia)) as (p' & D' & E). assert (p' = p) by congruence. subst p'. rewrite E.
    unfold sweep at 1. cbn [fold_left]. unfold step at 2. cbn [fst snd xy].
    replace (prev <=? coord p 1) with false by (symmetry; apply Z.leb_gt; lia).
    replace (coord ref 0 <=? coord p 0) with false by (symmetry; apply Z.leb_gt; lia). cbn [orb].
    set (s' := rnd (s + _)). fold (sweep (coord ref 0) (skipn (S j') L) (s', coord p 1)).
    destruct (Nat.ltb_spec (S j') n) as [Lt|Ge].
    - destruct (sw_deref (S j') Lt) as (q & Dq & _). rewrite Dq. cbn [bind].
      destruct (Z.ltb_spec (coord q 0) (coord ref 0)).
      + apply IH; lia.
      + now rewrite (sw_stop (S j') q) by auto.
    - replace (S j') with n by lia. now rewrite End.
  Qed.
End Sweep.

Lemma compare_lexle : forall p q, compare_x_asc_y_asc p q <= 0 -> lexle (xy p) (xy q).
Proof.
  intros p q H. unfold compare_x_asc_y_asc in H. unfold lexle, xy. cbn [fst snd].
  destruct (Z.ltb_spec (coord p 0) (coord q 0)); [lia|]. destruct (Z.ltb_spec (coord q 0) (coord p 0)); [lia|].
  destruct (Z.ltb_spec (coord p 1) (coord q 1)); [lia|]. destruct (Z.ltb_spec (coord q 1) (coord p 1)); lia.
Qed.

Lemma lex_sorted_unique : forall l l', StronglySorted lexle l -> StronglySorted lexle l' -> Permutation l l' -> l = l'.
Proof.
  induction l as [|a l IH]; intros l' H1 H2 P. { now apply Permutation_nil in P. }
  destruct l' as [|b l']. { symmetry in P. now apply Permutation_nil in P. }
  inversion H1 as [|? ? S1 F1]; subst. inversion H2 as [|? ? S2 F2]; subst. rewrite Forall_forall in F1, F2.
  assert (E : a = b).
  { assert (A : In a (b :: l')) by (apply (Permutation_in _ P); simpl; auto).
    assert (B : In b (a :: l)) by (apply (Permutation_in _ (Permutation_sym P)); simpl; auto).
    destruct A as [A|A]; auto. destruct B as [B|B]; auto. specialize (F1 _ B). specialize (F2 _ A).
    unfold lexle in *. destruct a, b. cbn [fst snd] in *. f_equal; lia. }
  subst b. f_equal. apply IH; auto. now apply Permutation_cons_inv in P.
Qed.

Lemma map_row_seq : forall pts, map (row pts) (seq 0 (length pts)) = pts.
Proof.
  intros. apply nth_ext with [] []; rewrite map_length, seq_length; auto. intros i Hi.
  rewrite nth_indep with (d' := row pts 0) by (now rewrite map_length, seq_length).
  rewrite map_nth, seq_nth by auto. reflexivity.
Qed.

(** the value of [hv2d_d]: a sweep over the sorted coordinates *)
Lemma hv2d_sweep : forall sort2d pts ref, valid_sort2d sort2d ->
  exists L, Permutation L (map xy pts) /\ StronglySorted lexle L /\
    hv2d_d sort2d pts ref = Ret (fst (sweep (coord ref 0) L (0%R, coord ref 1))).
Proof.
  intros sort2d pts ref Hs. destruct (Hs pts) as [P S]. set (pp := sort2d pts) in *.
  exists (map (fun i => xy (row pts i)) pp).
  assert (SS : StronglySorted lexle (map (fun i => xy (row pts i)) pp)).
  { clear P. induction S as [|i l S IH F]; cbn [map]; constructor; auto. rewrite Forall_forall in *.
    intros q Hq. apply in_map_iff in Hq. destruct Hq as (j & <- & Hj). apply compare_lexle. now apply F. }
  split; [|split]; auto.
  - rewrite <- (map_map (row pts) xy). apply Permutation_map. rewrite <- (map_row_seq pts) at 2.
    apply Permutation_map. now symmetry.
  - unfold hv2d_d. fold pp. rewrite sw_do; auto.
    + rewrite <- (Permutation_length P). apply seq_length.
    + intros i Hi. apply Permutation_sym in P. apply (Permutation_in _ P) in Hi. apply in_seq in Hi. lia.
    + lia.
    + lia.
Qed.

(** ** C82: reproducibility.  The computed hypervolume of two-objective points
    is the same double whatever [qsort] does with ties and in whatever order the
    rows are given. *)
Theorem C82_hv_order_independent : forall sort2d sort2d' pts pts' ref,
  valid_sort2d sort2d -> valid_sort2d sort2d' -> Permutation pts pts' ->
  hv2d_d sort2d pts ref = hv2d_d sort2d' pts' ref.
Proof.
  intros s s' pts pts' ref Hs Hs' P.
  destruct (hv2d_sweep s pts ref Hs) as (L & P1 & S1 & ->). destruct (hv2d_sweep s' pts' ref Hs') as (L' & P2 & S2 & ->).
  rewrite (lex_sorted_unique L L'); auto. rewrite P1, P2. now apply Permutation_map.
Qed.
Print Assumptions C82_hv_order_independent.

(** ** Points that do not count *)
Lemma sweep_prev : forall rx L st q, In q L -> fst q < rx -> snd (sweep rx L st) <= snd q.
Proof.
  assert (Mono : forall rx L st, snd (sweep rx L st) <= snd st).
  { intros rx. unfold sweep. induction L as [|p L IH]; intros st; cbn [fold_left]; [lia|].
    eapply Z.le_trans; [apply IH|]. unfold step. destruct (Z.leb_spec (snd st) (snd p)); cbn [orb]; [lia|].
    destruct (rx <=? fst p); cbn [snd]; lia. }
  intros rx. induction L as [|p L IH]; intros st q Hq Hlt; [destruct Hq|]. change (p :: L) with ([p] ++ L). rewrite sweep_app.
  destruct Hq as [<-|Hq]; [|now apply IH]. eapply Z.le_trans; [apply Mono|]. unfold sweep. cbn [fold_left]. unfold step.
  destruct (Z.leb_spec (snd st) (snd p)); cbn [orb]; [lia|].
  destruct (Z.leb_spec rx (fst p)); cbn [snd]; lia.
Qed.
Lemma sweep_prev0 : forall rx L st, snd (sweep rx L st) <= snd st.
Proof.
  intros rx. unfold sweep. induction L as [|p L IH]; intros st; cbn [fold_left]; [lia|].
  eapply Z.le_trans; [apply IH|]. unfold step. destruct (Z.leb_spec (snd st) (snd p)); cbn [orb]; [lia|].
  destruct (rx <=? fst p); cbn [snd]; lia.
Qed.

Lemma step_idle : forall rx st p, snd st <= snd p \/ rx <= fst p -> step rx st p = st.
Proof.
  intros rx st p H. unfold step. destruct (Z.leb_spec (snd st) (snd p)); auto.
  destruct (Z.leb_spec rx (fst p)); auto. lia.
Qed.

(** [row pts i] adds nothing: another row is at least as good in both
    objectives, or it is not better than the reference point in both *)
Definition redundant (pts : list point) (ref : point) (i : nat) : Prop :=
  (exists j, (j < length pts)%nat /\ j <> i /\ forall c, (c < 2)%nat -> coord (row pts j) c <= coord (row pts i) c) \/
  (exists c, (c < 2)%nat /\ coord ref c <= coord (row pts i) c).

Lemma sorted_remove : forall (A B : list (Z * Z)) p, StronglySorted lexle (A ++ p :: B) -> StronglySorted lexle (A ++ B).
Proof.
  induction A as [|a A IH]; intros B p H; simpl in *.
  - now inversion H.
  - inversion H as [|? ? S F]; subst. constructor. now apply IH with p. rewrite Forall_forall in *.
    intros x Hx. apply F. rewrite in_app_iff in *. simpl. tauto.
Qed.

Lemma nth_other : forall (l1 : list point) x l2 j, j <> length l1 ->
  (j < length (l1 ++ x :: l2))%nat -> In (row (l1 ++ x :: l2) j) (l1 ++ l2).
Proof.
  intros l1 l2 x j N Hj. unfold row. rewrite app_length in Hj. cbn [length] in Hj. apply in_app_iff.
  destruct (Nat.lt_ge_cases j (length l1)).
  - left. rewrite app_nth1 by lia. now apply nth_In.
  - right. rewrite app_nth2 by lia. destruct (j - length l1)%nat as [|m] eqn:Em; [lia|]. cbn [nth]. apply nth_In. lia.
Qed.

Lemma redundant_value : forall sort2d pts ref i, valid_sort2d sort2d -> (i < length pts)%nat ->
  redundant pts ref i -> hv2d_d sort2d (upd pts i ref) ref = hv2d_d sort2d pts ref.
Proof.
  intros sort2d pts ref i Hs Hi HR.
  destruct (hv2d_sweep sort2d pts ref Hs) as (L & P1 & S1 & ->).
  destruct (hv2d_sweep sort2d (upd pts i ref) ref Hs) as (L' & P2 & S2 & ->). do 2 f_equal.
  set (D := map xy (remove_row i pts)). set (p := xy (row pts i)) in *.
  assert (Q1 : Permutation L (p :: D)).
  { rewrite P1. rewrite (split_row pts i Hi) at 1. unfold D, p, remove_row. rewrite !map_app. cbn [map]. symmetry. apply Permutation_middle. }
  assert (Q2 : Permutation L' (xy ref :: D)).
  { rewrite P2. rewrite (upd_split _ pts i ref Hi). unfold D, remove_row. rewrite !map_app. cbn [map]. symmetry. apply Permutation_middle. }
  assert (I1 : In p L) by (apply (Permutation_in _ (Permutation_sym Q1)); simpl; auto).
  assert (I2 : In (xy ref) L') by (apply (Permutation_in _ (Permutation_sym Q2)); simpl; auto).
  destruct (in_split _ _ I1) as (A & B & ->). destruct (in_split _ _ I2) as (A' & B' & ->).
  assert (R1 : Permutation (A ++ B) D). { apply Permutation_cons_inv with p. rewrite <- Q1. apply Permutation_middle. }
  assert (R2 : Permutation (A' ++ B') D). { apply Permutation_cons_inv with (xy ref). rewrite <- Q2. apply Permutation_middle. }
  assert (E : A' ++ B' = A ++ B).
  { apply lex_sorted_unique. eapply sorted_remove; eauto. eapply sorted_remove; eauto. now rewrite R1. }
  transitivity (sweep (coord ref 0) (A ++ B) (0%R, coord ref 1)).
  { rewrite <- E, !sweep_app. change (xy ref :: B') with ([xy ref] ++ B'). rewrite sweep_app.
    f_equal. apply step_idle. right. cbn [fst xy]. lia. }
  rewrite !sweep_app. change (p :: B) with ([p] ++ B). rewrite sweep_app.
  set (st := sweep (coord ref 0) A (0%R, coord ref 1)).
  destruct HR as [(j & Hj & Nj & Hd)|(c & Hc & Hd)].
  - assert (Ij : In (xy (row pts j)) D).
    { unfold D. apply in_map. unfold remove_row.
      assert (Lf : length (firstn i pts) = i) by (apply firstn_length_le; lia).
      pose proof (nth_other (firstn i pts) (row pts i) (skipn (S i) pts) j ltac:(lia)) as G.
      rewrite <- split_row in G by auto. apply G. lia. }
    apply (Permutation_in _ (Permutation_sym R1)) in Ij. set (q := xy (row pts j)) in *.
    assert (D0 : fst q <= fst p) by (apply (Hd 0%nat); lia). assert (D1 : snd q <= snd p) by (apply (Hd 1%nat); lia).
    apply in_app_iff in Ij. destruct Ij as [Ij|Ij].
    + f_equal. unfold sweep. cbn [fold_left]. symmetry. apply step_idle.
      destruct (Z.le_gt_cases (coord ref 0) (fst p)); auto. left.
      pose proof (sweep_prev (coord ref 0) A (0%R, coord ref 1) q Ij ltac:(lia)) as G. fold st in G. lia.
    + apply StronglySorted_app_inv in S1. destruct S1 as (_ & S1 & _). inversion S1 as [|? ? S F]; subst.
      rewrite Forall_forall in F.
      destruct B as [|b B]; [destruct Ij|].
      assert (b = p).
      { inversion S as [|? ? S' F']; subst. rewrite Forall_forall in F'. pose proof (F b ltac:(simpl; auto)) as G1.
        assert (G2 : lexle b q). { destruct Ij as [->|Ij]. unfold lexle; lia. now apply F'. }
        unfold lexle in *. destruct b, p. cbn [fst snd] in *. f_equal; lia. }
      subst b. change (p :: B) with ([p] ++ B). rewrite !sweep_app. f_equal. symmetry. apply step_idle.
      destruct (Z.le_gt_cases (coord ref 0) (fst p)); auto. left. apply sweep_prev; simpl; auto.
  - f_equal. unfold sweep. cbn [fold_left]. symmetry. apply step_idle.
    destruct c as [|[|c]]; [right; exact Hd| |lia]. left. eapply Z.le_trans; [apply sweep_prev0|]. exact Hd.
Qed.

(** ** The loops of hv_contrib.c *)
Definition report (total h : R) : R :=
  let c := rnd (total - h) in if Rle_bool tolerance_hvc (Rabs c) then c else 0%R.

Lemma diffs_d_ok : forall (hv : list point -> outcome R) ref is points,
  (forall i, In i is -> (i < length points)%nat) ->
  (forall i, In i is -> exists v, hv (upd points i ref) = Ret v) ->
  exists hs, hv_1point_diffs_d hv ref is points = Ret (hs, points) /\
    Forall2 (fun i v => hv (upd points i ref) = Ret v) is hs.
Proof.
  induction is as [|i is IH]; intros points Hi Hv; cbn [hv_1point_diffs_d].
  - exists []. auto.
  - assert (Hl : (i < length points)%nat) by (apply Hi; simpl; auto).
    rewrite (rd_ok _ points i []) by auto. cbn [bind]. rewrite wr_ok by auto. cbn [bind].
    destruct (Hv i (or_introl eq_refl)) as (v & Ev). rewrite Ev. cbn [bind].
    rewrite wr_ok by (now rewrite upd_length). cbn [bind]. rewrite upd_upd, upd_same by auto.
    destruct (IH points) as (hs & E & F).
    { intros; apply Hi; simpl; auto. } { intros; apply Hv; simpl; auto. }
    rewrite E. cbn [bind fst snd]. eauto.
Qed.

Lemma contrib_loop_ndebug : forall total hs, contrib_loop_d true total hs = Ret (map (report total) hs).
Proof. induction hs as [|h t IH]; cbn [contrib_loop_d map orb assert_ bind]; auto. now rewrite IH. Qed.
Lemma contrib_loop_debug : forall total hs, contrib_loop_d false total hs =
  if forallb (Rle_bool 0) (map (report total) hs) then Ret (map (report total) hs) else AssertFailed.
Proof.
  induction hs as [|h t IH]; cbn [contrib_loop_d map orb forallb]; auto. fold (report total h).
  destruct (Rle_bool 0 (report total h)); cbn [assert_ bind andb]; auto. rewrite IH.
  now destruct (forallb (Rle_bool 0) (map (report total) t)).
Qed.

Lemma contrib_run : forall sort2d pts ref, valid_sort2d sort2d ->
  exists total hvc, hv2d_d sort2d pts ref = Ret total /\ length hvc = length pts /\
    (forall i, (i < length pts)%nat -> exists h, hv2d_d sort2d (upd pts i ref) ref = Ret h /\ nth i hvc 0%R = report total h) /\
    hv_contributions_d true sort2d pts ref = Ret (hvc, pts) /\
    hv_contributions_d false sort2d pts ref = if forallb (Rle_bool 0) hvc then Ret (hvc, pts) else AssertFailed.
Proof.
  intros sort2d pts ref Hs. destruct (hv2d_sweep sort2d pts ref Hs) as (L & _ & _ & E).
  destruct (diffs_d_ok (fun pts => hv2d_d sort2d pts ref) ref (seq 0 (length pts)) pts) as (hs & Ed & F).
  { intros i Hi. apply in_seq in Hi. lia. }
  { intros i Hi. destruct (hv2d_sweep sort2d (upd pts i ref) ref Hs) as (L' & _ & _ & E'). eauto. }
  set (total := fst (sweep (coord ref 0) L (0%R, coord ref 1))) in *.
  exists total, (map (report total) hs). split; auto.
  assert (Hlen : length hs = length pts).
  { rewrite <- (seq_length (length pts) 0). clear -F. induction F; simpl; auto. }
  split; [now rewrite map_length|]. split; [|split].
  - intros i Hi. exists (nth i hs 0%R). split.
    + assert (K : forall is l, Forall2 (fun i v => hv2d_d sort2d (upd pts i ref) ref = Ret v) is l ->
        forall k, (k < length is)%nat -> hv2d_d sort2d (upd pts (nth k is 0%nat) ref) ref = Ret (nth k l 0%R)).
      { induction 1; intros k Hk; simpl in Hk; [lia|]. destruct k; simpl; auto. apply IHForall2. lia. }
      specialize (K _ _ F i). rewrite seq_length, seq_nth in K by auto. apply K; auto.
    + rewrite nth_indep with (d' := report total 0%R) by (rewrite map_length; lia). apply map_nth.
  - unfold hv_contributions_d. rewrite E. cbn [bind]. rewrite Ed. cbn [bind fst snd].
    rewrite contrib_loop_ndebug. reflexivity.
  - unfold hv_contributions_d. rewrite E. cbn [bind]. rewrite Ed. cbn [bind fst snd].
    rewrite contrib_loop_debug. now destruct (forallb (Rle_bool 0) (map (report total) hs)).
Qed.

Lemma rnd_0 : rnd 0 = 0%R.
Proof. apply round_0. apply valid_rnd_N. Qed.
Lemma tolerance_val : tolerance_hvc = bpow radix2 (-26).
Proof.
  unfold tolerance_hvc. change (-52) with (-26 + -26). rewrite bpow_plus, sqrt_square by apply bpow_ge_0.
  apply rnd_double. apply generic_format_bpow. unfold dexp, FLT_exp. lia.
Qed.

(** ** C82: a point that adds nothing gets exactly zero *)
Theorem C82_redundant_zero : forall sort2d pts ref, valid_sort2d sort2d ->
  exists hvc, hv_contributions_d true sort2d pts ref = Ret (hvc, pts) /\ length hvc = length pts /\
    forall i, (i < length pts)%nat -> redundant pts ref i -> nth i hvc 0%R = 0%R.
Proof.
  intros sort2d pts ref Hs. destruct (contrib_run sort2d pts ref Hs) as (total & hvc & E & Hl & Hn & Ht & _).
  exists hvc. split; auto. split; auto. intros i Hi HR. destruct (Hn i Hi) as (h & Eh & ->).
  rewrite (redundant_value sort2d pts ref i Hs Hi HR), E in Eh. injection Eh as <-.
  unfold report. rewrite Rminus_eq_0, rnd_0. now destruct (Rle_bool tolerance_hvc (Rabs 0)).
Qed.
Print Assumptions C82_redundant_zero.

(** ** C82: accuracy *)
(** the error allowed for [n] points whose exact hypervolume is [v]:
    2 ((V + n eta) (1 + u)^(n+4) - V) *)
Definition contrib_error (n : nat) (v : Z) : R :=
  (2 * ((area_of v + INR n * eta) * (1 + u) ^ (n + 4) - area_of v))%R.

(** [c] is reported for a point whose exact contribution is [C] *)
Definition reported (n : nat) (v : Z) (c C : R) : Prop :=
  ((bpow radix2 (-26) <= Rabs c)%R /\ (Rabs (c - C) <= contrib_error n v)%R) \/
  (c = 0%R /\ (C < bpow radix2 (-26) + contrib_error n v)%R).

Section Acc.
Open Scope R_scope.
Lemma rnd_diff : forall x y, is_double x -> is_double y -> Rabs (rnd (x - y) - (x - y)) <= u * Rabs (x - y).
Proof.
  intros x y Hx Hy.
  destruct (@FLT_plus_error_N_ex radix2 (-1074) 53 p53 (fun z => negb (Z.even z)) x (- y) Hx) as (e & He & E).
  now apply generic_format_opp.
  replace (rnd (x - y)) with ((x + - y) * (1 + e)) by (symmetry; exact E). pose proof uro.
  replace ((x + - y) * (1 + e) - (x - y)) with (e * (x - y)) by ring. rewrite Rabs_mult.
  apply Rmult_le_compat_r. apply Rabs_pos. lra.
Qed.

Lemma bernoulli_up : forall k, 1 + INR k * u <= (1 + u) ^ k.
Proof.
  pose proof u_pos. induction k as [|k IH]; cbn [pow]; [cbn [INR]; lra|]. rewrite S_INR.
  apply Rmult_le_compat_l with (r := 1 + u) in IH; [|lra]. pose proof (pos_INR k).
  assert (0 <= INR k * (u * u)) by (apply Rmult_le_pos; [lra|apply Rmult_le_pos; lra]). lra.
Qed.
Lemma bernoulli_down : forall k, 1 - INR k * u <= (1 - u) ^ k.
Proof.
  pose proof u_pos. induction k as [|k IH]; cbn [pow]; [cbn [INR]; lra|]. rewrite S_INR.
  apply Rmult_le_compat_l with (r := 1 - u) in IH; [|lra]. pose proof (pos_INR k).
  assert (0 <= INR k * (u * u)) by (apply Rmult_le_pos; [lra|apply Rmult_le_pos; lra]). lra.
Qed.

(** the error of one computed hypervolume *)
Definition hv_error (n : nat) (V : R) : R := (V + INR n * eta) * (1 + u) ^ (n + 3) - V.
Lemma hv_error_ok : forall n V w, 0 <= V ->
  (V - INR n * eta) * (1 - u) ^ (n + 3) <= w -> w <= (V + INR n * eta) * (1 + u) ^ (n + 3) ->
  Rabs (w - V) <= hv_error n V.
Proof.
  intros n V w HV HL HU. unfold hv_error. pose proof eta_pos as He. pose proof (pos_INR n) as Hn.
  assert (N0 : 0 <= INR n * eta) by (apply Rmult_le_pos; lra). set (N := INR n * eta) in *.
  pose proof (bernoulli_up (n + 3)) as B1. pose proof (bernoulli_down (n + 3)) as B2.
  pose proof (pow_lower (n + 3)) as Q. pose proof (pow_upper (n + 3)) as P.
  set (q := (1 - u) ^ (n + 3)) in *. set (p := (1 + u) ^ (n + 3)) in *.
  apply Rabs_le. split; [|lra].
  assert (0 <= V * (p + q - 2)) by (apply Rmult_le_pos; lra).
  assert (0 <= N * (p - q)) by (apply Rmult_le_pos; lra). lra.
Qed.
Lemma hv_error_mono : forall n V V', V <= V' -> hv_error n V <= hv_error n V'.
Proof.
  intros n V V' H. unfold hv_error. pose proof (pow_upper (n + 3)) as P. set (p := (1 + u) ^ (n + 3)) in *.
  assert (0 <= (V' - V) * (p - 1)) by (apply Rmult_le_pos; lra). lra.
Qed.

Lemma contrib_error_ok : forall n v vi w wi, (0 <= vi <= v)%Z -> is_double w -> is_double wi ->
  Rabs (w - area_of v) <= hv_error n (area_of v) -> Rabs (wi - area_of vi) <= hv_error n (area_of vi) ->
  Rabs (rnd (w - wi) - area_of (v - vi)) <= contrib_error n v.
Proof.
  intros n v vi w wi Hv Dw Dwi E Ei. pose proof (rnd_diff w wi Dw Dwi) as Er.
  assert (A : area_of v = area_of vi + area_of (v - vi)). { rewrite <- area_plus. f_equal. lia. }
  pose proof (area_nonneg vi ltac:(lia)) as A1. pose proof (area_nonneg (v - vi) ltac:(lia)) as A2.
  pose proof (hv_error_mono n (area_of vi) (area_of v) ltac:(lra)) as M. pose proof u_pos as Hu.
  set (V := area_of v) in *. set (Vi := area_of vi) in *. set (C := area_of (v - vi)) in *.
  set (d := hv_error n V) in *. set (r := rnd (w - wi)) in *.
  assert (D : Rabs (w - wi - C) <= 2 * d).
  { replace (w - wi - C) with ((w - V) - (wi - Vi)) by lra. unfold Rminus at 1.
    eapply Rle_trans; [apply Rabs_triang|]. rewrite Rabs_Ropp. lra. }
  assert (W : Rabs (w - wi) <= 2 * d + V).
  { replace (w - wi) with ((w - wi - C) + C) by ring. eapply Rle_trans; [apply Rabs_triang|]. rewrite (Rabs_pos_eq C) by lra. lra. }
  replace (r - C) with ((r - (w - wi)) + (w - wi - C)) by ring. eapply Rle_trans; [apply Rabs_triang|].
  apply Rmult_le_compat_l with (r := u) in W; [|lra].
  assert (B : contrib_error n v = 2 * d * (1 + u) + 2 * u * V).
  { unfold contrib_error, d, hv_error. fold V. replace (n + 4)%nat with (S (n + 3)) by lia. cbn [pow]. ring. }
  rewrite B.
  assert (0 <= u * V) by (apply Rmult_le_pos; lra). lra.
Qed.
End Acc.

Lemma hypervolume_nonneg : forall S ref v, hypervolume S ref v -> 0 <= v.
Proof. intros S ref v (L & _ & _ & ->). lia. Qed.

Lemma hypervolume_upd_ref : forall pts ref i v, (i < length pts)%nat -> length ref = 2%nat ->
  hypervolume (upd pts i ref) ref v -> hypervolume (firstn i pts ++ skipn (S i) pts) ref v.
Proof.
  intros pts ref i v Hi Hr (L & N & I & ->). exists L. split; auto. split; auto.
  intros z. rewrite I. rewrite upd_split by auto.
  split; intros (A & (p & Hp & Hle) & Hlt); split; auto; split; auto; exists p; split; auto;
    rewrite in_app_iff in *; simpl in *.
  - destruct Hp as [Hp|[<-|Hp]]; auto. exfalso. specialize (Hle 0%nat ltac:(lia)). specialize (Hlt 0%nat ltac:(lia)). lia.
  - tauto.
Qed.

(** For every set of two-objective points with double coordinates the function
    returns, leaves the array as it was, and each reported contribution either
    is within [contrib_error] of the exact one, or is zero and the exact one is
    less than 2^-26 plus [contrib_error].  Compiled with assertions the function
    returns the same unless one of these values is negative. *)
Theorem C82_accuracy : forall sort2d pts ref,
  valid_sort2d sort2d -> length ref = 2%nat -> double_points pts -> double_points [ref] ->
  exists v hvc, hypervolume pts ref v /\ length hvc = length pts /\
    hv_contributions_d true sort2d pts ref = Ret (hvc, pts) /\
    hv_contributions_d false sort2d pts ref =
      (if forallb (Rle_bool 0) hvc then Ret (hvc, pts) else AssertFailed) /\
    forall i, (i < length pts)%nat -> exists vi,
      hypervolume (firstn i pts ++ skipn (S i) pts) ref vi /\ vi <= v /\
      reported (length pts) v (nth i hvc 0%R) (area_of (v - vi)).
Proof.
  intros sort2d pts ref Hs Hr DP DR.
  destruct (contrib_run sort2d pts ref Hs) as (total & hvc & E & Hl & Hn & Ht & Hf).
  destruct (C53_hv2d_accuracy sort2d pts ref Hs Hr DP DR) as (v & w & HV & Ew & Dw & W0 & WL & WU).
  assert (w = total) by congruence. subst w.
  exists v, hvc. do 4 (split; auto). intros i Hi. destruct (Hn i Hi) as (h & Eh & ->).
  assert (DPi : double_points (upd pts i ref)).
  { intros p c Hp Hc. rewrite upd_split in Hp by auto. apply in_app_iff in Hp.
    destruct Hp as [Hp|[<-|Hp]]; [apply DP; auto| apply DR; simpl; auto | apply DP; auto];
      apply (remove_row_incl i); unfold remove_row; apply in_app_iff; auto. }
  destruct (C53_hv2d_accuracy sort2d (upd pts i ref) ref Hs Hr DPi DR) as (vi & wi & HVi & Ewi & Dwi & Wi0 & WLi & WUi).
  assert (wi = h) by congruence. subst wi. rewrite upd_length in WLi, WUi.
  pose proof (hypervolume_upd_ref pts ref i vi Hi Hr HVi) as HVr. exists vi. split; auto.
  assert (Hle : vi <= v).
  { eapply hypervolume_mono; [exact HVr|exact HV|].
    intros z (A & (p & Hp & Hl') & Hlt). split; auto. split; auto. exists p. split; auto. now apply (remove_row_incl i). }
  split; auto. pose proof (hypervolume_nonneg _ _ _ HVi) as P.
  pose proof (contrib_error_ok (length pts) v vi total h (conj P Hle) Dw Dwi
    (hv_error_ok _ _ _ (area_nonneg v ltac:(lia)) WL WU) (hv_error_ok _ _ _ (area_nonneg vi P) WLi WUi)) as B.
  unfold reported, report. rewrite tolerance_val. set (c := rnd (total - h)) in *.
  destruct (Rle_bool_spec (bpow radix2 (-26)) (Rabs c)) as [G|G]; [left; auto|right]. split; auto.
  apply Rabs_le_inv in B. pose proof (Rle_abs c). lra.
Qed.
Print Assumptions C82_accuracy.

(** ** C82: when the assertion holds *)
(** If the error bound is below the tolerance 2^-26, no reported contribution is
    negative and the assertion in the code holds. *)
Theorem C82_nonnegative : forall sort2d pts ref v,
  valid_sort2d sort2d -> length ref = 2%nat -> double_points pts -> double_points [ref] ->
  hypervolume pts ref v -> (contrib_error (length pts) v < bpow radix2 (-26))%R ->
  exists hvc, length hvc = length pts /\
    (forall ndebug, hv_contributions_d ndebug sort2d pts ref = Ret (hvc, pts)) /\
    (forall c, In c hvc -> (0 <= c)%R).
Proof.
  intros sort2d pts ref v Hs Hr DP DR HV HB.
  destruct (C82_accuracy sort2d pts ref Hs Hr DP DR) as (v' & hvc & HV' & Hl & Ht & Hf & Hi).
  assert (v' = v) by (eapply hypervolume_unique; eauto). subst v'. exists hvc. split; auto.
  assert (P : forall c, In c hvc -> (0 <= c)%R).
  { intros c Hc. apply In_nth with (d := 0%R) in Hc. destruct Hc as (i & Li & <-).
    destruct (Hi i ltac:(lia)) as (vi & _ & Hle & [(G & B)|(-> & _)]); [|lra].
    pose proof (area_nonneg (v - vi) ltac:(lia)). apply Rabs_le_inv in B.
    set (c := nth i hvc 0%R) in *. destruct (Rle_lt_dec 0 c) as [|N]; auto. rewrite Rabs_left in G by auto. lra. }
  split; auto. intros [|]; auto. rewrite Hf.
  replace (forallb (Rle_bool 0) hvc) with true; auto. symmetry. apply forallb_forall. intros c Hc.
  apply Rle_bool_true. now apply P.
Qed.
Print Assumptions C82_nonnegative.

Section Small.
Open Scope R_scope.
Lemma pow_inv_bound : forall k, (1 + u) ^ k * (1 - INR k * u) <= 1.
Proof.
  pose proof u_pos. induction k as [|k IH]; cbn [pow]; [cbn [INR]; lra|]. rewrite S_INR.
  eapply Rle_trans; [|exact IH]. rewrite (Rmult_comm (1 + u)), Rmult_assoc. apply Rmult_le_compat_l.
  pose proof (pow_upper k). lra. pose proof (pos_INR k).
  assert (0 <= INR k * (u * u)) by (apply Rmult_le_pos; [lra|apply Rmult_le_pos; lra]).
  assert (0 <= u * u) by (apply Rmult_le_pos; lra). lra.
Qed.

Lemma small_error : forall n v, (0 <= v)%Z ->
  (INR n + 4) * (area_of v + 1) <= bpow radix2 24 -> contrib_error n v < bpow radix2 (-26).
Proof.
  intros n v Hv H. unfold contrib_error. pose proof (area_nonneg v Hv) as HV. set (V := area_of v) in *.
  pose proof (pow_inv_bound (n + 4)) as B. rewrite plus_INR in B. replace (INR 4) with 4 in B by (cbn [INR]; lra).
  pose proof (pow_upper (n + 4)) as P1. set (P := (1 + u) ^ (n + 4)) in *. pose proof (pos_INR n) as Hn.
  assert (Eu : u = / 9007199254740992) by reflexivity.
  assert (E24 : bpow radix2 24 = 16777216) by reflexivity. assert (E26 : bpow radix2 (-26) = / 67108864) by reflexivity.
  assert (He : eta <= / 1267650600228229401496703205376).
  { unfold eta. replace (/ 1267650600228229401496703205376) with (bpow radix2 (-100)) by reflexivity. apply bpow_le. lia. }
  pose proof eta_pos as He0. rewrite E24 in H. rewrite E26.
  set (k := INR n + 4) in *.
  assert (k * V <= 16777216 /\ k <= 16777216) as [K1 K2].
  { assert (0 <= k * V) by (apply Rmult_le_pos; unfold k; lra). unfold k in *. lra. }
  assert (K3 : k * u <= / 2) by (rewrite Eu; lra). assert (K4 : 0 <= k * u) by (rewrite Eu; unfold k; lra).
  (* P <= 1 + 2 k u *)
  assert (PB : P <= 1 + 2 * (k * u)).
  { assert (0 <= (1 + 2 * (k * u)) * (1 - k * u) - 1).
    { replace ((1 + 2 * (k * u)) * (1 - k * u) - 1) with ((k * u) * (1 - 2 * (k * u))) by ring. apply Rmult_le_pos; lra. }
    apply Rmult_le_reg_r with (1 - k * u); lra. }
  assert (NE : INR n * eta <= 16777216 * / 1267650600228229401496703205376).
  { apply Rmult_le_compat; unfold k in *; lra. }
  assert (N0 : 0 <= INR n * eta) by (apply Rmult_le_pos; lra). set (N := INR n * eta) in *.
  assert (A1 : V * P <= V * (1 + 2 * (k * u))) by (apply Rmult_le_compat_l; lra).
  assert (A2 : N * P <= N * 2) by (apply Rmult_le_compat_l; lra).
  assert (A3 : V * (k * u) <= 16777216 * u).
  { replace (V * (k * u)) with ((k * V) * u) by ring. apply Rmult_le_compat_r; lra. }
  replace (V * (1 + 2 * (k * u))) with (V + 2 * (V * (k * u))) in A1 by ring.
  set (m := V * (k * u)) in *. rewrite Eu in A3.
  replace ((V + N) * P) with (V * P + N * P) by ring. lra.
Qed.
End Small.

(** In particular this is so for n points with an exact hypervolume V such that
    (n + 4) (V + 1) <= 2^24. *)
Theorem C82_nonnegative_small : forall sort2d pts ref v,
  valid_sort2d sort2d -> length ref = 2%nat -> double_points pts -> double_points [ref] ->
  hypervolume pts ref v -> ((INR (length pts) + 4) * (area_of v + 1) <= bpow radix2 24)%R ->
  exists hvc, length hvc = length pts /\
    (forall ndebug, hv_contributions_d ndebug sort2d pts ref = Ret (hvc, pts)) /\
    (forall c, In c hvc -> (0 <= c)%R).
Proof.
  intros. eapply C82_nonnegative; eauto. apply small_error; auto. eapply hypervolume_nonneg; eauto.
Qed.
Print Assumptions C82_nonnegative_small.

(** ** C82: it is not so in general *)
Lemma hv2d_value : forall sort2d pts ref L, valid_sort2d sort2d -> Permutation L (map xy pts) ->
  StronglySorted lexle L -> hv2d_d sort2d pts ref = Ret (fst (sweep (coord ref 0) L (0%R, coord ref 1))).
Proof.
  intros sort2d pts ref L Hs P S. destruct (hv2d_sweep sort2d pts ref Hs) as (L' & P' & S' & ->).
  rewrite (lex_sorted_unique L' L); auto. now rewrite P', P.
Qed.

Lemma dint_leb : forall a b, (dint a <=? dint b) = (a <=? b).
Proof.
  intros. unfold dint. set (m := 2 ^ 1074). assert (0 < m) by (unfold m; apply Z.pow_pos_nonneg; lia). clearbody m.
  destruct (Z.leb_spec a b); [apply Z.leb_le|apply Z.leb_gt]; nia.
Qed.
Lemma dint_lt : forall a b, a < b -> dint a < dint b.
Proof.
  intros. unfold dint. set (m := 2 ^ 1074). assert (0 < m) by (unfold m; apply Z.pow_pos_nonneg; lia). clearbody m. nia.
Qed.
Lemma step_int : forall rx s y0 x y, step (dint rx) (s, dint y0) (dint x, dint y) =
  if (y0 <=? y) || (rx <=? x) then (s, dint y0)
  else (rnd (s + rnd (rnd (IZR (rx - x)) * rnd (IZR (y0 - y)))), dint y).
Proof.
  intros. unfold step. cbn [fst snd]. rewrite !dint_leb, !dval_dint, <- !minus_IZR. reflexivity.
Qed.

(** integers between 2^54 and 2^55 are rounded to multiples of four *)
Lemma rnd_55 : forall z, 2 ^ 54 <= z < 2 ^ 55 -> rnd (IZR z) = IZR (4 * ZnearestE (IZR z * / 4)).
Proof.
  intros z [H1 H2]. unfold rnd, round, scaled_mantissa, cexp.
  assert (M : mag radix2 (IZR z) = 55 :> Z).
  { apply mag_unique_pos. split.
    - change (bpow radix2 (55 - 1)) with (IZR (2 ^ 54)). now apply IZR_le.
    - change (bpow radix2 55) with (IZR (2 ^ 55)). now apply IZR_lt. }
  rewrite M. change (dexp 55) with 2. change (bpow radix2 (- (2))) with (/ 4)%R.
  unfold F2R. cbn [Fnum Fexp]. change (bpow radix2 2) with 4%R. rewrite mult_IZR. ring.
Qed.
Lemma nearest_quarter : forall k r, 0 <= r < 4 ->
  ZnearestE (IZR (4 * k + r) * / 4) = k + (if r <? 2 then 0 else if r =? 2 then (if Z.even k then 0 else 1) else 1).
Proof.
  intros k r Hr. assert (E : (IZR (4 * k + r) * / 4 = IZR k + IZR r * / 4)%R). { rewrite plus_IZR, mult_IZR. field. }
  assert (R0 : (0 <= IZR r <= 3)%R). { split; apply IZR_le; lia. }
  assert (F : Zfloor (IZR (4 * k + r) * / 4) = k). { apply Zfloor_imp. rewrite E, plus_IZR. lra. }
  unfold Znearest. rewrite F, E.
  replace (IZR k + IZR r * / 4 - IZR k)%R with (IZR r * / 4)%R by ring.
  assert (C : 0 < r -> Zceil (IZR k + IZR r * / 4) = k + 1).
  { intros P. apply Zceil_imp. replace (k + 1 - 1) with k by lia. rewrite plus_IZR. apply IZR_lt in P. lra. }
  assert (r = 0 \/ r = 1 \/ r = 2 \/ r = 3) as [->|[->|[->| ->]]] by lia; cbn [Z.ltb Z.eqb Z.compare Pos.compare Pos.compare_cont Pos.eqb].
  - rewrite Rcompare_Lt by lra. lia.
  - rewrite Rcompare_Lt by lra. lia.
  - rewrite Rcompare_Eq by lra. rewrite C by lia. destruct (Z.even k); cbn [negb]; lia.
  - rewrite Rcompare_Gt by lra. rewrite C by lia. lia.
Qed.
Lemma rnd_quarter : forall k r, 2 ^ 54 <= 4 * k + r < 2 ^ 55 -> 0 <= r < 4 ->
  rnd (IZR (4 * k + r)) = IZR (4 * (k + (if r <? 2 then 0 else if r =? 2 then (if Z.even k then 0 else 1) else 1))).
Proof. intros. rewrite rnd_55 by auto. now rewrite nearest_quarter. Qed.

Definition wit_a : point := map dint [-134217730; -1].
Definition wit_b : point := map dint [-134217729; -134217731].
Definition wit_ref : point := map dint [0; 0].

Lemma double_dint : forall k, Z.abs k <= 2 ^ 53 -> double_coord (dint k).
Proof. intros. unfold double_coord. rewrite dval_dint. now apply double_int. Qed.

Lemma wit_total : forall sort2d, valid_sort2d sort2d ->
  hv2d_d sort2d [wit_a; wit_b] wit_ref = Ret (IZR 18014399046352896).
Proof.
  intros sort2d Hs. rewrite (hv2d_value sort2d _ _ (map xy [wit_a; wit_b])); auto.
  - unfold wit_a, wit_b, wit_ref. cbn [map]. change (coord [dint 0; dint 0] 0) with (dint 0).
    change (coord [dint 0; dint 0] 1) with (dint 0).
    change (xy [dint (-134217730); dint (-1)]) with (dint (-134217730), dint (-1)).
    change (xy [dint (-134217729); dint (-134217731)]) with (dint (-134217729), dint (-134217731)).
    unfold sweep. cbn [fold_left]. rewrite step_int.
    replace ((0 <=? -1) || (0 <=? -134217730)) with false by reflexivity.
    rewrite step_int. replace ((-1 <=? -134217731) || (0 <=? -134217729)) with false by reflexivity.
    cbn [fst]. f_equal.
    change (0 - -134217730) with 134217730. change (0 - -1) with 1. change (0 - -134217729) with 134217729.
    change (-1 - -134217731) with 134217730.
    rewrite !(rnd_int 134217730), !(rnd_int 1), (rnd_int 134217729) by lia.
    rewrite Rmult_1_r, (rnd_int 134217730), Rplus_0_l, (rnd_int 134217730) by lia.
    rewrite <- mult_IZR. replace (134217729 * 134217730) with (4 * 4503599728033792 + 2) by reflexivity.
    rewrite rnd_quarter by lia.
    replace (if 2 <? 2 then 0 else if 2 =? 2 then (if Z.even 4503599728033792 then 0 else 1) else 1) with 0 by reflexivity.
    rewrite <- plus_IZR.
    replace (134217730 + 4 * (4503599728033792 + 0)) with (4 * 4503599761588224 + 2) by reflexivity.
    rewrite rnd_quarter by lia. reflexivity.
  - constructor; [constructor; constructor|]. constructor; [|constructor]. left. unfold wit_a, wit_b. cbn [map].
    unfold xy, coord. cbn [fst nth]. apply dint_lt. lia.
Qed.
Lemma wit_rest : forall sort2d ref', valid_sort2d sort2d -> ref' = [] \/ ref' = [wit_ref] ->
  hv2d_d sort2d (ref' ++ [wit_b]) wit_ref = Ret (IZR 18014399046352900).
Proof.
  intros sort2d ref' Hs Hr. rewrite (hv2d_value sort2d _ _ (map xy ([wit_b] ++ ref'))); auto.
  - assert (Idle : forall st, sweep (coord wit_ref 0) (map xy ref') st = st).
    { intros st. destruct Hr as [->| ->]; auto. apply step_idle. right. cbn [fst xy]. lia. }
    rewrite map_app, sweep_app, Idle. unfold wit_b, wit_ref, sweep. cbn [map fold_left].
    change (coord [dint 0; dint 0] 0) with (dint 0). change (coord [dint 0; dint 0] 1) with (dint 0).
    change (xy [dint (-134217729); dint (-134217731)]) with (dint (-134217729), dint (-134217731)).
    rewrite step_int. replace ((0 <=? -134217731) || (0 <=? -134217729)) with false by reflexivity.
    cbn [fst]. f_equal. change (0 - -134217729) with 134217729. change (0 - -134217731) with 134217731.
    rewrite (rnd_int 134217729), (rnd_int 134217731) by lia. rewrite <- mult_IZR, Rplus_0_l.
    replace (134217729 * 134217731) with (4 * 4503599761588224 + 3) by reflexivity.
    rewrite rnd_quarter by lia. rewrite rnd_double; [reflexivity|]. rewrite <- rnd_quarter by lia. apply rnd_format.
  - rewrite !map_app. apply Permutation_app_comm.
  - cbn [app map]. destruct Hr as [->| ->].
    + repeat constructor.
    + constructor; [repeat constructor|]. constructor; [|constructor]. left. unfold wit_ref, wit_b. cbn [map].
      unfold xy, coord. cbn [fst nth]. apply dint_lt. lia.
Qed.

(** one cell of the plane of integers, in units of 2^-1074 *)
Definition dcell (k : Z) : Z := k * 2 ^ 1074 * 2 ^ 1074.
Lemma area_dcell : forall k, area_of (dcell k) = IZR k.
Proof.
  intros. unfold area_of, dcell. rewrite !mult_IZR. change (2 ^ 1074) with (Zpower radix2 1074).
  rewrite IZR_Zpower by lia. set (a := bpow radix2 1074). set (b := bpow radix2 (-1074)).
  assert (E : (a * b = 1)%R). { unfold a, b. rewrite <- bpow_plus. reflexivity. }
  replace (IZR k * a * a * (b * b))%R with (IZR k * ((a * b) * (a * b)))%R by ring. rewrite E. ring.
Qed.
Lemma dcell_minus : forall a b, dcell a - dcell b = dcell (a - b).
Proof. intros. unfold dcell. ring. Qed.

Lemma wit_exact : exists v v0, hypervolume [wit_a; wit_b] wit_ref v /\ hypervolume [wit_b] wit_ref v0 /\
  v - v0 = dcell 1.
Proof.
  exists (dcell 18014399046352900), (dcell 18014399046352899).
  split; [|split; [|now rewrite dcell_minus]].
  - destruct (C08_hv2d_exact sort2d_exec [wit_a; wit_b] wit_ref sort2d_exec_valid eq_refl) as (v & E & H).
    assert (E' : hv2d sort2d_exec [wit_a; wit_b] wit_ref = Ret (dcell 18014399046352900)) by (vm_compute; reflexivity).
    rewrite E' in E. injection E as <-. exact H.
  - destruct (C08_hv2d_exact sort2d_exec [wit_b] wit_ref sort2d_exec_valid eq_refl) as (v & E & H).
    assert (E' : hv2d sort2d_exec [wit_b] wit_ref = Ret (dcell 18014399046352899)) by (vm_compute; reflexivity).
    rewrite E' in E. injection E as <-. exact H.
Qed.

Lemma wit_doubles : double_points [wit_a; wit_b] /\ double_points [wit_ref].
Proof.
  split; intros p c Hp Hc; cbn [In] in Hp; repeat destruct Hp as [<-|Hp]; try tauto;
    destruct c as [|[|c]]; try lia; unfold wit_a, wit_b, wit_ref, coord; cbn [map nth]; apply double_dint; lia.
Qed.

(** A point whose exact contribution is 1 is given -4: with assertions the
    program is aborted, without them the negative value is returned. *)
Theorem C82_nonnegative_refuted : exists pts ref v v0,
  double_points pts /\ double_points [ref] /\ length ref = 2%nat /\
  hypervolume pts ref v /\ hypervolume (skipn 1 pts) ref v0 /\ area_of (v - v0) = 1%R /\
  forall sort2d, valid_sort2d sort2d ->
    hv_contributions_d false sort2d pts ref = AssertFailed /\
    exists hvc, hv_contributions_d true sort2d pts ref = Ret (hvc, pts) /\ nth 0 hvc 0%R = (-4)%R.
Proof.
  destruct wit_exact as (v & v0 & H & H0 & D). exists [wit_a; wit_b], wit_ref, v, v0.
  destruct wit_doubles as [W1 W2]. do 5 (split; auto). split. { now rewrite D, area_dcell. }
  intros sort2d Hs. destruct (contrib_run sort2d [wit_a; wit_b] wit_ref Hs) as (total & hvc & E & Hl & Hn & Ht & Hf).
  destruct (Hn 0%nat ltac:(cbn [length]; lia)) as (h & Eh & N).
  cbn [upd] in Eh. pose proof (wit_rest sort2d [wit_ref] Hs ltac:(auto)) as Er. cbn [app] in Er. rewrite Er in Eh. rewrite wit_total in E by auto.
  injection E as <-. injection Eh as <-.
  assert (NV : nth 0 hvc 0%R = (-4)%R).
  { rewrite N. unfold report. rewrite <- minus_IZR.
    change (18014399046352896 - 18014399046352900) with (-4). rewrite rnd_int by lia.
    rewrite Rle_bool_true; auto. rewrite tolerance_val. rewrite Rabs_left by lra.
    change (bpow radix2 (-26)) with (/ 67108864)%R. lra. }
  split; [|eauto]. rewrite Hf. destruct hvc as [|c0 hvc]; [cbn [length] in Hl; lia|]. cbn [nth] in NV. subst c0.
  cbn [forallb]. rewrite Rle_bool_false by lra. reflexivity.
Qed.
Print Assumptions C82_nonnegative_refuted.

(** The same points show that adding a point can lower the computed hypervolume. *)
Theorem C82_hv_monotone_refuted : exists p pts ref w w',
  double_points (p :: pts) /\ double_points [ref] /\
  (forall sort2d, valid_sort2d sort2d ->
     hv2d_d sort2d pts ref = Ret w /\ hv2d_d sort2d (p :: pts) ref = Ret w') /\
  (w' < w)%R.
Proof.
  destruct wit_doubles as [W1 W2].
  exists wit_a, [wit_b], wit_ref, (IZR 18014399046352900), (IZR 18014399046352896).
  do 2 (split; auto). split; [|apply IZR_lt; lia]. intros sort2d Hs. split.
  - apply (wit_rest sort2d []); auto.
  - now apply wit_total.
Qed.
Print Assumptions C82_hv_monotone_refuted.

(** ** C82: the tolerance is absolute *)
(** A single point whose hypervolume, 2^-28, is computed exactly is reported to
    contribute nothing. *)
Theorem C82_positive_refuted : exists pts ref, double_points pts /\ double_points [ref] /\
  forall sort2d, valid_sort2d sort2d ->
    hv2d_d sort2d pts ref = Ret (bpow radix2 (-28)) /\
    hv_contributions_d false sort2d pts ref = Ret ([0%R], pts).
Proof.
  set (m := - 2 ^ 1060). exists [[m; m]], wit_ref.
  assert (Dm : dval m = (- bpow radix2 (-14))%R).
  { unfold dval, m. rewrite opp_IZR. change (2 ^ 1060) with (Zpower radix2 1060). rewrite IZR_Zpower by lia.
    rewrite Ropp_mult_distr_l_reverse, <- bpow_plus. reflexivity. }
  assert (Db : is_double (bpow radix2 (-14))) by (apply generic_format_bpow; unfold dexp, FLT_exp; lia).
  assert (DD : double_coord m). { unfold double_coord. rewrite Dm. now apply generic_format_opp. }
  destruct wit_doubles as [_ W2]. split; [|split; auto].
  { intros p c [<-|[]] Hc. destruct c as [|[|c]]; try lia; exact DD. }
  assert (mneg : (0 <=? m) = false) by reflexivity.
  assert (Z0 : dint 0 = 0) by reflexivity.
  intros sort2d Hs.
  assert (Ep : hv2d_d sort2d [[m; m]] wit_ref = Ret (bpow radix2 (-28))).
  { rewrite (hv2d_value sort2d _ _ [(m, m)]) by (auto; repeat constructor).
    change (coord wit_ref 0) with (dint 0). change (coord wit_ref 1) with (dint 0). rewrite Z0.
    unfold sweep. cbn [fold_left]. unfold step. cbn [fst snd]. rewrite mneg. cbn [orb fst]. f_equal. rewrite Dm.
    replace (dval 0) with 0%R by (unfold dval; ring). replace (0 - - bpow radix2 (-14))%R with (bpow radix2 (-14)) by ring.
    rewrite (rnd_double (bpow radix2 (-14))) by auto. rewrite <- bpow_plus, Rplus_0_l.
    change (-14 + -14) with (-28). assert (is_double (bpow radix2 (-28))) by (apply generic_format_bpow; unfold dexp, FLT_exp; lia).
    now rewrite !rnd_double by (rewrite ?rnd_double; auto). }
  split; auto.
  assert (Er : hv2d_d sort2d [wit_ref] wit_ref = Ret 0%R).
  { rewrite (hv2d_value sort2d _ _ [xy wit_ref]) by (auto; repeat constructor).
    unfold sweep. cbn [fold_left]. rewrite step_idle; [reflexivity|]. right. cbn [fst xy]. lia. }
  destruct (contrib_run sort2d [[m; m]] wit_ref Hs) as (total & hvc & E & Hl & Hn & Ht & Hf).
  destruct (Hn 0%nat ltac:(cbn [length]; lia)) as (h & Eh & N). change (hv2d_d sort2d [wit_ref] wit_ref = Ret h) in Eh. rewrite Er in Eh. rewrite Ep in E.
  assert (B1 : is_double (bpow radix2 (-28))) by (apply generic_format_bpow; unfold dexp, FLT_exp; lia).
  assert (B2 : (0 <= bpow radix2 (-28) < tolerance_hvc)%R).
  { rewrite tolerance_val. split; [apply bpow_ge_0|apply bpow_lt; lia]. }
  set (b := bpow radix2 (-28)) in *. clearbody b. assert (b = total) by congruence. assert (h = 0%R) by congruence. subst total h.
  destruct hvc as [|c0 [|]]; cbn [length] in Hl; try lia. cbn [nth] in N.
  assert (c0 = 0%R).
  { rewrite N. unfold report. rewrite Rminus_0_r, rnd_double by auto.
    rewrite Rabs_pos_eq by lra. now rewrite Rle_bool_false by lra. }
  rewrite Hf. subst c0. rewrite H. cbn [forallb]. rewrite Rle_bool_true by lra. reflexivity.
Qed.
Print Assumptions C82_positive_refuted.

(** ** The hypotheses can be met: the third point is dominated by the second *)
Example C82_example :
  let pts := map (map dint) [[1; 3]; [2; 2]; [3; 2]] in let ref := map dint [5; 5] in
  double_points pts /\ double_points [ref] /\ redundant pts ref 2 /\ valid_sort2d sort2d_exec /\
  exists v, hypervolume pts ref v /\ ((INR (length pts) + 4) * (area_of v + 1) <= bpow radix2 24)%R.
Proof.
  split; [|split; [|split; [|split]]].
  - intros p c Hp Hc; cbn [map In] in Hp; repeat destruct Hp as [<-|Hp]; try tauto;
      destruct c as [|[|c]]; try lia; unfold coord; cbn [nth]; apply double_dint; lia.
  - intros p c [<-|[]] Hc. destruct c as [|[|c]]; try lia; unfold coord; cbn [map nth]; apply double_dint; lia.
  - left. exists 1%nat. split; [cbn [map length]; lia|]. split; [lia|]. intros c Hc.
    destruct c as [|[|c]]; try lia; unfold row, coord; cbn [map nth]; [apply Z.lt_le_incl, dint_lt; lia|lia].
  - apply sort2d_exec_valid.
  - destruct (C08_hv2d_exact sort2d_exec (map (map dint) [[1; 3]; [2; 2]; [3; 2]]) (map dint [5; 5]) sort2d_exec_valid eq_refl)
      as (v & E & H).
    assert (E' : hv2d sort2d_exec (map (map dint) [[1; 3]; [2; 2]; [3; 2]]) (map dint [5; 5]) = Ret (dcell 11))
      by (vm_compute; reflexivity).
    rewrite E' in E. injection E as <-. exists (dcell 11). split; auto. rewrite area_dcell. cbn [map length INR].
    change (bpow radix2 24) with 16777216%R. lra.
Qed.
