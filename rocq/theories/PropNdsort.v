(** Property C43: the tool ndsort.
    Specification: Spec.v (is_rank, dom), NdsortSpec.v.  Model: NdsortModel.v. *)
From Coq Require Import List ZArith Lia Bool Arith Permutation QArith Qround Lqa Qfield.
From Verif Require Import Base Spec NondomModel NondomProofs2d ParetoRankModel ParetoRankProofs PropParetoRank
  HvSpec Hv2dModel Hv2dProofs HvModel HvMain HvFacts HvShiftModel HvShiftProofs NdsortSpec NdsortModel.
From Verif Require NormModel.
Import ListNotations.
Open Scope Z_scope.

(** ** The grid values are the normalised values *)
Theorem C43_scaled_is_normalised : forall dim minmax lb ub p d, (d < dim)%nat ->
  let q l := map (fun k => inject_Z (zbound l k)) (seq 0 dim) in
  (NormModel.qcoord (NormModel.normalise_row dim minmax NormModel.AGREE_NONE 0 (9#10) (q lb) (q ub)
                       (map inject_Z p)) d
   == inject_Z (coord (scaled_row dim minmax lb ub p) d) / inject_Z (coord (scaled_ref dim lb ub) d))%Q.
Proof.
  intros * Hd q. unfold NormModel.normalise_row, scaled_row, scaled_ref.
  assert (MF : forall k, NormModel.must_flip minmax NormModel.AGREE_NONE k = false) by reflexivity.
  assert (Q1 : forall l, NormModel.qcoord (q l) d = inject_Z (zbound l d)).
  { intros. unfold NormModel.qcoord, q. rewrite nth_map_lt with (d0 := 0%nat) by (rewrite seq_length; lia).
    now rewrite seq_nth by lia. }
  assert (Q2 : NormModel.qcoord (map inject_Z p) d = inject_Z (coord p d)).
  { unfold NormModel.qcoord, coord. change 0%Q with (inject_Z 0). apply map_nth. }
  unfold NormModel.qcoord at 1. rewrite nth_map_lt with (d0 := 0%nat) by (rewrite seq_length; lia).
  assert (CM : forall h, coord (map h (seq 0 dim)) d = h d).
  { intros. unfold coord. rewrite nth_map_lt with (d0 := 0%nat) by (rewrite seq_length; lia). now rewrite seq_nth by lia. }
  rewrite !CM. rewrite !seq_nth by lia. cbn [plus]. rewrite MF, Q1, Q2. unfold NormModel.norm_diff, zdiff. rewrite !Q1.
  destruct (Qeq_bool (inject_Z (zbound ub d) - inject_Z (zbound lb d)) 0) eqn:EQ.
  - apply Qeq_bool_eq in EQ. assert (E : zbound ub d - zbound lb d = 0).
    { apply inject_Z_injective. unfold Z.sub. rewrite inject_Z_plus, inject_Z_opp. exact EQ. }
    rewrite E. cbn [Z.eqb]. rewrite inject_Z_mult. unfold Z.sub. rewrite inject_Z_plus, inject_Z_opp.
    change (inject_Z 9) with (9#1)%Q. change (inject_Z (10 * 1)) with (10#1)%Q. field.
  - assert (N : ~ (inject_Z (zbound ub d) - inject_Z (zbound lb d) == 0)%Q).
    { intro C. apply Qeq_eq_bool in C. congruence. }
    assert (E : zbound ub d - zbound lb d <> 0).
    { intro C. apply N. unfold Qminus. rewrite <- inject_Z_opp, <- inject_Z_plus.
      replace (zbound ub d + - zbound lb d) with 0 by lia. reflexivity. }
    destruct (Z.eqb_spec (zbound ub d - zbound lb d) 0); try contradiction.
    rewrite !inject_Z_mult. unfold Z.sub. rewrite !inject_Z_plus, !inject_Z_opp.
    change (inject_Z 9) with (9#1)%Q. change (inject_Z 10) with (10#1)%Q. field. exact N.
Qed.
Print Assumptions C43_scaled_is_normalised.

(** ** Bounds *)
Lemma fold_lower : forall l b, fold_left lower_step l (Some b) = Some (fold_left Z.min l b).
Proof.
  induction l; intros; cbn [fold_left]; auto. unfold lower_step at 2. rewrite <- IHl. f_equal.
  destruct (Z.gtb_spec b a); f_equal; lia.
Qed.
Lemma fold_upper : forall l b, fold_left upper_step l (Some b) = Some (fold_left Z.max l b).
Proof.
  induction l; intros; cbn [fold_left]; auto. unfold upper_step at 2. rewrite <- IHl. f_equal.
  destruct (Z.ltb_spec b a); f_equal; lia.
Qed.
Lemma fold_min_spec : forall l b, (forall x, In x (b :: l) -> fold_left Z.min l b <= x) /\ In (fold_left Z.min l b) (b :: l).
Proof.
  induction l; intros; cbn [fold_left].
  - simpl. split; [|auto]. intros x [->|[]]. lia.
  - destruct (IHl (Z.min b a)) as [A B]. split.
    + intros x [->|[->|H]].
      * pose proof (A (Z.min x a) ltac:(simpl; auto)). lia.
      * pose proof (A (Z.min b x) ltac:(simpl; auto)). lia.
      * apply A. simpl; auto.
    + destruct B as [B|B]; [|simpl; auto]. rewrite <- B. destruct (Z.min_spec b a) as [[_ ->]|[_ ->]]; simpl; auto.
Qed.
Lemma fold_max_spec : forall l b, (forall x, In x (b :: l) -> x <= fold_left Z.max l b) /\ In (fold_left Z.max l b) (b :: l).
Proof.
  induction l; intros; cbn [fold_left].
  - simpl. split; [|auto]. intros x [->|[]]. lia.
  - destruct (IHl (Z.max b a)) as [A B]. split.
    + intros x [->|[->|H]].
      * pose proof (A (Z.max x a) ltac:(simpl; auto)). lia.
      * pose proof (A (Z.max b x) ltac:(simpl; auto)). lia.
      * apply A. simpl; auto.
    + destruct B as [B|B]; [|simpl; auto]. rewrite <- B. destruct (Z.max_spec b a) as [[_ ->]|[_ ->]]; simpl; auto.
Qed.

Lemma lower_ok : forall dim F d, F <> [] -> (d < dim)%nat ->
  exists l, nth d (lower_bounds dim F) None = Some l /\ smallest F d l.
Proof.
  intros * HF Hd. unfold lower_bounds. rewrite nth_map_lt with (d0 := 0%nat) by (rewrite seq_length; lia).
  rewrite seq_nth by lia. cbn [plus]. destruct F as [|p F]; try congruence. cbn [map fold_left].
  cbn [lower_step]. rewrite fold_lower. eexists; split; eauto.
  destruct (fold_min_spec (map (fun p => coord p d) F) (coord p d)) as [A B].
  split.
  - change (coord p d :: map (fun p => coord p d) F) with (map (fun p => coord p d) (p :: F)) in B.
    apply in_map_iff in B. destruct B as (q & E & Hq). exists q. auto.
  - intros q Hq. apply A. change (coord p d :: map (fun p => coord p d) F) with (map (fun p => coord p d) (p :: F)).
    apply in_map_iff. eauto.
Qed.
Lemma upper_ok : forall dim F d, F <> [] -> (d < dim)%nat ->
  exists u, nth d (upper_bounds dim F) None = Some u /\ largest F d u.
Proof.
  intros * HF Hd. unfold upper_bounds. rewrite nth_map_lt with (d0 := 0%nat) by (rewrite seq_length; lia).
  rewrite seq_nth by lia. cbn [plus]. destruct F as [|p F]; try congruence. cbn [map fold_left].
  cbn [upper_step]. rewrite fold_upper. eexists; split; eauto.
  destruct (fold_max_spec (map (fun p => coord p d) F) (coord p d)) as [A B].
  split.
  - change (coord p d :: map (fun p => coord p d) F) with (map (fun p => coord p d) (p :: F)) in B.
    apply in_map_iff in B. destruct B as (q & E & Hq). exists q. auto.
  - intros q Hq. apply A. change (coord p d :: map (fun p => coord p d) F) with (map (fun p => coord p d) (p :: F)).
    apply in_map_iff. eauto.
Qed.

(** ** calculate_uev *)
(** [j] is the first row with the value [x] in objective [d] *)
Definition first_with (F : list point) (d : nat) (x : Z) (j : nat) : Prop :=
  (j < length F)%nat /\ coord (row F j) d = x /\ forall i, (i < j)%nat -> coord (row F i) d <> x.

Lemma mark_first_ok : forall x d F pre uev, length uev = length (pre ++ F) ->
  (forall p, In p pre -> coord p d <> x) ->
  exists uev', mark_first x d F (length pre) uev = Ret uev' /\ length uev' = length uev /\
    forall j, nth j uev' false = true <-> nth j uev false = true \/ first_with (pre ++ F) d x j.
Proof.
  induction F as [|p F IH]; intros pre uev L Hp; cbn [mark_first].
  - exists uev. split; auto. split; auto. intros j. split; auto. intros [H|(A & B & _)]; auto.
    exfalso. apply (Hp (row (pre ++ []) j)); auto. rewrite app_nil_r in *. now apply nth_In.
  - destruct (Z.eqb_spec (coord p d) x) as [E|E].
    + assert (Hl : (length pre < length uev)%nat) by (rewrite L, app_length; simpl; lia).
      rewrite (wr_ok _ uev (length pre) true Hl). eexists. split; eauto. rewrite upd_length. split; auto.
      intros j. destruct (Nat.eq_dec (length pre) j) as [<-|Hne].
      * rewrite nth_upd_same by auto. split; auto. intros _. right.
        unfold first_with, row. rewrite app_length. cbn [length]. split; [lia|]. split.
        -- rewrite app_nth2, Nat.sub_diag by lia. auto.
        -- intros i Hi. rewrite app_nth1 by lia. apply Hp. now apply nth_In.
      * rewrite nth_upd_other by auto. split; auto. intros [H|(A & B & C)]; auto. exfalso.
        destruct (Nat.lt_ge_cases j (length pre)).
        -- apply (Hp (row pre j)). now apply nth_In. unfold row in *. now rewrite app_nth1 in B by auto.
        -- apply (C (length pre)); [lia|]. unfold row. rewrite app_nth2, Nat.sub_diag by lia. auto.
    + destruct (IH (pre ++ [p]) uev) as (uev' & E1 & L1 & H1).
      * rewrite <- app_assoc. auto.
      * intros q Hq. apply in_app_iff in Hq. destruct Hq as [Hq|[->|[]]]; auto.
      * rewrite app_length in E1. cbn [length] in E1. rewrite Nat.add_1_r in E1.
        exists uev'. split; auto. split; auto. intros j. rewrite <- app_assoc in H1. apply H1.
Qed.

Lemma uev_loop_ok : forall F lb ub ds uev, length uev = length F ->
  (forall d, In d ds -> exists l u, nth d lb None = Some l /\ nth d ub None = Some u) ->
  exists uev', uev_loop ds F lb ub uev = Ret uev' /\ length uev' = length F /\
    forall j, nth j uev' false = true <-> nth j uev false = true \/
      exists d, In d ds /\ (first_with F d (zbound lb d) j \/ first_with F d (zbound ub d) j).
Proof.
  induction ds as [|d ds IH]; intros uev L H; cbn [uev_loop].
  - exists uev. split; auto. split; auto. intros. split; auto. intros [|(d & [] & _)]; auto.
  - destruct (H d ltac:(simpl; auto)) as (l & u & El & Eu). rewrite El, Eu.
    destruct (mark_first_ok u d F [] uev) as (u1 & E1 & L1 & H1); [rewrite L; auto|intros ? []|].
    change (length (@nil point)) with 0%nat in E1. rewrite E1. cbn [bind].
    destruct (mark_first_ok l d F [] u1) as (u2 & E2 & L2 & H2); [rewrite L1, L; auto|intros ? []|].
    change (length (@nil point)) with 0%nat in E2. rewrite E2. cbn [bind].
    destruct (IH u2) as (u3 & E3 & L3 & H3); [lia|intros; apply H; simpl; auto|].
    exists u3. split; auto. split; auto. intros j. rewrite H3, H2, H1. cbn [app].
    assert (Zl : zbound lb d = l) by (unfold zbound; now rewrite El).
    assert (Zu : zbound ub d = u) by (unfold zbound; now rewrite Eu).
    split.
    + intros [[[A|A]|A]|(d' & D & A)]; auto; right.
      * exists d. rewrite Zl, Zu. simpl; auto.
      * exists d. rewrite Zl, Zu. simpl; auto.
      * exists d'. simpl; auto.
    + intros [A|(d' & [<-|D] & A)]; auto.
      * rewrite Zl, Zu in A. tauto.
      * right. eauto.
Qed.

(** calculate_uev marks, for every objective, the first row with the smallest
    value and the first row with the largest value, and no other row. *)
Theorem C43_uev_exact : forall dim F, F <> [] ->
  exists uev, calculate_uev dim F (lower_bounds dim F) (upper_bounds dim F) = Ret uev /\
    length uev = length F /\
    forall j, (nth j uev false = true <->
      exists d x, (d < dim)%nat /\ (smallest F d x \/ largest F d x) /\
        (j < length F)%nat /\ coord (row F j) d = x /\
        forall i, (i < j)%nat -> coord (row F i) d <> x).
Proof.
  intros dim F HF. unfold calculate_uev.
  destruct (uev_loop_ok F (lower_bounds dim F) (upper_bounds dim F) (seq 0 dim) (repeat false (length F)))
    as (uev & E & L & H).
  - apply repeat_length.
  - intros d Hd. apply in_seq in Hd. destruct (lower_ok dim F d HF) as (l & A & _); [lia|].
    destruct (upper_ok dim F d HF) as (u & B & _); [lia|]. eauto.
  - exists uev. split; auto. split; auto. intros j. rewrite H. split.
    + intros [A|(d & Hd & A)]. { rewrite nth_repeat in A. discriminate. }
      apply in_seq in Hd. destruct (lower_ok dim F d HF) as (l & El & Sl); [lia|].
      destruct (upper_ok dim F d HF) as (u & Eu & Su); [lia|].
      unfold zbound in A. rewrite El, Eu in A.
      destruct A as [A|A]; [exists d, l|exists d, u]; split; try lia; split; auto.
    + intros (d & x & Hd & S0 & A). right. exists d. split. apply in_seq; lia.
      destruct (lower_ok dim F d HF) as (l & El & (Sl1 & Sl2)); [lia|].
      destruct (upper_ok dim F d HF) as (u & Eu & (Su1 & Su2)); [lia|].
      unfold zbound. rewrite El, Eu.
      destruct S0 as [[(p & Hp & Ep) S2]|[(p & Hp & Ep) S2]].
      * left. replace l with x. apply A. destruct Sl1 as (q & Hq & Eq). specialize (S2 q Hq). specialize (Sl2 p Hp). lia.
      * right. replace u with x. apply A. destruct Su1 as (q & Hq & Eq). specialize (S2 q Hq). specialize (Su2 p Hp). lia.
Qed.
Print Assumptions C43_uev_exact.

Example C43_uev_example :
  let F := [[1;5];[1;5];[3;3];[5;1];[5;1]] in
  calculate_uev 2 F (lower_bounds 2 F) (upper_bounds 2 F) = Ret [true;false;false;true;false].
Proof. vm_compute; reflexivity. Qed.

(** ** One front *)
Lemma front_rows_split : forall i rank pts k, length rank = length pts -> (k < length pts)%nat ->
  nth k rank 0%nat = i ->
  front_rows i rank pts = front_rows i (firstn k rank) (firstn k pts) ++ row pts k ::
                          front_rows i (skipn (S k) rank) (skipn (S k) pts).
Proof.
  induction rank as [|r rank IH]; intros pts k L Hk E; destruct pts as [|p pts]; simpl in *; try lia.
  destruct k as [|k].
  - cbn [firstn skipn front_rows app row nth]. subst r. rewrite Nat.eqb_refl. reflexivity.
  - cbn [firstn skipn front_rows]. change (row (p :: pts) (S k)) with (row pts k).
    rewrite (IH pts k) by (auto; lia). cbn [skipn]. destruct (r =? i)%nat; reflexivity.
Qed.

Lemma add_ok : forall i rank pts order hvc, length rank = length pts -> length order = length rank ->
  length hvc = length (front_rows i rank pts) ->
  exists order', add_contributions i rank order hvc = Ret order' /\ length order' = length order /\
    forall k, (k < length pts)%nat ->
      nth k order' 0%Q = if (nth k rank 0 =? i)%nat
        then (nth k order 0 + (1 - nth (length (front_rows i (firstn k rank) (firstn k pts))) hvc 0))%Q
        else nth k order 0%Q.
Proof.
  induction rank as [|r rank IH]; intros pts order hvc L1 L2 L3.
  - destruct pts; simpl in *; try lia. destruct order; simpl in *; try lia.
    exists []. split; auto. split; auto. intros; lia.
  - destruct pts as [|p pts]; simpl in L1; try lia. destruct order as [|o order]; simpl in L2; try lia.
    cbn [front_rows] in L3. cbn [add_contributions]. destruct (Nat.eqb_spec r i) as [->|Hr].
    + destruct hvc as [|h hvc]; simpl in L3; try lia.
      destruct (IH pts order hvc) as (o' & E & Lo & H); try lia. rewrite E. cbn [bind].
      eexists. split; eauto. split. simpl; lia. intros [|k] Hk; cbn [nth firstn front_rows length].
      * rewrite Nat.eqb_refl. reflexivity.
      * simpl in Hk. rewrite Nat.eqb_refl. cbn [length nth]. apply H. lia.
    + destruct (IH pts order hvc) as (o' & E & Lo & H); try lia. rewrite E. cbn [bind].
      eexists. split; eauto. split. simpl; lia. intros [|k] Hk; cbn [nth firstn front_rows].
      * destruct (Nat.eqb_spec r i); try contradiction. reflexivity.
      * simpl in Hk. destruct (Nat.eqb_spec r i); try contradiction. apply H. lia.
Qed.

Lemma front_rows_ndr : forall mx rank l S, length rank = length l ->
  (forall k, (k < length l)%nat -> (nth k rank 0%nat = 1%nat <-> forall q, In q S -> ~ dom mx q (row l k))) ->
  (forall k, (k < length l)%nat -> (nth k rank 0%nat <> 1%nat -> exists q, In q S /\ dom mx q (row l k))) ->
  nondominated_rows mx S l (front_rows 1 rank l).
Proof.
  induction rank as [|r rank IH]; intros l S L H H'; destruct l as [|p l]; simpl in L; try lia; cbn [front_rows].
  - constructor.
  - assert (IH' : nondominated_rows mx S l (front_rows 1 rank l)).
    { apply IH; try lia; intros k Hk.
      - apply (H (Datatypes.S k)). simpl; lia.
      - intros Hn. apply (H' (Datatypes.S k)); simpl; try lia; auto. }
    destruct (Nat.eqb_spec r 1) as [->|Hr].
    + apply ndr_keep; auto. apply (H 0%nat); simpl; auto; lia.
    + destruct (H' 0%nat) as (q & Hq & D); simpl; auto; try lia. eapply ndr_drop; eauto.
Qed.

Lemma fold_mul_pos : forall l, (forall x, In x l -> 0 < x) -> 0 < fold_right Z.mul 1 l.
Proof.
  induction l; simpl; intros. lia. apply Z.mul_pos_pos; auto.
Qed.

Lemma hv_at_most_box : forall S ref v, (forall p i, In p S -> (i < length ref)%nat -> 0 <= coord p i) ->
  (forall x, In x ref -> 0 < x) -> hypervolume S ref v -> v <= fold_right Z.mul 1 ref.
Proof.
  intros S ref v HS Hr Hv.
  set (o := repeat 0 (length ref)).
  assert (Co : forall i, coord o i = 0).
  { intros. unfold o, coord. now rewrite nth_repeat. }
  assert (Hc : forall i, (i < length ref)%nat -> 0 < coord ref i).
  { intros. apply Hr. now apply nth_In. }
  assert (Ho : hypervolume [o] ref (V 0 ref (length ref) [o])).
  { apply V_hypervolume. intros p i [<-|[]] Hi. rewrite Co. lia. }
  rewrite V_single in Ho. 2:{ intros i Hi. rewrite Co. split; [lia|auto]. }
  assert (v <= box ref (length ref) o).
  { eapply hypervolume_mono; eauto. apply cover_cells. intros p Hp _. exists o. split; simpl; auto.
    intros. rewrite Co. auto. }
  replace (fold_right Z.mul 1 ref) with (box ref (length ref) o); auto.
  assert (G : forall m, (m <= length ref)%nat -> box ref m o = fold_right Z.mul 1 (firstn m ref)).
  { induction m; intros Hm; [reflexivity|]. cbn [box]. rewrite IHm by lia. rewrite Co, Z.sub_0_r.
    assert (Es : firstn (Datatypes.S m) ref = firstn m ref ++ [coord ref m]).
    { clear - Hm. revert ref Hm. induction m; intros [|x ref] Hm; simpl in Hm; try lia; auto.
      cbn [firstn app]. f_equal. rewrite <- IHm by lia. reflexivity. }
    rewrite Es, fold_right_app. cbn [fold_right]. rewrite Z.mul_1_r.
    generalize (firstn m ref) (coord ref m). clear. induction l; intros z; cbn [fold_right]. lia. rewrite <- (IHl z). ring. }
  rewrite G by lia. now rewrite firstn_all.
Qed.

Lemma divide_by_ge : forall t s v, 0 < s ->
  ((Qceiling (t * inject_Z s) <=? v) = true <-> (t <= divide_by s v)%Q).
Proof.
  intros. unfold divide_by.
  assert (Hs : (0 < inject_Z s)%Q). { change 0%Q with (inject_Z 0). rewrite <- Zlt_Qlt. auto. }
  rewrite Z.leb_le. split.
  - intros. apply Qle_shift_div_l; auto. eapply Qle_trans; [apply Qle_ceiling|]. rewrite <- Zle_Qle. auto.
  - intros. assert ((t * inject_Z s <= inject_Z v)%Q).
    { assert (E : (inject_Z v == inject_Z v / inject_Z s * inject_Z s)%Q). { field. intro C. rewrite C in Hs. lra. }
      rewrite E. apply Qmult_le_compat_r; auto. lra. }
    apply Qceiling_resp_le in H1. now rewrite Qceiling_Z in H1.
Qed.

Definition ndsort_input sort2d sortd dbl_max (pts : list point) (dim : nat) : Prop :=
  valid_sort2d sort2d /\ valid_sort sortd /\ ((dim <= 3)%nat \/ stable_sort sortd) /\
  wf_points dim pts /\ pts <> [] /\ (2 <= dim)%nat /\ 0 <= dbl_max.

(** every nonempty set has a row of rank 1 *)
Lemma first_front_nonempty : forall sort2d g dbg pts dim rank,
  valid_sort2d sort2d -> pts <> [] -> pareto_rank sort2d g dbg pts dim = Ret rank ->
  exists k, (k < length pts)%nat /\ nth k rank 0%nat = 1%nat.
Proof.
  intros * Hs Hn E. assert (Hl : (1 <= length pts)%nat) by (destruct pts; simpl; try congruence; lia).
  destruct (C07_pareto_rank_bounds sort2d g dbg pts dim Hs (or_introl Hl)) as (rank' & E' & L & B & N).
  rewrite E in E'. inversion E'; subst rank'. specialize (B 0%nat Hl). destruct (N 0%nat 1%nat) as (j & Hj & Ej); try lia.
  eauto.
Qed.

Theorem C43_ndsort_exact :
  forall sort2d sortd dbl_max g garbage debug tolerance (pts : list point) dim minmax,
  ndsort_input sort2d sortd dbl_max pts dim ->
  exists rank order F,
    ndsort_rank sort2d garbage debug pts dim minmax = Ret rank /\
    ndsort_order sort2d sortd dbl_max g garbage debug tolerance pts dim minmax = Ret order /\
    length rank = length pts /\ length order = length pts /\
    (* the rank is the number of the front *)
    (forall k, (k < length pts)%nat -> is_rank (minimise dim) pts k (nth k rank 0%nat)) /\
    (* rows outside the first front *)
    (forall k, (k < length pts)%nat -> nth k rank 0%nat <> 1%nat ->
       (nth k order 0 == inject_Z (Z.of_nat (nth k rank 0%nat)))%Q) /\
    (* the first front *)
    first_front (minimise dim) pts F /\
    forall k, (k < length pts)%nat -> nth k rank 0%nat = 1%nat ->
      exists c, front_contribution dim F (row pts k) c /\ (0 <= c <= 1)%Q /\
        (((tolerance <= c)%Q /\ (nth k order 0 == 2 - c)%Q) \/
         ((c < tolerance)%Q /\ (nth k order 0 == 2)%Q)).
Proof.
  intros * (Hs2 & Hs & Hst & Hwf & Hne & Hd & Hm).
  assert (Hl : (1 <= length pts)%nat) by (destruct pts; simpl; try congruence; lia).
  destruct (pareto_rank_ok sort2d garbage debug pts dim Hs2 (or_introl Hl)) as (rank & E & L & HR).
  destruct (C06_pareto_rank_fronts sort2d garbage debug pts dim rank Hs2 (or_introl Hl) E) as (_ & F2 & F3 & _).
  set (F := front_rows 1 rank pts).
  assert (HFF : first_front (minimise dim) pts F).
  { apply front_rows_ndr; auto.
    - intros k Hk. rewrite (F3 k Hk). split.
      + intros ND q Hq D. apply ND. apply In_nth with (d := []) in Hq. destruct Hq as (j & Hj & <-). exists j. auto.
      + intros ND (j & Hj & D). apply (ND (row pts j)); auto. now apply nth_In.
    - intros k Hk Hn. destruct (nth k rank 0%nat) as [|[|r]] eqn:Er; try congruence.
      + pose proof (R_bound _ _ _ _ (HR k Hk)). lia.
      + destruct (F2 k r Hk Er) as (j & Hj & _ & D). exists (row pts j). split; auto. now apply nth_In. }
  destruct (first_front_nonempty _ _ _ _ _ _ Hs2 Hne E) as (k0 & Hk0 & Ek0).
  assert (HFne : F <> []).
  { unfold F. rewrite (front_rows_split 1 rank pts k0) by auto. intros C. now apply app_eq_nil in C. }
  assert (HFin : incl F pts).
  { unfold F. clear. generalize 1%nat. revert pts. induction rank as [|r rank IH]; intros [|p pts] i q; cbn [front_rows]; try (intros []; fail).
    destruct (r =? i)%nat.
    - intros [->|H]; simpl; auto. right. eapply IH; eauto.
    - intros H. right. eapply IH; eauto. }
  set (lb := lower_bounds dim F). set (ub := upper_bounds dim F).
  set (lo := map (zbound lb) (seq 0 dim)). set (hi := map (zbound ub) (seq 0 dim)).
  assert (Clo : forall d, (d < dim)%nat -> coord lo d = zbound lb d).
  { intros. unfold lo, coord. rewrite nth_map_lt with (d0 := 0%nat) by (rewrite seq_length; lia). now rewrite seq_nth by lia. }
  assert (Chi : forall d, (d < dim)%nat -> coord hi d = zbound ub d).
  { intros. unfold hi, coord. rewrite nth_map_lt with (d0 := 0%nat) by (rewrite seq_length; lia). now rewrite seq_nth by lia. }
  assert (HB : bounds_of dim F lo hi).
  { split; [unfold lo; now rewrite map_length, seq_length|].
    split; [unfold hi; now rewrite map_length, seq_length|].
    intros d Hdd. rewrite Clo, Chi by auto.
    destruct (lower_ok dim F d HFne Hdd) as (l & El & Sl). destruct (upper_ok dim F d HFne Hdd) as (u & Eu & Su).
    unfold zbound, lb, ub. rewrite El, Eu. auto. }
  assert (ER : scaled_ref dim lb ub = grid_ref dim lo hi).
  { unfold scaled_ref, grid_ref. apply map_ext_in. intros d Hdd. apply in_seq in Hdd.
    unfold zdiff, width. rewrite Clo, Chi by lia. f_equal.
    destruct (Z.eqb_spec (zbound ub d - zbound lb d) 0); destruct (Z.eqb_spec (zbound ub d) (zbound lb d)); lia. }
  assert (EP : forall p, scaled_row dim minmax lb ub p = to_grid dim lo p).
  { intros. unfold scaled_row, to_grid. apply map_ext_in. intros d Hdd. apply in_seq in Hdd.
    change (NormModel.must_flip minmax NormModel.AGREE_NONE d) with false. cbn match. rewrite Clo by lia. reflexivity. }
  assert (Rpos : forall x, In x (grid_ref dim lo hi) -> 0 < x).
  { intros x Hx. unfold grid_ref in Hx. apply in_map_iff in Hx. destruct Hx as (d & <- & Hdd). apply in_seq in Hdd.
    unfold width. destruct HB as (_ & _ & HB). destruct (HB d) as ((_ & Sl) & ((p & Hp & Ep) & _)); [lia|].
    specialize (Sl p Hp). destruct (Z.eqb_spec (coord hi d) (coord lo d)); lia. }
  assert (Gpos : forall p i, In p (map (to_grid dim lo) F) -> (i < dim)%nat -> 0 <= coord p i).
  { intros p i Hp Hi. apply in_map_iff in Hp. destruct Hp as (q & <- & Hq). unfold to_grid, coord at 1.
    rewrite nth_map_lt with (d0 := 0%nat) by (rewrite seq_length; lia). rewrite seq_nth by lia. cbn [plus].
    destruct HB as (_ & _ & HB). destruct (HB i) as ((_ & Sl) & _); [lia|]. specialize (Sl q Hq). lia. }
  assert (Lref : length (grid_ref dim lo hi) = dim) by (unfold grid_ref; now rewrite map_length, seq_length).
  set (s := scale dim lb ub).
  assert (Es : s = grid_cells dim lo hi). { unfold s, scale, grid_cells. now rewrite ER. }
  assert (Hspos : 0 < s). { rewrite Es. now apply fold_mul_pos. }
  set (Z0 := map (to_grid dim lo) F).
  assert (HI : hv_input sort2d sortd dbl_max Z0 dim (grid_ref dim lo hi)).
  { do 3 (split; auto). split.
    { apply Forall_forall. intros p Hp. apply in_map_iff in Hp. destruct Hp as (q & <- & _).
      unfold to_grid. now rewrite map_length, seq_length. }
    do 2 (split; auto). intros p i Hp Hi. specialize (Gpos p i Hp Hi). lia. }
  destruct (hv_contributions_ok sort2d sortd dbl_max g (Qceiling (tolerance * inject_Z s)) Z0 dim (grid_ref dim lo hi) HI)
    as (total & hvc & EC & HT & LC & HC).
  { intros i Hi. assert (0 < coord (grid_ref dim lo hi) i). { apply Rpos. apply nth_In. lia. } lia. }
  destruct (C43_uev_exact dim F HFne) as (uev & EU & _).
  assert (LF : length Z0 = length F) by apply map_length.
  destruct (add_ok 1 rank pts (map (fun r => inject_Z (Z.of_nat r)) rank) (map (divide_by s) hvc))
    as (order & EA & LA & HA); auto. { apply map_length. } { rewrite map_length, LC, LF. reflexivity. }
  exists rank, order, F. split; [exact E|]. split.
  { unfold ndsort_order. rewrite E. cbn [bind]. cbn [max_rank seq ndsort_loop]. unfold ndsort_front.
    fold F lb ub. fold lb ub in EU. rewrite EU. cbn [bind]. fold s. rewrite ER. rewrite (map_ext _ _ EP). fold Z0. rewrite EC. cbn [bind fst].
    now rewrite EA. }
  split; auto. split. { rewrite LA, map_length. auto. } split; auto. split.
  { intros k Hk Hn. rewrite HA by auto. destruct (Nat.eqb_spec (nth k rank 0%nat) 1); try contradiction.
    rewrite nth_map_lt with (d0 := 0%nat) by lia. reflexivity. }
  split; auto.
  intros k Hk Ek. set (A := front_rows 1 (firstn k rank) (firstn k pts)).
  set (B := front_rows 1 (skipn (S k) rank) (skipn (S k) pts)).
  assert (EF : F = A ++ row pts k :: B) by (apply front_rows_split; auto).
  assert (HlA : (length A < length Z0)%nat) by (rewrite LF, EF, app_length; simpl; lia).
  destruct (HC (length A) HlA) as (rest & Hrest & Hle & En).
  assert (ERem : remove_row (length A) Z0 = map (to_grid dim lo) (A ++ B)).
  { unfold remove_row, Z0. rewrite EF, !map_app. cbn [map]. f_equal.
    - rewrite firstn_app, map_length, Nat.sub_diag. cbn [firstn]. rewrite app_nil_r.
      rewrite <- (map_length (to_grid dim lo) A). apply firstn_all.
    - replace (S (length A)) with (length (map (to_grid dim lo) A ++ [to_grid dim lo (row pts k)])).
      2:{ rewrite app_length, map_length. simpl. lia. }
      replace (map (to_grid dim lo) A ++ to_grid dim lo (row pts k) :: map (to_grid dim lo) B)
        with ((map (to_grid dim lo) A ++ [to_grid dim lo (row pts k)]) ++ map (to_grid dim lo) B)
        by (now rewrite <- app_assoc).
      rewrite skipn_app, Nat.sub_diag, skipn_all. reflexivity. }
  rewrite ERem in Hrest.
  exists (divide_by s (total - rest)).
  assert (Hsq : (0 < inject_Z s)%Q). { change 0%Q with (inject_Z 0). now rewrite <- Zlt_Qlt. }
  split; [|split].
  - exists lo, hi, A, B, total, rest. do 4 (split; auto). rewrite <- Es. reflexivity.
  - unfold divide_by. split.
    + apply Qle_shift_div_l; auto. rewrite Qmult_0_l. change 0%Q with (inject_Z 0). rewrite <- Zle_Qle. lia.
    + apply Qle_shift_div_r; auto. rewrite Qmult_1_l. rewrite <- Zle_Qle.
      assert (total <= s). { rewrite Es. apply (hv_at_most_box Z0); auto. intros p i Hp Hi. apply Gpos; auto. lia. }
      pose proof (hypervolume_nonneg _ _ _ Hrest). lia.
  - rewrite HA by auto. rewrite Ek, Nat.eqb_refl. fold A.
    rewrite nth_map_lt with (d0 := 0%nat) by lia. rewrite Ek.
    rewrite nth_map_lt with (d0 := 0) by lia. rewrite En.
    pose proof (divide_by_ge tolerance s (total - rest) Hspos) as DG.
    destruct (Qceiling (tolerance * inject_Z s) <=? total - rest).
    + left. split. now apply DG. change (inject_Z (Z.of_nat 1)) with 1%Q. ring.
    + right. split. { apply Qnot_le_lt. intros C. apply DG in C. discriminate. }
      unfold divide_by. change (inject_Z (Z.of_nat 1)) with 1%Q. change (inject_Z 0) with 0%Q.
      unfold Qdiv. rewrite Qmult_0_l. ring.
Qed.
Print Assumptions C43_ndsort_exact.

(** The contribution of a row to its front is well defined. *)
Theorem C43_contribution_unique : forall dim F p c c',
  front_contribution dim F p c -> front_contribution dim F p c' -> (c == c')%Q.
Proof.
  intros * (lo & hi & A & B & t & r & (L1 & L2 & HB) & EF & Ht & Hr & ->)
           (lo' & hi' & A' & B' & t' & r' & (L1' & L2' & HB') & EF' & Ht' & Hr' & ->).
  assert (El : lo = lo').
  { apply nth_ext with (d := 0) (d' := 0). congruence. intros d Hd.
    destruct (HB d) as (((p1 & H1 & E1) & M1) & _); [lia|]. destruct (HB' d) as (((p2 & H2 & E2) & M2) & _); [lia|].
    specialize (M1 p2 H2). specialize (M2 p1 H1). unfold coord in *. lia. }
  assert (Eh : hi = hi').
  { apply nth_ext with (d := 0) (d' := 0). congruence. intros d Hd.
    destruct (HB d) as (_ & ((p1 & H1 & E1) & M1)); [lia|]. destruct (HB' d) as (_ & ((p2 & H2 & E2) & M2)); [lia|].
    specialize (M1 p2 H2). specialize (M2 p1 H1). unfold coord in *. lia. }
  subst lo' hi'. rewrite (hypervolume_unique _ _ _ _ Ht Ht').
  assert (P : Permutation (A ++ B) (A' ++ B')).
  { apply Permutation_app_inv with (a := p). rewrite <- EF, <- EF'. apply Permutation_refl. }
  assert (Er : r = r').
  { eapply hypervolume_unique; [exact Hr|]. destruct Hr' as (Lc & N & I & ->). exists Lc. split; auto. split; auto.
    intros z. rewrite I. unfold dominated_cell.
    split; intros (X & (q & Hq & Y) & W); (split; [exact X|split; [|exact W]]); exists q; (split; [|exact Y]);
      eapply Permutation_in; try exact Hq; apply Permutation_map; [apply Permutation_sym|]; exact P. }
  rewrite Er. reflexivity.
Qed.
Print Assumptions C43_contribution_unique.

(** Fronts are printed in order; two fronts can only tie if a row of the first
    front has a contribution of (numerically) zero. *)
Theorem C43_fronts_in_order :
  forall sort2d sortd dbl_max g garbage debug tolerance (pts : list point) dim minmax order,
  ndsort_input sort2d sortd dbl_max pts dim ->
  ndsort_order sort2d sortd dbl_max g garbage debug tolerance pts dim minmax = Ret order ->
  forall a b, (a < length pts)%nat -> (b < length pts)%nat ->
    dom (minimise dim) (row pts a) (row pts b) ->
    (nth a order 0 <= nth b order 0)%Q /\
    ((nth a order 0 == nth b order 0)%Q ->
       exists F c, first_front (minimise dim) pts F /\ front_contribution dim F (row pts a) c /\
         (c < tolerance \/ c == 0)%Q).
Proof.
  intros * HI EO a b Ha Hb D.
  destruct (C43_ndsort_exact sort2d sortd dbl_max g garbage debug tolerance pts dim minmax HI)
    as (rank & order' & F & ER & EO' & LR & LO & HR & H2 & HF & H1).
  rewrite EO in EO'. inversion EO'; subst order'. clear EO'.
  assert (Hlt : (nth a rank 0 < nth b rank 0)%nat) by (eapply rank_dom; eauto).
  pose proof (proj2 (R_bound _ _ _ _ (HR a Ha))) as Ga.
  assert (Hb1 : nth b rank 0%nat <> 1%nat) by lia.
  pose proof (H2 b Hb Hb1) as Eb.
  destruct (Nat.eq_dec (nth a rank 0%nat) 1) as [E1|N1].
  - destruct (H1 a Ha E1) as (c & Hc & Hc01 & Ec).
    assert (G2 : (2 <= inject_Z (Z.of_nat (nth b rank 0%nat)))%Q).
    { change 2%Q with (inject_Z 2). rewrite <- Zle_Qle. lia. }
    split.
    + rewrite Eb. destruct Ec as [[_ Ec]|[_ Ec]]; rewrite Ec; lra.
    + intros E. exists F, c. do 2 (split; auto). rewrite Eb in E. destruct Ec as [[_ Ec]|[T Ec]]; auto.
      right. rewrite Ec in E. lra.
  - pose proof (H2 a Ha N1) as Ea.
    assert (G2 : (inject_Z (Z.of_nat (nth a rank 0%nat)) < inject_Z (Z.of_nat (nth b rank 0%nat)))%Q).
    { rewrite <- Zlt_Qlt. lia. }
    split; rewrite Ea, Eb. lra. intros; lra.
Qed.
Print Assumptions C43_fronts_in_order.

(** Within the first front a larger contribution comes first. *)
Theorem C43_first_front_by_contribution :
  forall sort2d sortd dbl_max g garbage debug tolerance (pts : list point) dim minmax order F a b ca cb,
  ndsort_input sort2d sortd dbl_max pts dim ->
  ndsort_order sort2d sortd dbl_max g garbage debug tolerance pts dim minmax = Ret order ->
  first_front (minimise dim) pts F ->
  (a < length pts)%nat -> (b < length pts)%nat -> In (row pts a) F -> In (row pts b) F ->
  front_contribution dim F (row pts a) ca -> front_contribution dim F (row pts b) cb ->
  (tolerance <= ca)%Q -> (tolerance <= cb)%Q ->
  ((nth a order 0 < nth b order 0)%Q <-> (cb < ca)%Q).
Proof.
  intros * HI EO HF Ha Hb Ia Ib Ca Cb Ta Tb.
  destruct (C43_ndsort_exact sort2d sortd dbl_max g garbage debug tolerance pts dim minmax HI)
    as (rank & order' & F' & ER & EO' & LR & LO & HR & H2 & HF' & H1).
  rewrite EO in EO'. inversion EO'; subst order'. clear EO'.
  assert (EF : F' = F).
  { clear - HF HF'. unfold first_front in *. set (l := pts) in HF at 2, HF' at 2. clearbody l. revert F F' HF HF'.
    induction l; intros F F' H H'; inversion H; subst; inversion H'; subst; auto.
    - f_equal; eauto.
    - exfalso. match goal with A : forall q, In q pts -> ~ _, B : In ?q pts |- _ => apply (A q); auto end.
    - exfalso. match goal with A : forall q, In q pts -> ~ _, B : In ?q pts |- _ => apply (A q); auto end. }
  subst F'.
  assert (ND : forall l G p, nondominated_rows (minimise dim) pts l G -> In p G -> forall q, In q pts -> ~ dom (minimise dim) q p).
  { clear. induction 1; simpl; try contradiction; auto. intros [->|Hi]; auto. }
  destruct HI as (Hs2 & _ & _ & _ & Hne & _).
  assert (Hl : (1 <= length pts)%nat) by (destruct pts; simpl; try congruence; lia).
  destruct (C06_pareto_rank_fronts sort2d garbage debug pts dim rank Hs2 (or_introl Hl) ER) as (_ & _ & F3 & _).
  assert (R1 : forall k, (k < length pts)%nat -> In (row pts k) F -> nth k rank 0%nat = 1%nat).
  { intros k Hk Ik. apply F3; auto. intros (j & Hj & D). apply (ND _ _ _ HF Ik (row pts j)); auto. now apply nth_In. }
  destruct (H1 a Ha (R1 a Ha Ia)) as (c1 & C1 & _ & E1). destruct (H1 b Hb (R1 b Hb Ib)) as (c2 & C2 & _ & E2).
  pose proof (C43_contribution_unique _ _ _ _ _ C1 Ca) as U1. pose proof (C43_contribution_unique _ _ _ _ _ C2 Cb) as U2.
  destruct E1 as [[_ E1]|[T1 _]]; [|exfalso; lra]. destruct E2 as [[_ E2]|[T2 _]]; [|exfalso; lra].
  rewrite E1, E2, U1, U2. split; intros; lra.
Qed.
Print Assumptions C43_first_front_by_contribution.


Example C43_nonvacuous :
  let pts := [[0;10];[4;4];[10;0];[4;5];[12;12]] in
  ndsort_input sort2d_exec sortd_exec 1000 pts 2 /\
  exists order, ndsort_order sort2d_exec sortd_exec 1000 st0 7 true (1#67108864) pts 2 [-1;-1] = Ret order /\
    map Qred order = [491 # 250; 4271 # 2500; 491 # 250; 2; 3]%Q.
Proof.
  split.
  - split; [apply sort2d_exec_valid|]. split; [apply sortd_exec_stable|]. split; [left; lia|].
    split; [repeat constructor|]. split; [discriminate|]. lia.
  - eexists. split; vm_compute; reflexivity.
Qed.

Lemma hypervolume_compute : forall S ref, (forall p i, In p S -> (i < length ref)%nat -> 0 <= coord p i) ->
  hypervolume S ref (V 0 ref (length ref) S).
Proof. intros. now apply V_hypervolume. Qed.

(** Only the first front is ordered by contribution: here the rows 1, 2, 3 form
    the second front, row 2 contributes more than row 1, but both are printed as
    2 (c/ndsort.c:254 overwrites the number of fronts by 1). *)
Theorem C43_second_front_refuted :
  exists pts order ca cb,
    ndsort_input sort2d_exec sortd_exec 1000 pts 2 /\
    ndsort_order sort2d_exec sortd_exec 1000 st0 7 true (1#67108864) pts 2 [-1;-1] = Ret order /\
    let F2 := [row pts 1; row pts 2; row pts 3] in
    (forall k, (1 <= k <= 3)%nat -> is_rank (minimise 2) pts k 2) /\
    front_contribution 2 F2 (row pts 1) ca /\ front_contribution 2 F2 (row pts 2) cb /\ (ca < cb)%Q /\
    (nth 1 order 0 == nth 2 order 0)%Q.
Proof.
  set (pts := [[0;0];[1;10];[2;2];[10;1]]).
  assert (HI : ndsort_input sort2d_exec sortd_exec 1000 pts 2).
  { split; [apply sort2d_exec_valid|]. split; [apply sortd_exec_stable|]. split; [left; lia|].
    split; [repeat constructor|]. split; [discriminate|]. lia. }
  destruct (C43_ndsort_exact sort2d_exec sortd_exec 1000 st0 7 true (1#67108864) pts 2 [-1;-1] HI)
    as (rank & order & F & ER & EO & LR & LO & HR & H2 & _).
  vm_compute in ER. injection ER as <-.
  assert (HB : bounds_of 2 [row pts 1; row pts 2; row pts 3] [1;1] [10;10]).
  { split; auto. split; auto. intros d Hd. unfold smallest, largest.
    destruct d as [|[|]]; try lia; (split; split;
      [|intros p [<-|[<-|[<-|[]]]]; vm_compute; discriminate| |intros p [<-|[<-|[<-|[]]]]; vm_compute; discriminate]).
    - exists (row pts 1); simpl; auto. - exists (row pts 3); simpl; auto.
    - exists (row pts 3); simpl; auto. - exists (row pts 1); simpl; auto. }
  exists pts, order, (81#8100)%Q, (5184#8100)%Q.
  split; auto. split; auto. split.
  { intros k Hk. specialize (HR k ltac:(simpl; lia)). destruct k as [|[|[|[|]]]]; try lia; exact HR. }
  assert (P0 : forall l, (forall p, In p l -> In p [[0;81];[9;9];[81;0]]) ->
     forall p i, In p l -> (i < length [90;90])%nat -> 0 <= coord p i).
  { intros l Hl p i Hp Hi. apply Hl in Hp. simpl in Hi.
    destruct Hp as [<-|[<-|[<-|[]]]]; destruct i as [|[|]]; try lia; vm_compute; discriminate. }
  split; [|split; [|split]].
  - exists [1;1], [10;10], [], [row pts 2; row pts 3], 6723, 6642.
    split; auto. split; [reflexivity|]. split; [|split; [|reflexivity]].
    + apply (V_hypervolume 0 [90;90] [[0;81];[9;9];[81;0]]). apply P0. auto.
    + apply (V_hypervolume 0 [90;90] [[9;9];[81;0]]). apply P0. simpl; tauto.
  - exists [1;1], [10;10], [row pts 1], [row pts 3], 6723, 1539.
    split; auto. split; [reflexivity|]. split; [|split; [|reflexivity]].
    + apply (V_hypervolume 0 [90;90] [[0;81];[9;9];[81;0]]). apply P0. auto.
    + apply (V_hypervolume 0 [90;90] [[0;81];[81;0]]). apply P0. simpl; tauto.
  - reflexivity.
  - rewrite !H2; simpl; auto; try lia. reflexivity.
Qed.
Print Assumptions C43_second_front_refuted.

(** The directions given with --obj have no effect on the output ... *)
Theorem C43_directions_ignored :
  forall sort2d sortd dbl_max g garbage debug tolerance pts dim minmax minmax',
  ndsort_order sort2d sortd dbl_max g garbage debug tolerance pts dim minmax =
  ndsort_order sort2d sortd dbl_max g garbage debug tolerance pts dim minmax' /\
  ndsort_rank sort2d garbage debug pts dim minmax = ndsort_rank sort2d garbage debug pts dim minmax'.
Proof. split; reflexivity. Qed.
Print Assumptions C43_directions_ignored.

(** ... so a row that is dominated when both objectives are maximised is put in
    the first front, and the row that dominates it in the second. *)
Theorem C43_maximise_refuted :
  exists pts, wf_points 2 pts /\ dom [true;true] (row pts 1) (row pts 0) /\
    ndsort_rank sort2d_exec 7 true pts 2 [1;1] = Ret [1;2]%nat.
Proof.
  exists [[1;1];[2;2]]. split; [repeat constructor|]. split; [|vm_compute; reflexivity]. split.
  - intros d Hd. simpl in Hd. destruct d as [|[|]]; try lia; unfold as_good, coord, row; simpl; lia.
  - exists 0%nat. split; [simpl; lia|]. unfold better, coord, row; simpl; lia.
Qed.
Print Assumptions C43_maximise_refuted.

(** Duplicates in the first front contribute nothing and tie with the second
    front: rows 1 and 3 are nondominated, row 4 is dominated by them. *)
Example C43_tie_between_fronts :
  exists order, ndsort_order sort2d_exec sortd_exec 1000 st0 7 true (1#67108864)
      [[0;10];[4;4];[10;0];[4;4];[5;5]] 2 [-1;-1] = Ret order /\
    map Qred order = [491 # 250; 2; 491 # 250; 2; 2]%Q.
Proof. eexists. split; vm_compute; reflexivity. Qed.
