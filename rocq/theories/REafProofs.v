(** Lemmas for PropREaf.v. *)
From Coq Require Import List ZArith QArith Qround Lia Lqa Bool Arith Permutation Sorted.
From Verif Require Import Base Spec EafSpec EafModel EafProofs EafStoreModel EafStoreProofs EafTop Eaf3dSpec Eaf3dModel Eaf3dTop EafMainModel EafMainProofs
  NondomModel GroupModel GroupSpec GroupProofs PyEafModel PyEafSpec PyEafProofs CmdModel HvShiftModel RMatModel RMatSpec RMatProofs REafModel REafSpec.
Import ListNotations.
Open Scope Z_scope.

(** ** The matrix of the result *)
Lemma put_row_ok : forall r mat n pos j c, (pos < n)%nat -> (j + length r <= c)%nat -> length mat = (n * c)%nat ->
  exists mat', put_row mat n pos j r = Ret mat' /\ length mat' = (n * c)%nat /\
    forall i k, (i < n)%nat -> (k < c)%nat ->
      nth (k * n + i) mat' 0%Q = if ((i =? pos) && (j <=? k) && (k <? j + length r))%nat%bool then nth (k - j) r 0%Q else nth (k * n + i) mat 0%Q.
Proof.
  induction r as [|v r IH]; intros mat n pos j c Hp Hj L; cbn [put_row length].
  - exists mat. split; auto. split; auto. intros i k Hi Hk.
    replace ((i =? pos) && (j <=? k) && (k <? j + 0))%nat%bool with false; auto.
    symmetry. apply andb_false_iff. rewrite andb_false_iff. destruct (Nat.leb_spec j k); auto. right. apply Nat.ltb_ge. lia.
  - cbn [length] in Hj. assert (B : (pos + j * n < length mat)%nat) by (rewrite L; nia).
    rewrite wr_ok by exact B. cbn [bind].
    destruct (IH (upd mat (pos + j * n) v) n pos (S j) c Hp ltac:(lia)) as (mat' & E & L' & H).
    { now rewrite upd_length. }
    exists mat'. split; auto. split; auto. intros i k Hi Hk. rewrite H by auto.
    destruct (Nat.eqb_spec i pos) as [->|Ne]; cbn [andb].
    + destruct (Nat.eq_dec k j) as [->|Nk].
      * replace ((S j <=? j) && (j <? S j + length r))%nat%bool with false by (symmetry; apply andb_false_iff; left; apply Nat.leb_gt; lia).
        replace ((j <=? j) && (j <? j + S (length r)))%nat%bool with true by (symmetry; apply andb_true_iff; split; [apply Nat.leb_le|apply Nat.ltb_lt]; lia).
        rewrite Nat.sub_diag. cbn [nth]. rewrite (Nat.add_comm (j * n)). apply nth_upd_same. exact B.
      * assert (Kn : (k * n + pos <> pos + j * n)%nat) by nia.
        destruct (Nat.leb_spec (S j) k).
        -- replace (j <=? k)%nat with true by (symmetry; apply Nat.leb_le; lia). cbn [andb].
           replace (j + S (length r))%nat with (S j + length r)%nat by lia. destruct (k <? S j + length r)%nat.
           ++ replace (k - j)%nat with (S (k - S j)) by lia. reflexivity.
           ++ apply nth_upd_other. lia.
        -- replace (j <=? k)%nat with false by (symmetry; apply Nat.leb_gt; lia). cbn [andb]. apply nth_upd_other. lia.
    + apply nth_upd_other. intro Q. apply Ne. assert (i = (k * n + i) mod n)%nat as -> by (rewrite Nat.add_comm, Nat.mod_add, Nat.mod_small; lia).
      rewrite <- Q. rewrite Nat.mod_add, Nat.mod_small; lia.
Qed.
Lemma put_rows_ok : forall rows mat n pos c, (pos + length rows <= n)%nat -> Forall (fun r => S (length (fst r)) = c) rows -> length mat = (n * c)%nat ->
  exists mat', put_rows mat n pos rows = Ret mat' /\ length mat' = (n * c)%nat /\
    forall i k, (i < n)%nat -> (k < c)%nat ->
      nth (k * n + i) mat' 0%Q = if ((pos <=? i) && (i <? pos + length rows))%nat%bool then nth k (out_row (nth (i - pos) rows ([], 0%Q))) 0%Q else nth (k * n + i) mat 0%Q.
Proof.
  induction rows as [|r rows IH]; intros mat n pos c Hp W L; cbn [put_rows length].
  - exists mat. split; auto. split; auto. intros i k Hi Hk.
    replace ((pos <=? i) && (i <? pos + 0))%nat%bool with false; auto. symmetry. apply andb_false_iff. destruct (Nat.leb_spec pos i); auto. right. apply Nat.ltb_ge. lia.
  - cbn [length] in Hp. inversion W as [|? ? W1 W2]; subst. fold (out_row r).
    assert (Lr : length (out_row r) = S (length (fst r))) by (unfold out_row; rewrite app_length, map_length, Nat.add_comm; reflexivity).
    destruct (put_row_ok (out_row r) mat n pos 0 (S (length (fst r))) ltac:(lia) ltac:(rewrite Lr; lia) L) as (m1 & E1 & L1 & H1).
    rewrite E1. cbn [bind]. destruct (IH m1 n (S pos) (S (length (fst r))) ltac:(lia) W2 L1) as (m2 & E2 & L2 & H2).
    exists m2. split; auto. split; auto. intros i k Hi Hk. rewrite H2, H1 by auto. rewrite Lr, Nat.sub_0_r, Nat.add_0_l.
    replace (0 <=? k)%nat with true by reflexivity.
    replace (k <? S (length (fst r)))%nat with true by (symmetry; apply Nat.ltb_lt; lia). rewrite !andb_true_r.
    destruct (Nat.eqb_spec i pos) as [->|Ne].
    + replace (S pos <=? pos)%nat with false by (symmetry; apply Nat.leb_gt; lia). cbn [andb].
      replace ((pos <=? pos) && (pos <? pos + S (length rows)))%nat%bool with true by (symmetry; apply andb_true_iff; split; [apply Nat.leb_le|apply Nat.ltb_lt]; lia).
      rewrite Nat.sub_diag. reflexivity.
    + destruct (Nat.leb_spec (S pos) i); cbn [andb].
      * replace (pos <=? i)%nat with true by (symmetry; apply Nat.leb_le; lia). cbn [andb]. replace (pos + S (length rows))%nat with (S pos + length rows)%nat by lia.
        destruct (i <? S pos + length rows)%nat; auto. replace (i - pos)%nat with (S (i - S pos)) by lia. reflexivity.
      * replace (pos <=? i)%nat with false by (symmetry; apply Nat.leb_gt; lia). reflexivity.
Qed.
Lemma out_row_length : forall r, length (out_row r) = S (length (fst r)).
Proof. intros r. unfold out_row. rewrite app_length, map_length, Nat.add_comm. reflexivity. Qed.
Lemma result_matrix_ok : forall fresh n d rows, n = length rows -> Forall (fun r : point * Q => length (fst r) = d) rows ->
  exists m, result_matrix fresh n d rows = Ret m /\ has_rows m (S d) (map out_row rows).
Proof.
  intros fresh n d rows -> W. unfold result_matrix.
  destruct (put_rows_ok rows (map fresh (seq 0 (length rows * (d + 1)))) (length rows) 0 (S d)) as (mat & E & L & H).
  - apply Nat.le_refl.
  - eapply Forall_impl; [|exact W]. intros r Er. exact (f_equal S Er).
  - rewrite map_length, seq_length. f_equal. lia.
  - rewrite E. cbn [bind]. eexists. split; [reflexivity|]. rewrite Nat.add_1_r. split; [cbn; now rewrite map_length|]. split; auto. rewrite map_length. split; [exact L|]. split.
    + apply Forall_forall. intros r Hr. apply in_map_iff in Hr. destruct Hr as (q & <- & Hq). rewrite out_row_length. f_equal. rewrite Forall_forall in W. auto.
    + intros na i j Hi Hj. cbn [values]. rewrite (nth_indep mat na 0%Q) by (rewrite L; nia). rewrite H by auto. rewrite Nat.add_0_l, Nat.sub_0_r.
      replace (0 <=? i)%nat with true by reflexivity. cbn [andb]. destruct (i <? _)%nat eqn:Ei.
      2:{ apply Nat.ltb_ge in Ei. exfalso. apply (Nat.lt_irrefl i). eapply Nat.lt_le_trans; [exact Hi|exact Ei]. }
      rewrite (nth_map_in out_row rows i [] ([], 0%Q)) by auto. apply nth_indep. rewrite out_row_length.
      rewrite Forall_forall in W. rewrite W; auto. now apply nth_In.
Qed.

(** ** Reading the surfaces *)
Definition flat (ss : list (list point)) (ps : list Q) : list (point * Q) :=
  concat (map (fun sp => map (fun x => (x, snd sp)) (fst sp)) (combine ss ps)).
Lemma eaf2matrix_gen : forall d n es ss, Forall2 (holds d n) es ss ->
  Forall (Forall (fun o : point * list bool => length (fst o) = d /\ length (snd o) = n)) ss ->
  forall percentile nlevels k ps, length ps = length ss ->
  (forall i, (i < length ss)%nat -> match percentile with Some l => (k + i < length l)%nat /\ nth (k + i) l 0%Q = nth i ps 0%Q
     | None => level2percentile (Z.of_nat (k + i + 1)) (Z.of_nat nlevels) = nth i ps 0%Q end) ->
  eaf2matrix es d k percentile nlevels = Ret (flat (map (map fst) ss) ps).
Proof.
  intros d n es ss F. induction F as [|e s es ss H F IH]; intros W percentile nlevels k ps Hl Hp; cbn [eaf2matrix].
  { reflexivity. }
  destruct ps as [|p ps]; [discriminate|]. inversion W as [|? ? W1 W2]; subst. cbn [length] in Hl, Hp.
  assert (Ep : (match percentile with Some ps0 => rd ps0 k | None => Ret (level2percentile (Z.of_nat (k + 1)) (Z.of_nat nlevels)) end) = Ret p).
  { specialize (Hp 0%nat ltac:(lia)). rewrite Nat.add_0_r in Hp. cbn [nth] in Hp. destruct percentile as [l|].
    - destruct Hp as [B <-]. now apply rd_ok.
    - now rewrite Hp. }
  rewrite Ep. cbn [bind]. pose proof H as (_ & Hs & _). rewrite Hs.
  rewrite (collect_ok _ _ (fun i => (fst (nth i s ([], [])), p))).
  2:{ intros j Hj. rewrite (read_point_ok d n e s j); auto; try lia. rewrite Forall_forall in W1. apply W1. apply nth_In. lia. }
  cbn [bind]. rewrite (IH W2 percentile nlevels (S k) ps) by (try lia; intros i Hi; specialize (Hp (S i) ltac:(lia)); replace (S k + i)%nat with (k + S i)%nat by lia; exact Hp).
  cbn [bind]. unfold flat. cbn [map combine concat fst snd]. do 2 f_equal. rewrite map_map.
  exact (EafStoreProofs.map_nth_seq _ _ (fun o : point * list bool => (fst o, p)) ([], []) s).
Qed.
Lemma totalpoints_ok : forall d n es ss, Forall2 (holds d n) es ss -> eaf_totalpoints es = length (concat (map (map fst) ss)).
Proof.
  intros d n es ss F. unfold eaf_totalpoints. induction F as [|e s es ss H F IH]; cbn [map concat fold_right]; auto.
  rewrite IH, app_length, map_length. destruct H as (_ & -> & _). reflexivity.
Qed.
Lemma flat_length : forall ss ps, length ps = length ss -> length (flat ss ps) = length (concat ss).
Proof.
  induction ss as [|s ss IH]; intros [|p ps] H; cbn in H; try discriminate; auto. unfold flat in *. cbn [combine map concat fst]. rewrite !app_length, map_length, IH; auto.
Qed.
Lemma flat_In : forall ss ps r, length ps = length ss -> In r (flat ss ps) -> exists s, In s ss /\ In (fst r) s.
Proof.
  intros ss ps r _ H. unfold flat in H. apply in_concat in H. destruct H as (l & Hl & Hr). apply in_map_iff in Hl. destruct Hl as ((s & p) & <- & Hs).
  apply in_combine_l in Hs. apply in_map_iff in Hr. destruct Hr as (x & <- & Hx). exists s. auto.
Qed.

(** the values of eafdiff *)
Definition diff_val (d : nat) (runs : list (list point)) (intervals : nat) (z : point) (c : Q) : Prop :=
  let n := length runs in
  exists L R, attained_by_exactly d L (firstn (n / 2) runs) z /\ attained_by_exactly d R (skipn (n / 2) runs) z /\
    (c == inject_Z (Z.of_nat intervals) *
          (inject_Z (Z.of_nat L) / inject_Z (Z.of_nat (n / 2)) - inject_Z (Z.of_nat R) / inject_Z (Z.of_nat (n - n / 2))))%Q.
Lemma count_exactly : forall d runs (f : nat -> bool) z off m,
  (forall k, (k < length runs)%nat -> (f k = true <-> attains d (nth k runs []) z)) -> (off + m <= length runs)%nat ->
  attained_by_exactly d (countb f (seq off m)) (firstn m (skipn off runs)) z.
Proof.
  intros d runs f z off m H L. exists (map (fun k => k - off)%nat (filter f (seq off m))). split; [|split].
  - apply NoDup_map_inv with (f := fun k => (k + off)%nat). rewrite map_map.
    rewrite (map_ext_in _ (fun k => k)).
    + rewrite map_id. apply NoDup_filter, seq_NoDup.
    + intros k Hk. apply filter_In in Hk. destruct Hk as [Hk _]. apply in_seq in Hk. lia.
  - now rewrite map_length, countb_filter.
  - assert (Ln : length (firstn m (skipn off runs)) = m) by (rewrite firstn_length, skipn_length; lia).
    assert (Nt : forall k, (k < m)%nat -> nth k (firstn m (skipn off runs)) [] = nth (off + k) runs []).
    { intros k Hk. rewrite nth_firstn_lt by auto. apply nth_skipn_. }
    intros k. rewrite in_map_iff, Ln. split.
    + intros (j & E & Hj). apply filter_In in Hj. destruct Hj as [Hj F]. apply in_seq in Hj.
      subst k. split. lia. rewrite Nt by lia. replace (off + (j - off))%nat with j by lia. apply H; auto. lia.
    + intros [Hk A]. rewrite Nt in A by auto. exists (off + k)%nat. split. lia.
      apply filter_In. split. apply in_seq; lia. apply H; auto. lia.
Qed.
Lemma eafdiff_rows_gen : forall d runs intervals ss es, (1 <= length runs)%nat -> Forall2 (holds d (length runs)) es ss ->
  Forall (Forall (fun o : point * list bool => length (fst o) = d /\ length (snd o) = length runs)) ss ->
  (forall s p flags, In s ss -> In (p, flags) s -> forall k, (k < length runs)%nat -> (nth k flags false = true <-> attains d (nth k runs []) p)) ->
  exists rs, eafdiff_rows es d (length runs / 2) (length runs) intervals = Ret (concat rs) /\ map (map fst) rs = map (map fst) ss /\
    Forall (Forall (fun r => diff_val d runs intervals (fst r) (snd r))) rs.
Proof.
  intros d runs intervals ss es Hn F2. set (n := length runs) in *. induction F2 as [|e s es ss H F2 IH]; intros W Fl; cbn [eafdiff_rows].
  { exists []. auto. }
  inversion W as [|? ? W1 W2]; subst. destruct IH as (rs & E & M & D); auto. { intros s' p fl Hs. apply Fl. now right. }
  pose proof H as (_ & Hs & _). rewrite Hs. assert (Hd : (n / 2 < n)%nat) by (apply Nat.div_lt; lia).
  set (fl := fun i => snd (nth i s ([], []))).
  set (g := fun i => (fst (nth i s ([], [])),
     (inject_Z (Z.of_nat intervals) *
       (inject_Z (Z.of_nat (countb (fun k => nth k (fl i) false) (seq 0 (n / 2)))) / inject_Z (Z.of_nat (n / 2)) -
        inject_Z (Z.of_nat (countb (fun k => nth k (fl i) false) (seq (n / 2) (n - n / 2)))) / inject_Z (Z.of_nat (n - n / 2))))%Q)).
  rewrite Forall_forall in W1.
  rewrite (collect_ok _ _ g).
  2:{ intros j Hj. assert (Ij : In (nth j s ([], [])) s) by (apply nth_In; lia).
      rewrite (read_point_ok d n e s j); auto; try lia; [|now apply W1].
      cbn [bind]. unfold eafdiff_percentile. rewrite (attained_left_right_ok d n e s j (n / 2)) by (auto; lia). cbn [bind fst snd]. reflexivity. }
  cbn [bind]. rewrite E. cbn [bind]. exists (map g (seq 0 (length s)) :: rs). split; auto. split.
  - cbn [map]. f_equal; auto. rewrite map_map. unfold g. cbn [fst].
    exact (EafStoreProofs.map_nth_seq _ _ (fun o : point * list bool => fst o) ([], []) s).
  - constructor; auto. apply Forall_forall. intros r Hr'. apply in_map_iff in Hr'. destruct Hr' as (i & <- & Hi). apply in_seq in Hi.
    assert (Ii : In (nth i s ([], [])) s) by (apply nth_In; lia).
    assert (Fk : forall k, (k < n)%nat -> (nth k (fl i) false = true <-> attains d (nth k runs []) (fst (nth i s ([], []))))).
    { unfold fl. destruct (nth i s ([], [])) as [p flags] eqn:Ep. apply (Fl s p flags); auto. now left. }
    unfold g. cbn [fst snd]. exists (countb (fun k => nth k (fl i) false) (seq 0 (n / 2))), (countb (fun k => nth k (fl i) false) (seq (n / 2) (n - n / 2))).
    split; [|split].
    + apply (count_exactly d runs (fun k => nth k (fl i) false) _ 0 (n / 2)); auto. fold n. lia.
    + pose proof (count_exactly d runs (fun k => nth k (fl i) false) (fst (nth i s ([], []))) (n / 2) (n - n / 2) Fk ltac:(fold n; lia)) as C.
      rewrite (firstn_all2 (n := n - n / 2)) in C; auto. rewrite skipn_length. fold n. lia.
    + apply Qeq_refl.
Qed.

(** ** Maximisation *)
Lemma neg_negate : forall mx p, neg_cols mx p = negate_cols mx p.
Proof.
  intros mx p. apply nth_ext with (d := 0) (d' := 0). { rewrite neg_cols_length. unfold negate_cols. now rewrite map_length, seq_length. }
  rewrite neg_cols_length. intros k Hk. unfold negate_cols. rewrite nth_map_seq by auto. revert p k Hk.
  induction mx as [|m mx IH]; intros [|c p] [|k] Hk; cbn in *; auto; try lia. apply IH. lia.
Qed.
Lemma neg_cols_wdom_gen : forall d mx p q, length mx = d -> length p = d -> length q = d ->
  (wdom (minimise d) (neg_cols mx p) (neg_cols mx q) <-> wdom mx p q).
Proof.
  intros d mx p q Hm Hp Hq.
  assert (H : forall i, (i < d)%nat -> (as_good (minimise d) (neg_cols mx p) (neg_cols mx q) i <-> as_good mx p q i)).
  { intros i Hi. unfold as_good. rewrite !neg_cols_coord by lia.
    assert (nth i (minimise d) false = false) as -> by (unfold minimise; apply nth_repeat). destruct (nth i mx false); lia. }
  unfold wdom. assert (length (minimise d) = d) as -> by (unfold minimise; apply repeat_length). rewrite Hm.
  split; intros G i Hi; apply H; auto.
Qed.
Lemma matched_attains_gen : forall d mx r1 r2 f k z, length mx = d -> wf_points d (concat r1) -> length z = d -> (f k < length r1)%nat ->
  (forall p, In p (nth k r2 []) <-> In (neg_cols mx p) (nth (f k) r1 [])) ->
  (attains d (nth k r2 []) (neg_cols mx z) <-> attains_mx mx (nth (f k) r1 []) z).
Proof.
  intros d mx r1 r2 f k z Hm HW Hz Hf H. unfold wf_points in HW. rewrite Forall_forall in HW.
  assert (HW' : forall p, In p (nth (f k) r1 []) -> length p = d).
  { intros p Hp. apply HW. apply in_concat. exists (nth (f k) r1 []). split; auto. now apply nth_In. }
  split; intros (p & Hp & W).
  - exists (neg_cols mx p). split. now apply H. apply H, HW' in Hp. rewrite neg_cols_length in Hp.
    apply (neg_cols_wdom_gen d); auto. now rewrite neg_cols_length. now rewrite neg_cols_invol.
  - exists (neg_cols mx p). split. apply H. now rewrite neg_cols_invol. apply (neg_cols_wdom_gen d); auto.
Qed.
Lemma matched_atleast_gen : forall d mx r1 r2 l z, length mx = d -> wf_points d (concat r1) -> length z = d -> matched mx r1 r2 ->
  (attained_by_at_least d l r2 (neg_cols mx z) <-> at_least_attain mx l r1 z).
Proof.
  intros d mx r1 r2 l z Hm HW Hz (HL & f & g & HB & H).
  change (atleastP (fun k => attains d (nth k r2 []) (neg_cols mx z)) (length r2) l <-> atleastP (fun k => attains_mx mx (nth k r1 []) z) (length r1) l).
  rewrite <- HL. split.
  - apply (atleast_transfer _ f g); auto. intros k Hk A. apply (matched_attains_gen d mx r1 r2 f k z); auto. now apply HB.
  - apply (atleast_transfer _ g f). now apply bij_sym. intros k Hk A. destruct (HB k Hk) as (_ & Hg & Fg & _).
    apply (matched_attains_gen d mx r1 r2 f (g k) z); auto. now apply HB. now rewrite Fg.
Qed.
Lemma matched_exactly_gen : forall d mx r1 r2 l z, length mx = d -> wf_points d (concat r1) -> length z = d -> matched mx r1 r2 ->
  attained_by_exactly d l r2 (neg_cols mx z) -> exactly_attain mx l r1 z.
Proof.
  intros d mx r1 r2 l z Hm HW Hz (HL & f & g & HB & H).
  change (exactlyP (fun k => attains d (nth k r2 []) (neg_cols mx z)) (length r2) l -> exactlyP (fun k => attains_mx mx (nth k r1 []) z) (length r1) l).
  rewrite <- HL. apply (exactly_transfer _ f g); auto. intros k Hk. apply (matched_attains_gen d mx r1 r2 f k z); auto. now apply HB.
Qed.
Lemma surface_back : forall d mx r1 r2 l s, length mx = d -> wf_points d (concat r1) -> matched mx r1 r2 ->
  is_surface d r2 l s -> surface_of d mx r1 l (map (neg_cols mx) s).
Proof.
  intros d mx r1 r2 l s Hm HW M (W & A & C). unfold wf_points in W. rewrite Forall_forall in W. split; [|split].
  - apply Forall_forall. intros p Hp. apply in_map_iff in Hp. destruct Hp as (q & <- & Hq). rewrite neg_cols_length. auto.
  - rewrite map_length. intros i j Hi Hj Ne. unfold row. rewrite !(nth_map_in (neg_cols mx) s _ [] []) by auto. intros D.
    apply (A i j Hi Hj Ne). unfold row. apply (neg_cols_wdom_gen d mx) in D; rewrite ?neg_cols_length; auto; try (apply W; now apply nth_In).
    now rewrite !neg_cols_invol in D.
  - intros z Hz. rewrite <- (matched_atleast_gen d mx r1 r2) by auto. rewrite <- C by (now rewrite neg_cols_length). split.
    + intros (p & Hp & D). apply in_map_iff in Hp. destruct Hp as (q & <- & Hq). exists q. split; auto.
      apply (neg_cols_wdom_gen d mx) in D; rewrite ?neg_cols_length; auto. now rewrite neg_cols_invol in D.
    + intros (p & Hp & D). exists (neg_cols mx p). split. now apply in_map. apply (neg_cols_wdom_gen d mx); rewrite ?neg_cols_length; auto. now rewrite neg_cols_invol.
Qed.

Lemma flip_inject : forall mx p, flip 0%Q Qopp mx (map inject_Z p) = map inject_Z (neg_cols mx p).
Proof.
  intros mx p. rewrite neg_negate. unfold flip, negate_cols. rewrite map_length, map_map. apply map_ext_in. intros k Hk. apply in_seq in Hk.
  rewrite (nth_map_in inject_Z p k 0%Q 0) by lia. unfold coord. destruct (nth k mx false); reflexivity.
Qed.
Lemma set_init_rows : forall (L : list (point * Q)) d (x y : rmat Q) (f : point -> point), has_rows x (S d) (map out_row L) ->
  Forall (fun r => length (fst r) = d /\ length (f (fst r)) = d) L -> has_rows y d (map (fun r => map inject_Z (f (fst r))) L) ->
  has_rows (r_set_init x y) (S d) (map (fun r => out_row (f (fst r), snd r)) L).
Proof.
  intros L d x y f (N & C & Lx & W & H) F (N' & C' & L' & W' & H'). rewrite map_length in *. unfold r_set_init. rewrite N, C. replace (S d - 1)%nat with d by lia.
  rewrite Forall_forall in F.
  assert (Ls : length (skipn (length L * d) (values x)) = length L) by (rewrite skipn_length, Lx; nia).
  split; [cbn; now rewrite map_length|]. split; auto. rewrite map_length. split; [cbn [values]; rewrite app_length, Ls, L'; lia|]. split.
  { apply Forall_forall. intros r Hr. apply in_map_iff in Hr. destruct Hr as (q & <- & Hq). rewrite out_row_length. cbn [fst]. f_equal. now apply F. }
  intros na i j Hi Hj. cbn [values]. rewrite (nth_map_in (fun r => out_row (f (fst r), snd r)) L i [] ([], 0%Q)) by auto.
  destruct (F (nth i L ([], 0%Q)) ltac:(now apply nth_In)) as [F1 F2]. unfold out_row at 1. cbn [fst snd].
  destruct (Nat.eq_dec j d) as [->|Nj].
  - rewrite app_nth2 by (rewrite L'; nia). rewrite L'. rewrite nth_skipn_. replace (length L * d + (d * length L + i - length L * d))%nat with (d * length L + i)%nat by nia.
    rewrite H by auto. rewrite (nth_map_in out_row L i [] ([], 0%Q)) by auto. unfold out_row.
    set (r := nth i L ([], 0%Q)) in *. assert (X : forall (a : list Q) b, length a = d -> nth d (a ++ [b]) na = b) by (intros a b <-; now rewrite app_nth2, Nat.sub_diag by lia).
    rewrite X by (rewrite map_length; exact F1). rewrite X by (rewrite map_length; exact F2). reflexivity.
  - rewrite app_nth1 by (rewrite L'; nia). rewrite H' by (auto; lia). rewrite (nth_map_in (fun r => map inject_Z (f (fst r))) L i [] ([], 0%Q)) by auto.
    symmetry. apply app_nth1. rewrite map_length. eapply Nat.lt_le_trans; [|apply Nat.eq_le_incl; symmetry; exact F2]. lia.
Qed.
Lemma undo_ok : forall x d L maximise mx, (0 < d)%nat -> has_rows x (S d) (map out_row L) -> Forall (fun r : point * Q => length (fst r) = d) L ->
  for_each d maximise mx ->
  exists x', undo_maximise x maximise = Ret x' /\ has_rows x' (S d) (map (fun r => out_row (neg_cols mx (fst r), snd r)) L).
Proof.
  intros x d L maximise mx Hd H W F. unfold undo_maximise. destruct (any maximise) eqn:Ea.
  - pose proof (init_rows 0%Q x d _ H) as I. rewrite map_map in I.
    assert (E1 : map (fun r => firstn d (out_row r)) L = map (fun r => map inject_Z (fst r)) L).
    { apply map_ext_in. intros r Hr. unfold out_row. rewrite Forall_forall in W. rewrite firstn_app, map_length, W, Nat.sub_diag by auto. cbn [firstn].
      rewrite app_nil_r. apply firstn_all2. rewrite map_length, W; auto. }
    rewrite E1 in I. destruct (transform_ok 0%Q Qopp _ d _ maximise mx Hd I F) as (y & Ey & Hy). rewrite Ey. cbn [bind].
    eexists. split; [reflexivity|]. apply set_init_rows; auto.
    + eapply Forall_impl; [|exact W]. cbn. intros r Hr. split; auto. now rewrite neg_cols_length.
    + rewrite map_map in Hy. erewrite map_ext; [exact Hy|]. intros r. cbn. symmetry. apply flip_inject.
  - exists x. split; auto. erewrite map_ext; [exact H|]. intros [p c]. cbn [fst snd]. do 2 f_equal.
    rewrite neg_negate. change (negate_cols mx p) with (flip 0 Z.opp mx p). apply flip_none. rewrite <- (for_each_any d maximise mx); auto.
Qed.

(** ** Percentiles *)
Lemma r_unique_In : forall l q, In q (r_unique l) -> In q l.
Proof. induction l as [|a l IH]; cbn; auto. intros q [->|H]; auto. apply filter_In in H. right. apply IH, H. Qed.
Lemma r_unique_all : forall l q, In q l -> exists q', In q' (r_unique l) /\ (q' == q)%Q.
Proof.
  induction l as [|a l IH]; cbn; intros q H; [contradiction|]. destruct H as [->|H]. { exists q. split; [now left|reflexivity]. }
  destruct (IH q H) as (q' & H1 & H2). destruct (Qeq_bool q' a) eqn:E.
  - apply Qeq_bool_iff in E. exists a. split; [now left|]. now rewrite <- E.
  - exists q'. split; auto. right. apply filter_In. now rewrite E.
Qed.
Lemma r_unique_sorted : forall l, StronglySorted Qle l -> StronglySorted Qlt (r_unique l).
Proof.
  induction 1 as [|a l S IH F]; cbn; constructor.
  - clear - IH. induction (r_unique l) as [|b u IHu]; cbn; [constructor|]. inversion IH as [|? ? S F]; subst. destruct (negb (Qeq_bool b a)); auto.
    constructor; auto. rewrite Forall_forall in *. intros x Hx. apply F. apply filter_In in Hx. apply Hx.
  - rewrite Forall_forall in *. intros x Hx. apply filter_In in Hx. destruct Hx as [Hx N]. apply r_unique_In in Hx. specialize (F x Hx).
    destruct (Qlt_le_dec a x) as [|K]; auto. assert (Qeq_bool x a = true) by (apply Qeq_bool_iff; lra). rewrite H in N. discriminate.
Qed.
Lemma sort_percentiles_ok : forall ps, StronglySorted Qlt (sort_percentiles ps) /\ (forall q, In q (sort_percentiles ps) -> In q ps) /\
  (forall p, In p ps -> exists q, In q (sort_percentiles ps) /\ (q == p)%Q).
Proof.
  intros ps. unfold sort_percentiles. pose proof (sort_by_perm Q Qle_bool ps) as P. split; [|split].
  - apply r_unique_sorted. apply sort_by_sorted; intros.
    + now apply Qle_bool_iff.
    + destruct (Qlt_le_dec b a) as [K|K]. lra. apply Qle_bool_iff in K. congruence.
    + lra.
  - intros q Hq. apply r_unique_In in Hq. eapply Permutation_in; [symmetry; exact P|exact Hq].
  - intros p Hp. apply r_unique_all. eapply Permutation_in; [exact P|exact Hp].
Qed.
