(** C66: the R functions for hypervolume, contributions, nondominated points, ranks,
    epsilon, IGD and Hausdorff distance.
    Specification: Spec.v, HvSpec.v, IndSpec.v, IgdSpec.v, RMatSpec.v.  Model: RIndModel.v. *)
From Coq Require Import List ZArith QArith Reals Lia Bool Arith.
From Verif Require Import Base Spec NondomModel NondomMain NondomProofs2d PropNondom ParetoRankModel ParetoRankProofs
  HvSpec Hv2dModel Hv2dProofs HvModel HvMain HvFacts HvShiftModel HvShiftProofs PropHv2
  IndSpec EpsModel PropEps IgdSpec IgdModel PropIgd CmdModel RMatModel RMatSpec RMatProofs RIndModel.
Import ListNotations.
Open Scope Z_scope.

Section C66.
Variable sort2d : list point -> list nat.
Variable sortd : (nat -> Z) -> list nat -> list nat.
Variable dbl_max : Z.
Variable g : hvst.
Variable garbage : nat.
Variable debug : bool.
Variable tol : Z.
Local Notation r_hypervolume := (r_hypervolume sort2d sortd dbl_max g).
Local Notation r_hv_contributions := (r_hv_contributions sort2d sortd dbl_max g tol).
Local Notation r_is_nondominated := (r_is_nondominated sort2d).
Local Notation r_filter_dominated := (r_filter_dominated sort2d).
Local Notation r_pareto_rank := (r_pareto_rank sort2d garbage debug).

(** the sorting functions of C *)
Definition sorting (d : nat) : Prop := valid_sort2d sort2d /\ valid_sort sortd /\ ((d <= 3)%nat \/ stable_sort sortd).
(** a matrix with at least one row and two columns *)
Definition data_matrix (x : rmat Z) (d : nat) (rows : list point) : Prop := has_rows x d rows /\ rows <> [] /\ (2 <= d)%nat.

Lemma data_wf : forall x d rows, data_matrix x d rows -> wf_points d rows.
Proof. intros x d rows ((_ & _ & _ & W & _) & _). exact W. Qed.
Lemma flip_negate : forall mx p, flip 0 Z.opp mx p = negate_cols mx p.
Proof. reflexivity. Qed.

Lemma full_reference_ok : forall d reference ref, for_each d reference ref -> full_reference reference d = ref.
Proof.
  intros d reference ref F. unfold full_reference. destruct (Nat.eqb_spec (length reference) 1).
  - now apply rep_len_for_each.
  - destruct F as [[-> _]|(a & -> & _)]; auto. now contradiction n.
Qed.
Lemma transform_both_ok : forall x d rows ref maximise mx, data_matrix x d rows -> length ref = d -> for_each d maximise mx ->
  exists x', transform_both x ref maximise = Ret (x', negate_cols mx ref) /\ has_rows x' d (map (negate_cols mx) rows).
Proof.
  intros x d rows ref maximise mx (H & Ne & Hd) Lr F. pose proof (for_each_length _ _ _ F) as Lm.
  destruct (transform_ok 0 Z.opp x d rows maximise mx ltac:(lia) H F) as (x' & E & H'). unfold transform_both.
  destruct (any maximise) eqn:Ea.
  - rewrite E. cbn [bind]. exists x'. split; auto. rewrite (for_each_all d maximise mx) by (auto; lia). destruct (all mx) eqn:El.
    + cbn [bind]. do 2 f_equal. rewrite <- flip_negate. symmetry. apply flip_all; auto. congruence.
    + assert (Q : maximise = mx).
      { destruct F as [[-> _]|(b & -> & ->)]; auto. rewrite all_repeat in El by lia. subst b. discriminate. }
      subst maximise. unfold negate_flagged. rewrite Lr, Lm, Nat.sub_diag. cbn [seq forallb bind]. do 2 f_equal. unfold negate_cols. rewrite Lr.
      apply map_ext_in. intros k Hk. apply in_seq in Hk. now rewrite Nat.mod_small by lia.
  - exists x. rewrite (for_each_any d maximise mx) in Ea by (auto; lia). rewrite <- flip_negate, flip_none by auto. split; auto.
    rewrite (map_ext _ (fun p => p)), map_id; auto. intros p. rewrite <- flip_negate. now apply flip_none.
Qed.
Lemma negated_bounded : forall d mx (pts : list point), (forall p i, In p pts -> (i < d)%nat -> - dbl_max <= coord p i <= dbl_max) ->
  forall p i, In p (map (negate_cols mx) pts) -> (i < d)%nat -> - dbl_max <= coord p i.
Proof.
  intros d mx pts B p i Hp Hi. apply in_map_iff in Hp. destruct Hp as (q & <- & Hq). rewrite coord_negate_cols.
  specialize (B q i Hq Hi). destruct (nth i mx false); lia.
Qed.

(** hypervolume (x, reference, maximise): the hypervolume of the rows.  One value for
    reference or maximise stands for all the objectives. *)
Theorem C66_hypervolume : forall x d rows reference ref maximise mx, sorting d -> data_matrix x d rows ->
  for_each d reference ref -> for_each d maximise mx ->
  (forall p i, In p rows -> (i < d)%nat -> - dbl_max <= coord p i <= dbl_max) ->
  exists v, r_hypervolume x reference maximise = Ret v /\ hypervolume_mx mx rows ref v.
Proof.
  intros x d rows reference ref maximise mx (S1 & S2 & S3) D Fr Fm B. pose proof (data_wf _ _ _ D) as W. pose proof D as (H & Ne & Hd).
  pose proof (for_each_length _ _ _ Fr) as Lr. destruct (transform_both_ok x d rows ref maximise mx D Lr Fm) as (x' & E & H').
  unfold RIndModel.r_hypervolume. rewrite (as_matrix_ok x d rows) by auto. cbn [bind]. rewrite (proj1 (proj2 H)), (full_reference_ok d _ ref) by auto. rewrite E. cbn [bind fst snd].
  unfold hypervolume_C. rewrite (proj1 (t_rows 0 x' d _ H')), negate_cols_length, Lr, Nat.eqb_refl. cbn [assert_ bind]. rewrite (c_rows_t x' d _ ltac:(lia) H'). cbn [bind].
  destruct (fpli_hv_ok_gen sort2d sortd dbl_max g (map (negate_cols mx) rows) d (negate_cols mx ref)) as (v & Ev & Hv); auto.
  - destruct S3; auto.
  - apply Forall_forall. intros p Hp. apply in_map_iff in Hp. destruct Hp as (q & <- & Hq). rewrite negate_cols_length. unfold wf_points in W. rewrite Forall_forall in W. auto.
  - now rewrite negate_cols_length.
  - apply negated_bounded. exact B.
  - exists v. split; auto. now apply hypervolume_negate.
Qed.

(** hv_contributions: what the hypervolume loses without one of the rows *)
Theorem C66_contributions : forall x d rows reference ref maximise mx, sorting d -> data_matrix x d rows ->
  for_each d reference ref -> for_each d maximise mx ->
  (forall p i, In p (ref :: rows) -> (i < d)%nat -> - dbl_max <= coord p i <= dbl_max) ->
  exists hvc total, r_hv_contributions x reference maximise = Ret hvc /\ length hvc = length rows /\ hypervolume_mx mx rows ref total /\
    forall i, (i < length rows)%nat -> exists rest, hypervolume_mx mx (firstn i rows ++ skipn (S i) rows) ref rest /\ 0 <= total - rest /\
      nth i hvc 0 = (if tol <=? total - rest then total - rest else 0).
Proof.
  intros x d rows reference ref maximise mx (S1 & S2 & S3) D Fr Fm B. pose proof (data_wf _ _ _ D) as W. pose proof D as (H & Ne & Hd).
  pose proof (for_each_length _ _ _ Fr) as Lr. destruct (transform_both_ok x d rows ref maximise mx D Lr Fm) as (x' & E & H').
  unfold RIndModel.r_hv_contributions. rewrite (as_matrix_ok x d rows) by auto. cbn [bind]. rewrite (proj1 (proj2 H)), (full_reference_ok d _ ref) by auto. rewrite E. cbn [bind fst snd].
  unfold hv_contributions_C. rewrite (proj1 (t_rows 0 x' d _ H')), negate_cols_length, Lr, Nat.eqb_refl. cbn [assert_ bind]. rewrite (c_rows_t x' d _ ltac:(lia) H'). cbn [bind].
  destruct (C14_hv_contributions sort2d sortd dbl_max g tol (map (negate_cols mx) rows) d (negate_cols mx ref)) as (hvc & total & Ec & Lc & Ht & Hi).
  - do 3 (split; [assumption|]). split; [|split; [now rewrite negate_cols_length|split; auto]].
    + apply Forall_forall. intros p Hp. apply in_map_iff in Hp. destruct Hp as (q & <- & Hq). rewrite negate_cols_length. unfold wf_points in W. rewrite Forall_forall in W. auto.
    + apply negated_bounded. intros p i Hp. apply B. now right.
  - intros i Hi. apply (negated_bounded d mx [ref]); auto. { intros p j [<-|[]]. apply B. now left. } now left.
  - exists hvc, total. rewrite Ec. cbn [bind fst]. rewrite map_length in *. split; auto. split; auto. split; [now apply hypervolume_negate|].
    intros i Hl. destruct (Hi i Hl) as (rest & Hr & Hp & He). exists rest. split; auto. apply hypervolume_negate. rewrite map_app, <- firstn_map, <- skipn_map. exact Hr.
Qed.

(** is_nondominated *)
Lemma is_nondominated_rows : forall x d rows maximise mx keep, data_matrix x d rows -> for_each d maximise mx ->
  r_is_nondominated x maximise keep = is_nondominated sort2d rows mx keep /\ length mx = d.
Proof.
  intros x d rows maximise mx keep D F. pose proof D as (H & Ne & Hd). pose proof (for_each_length _ _ _ F) as Lm. split; auto.
  unfold RIndModel.r_is_nondominated. rewrite (as_matrix_ok x d rows) by auto. cbn [bind]. rewrite (proj1 (proj2 H)), (rep_len_for_each true _ mx) by auto.
  unfold is_nondominated_C. rewrite (proj1 (t_rows 0 x d rows H)), Lm, Nat.eqb_refl. cbn [assert_ bind]. rewrite (c_rows_t x d rows ltac:(lia) H). reflexivity.
Qed.
Theorem C66_is_nondominated_weakly : forall x d rows maximise mx, valid_sort2d sort2d -> data_matrix x d rows -> for_each d maximise mx ->
  exists flags, r_is_nondominated x maximise true = Ret flags /\ length flags = length rows /\
    forall i, (i < length rows)%nat -> (nth i flags false = true <-> ~ exists q, In q rows /\ dom mx q (nth i rows [])).
Proof.
  intros x d rows maximise mx S D F. destruct (is_nondominated_rows x d rows maximise mx true D F) as [-> Lm].
  destruct (C01_is_nondominated_keep_weakly_exact sort2d mx rows S) as (fl & E & L & K). { rewrite Lm. now apply (data_wf x). }
  exists fl. split; auto. split; auto. intros i Hi. rewrite (K i Hi). unfold row. split; intros N (q & Hq & Dq); apply N.
  - destruct (In_nth rows q [] Hq) as (j & Hj & <-). exists j. auto.
  - exists (nth q rows []). split; auto. now apply nth_In.
Qed.
(** keep_weakly = FALSE: of equal rows only one is marked *)
Definition one_of_each (mx : list bool) (rows : list point) (flags : list bool) : Prop :=
  length flags = length rows /\
  (forall i, (i < length rows)%nat -> nth i flags false = true -> ~ exists q, In q rows /\ dom mx q (nth i rows [])) /\
  (forall i j, (i < length rows)%nat -> (j < length rows)%nat -> nth i flags false = true -> nth j flags false = true -> i <> j -> nth i rows [] <> nth j rows []) /\
  (forall i, (i < length rows)%nat -> exists j, (j < length rows)%nat /\ nth j flags false = true /\ wdom mx (nth j rows []) (nth i rows [])).
Theorem C66_is_nondominated : forall x d rows maximise mx, valid_sort2d sort2d -> data_matrix x d rows -> for_each d maximise mx ->
  exists flags, r_is_nondominated x maximise false = Ret flags /\ one_of_each mx rows flags.
Proof.
  intros x d rows maximise mx S D F. destruct (is_nondominated_rows x d rows maximise mx false D F) as [-> Lm].
  destruct (C02_is_nondominated_strict_filter sort2d mx rows S) as (fl & E & L & K1 & K2 & K3). { rewrite Lm. now apply (data_wf x). }
  exists fl. split; auto. split; auto. split; [|split; auto].
  intros i Hi T (q & Hq & Dq). apply (K1 i Hi T). destruct (In_nth rows q [] Hq) as (j & Hj & <-). exists j. auto.
Qed.

(** filter_dominated: the marked rows, in their order *)
Theorem C66_filter_dominated : forall x d rows maximise mx keep, valid_sort2d sort2d -> data_matrix x d rows -> for_each d maximise mx ->
  exists flags y, r_is_nondominated x maximise keep = Ret flags /\ r_filter_dominated x maximise keep = Ret y /\
    has_rows y d (map (fun i => nth i rows []) (filter (fun i => nth i flags false) (seq 0 (length rows)))).
Proof.
  intros x d rows maximise mx keep S D F.
  assert (E : exists flags, r_is_nondominated x maximise keep = Ret flags /\ length flags = length rows).
  { destruct keep.
    - destruct (C66_is_nondominated_weakly x d rows maximise mx S D F) as (fl & E & L & _). eauto.
    - destruct (C66_is_nondominated x d rows maximise mx S D F) as (fl & E & L & _). eauto. }
  destruct E as (fl & E & L). exists fl, (r_rows 0 x (which fl)). split; auto. unfold RIndModel.r_filter_dominated. rewrite E. cbn [bind]. split; auto.
  unfold which. rewrite L. apply rows_rows. apply D. intros i Hi. apply filter_In in Hi. destruct Hi as [Hi _]. apply in_seq in Hi. destruct Hi as [_ Hi]. exact Hi.
Qed.

(** pareto_rank *)
Theorem C66_pareto_rank : forall x d rows maximise mx, valid_sort2d sort2d -> data_matrix x d rows -> for_each d maximise mx ->
  exists rank, r_pareto_rank x maximise = Ret rank /\ length rank = length rows /\
    forall i, (i < length rows)%nat -> is_rank mx rows i (nth i rank 0%nat).
Proof.
  intros x d rows maximise mx S D F. pose proof D as (H & Ne & Hd). pose proof (for_each_length _ _ _ F) as Lm.
  unfold RIndModel.r_pareto_rank. rewrite (as_matrix_ok x d rows) by auto. cbn [bind].
  destruct (transform_ok 0 Z.opp x d rows maximise mx ltac:(lia) H F) as (x' & E & H'). rewrite E. cbn [bind].
  unfold pareto_ranking_C. rewrite (c_rows_t x' d _ ltac:(lia) H'). cbn [bind]. rewrite (proj1 (t_rows 0 x' d _ H')).
  destruct (C13_pareto_rank_maximise sort2d garbage debug rows mx S) as (rank & Er & K). { left. destruct rows; [now contradiction Ne|]. cbn. lia. }
  exists rank. split; auto. rewrite <- Er. unfold pareto_rank_py. rewrite Lm. change (flip 0 Z.opp mx) with (negate_cols mx).
  destruct (existsb (fun b => b) mx) eqn:Ex; auto. rewrite (map_ext _ (fun p => p)), map_id; auto. intros p. now apply negate_cols_none.
Qed.

(** the indicators that compare with a reference set *)
Lemma unary_ok : forall {B} x d rows reference ref maximise mx (metric : list point -> list point -> list bool -> outcome B),
  data_matrix x d rows -> data_matrix reference d ref -> for_each d maximise mx ->
  unary_common x reference maximise metric = metric rows ref mx.
Proof.
  intros B x d rows reference ref maximise mx metric D Dr F. pose proof D as (H & Ne & Hd). pose proof Dr as (Hr & Nr & _). pose proof (for_each_length _ _ _ F) as Lm.
  unfold unary_common. rewrite (as_matrix_ok x d rows) by auto. cbn [bind]. rewrite (as_matrix_ok reference d ref) by auto. cbn [bind].
  rewrite (proj1 (proj2 H)), (proj1 (proj2 Hr)), Nat.eqb_refl. cbn [assert_ bind]. rewrite (rep_len_for_each true _ mx) by auto.
  unfold unary_metric_ref. rewrite (proj1 (t_rows 0 x d rows H)), Lm, Nat.eqb_refl. cbn [assert_ bind]. rewrite (c_rows_t x d rows ltac:(lia) H). cbn [bind].
  pose proof (c_rows_t reference d ref ltac:(lia) Hr) as C. unfold c_rows in C. rewrite (proj1 (t_rows 0 reference d ref Hr)) in C. now rewrite C.
Qed.
Theorem C66_epsilon_additive : forall x d rows reference ref maximise mx, data_matrix x d rows -> data_matrix reference d ref -> for_each d maximise mx ->
  exists v, r_epsilon_additive x reference maximise = Ret (Fin v) /\ covers_add mx rows ref (inject_Z v) /\
    forall e : Q, covers_add mx rows ref e -> (inject_Z v <= e)%Q.
Proof.
  intros x d rows reference ref maximise mx D Dr F. unfold r_epsilon_additive. rewrite (unary_ok x d rows reference ref maximise mx) by auto.
  pose proof (for_each_length _ _ _ F) as Lm. destruct (C15_additive_epsilon_is_least_shift mx rows ref) as (v & E & K).
  - destruct D as (_ & _ & Hd). destruct mx; [cbn in Lm; lia|discriminate].
  - apply D.
  - apply Dr.
  - exists v. rewrite E. auto.
Qed.
Theorem C66_epsilon_mult : forall x d rows reference ref maximise mx, data_matrix x d rows -> data_matrix reference d ref -> for_each d maximise mx ->
  (forall a, In a rows \/ In a ref -> pos_point d a) ->
  exists v, r_epsilon_mult x reference maximise = Ret (Fin v) /\ covers_mult mx rows ref v /\
    forall e : Q, covers_mult mx rows ref e -> (v <= e)%Q.
Proof.
  intros x d rows reference ref maximise mx D Dr F P. unfold r_epsilon_mult. rewrite (unary_ok x d rows reference ref maximise mx) by auto.
  pose proof (for_each_length _ _ _ F) as Lm. apply C16_multiplicative_epsilon_is_least_factor.
  - destruct D as (_ & _ & Hd). destruct mx; [cbn in Lm; lia|discriminate].
  - apply D.
  - apply Dr.
  - intros. rewrite Lm. auto.
  - intros. rewrite Lm. auto.
Qed.
(** a value that is not positive is an error *)
Theorem C66_epsilon_mult_refused : forall x d rows reference ref maximise mx a i, data_matrix x d rows -> data_matrix reference d ref -> for_each d maximise mx ->
  In a rows \/ In a ref -> (i < d)%nat -> coord a i <= 0 -> r_epsilon_mult x reference maximise = AssertFailed.
Proof.
  intros x d rows reference ref maximise mx a i D Dr F Ha Hi N. unfold r_epsilon_mult. rewrite (unary_ok x d rows reference ref maximise mx) by auto.
  pose proof (for_each_length _ _ _ F) as Lm. apply (C16_nonpositive_data_is_an_error mx rows ref a i); auto. apply D. apply Dr. now rewrite Lm.
Qed.

(** what is refused with an error *)
Theorem C66_too_small : forall x reference maximise keep (ref : rmat Z), (nrow x < 1)%nat \/ (ncol x < 2)%nat ->
  r_hypervolume x reference maximise = AssertFailed /\ r_hv_contributions x reference maximise = AssertFailed /\
  r_is_nondominated x maximise keep = AssertFailed /\ r_filter_dominated x maximise keep = AssertFailed /\ r_pareto_rank x maximise = AssertFailed /\
  r_epsilon_additive x ref maximise = AssertFailed /\ r_epsilon_mult x ref maximise = AssertFailed.
Proof.
  intros x reference maximise keep ref H. assert (E : as_double_matrix x = AssertFailed).
  { unfold as_double_matrix. destruct H as [H|H].
    - now rewrite (proj2 (Nat.leb_gt 1 (nrow x)) H).
    - destruct (1 <=? nrow x)%nat; cbn [assert_ bind]; auto. now rewrite (proj2 (Nat.leb_gt 2 (ncol x)) H). }
  unfold RIndModel.r_hypervolume, RIndModel.r_hv_contributions, RIndModel.r_filter_dominated, RIndModel.r_is_nondominated, RIndModel.r_pareto_rank, r_epsilon_additive, r_epsilon_mult, unary_common.
  rewrite E. repeat split.
Qed.
Theorem C66_reference_length : forall x d rows reference maximise mx, data_matrix x d rows -> for_each d maximise mx ->
  length reference <> d -> length reference <> 1%nat -> all mx = true \/ any mx = false \/ (d < length reference)%nat ->
  r_hypervolume x reference maximise = AssertFailed /\ r_hv_contributions x reference maximise = AssertFailed.
Proof.
  intros x d rows reference maximise mx D F Nd N1 Q. pose proof D as (H & Ne & Hd). pose proof (for_each_length _ _ _ F) as Lm.
  unfold RIndModel.r_hypervolume, RIndModel.r_hv_contributions. rewrite (as_matrix_ok x d rows) by auto. cbn [bind].
  unfold full_reference. rewrite (proj2 (Nat.eqb_neq (length reference) 1)) by auto.
  assert (T : exists x' r', transform_both x reference maximise = Ret (x', r') /\ nrow (r_t 0 x') = d /\ length r' = length reference).
  { unfold transform_both. rewrite (for_each_any d maximise mx), (for_each_all d maximise mx) by (auto; lia). destruct (any mx) eqn:Ea.
    - destruct (transform_ok 0 Z.opp x d rows maximise mx ltac:(lia) H F) as (x' & E & H'). rewrite E. cbn [bind].
      destruct (all mx) eqn:El.
      + exists x', (map Z.opp reference). split; auto. split; [apply (t_rows 0 x' d _ H')|apply map_length].
      + destruct Q as [Q|[Q|Q]]; try discriminate. unfold negate_flagged.
        assert (Z0 : (length maximise - length reference = 0)%nat) by (destruct F as [[-> Lf]|(b & -> & _)]; cbn [length]; lia).
        rewrite Z0. cbn [seq forallb bind]. eexists _, _. split; [reflexivity|]. split; [apply (t_rows 0 x' d _ H')|now rewrite map_length, seq_length].
    - exists x, reference. split; auto. split; auto. apply (t_rows 0 x d _ H). }
  destruct T as (x' & r' & -> & Nr & Lr). cbn [bind fst snd]. unfold hypervolume_C, hv_contributions_C. rewrite Nr, Lr, (proj2 (Nat.eqb_neq d (length reference))) by auto. split; reflexivity.
Qed.
Theorem C66_columns_differ : forall {B} x d rows reference e ref maximise (metric : list point -> list point -> list bool -> outcome B),
  data_matrix x d rows -> data_matrix reference e ref -> d <> e ->
  unary_common x reference maximise metric = AssertFailed.
Proof.
  intros B x d rows reference e ref maximise metric (H & Ne & Hd) (Hr & Nr & He) N. unfold unary_common.
  rewrite (as_matrix_ok x d rows) by auto. cbn [bind]. rewrite (as_matrix_ok reference e ref) by auto. cbn [bind].
  rewrite (proj1 (proj2 H)), (proj1 (proj2 Hr)), (proj2 (Nat.eqb_neq e d)) by auto. reflexivity.
Qed.
(** directions given for a number of objectives that is not that of the data are refused
    only by some functions, and only if they differ *)
Theorem C66_maximise_length : forall x d rows reference maximise, data_matrix x d rows -> any maximise = true -> all maximise = false -> length maximise <> d ->
  r_hypervolume x reference maximise = AssertFailed /\ r_hv_contributions x reference maximise = AssertFailed /\ r_pareto_rank x maximise = AssertFailed.
Proof.
  intros x d rows reference maximise (H & Ne & Hd) Ha Hl N.
  unfold RIndModel.r_hypervolume, RIndModel.r_hv_contributions, RIndModel.r_pareto_rank. rewrite (as_matrix_ok x d rows) by auto. cbn [bind].
  unfold transform_both, transform_maximise. rewrite Ha, Hl, (proj1 (proj2 H)), (proj2 (Nat.eqb_neq (length maximise) d)) by auto. repeat split.
Qed.
End C66.
Arguments data_matrix x d rows : clear implicits.

(** examples: 4 points, two objectives, the second one maximised *)
Definition m66 : rmat Z := mkMat 4 2 [5;4;2;7; 5;6;7;4].
Definition m66_rows : list point := [[5;5];[4;6];[2;7];[7;4]].
Lemma m66_matrix : data_matrix m66 2 m66_rows.
Proof.
  split; [|split; [discriminate|lia]]. do 3 (split; [reflexivity|]). split; [repeat constructor|].
  intros na i j Hi Hj. cbn in Hi. do 4 (destruct i as [|i]; [do 2 (destruct j as [|j]; [reflexivity|]); lia|]). lia.
Qed.
Example C66_nonvacuous :
  data_matrix m66 2 m66_rows /\ for_each 2 [true] [true;true] /\ for_each 2 [0] [0;0] /\
  r_hypervolume sort2d_exec sortd_exec 1000 st0 m66 [0] [true] = Ret 39 /\
  r_hypervolume sort2d_exec sortd_exec 1000 st0 m66 [10;0] [false;true] = Ret 56 /\
  r_hv_contributions sort2d_exec sortd_exec 1000 st0 1 m66 [0] [true] = Ret [1;2;2;8] /\
  r_is_nondominated sort2d_exec m66 [false;true] false = Ret [false;false;true;false] /\
  r_filter_dominated sort2d_exec m66 [true] false = Ret m66 /\
  r_filter_dominated sort2d_exec m66 [false;true] false = Ret (mkMat 1 2 [2;7]) /\
  r_pareto_rank sort2d_exec 7 true m66 [false;true] = Ret [3;2;1;4]%nat /\
  r_epsilon_additive m66 (mkMat 1 2 [1;9]) [false;true] = Ret (Fin 2) /\
  r_epsilon_additive m66 (mkMat 1 3 [1;9;9]) [false;true] = AssertFailed /\
  r_hypervolume sort2d_exec sortd_exec 1000 st0 m66 [0;0;0] [true] = AssertFailed /\
  r_hypervolume sort2d_exec sortd_exec 1000 st0 (mkMat 2 1 [5;4]) [0] [true] = AssertFailed.
Proof. split; [apply m66_matrix|]. split; [right; now exists true|]. split; [right; now exists 0|]. repeat split; vm_compute; reflexivity. Qed.

(** Refuted: "a reference point with too few values is refused."  If the missing objective
    is maximised and another is minimised, R appends NA to the reference point instead
    ([reference[maximise] <- -reference[maximise]]) and the function returns a number that
    means nothing. *)
Theorem C66_short_reference_refuted : exists x d rows reference mx, data_matrix x d rows /\ length mx = d /\ (length reference < d)%nat /\ length reference <> 1%nat /\
  r_hypervolume sort2d_exec sortd_exec 1000 st0 x reference mx <> AssertFailed.
Proof.
  exists (mkMat 1 3 [1;2;3]), 3%nat, [[1;2;3]], [5;5], [false;false;true]. split; [|repeat split; try (cbn; lia); vm_compute; discriminate].
  split; [|split; [discriminate|lia]]. do 3 (split; [reflexivity|]). split; [repeat constructor|].
  intros na i j Hi Hj. cbn in Hi. destruct i as [|i]; [|lia]. do 3 (destruct j as [|j]; [reflexivity|]). lia.
Qed.
Print Assumptions C66_hypervolume.
Print Assumptions C66_contributions.
Print Assumptions C66_is_nondominated_weakly.
Print Assumptions C66_is_nondominated.
Print Assumptions C66_filter_dominated.
Print Assumptions C66_pareto_rank.
Print Assumptions C66_epsilon_additive.
Print Assumptions C66_epsilon_mult.
Print Assumptions C66_epsilon_mult_refused.
Print Assumptions C66_too_small.
Print Assumptions C66_reference_length.
Print Assumptions C66_columns_differ.
Print Assumptions C66_maximise_length.
Print Assumptions C66_short_reference_refuted.
