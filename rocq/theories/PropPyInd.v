(** C72: the Python functions for one data set compute the quantities of the C functions, and
    what they do to the arrays of the caller.
    Specification: Spec.v, HvSpec.v, IndSpec.v, IgdSpec.v, WhvSpec.v, PyIndSpec.v.  Model: PyIndModel.v. *)
From Coq Require Import List ZArith QArith Qround Reals Lia Bool Arith Permutation.
From Verif Require Import Base Spec NondomModel NondomMain NondomProofs2d PropNondom ParetoRankModel ParetoRankProofs
  GroupModel GroupProofs PropGroup HvSpec Hv2dModel Hv2dProofs HvModel HvMain HvFacts HvShiftModel HvShiftProofs PropHv2
  IndSpec EpsModel PropEps IgdSpec IgdModel PropIgd EafProofs RectSpec WhvModel WhvSpec PropWhv RMatModel RMatSpec RMatProofs RWhvModel RWhvSpec PropRWhv PyIndModel PyIndSpec.
Import ListNotations.
Open Scope Z_scope.

(** ** numpy *)
Lemma rd_some : forall A (l : list A) i x, nth_error l i = Some x -> rd l i = Ret x.
Proof. intros A l i x H. unfold rd. now rewrite H. Qed.
Lemma nth_error_length : forall A (l : list A) x, nth_error (l ++ [x]) (length l) = Some x.
Proof. intros. rewrite nth_error_app2, Nat.sub_diag; auto. Qed.
Lemma nth_error_upd_same : forall A (l : list A) i x y, nth_error l i = Some y -> nth_error (upd l i x) i = Some x.
Proof. induction l; destruct i; simpl; intros; try discriminate; eauto. Qed.
Lemma kept_refl : forall m, kept m m.
Proof. intros m. exists []. now rewrite app_nil_r. Qed.
Lemma kept_app : forall m l, kept m (m ++ l).
Proof. intros m l. now exists l. Qed.
Lemma kept_trans : forall a b c, kept a b -> kept b c -> kept a c.
Proof. intros a b c (x & ->) (y & ->). exists (x ++ y). now rewrite app_assoc. Qed.
Lemma kept_nth : forall m m' a x, kept m m' -> nth_error m a = Some x -> nth_error m' a = Some x.
Proof. intros m m' a x (n & ->) H. rewrite nth_error_app1; auto. apply nth_error_Some. congruence. Qed.
Lemma contents_kept : forall m m' data d rows, kept m m' -> contents m data d rows -> contents m' data d rows.
Proof. intros m m' data d rows K (W & x & H1 & H2 & H3). split; auto. exists x. repeat split; auto. destruct data; auto; now apply (kept_nth m). Qed.

Lemma asarray_ok : forall m data d rows, contents m data d rows ->
  exists m' a x, np_asarray m data = (m', a) /\ kept m m' /\ nth_error m' a = Some x /\ a_ncol x = d /\ a_rows x = rows /\
    match data with Nested _ | Converted _ => m' = m ++ [x] /\ a = length m /\ a_contiguous x = true | Array b | Shared b => m' = m /\ a = b end.
Proof.
  intros m data d rows (W & x & H1 & H2 & H3). destruct data as [y|y|b|b]; cbn [np_asarray] in *; try subst y.
  - exists (m ++ [mkArray true (a_ncol x) (a_rows x)]), (length m), (mkArray true (a_ncol x) (a_rows x)).
    split; auto. split. apply kept_app. split. apply nth_error_length. auto.
  - exists (m ++ [mkArray true (a_ncol x) (a_rows x)]), (length m), (mkArray true (a_ncol x) (a_rows x)).
    split; auto. split. apply kept_app. split. apply nth_error_length. auto.
  - exists m, b, x. split; auto. split. apply kept_refl. auto.
  - exists m, b, x. split; auto. split. apply kept_refl. auto.
Qed.
Lemma of_length_ok : forall A d (l l' : list A), for_each d l l' -> of_length l d = Ret l'.
Proof.
  intros A d l l' [[-> H]|(a & -> & ->)]; auto. unfold of_length. destruct l as [|a [|b l]].
  - cbn in *. now subst d.
  - cbn in H. now subst d.
  - now rewrite H, Nat.eqb_refl.
Qed.
Lemma of_length_wrong : forall A d (l : list A), length l <> 1%nat -> length l <> d -> of_length l d = AssertFailed.
Proof.
  intros A d l H1 Hd. unfold of_length. destruct l as [|a [|b l]].
  - destruct (Nat.eqb_spec (length (@nil A)) d); tauto.
  - now contradiction H1.
  - destruct (Nat.eqb_spec (length (a :: b :: l)) d); tauto.
Qed.
Lemma of_length_or : forall A d (l : list A), (exists l', of_length l d = Ret l' /\ length l' = d /\ for_each d l l') \/ of_length l d = AssertFailed.
Proof.
  intros A d l. destruct (Nat.eq_dec (length l) 1) as [E|E].
  - destruct l as [|a [|b l]]; try discriminate. left. exists (repeat a d). split; auto. split. apply repeat_length. right. eauto.
  - destruct (Nat.eq_dec (length l) d) as [F|F].
    + left. exists l. split; [|split; auto; now left]. apply of_length_ok. now left.
    + right. now apply of_length_wrong.
Qed.

(** the data given to C: in the object, its negation *)
Lemma negate_ok : forall m data d rows mx, contents m data d rows ->
  exists m' a, (let '(m1, a1, c) := asarray_maybe_copy m data in negate_data m1 a1 c mx) = Ret (m', a) /\
    (exists x, nth_error m' a = Some x /\ a_ncol x = d /\ a_rows x = map (negate_cols mx) rows) /\
    ((~ is_shared data \/ any mx = false) -> kept m m').
Proof.
  intros m data d rows mx H. destruct (asarray_ok m data d rows H) as (m1 & a & x & E & K & N & C & R & D).
  unfold asarray_maybe_copy. rewrite E. unfold negate_data. destruct (any mx) eqn:Ea.
  2:{ exists m1, a. split; auto. split; auto. exists x. split; auto. split; auto. rewrite R. symmetry. rewrite (map_ext _ (fun p => p)). apply map_id. intros p. now apply negate_cols_none. }
  destruct data as [y|y|b|b]; cbn [bind fst snd].
  - unfold np_negate. rewrite (rd_some _ _ _ _ N). cbn [bind]. rewrite wr_ok by (apply nth_error_Some; congruence). cbn [bind].
    eexists _, a. split; [reflexivity|]. split.
    + eexists. split; [eapply nth_error_upd_same; eassumption|]. cbn [a_ncol a_rows]. now rewrite C, R.
    + intros _. destruct D as (-> & -> & _). rewrite upd_app_middle. apply kept_app.
  - unfold np_negate. rewrite (rd_some _ _ _ _ N). cbn [bind]. rewrite wr_ok by (apply nth_error_Some; congruence). cbn [bind].
    eexists _, a. split; [reflexivity|]. split.
    + eexists. split; [eapply nth_error_upd_same; eassumption|]. cbn [a_ncol a_rows]. now rewrite C, R.
    + intros _. destruct D as (-> & -> & _). rewrite upd_app_middle. apply kept_app.
  - unfold np_copy. rewrite (rd_some _ _ _ _ N). cbn [bind fst snd]. unfold np_negate. rewrite (rd_some _ _ _ _ (nth_error_length _ _ _)). cbn [bind].
    rewrite wr_ok by (rewrite app_length; cbn; lia). cbn [bind]. eexists _, _. split; [reflexivity|]. rewrite upd_app_middle. split.
    + eexists. split; [apply nth_error_length|]. cbn [a_ncol a_rows]. now rewrite C, R.
    + intros _. destruct D as [-> _]. apply kept_app.
  - unfold np_negate. rewrite (rd_some _ _ _ _ N). cbn [bind]. rewrite wr_ok by (apply nth_error_Some; congruence). cbn [bind].
    eexists _, a. split; [reflexivity|]. split.
    + eexists. split; [eapply nth_error_upd_same; eassumption|]. cbn [a_ncol a_rows]. now rewrite C, R.
    + intros [F|F]; [now contradiction F|discriminate].
Qed.
Lemma asarray_rd : forall m data d rows, contents m data d rows ->
  exists m' a c x, asarray_maybe_copy m data = (m', a, c) /\ rd m' a = Ret x /\ a_ncol x = d /\ a_rows x = rows.
Proof.
  intros m data d rows H. destruct (asarray_ok m data d rows H) as (m1 & a & x & E & K & N & C & R & D).
  unfold asarray_maybe_copy. rewrite E. eexists m1, a, _, x. split; auto. split; auto. now apply rd_some.
Qed.

Section C72.
Variable sort2d : list point -> list nat.
Variable sortd : (nat -> Z) -> list nat -> list nat.
Variable dbl_max : Z.
Variable g : hvst.
Variable garbage : nat.
Variable debug : bool.
Variable argsort : list nat -> list nat.
Variable sortp : list point -> list point.
Variable sortr : list crect -> list crect.
Variable junk : nat -> crect.
Local Notation py_hypervolume := (py_hypervolume sort2d sortd dbl_max g).
Local Notation hv_call := (hv_call sort2d sortd dbl_max g).
Local Notation py_pareto_rank := (py_pareto_rank sort2d garbage debug).
Local Notation py_is_nondominated := (py_is_nondominated sort2d).
Local Notation py_filter_dominated := (py_filter_dominated sort2d).
Local Notation py_filter_dominated_within_sets := (py_filter_dominated_within_sets sort2d argsort).
Local Notation py_whv_rect_mem := (py_whv_rect_mem sortp sortr junk).

(** ** hypervolume *)
Lemma hypervolume_step : forall m data d rows reference ref maximise mx, contents m data d rows -> for_each d reference ref -> for_each d maximise mx ->
  exists m', ((~ is_shared data \/ ~ In true mx) -> kept m m') /\
    py_hypervolume m data reference maximise =
    bind (fpli_hv sort2d sortd dbl_max g (map (negate_cols mx) rows) d (negate_cols mx ref)) (fun v => Ret (v, m')).
Proof.
  intros m data d rows reference ref maximise mx H Fr Fm. destruct (negate_ok m data d rows mx H) as (m' & b & E & (y & Ny & Cy & Ry) & K).
  destruct (asarray_rd m data d rows H) as (m1 & a & c & x & Ea & Rx & Cx & Rr). rewrite Ea in E. exists m'. split.
  { intros Q. apply K. destruct Q as [Q|Q]; [now left|right]. unfold any. destruct (existsb (fun b => b) mx) eqn:Z; auto.
    apply existsb_exists in Z. destruct Z as ([|] & Z1 & Z2); [tauto|discriminate]. }
  unfold PyIndModel.py_hypervolume. rewrite Ea, Rx. cbn [bind]. rewrite Cx, (of_length_ok _ _ _ _ Fr), (of_length_ok _ _ _ _ Fm). cbn [bind]. rewrite E. cbn [bind fst snd].
  unfold hypervolume_of. rewrite (rd_some _ _ _ _ Ny). cbn [bind]. rewrite Cy, Ry.
  destruct (any mx) eqn:An; auto. rewrite (negate_cols_none mx ref) by exact An. reflexivity.
Qed.
Theorem C72_hypervolume : forall m data d rows reference ref maximise mx, valid_sort2d sort2d -> stable_sort sortd ->
  contents m data d rows -> (2 <= d)%nat -> for_each d reference ref -> for_each d maximise mx ->
  (forall p i, In p rows -> (i < d)%nat -> - dbl_max <= coord p i <= dbl_max) ->
  exists v m', py_hypervolume m data reference maximise = Ret (v, m') /\ hypervolume_mx mx rows ref v /\
    ((~ is_shared data \/ ~ In true mx) -> kept m m').
Proof.
  intros m data d rows reference ref maximise mx S2 Ss H Hd Fr Fm B. pose proof (for_each_length _ _ _ Fr) as Lr. pose proof (for_each_length _ _ _ Fm) as Lm.
  destruct (hypervolume_step m data d rows reference ref maximise mx H Fr Fm) as (m' & K & ->).
  destruct (C13_hypervolume_maximise sort2d sortd dbl_max g d rows ref mx S2 Ss (proj1 H) Lr Lm Hd B) as (v & E & V).
  rewrite hypervolume_py_negate in E by auto. rewrite E. cbn [bind]. exists v, m'. auto.
Qed.
(** an object of class Hypervolume gives what the function gives, errors included *)
Theorem C72_object : forall m data d rows reference maximise, contents m data d rows -> (1 <= d)%nat ->
  bind (hv_init reference maximise) (fun o => hv_call o m data) = py_hypervolume m data reference maximise.
Proof.
  intros m data d rows reference maximise H Hd. destruct (asarray_rd m data d rows H) as (m1 & a & c & x & Ea & Rx & Cx & Rr).
  assert (Any : forall b k, any (repeat b (S k)) = b) by (intros [|] k; cbn; auto; induction k; auto).
  assert (NegRep : forall b r k, negate_cols (repeat b k) (repeat r k) = repeat (if b then - r else r) k).
  { intros b r k. apply nth_ext with (d := 0) (d' := 0). now rewrite negate_cols_length, !repeat_length.
    intros n Hn. rewrite negate_cols_length, repeat_length in Hn. rewrite nth_repeat_lt by auto.
    change (coord (negate_cols (repeat b k) (repeat r k)) n = if b then - r else r). rewrite coord_negate_cols. unfold coord. rewrite !nth_repeat_lt by auto. reflexivity. }
  unfold PyIndModel.py_hypervolume, PyIndModel.hv_call. rewrite Ea, Rx. cbn [bind]. rewrite Cx. unfold hv_init.
  destruct (Nat.eqb_spec (length maximise) 1) as [E1|E1].
  - destruct maximise as [|b [|b' l]]; try discriminate. cbn [nth]. destruct reference as [|r [|r' l]].
    + cbn [length Nat.ltb Nat.leb bind]. rewrite (of_length_wrong _ d (@nil Z)) by (cbn; lia). cbn [bind]. destruct b; cbn; auto. destruct d; [lia|reflexivity].
    + cbn [length Nat.ltb Nat.leb bind of_length]. destruct d as [|d']; [lia|].
      destruct b; cbn [any existsb orb length Nat.eqb assert_ bind o_nobj o_ref o_maximise].
      * change (rd (negate_cols [true] [r]) 0) with (Ret (- r)). cbn [bind rd nth_error fst snd]. rewrite Any, NegRep. reflexivity.
      * cbn [bind rd nth_error fst snd]. rewrite Any. reflexivity.
    + remember (r :: r' :: l) as ref. assert (L : (2 <= length ref)%nat) by (subst ref; cbn; lia).
      rewrite (proj2 (Nat.ltb_lt 1 (length ref))) by lia. cbn [bind]. rewrite repeat_length, Nat.eqb_refl. destruct (length ref) as [|k] eqn:Lr; [lia|]. rewrite Any.
      destruct (Nat.eq_dec (S k) d) as [Q|Q].
      * rewrite (of_length_ok _ d ref ref) by (left; split; congruence). cbn [bind of_length]. rewrite <- Q. rewrite Any.
        destruct b; cbn [assert_ bind o_nobj o_ref o_maximise]; rewrite (proj2 (Nat.eqb_neq (S k) 1)) by lia; rewrite Nat.eqb_refl; reflexivity.
      * rewrite (of_length_wrong _ d ref) by lia. cbn [bind].
        destruct b; cbn [assert_ bind o_nobj o_ref o_maximise]; rewrite (proj2 (Nat.eqb_neq (S k) 1)) by lia; rewrite (proj2 (Nat.eqb_neq (S k) d)) by lia; reflexivity.
  - destruct (Nat.eqb_spec (length reference) 1) as [E2|E2].
    + destruct reference as [|r [|r' l]]; try discriminate. cbn [nth bind of_length]. rewrite repeat_length, Nat.eqb_refl.
      destruct (Nat.eq_dec (length maximise) d) as [Q|Q].
      * rewrite (of_length_ok _ d maximise maximise) by (left; split; congruence). cbn [bind]. 
        destruct (any maximise) eqn:An; cbn [assert_ bind o_nobj o_ref o_maximise]; rewrite (proj2 (Nat.eqb_neq _ 1) E1), Q, Nat.eqb_refl; cbn [negb bind fst snd]; reflexivity.
      * rewrite (of_length_wrong _ d maximise) by lia. cbn [bind].
        destruct (any maximise) eqn:An; cbn [assert_ bind o_nobj o_ref o_maximise]; rewrite (proj2 (Nat.eqb_neq _ 1) E1), (proj2 (Nat.eqb_neq _ d) Q); reflexivity.
    + destruct (Nat.eqb_spec (length maximise) (length reference)) as [E3|E3]; cbn [negb bind].
      * rewrite <- E3, Nat.eqb_refl. destruct (Nat.eq_dec (length maximise) d) as [Q|Q].
        -- rewrite (of_length_ok _ d maximise maximise), (of_length_ok _ d reference reference) by (left; split; congruence). cbn [bind]. 
           destruct (any maximise) eqn:An; cbn [assert_ bind o_nobj o_ref o_maximise]; rewrite (proj2 (Nat.eqb_neq _ 1) E1), Q, Nat.eqb_refl; cbn [negb bind fst snd]; reflexivity.
        -- rewrite (of_length_wrong _ d reference) by lia. cbn [bind].
           destruct (any maximise) eqn:An; cbn [assert_ bind o_nobj o_ref o_maximise]; rewrite (proj2 (Nat.eqb_neq _ 1) E1), (proj2 (Nat.eqb_neq _ d) Q); reflexivity.
      * destruct (of_length_or _ d reference) as [(l' & -> & Ll & F)| -> ]; cbn [bind]; auto.
        assert (length reference = d) by (destruct F as [[-> ?]|(z & -> & _)]; auto; now contradiction E2).
        rewrite (of_length_wrong _ d maximise) by lia. reflexivity.
Qed.

(** ** ranks and nondominated points *)
Theorem C72_pareto_rank : forall m data d rows maximise mx, valid_sort2d sort2d ->
  contents m data d rows -> rows <> [] -> for_each d maximise mx ->
  exists ranks m', py_pareto_rank m data maximise = Ret (ranks, m') /\ length ranks = length rows /\
    (forall i, (i < length rows)%nat -> is_rank mx rows i (nth i ranks 0%nat)) /\
    ((~ is_shared data \/ ~ In true mx) -> kept m m').
Proof.
  intros m data d rows maximise mx S2 H Ne Fm. pose proof (for_each_length _ _ _ Fm) as Lm.
  destruct (negate_ok m data d rows mx H) as (m' & b & E & (y & Ny & Cy & Ry) & K).
  destruct (asarray_rd m data d rows H) as (m1 & a & c & x & Ea & Rx & Cx & Rr). rewrite Ea in E.
  destruct (C13_pareto_rank_maximise sort2d garbage debug rows mx S2) as (rk & Er & Lk & Ok). { left. destruct rows; [tauto|cbn; lia]. }
  assert (Er' : pareto_rank sort2d garbage debug (map (negate_cols mx) rows) d = Ret rk).
  { rewrite <- Er. unfold pareto_rank_py. rewrite Lm. destruct (existsb (fun b => b) mx) eqn:An; auto. f_equal. rewrite (map_ext _ (fun p => p)). apply map_id. intros p. now apply negate_cols_none. }
  unfold PyIndModel.py_pareto_rank. rewrite Ea, Rx. cbn [bind]. rewrite Cx, (of_length_ok _ _ _ _ Fm). cbn [bind]. rewrite E. cbn [bind fst snd]. rewrite (rd_some _ _ _ _ Ny). cbn [bind].
  rewrite Cy, Ry, Er'. cbn [bind]. exists rk, m'. split; auto. split; auto. split; auto.
  intros Q. apply K. destruct Q as [Q|Q]; [now left|right]. unfold any. destruct (existsb (fun b => b) mx) eqn:Z; auto.
  apply existsb_exists in Z. destruct Z as ([|] & Z1 & Z2); [tauto|discriminate].
Qed.
Lemma is_nondominated_step : forall m data d rows maximise mx keep, contents m data d rows -> for_each d maximise mx ->
  exists m', kept m m' /\ py_is_nondominated m data maximise keep = bind (is_nondominated sort2d rows mx keep) (fun f => Ret (f, m')).
Proof.
  intros m data d rows maximise mx keep H Fm. destruct (asarray_ok m data d rows H) as (m1 & a & x & E & K & N & C & R & D).
  exists m1. split; auto. unfold PyIndModel.py_is_nondominated. rewrite E, (rd_some _ _ _ _ N). cbn [bind]. rewrite C, (of_length_ok _ _ _ _ Fm), R. reflexivity.
Qed.
Theorem C72_is_nondominated_weakly : forall m data d rows maximise mx, valid_sort2d sort2d ->
  contents m data d rows -> for_each d maximise mx ->
  exists flags m', py_is_nondominated m data maximise true = Ret (flags, m') /\ marks_nondominated mx rows flags /\ kept m m'.
Proof.
  intros m data d rows maximise mx S2 H Fm. pose proof (for_each_length _ _ _ Fm) as Lm.
  destruct (is_nondominated_step m data d rows maximise mx true H Fm) as (m' & K & ->).
  destruct (C01_is_nondominated_keep_weakly_exact sort2d mx rows S2) as (fl & E & L & Q). { rewrite Lm. apply H. }
  rewrite E. cbn [bind]. exists fl, m'. split; auto. split; auto. split; auto.
  intros i Hi. rewrite (Q i Hi). unfold row. split; intros Nx (q & Hq & Dq); apply Nx.
  - destruct (In_nth rows q [] Hq) as (j & Hj & <-). exists j. auto.
  - exists (nth q rows []). split; auto. now apply nth_In.
Qed.
Theorem C72_is_nondominated : forall m data d rows maximise mx, valid_sort2d sort2d ->
  contents m data d rows -> for_each d maximise mx ->
  exists flags m', py_is_nondominated m data maximise false = Ret (flags, m') /\ marks_one_of_each mx rows flags /\ kept m m'.
Proof.
  intros m data d rows maximise mx S2 H Fm. pose proof (for_each_length _ _ _ Fm) as Lm.
  destruct (is_nondominated_step m data d rows maximise mx false H Fm) as (m' & K & ->).
  destruct (C02_is_nondominated_strict_filter sort2d mx rows S2) as (fl & E & L & K1 & K2 & K3). { rewrite Lm. apply H. }
  rewrite E. cbn [bind]. exists fl, m'. split; auto. split; auto. split; auto. split; [|split; auto].
  intros i Hi T (q & Hq & Dq). apply (K1 i Hi T). destruct (In_nth rows q [] Hq) as (j & Hj & <-). exists j. auto.
Qed.
Lemma mask_select_marked : forall rows flags, length flags = length rows -> mask_select rows flags = marked rows flags.
Proof.
  unfold marked. induction rows as [|r rows IH]; intros [|f flags] L; try discriminate; auto. cbn [mask_select length seq filter]. change (nth 0 (f :: flags) false) with f. injection L as L.
  assert (Q : forall l, map (fun i => nth i (r :: rows) []) (filter (fun i => nth i (f :: flags) false) (map S l)) = map (fun i => nth i rows []) (filter (fun i => nth i flags false) l)).
  { induction l as [|k l IHl]; auto. cbn [map filter]. change (nth (S k) (f :: flags) false) with (nth k flags false). destruct (nth k flags false); cbn [map]; now rewrite IHl. }
  rewrite <- seq_shift. destruct f; cbn [map]; rewrite Q, IH by auto; reflexivity.
Qed.
(** filter_dominated: the marked rows, unless data is a list of lists *)
Theorem C72_filter_dominated : forall m data d rows maximise mx keep, valid_sort2d sort2d ->
  contents m data d rows -> for_each d maximise mx -> (forall x, data <> Nested x) ->
  exists flags m', py_is_nondominated m data maximise keep = Ret (flags, m') /\ py_filter_dominated m data maximise keep = Ret (marked rows flags, m').
Proof.
  intros m data d rows maximise mx keep S2 H Fm Nn.
  assert (E : exists flags m', py_is_nondominated m data maximise keep = Ret (flags, m') /\ length flags = length rows /\ kept m m').
  { destruct keep.
    - destruct (C72_is_nondominated_weakly m data d rows maximise mx S2 H Fm) as (fl & m' & E & (L & _) & K). eauto 6.
    - destruct (C72_is_nondominated m data d rows maximise mx S2 H Fm) as (fl & m' & E & (L & _) & K). eauto 6. }
  destruct E as (fl & m' & E & L & K). exists fl, m'. split; auto. unfold PyIndModel.py_filter_dominated. rewrite E. cbn [bind].
  destruct (contents_kept _ _ _ _ _ K H) as (_ & x & C & R & D). rewrite <- R in *. destruct data as [y|y|b|b].
  - now contradiction (Nn y).
  - subst y. now rewrite mask_select_marked.
  - rewrite (rd_some _ _ _ _ D). cbn [bind]. now rewrite mask_select_marked.
  - rewrite (rd_some _ _ _ _ D). cbn [bind]. now rewrite mask_select_marked.
Qed.
Theorem C72_filter_dominated_lists_refuted : forall m x d rows maximise mx keep, valid_sort2d sort2d ->
  contents m (Nested x) d rows -> for_each d maximise mx -> py_filter_dominated m (Nested x) maximise keep = AssertFailed.
Proof.
  intros m x d rows maximise mx keep S2 H Fm. destruct (is_nondominated_step m (Nested x) d rows maximise mx keep H Fm) as (m' & K & E).
  unfold PyIndModel.py_filter_dominated. rewrite E. pose proof (for_each_length _ _ _ Fm) as Lm.
  assert (Q : exists fl, is_nondominated sort2d rows mx keep = Ret fl).
  { destruct keep.
    - destruct (C01_is_nondominated_keep_weakly_exact sort2d mx rows S2) as (fl & Ef & _). { rewrite Lm. apply H. } eauto.
    - destruct (C02_is_nondominated_strict_filter sort2d mx rows S2) as (fl & Ef & _). { rewrite Lm. apply H. } eauto. }
  destruct Q as (fl & ->). reflexivity.
Qed.

Lemma objectives_firstn : forall d r, length r = S d -> firstn d r = objectives r.
Proof. unfold objectives. intros d r L. rewrite removelast_firstn_len, L. reflexivity. Qed.
Lemma set_of_coord : forall d r, length r = S d -> coord r d = set_of r.
Proof.
  unfold set_of, coord. intros d r. revert d. induction r as [|a [|b r] IH]; intros d L; try discriminate.
  - now injection L as <-.
  - destruct d as [|d]; [discriminate|]. injection L as L. apply (IH d). now rewrite <- L.
Qed.
Lemma within_step : forall m data d rows maximise mx keep, contents m data (S d) rows -> (2 <= d)%nat -> for_each d maximise mx ->
  exists m', kept m m' /\ py_filter_dominated_within_sets m data maximise keep =
    bind (is_nondominated_within_sets argsort sort2d (map objectives rows) (map set_of rows) mx keep) (fun f => Ret (mask_select rows f, m')).
Proof.
  intros m data d rows maximise mx keep H Hd Fm. destruct (asarray_ok m data (S d) rows H) as (m1 & a & x & E & K & N & C & R & D).
  exists m1. split; auto. unfold PyIndModel.py_filter_dominated_within_sets. rewrite E, (rd_some _ _ _ _ N). cbn [bind]. rewrite C. replace (S d - 1)%nat with d by lia.
  rewrite (proj2 (Nat.leb_le 3 (S d))) by lia. cbn [assert_ bind]. rewrite (of_length_ok _ _ _ _ Fm), R. cbn [bind].
  assert (W : forall r, In r rows -> length r = S d). { apply Forall_forall. apply H. }
  rewrite (map_ext_in (firstn d) objectives), (map_ext_in (fun r => coord r d) set_of); auto.
  - intros r Hr. apply set_of_coord. auto. - intros r Hr. apply objectives_firstn. auto.
Qed.
Lemma row_map : forall f (rows : list point) i, (i < length rows)%nat -> row (map f rows) i = f (nth i rows []).
Proof. intros f rows i Hi. unfold row. rewrite (nth_indep _ [] (f [])) by (now rewrite map_length). apply map_nth. Qed.
Lemma nth_map_z : forall (f : point -> Z) rows i, (i < length rows)%nat -> nth i (map f rows) 0 = f (nth i rows []).
Proof. intros f rows i Hi. rewrite (nth_indep _ 0 (f [])) by (now rewrite map_length). apply map_nth. Qed.
Lemma wf_objectives : forall d rows, wf_points (S d) rows -> wf_points d (map objectives rows).
Proof.
  intros d rows W. apply Forall_forall. intros q Hq. apply in_map_iff in Hq. destruct Hq as (r & <- & Hr). unfold wf_points in W. rewrite Forall_forall in W.
  specialize (W r Hr). rewrite <- (objectives_firstn d r W). rewrite firstn_length. lia.
Qed.
(** filter_dominated_within_sets: a row is compared with the rows of its set *)
Theorem C72_filter_within_sets_weakly : forall m data d rows maximise mx, valid_argsort le argsort -> valid_sort2d sort2d ->
  contents m data (S d) rows -> rows <> [] -> (2 <= d)%nat -> for_each d maximise mx ->
  exists flags m', py_filter_dominated_within_sets m data maximise true = Ret (marked rows flags, m') /\ kept m m' /\ length flags = length rows /\
    forall i, (i < length rows)%nat -> (nth i flags false = true <->
      ~ exists q, In q rows /\ set_of q = set_of (nth i rows []) /\ dom mx (objectives q) (objectives (nth i rows []))).
Proof.
  intros m data d rows maximise mx Sa S2 H Ne Hd Fm. pose proof (for_each_length _ _ _ Fm) as Lm.
  destruct (within_step m data d rows maximise mx true H Hd Fm) as (m' & K & ->).
  destruct (C38_nondominated_within_sets argsort sort2d (map objectives rows) (map set_of rows) mx Sa S2) as (fl & E & L & Q).
  { rewrite Lm. apply wf_objectives, H. } { lia. } { destruct rows; [tauto|discriminate]. } { now rewrite !map_length. }
  rewrite map_length in L, Q. rewrite E. cbn [bind]. exists fl, m'. rewrite mask_select_marked by auto. split; auto. split; auto. split; auto.
  intros i Hi. rewrite (Q i Hi). split; intros Nx (q & Hq & Dq); apply Nx.
  - destruct (In_nth rows q [] Hq) as (j & Hj & <-). exists j. split; auto. rewrite !nth_map_z, !row_map by auto. auto.
  - exists (nth q rows []). split; [now apply nth_In|]. rewrite !nth_map_z, !row_map in Dq by auto. auto.
Qed.
Theorem C72_filter_within_sets : forall m data d rows maximise mx, valid_argsort le argsort -> valid_sort2d sort2d ->
  contents m data (S d) rows -> rows <> [] -> (2 <= d)%nat -> for_each d maximise mx ->
  exists flags m', py_filter_dominated_within_sets m data maximise false = Ret (marked rows flags, m') /\ kept m m' /\ length flags = length rows /\
    (forall i, (i < length rows)%nat -> nth i flags false = true ->
       ~ exists q, In q rows /\ set_of q = set_of (nth i rows []) /\ dom mx (objectives q) (objectives (nth i rows []))) /\
    (forall i j, (i < length rows)%nat -> (j < length rows)%nat -> i <> j -> nth i flags false = true -> nth j flags false = true -> nth i rows [] <> nth j rows []) /\
    (forall i, (i < length rows)%nat -> exists j, (j < length rows)%nat /\ nth j flags false = true /\ set_of (nth j rows []) = set_of (nth i rows []) /\
       wdom mx (objectives (nth j rows [])) (objectives (nth i rows []))).
Proof.
  intros m data d rows maximise mx Sa S2 H Ne Hd Fm. pose proof (for_each_length _ _ _ Fm) as Lm.
  destruct (within_step m data d rows maximise mx false H Hd Fm) as (m' & K & ->).
  destruct (C38_nondominated_within_sets_strict argsort sort2d (map objectives rows) (map set_of rows) mx Sa S2) as (fl & E & L & Q1 & Q2 & Q3).
  { rewrite Lm. apply wf_objectives, H. } { lia. } { destruct rows; [tauto|discriminate]. } { now rewrite !map_length. }
  rewrite map_length in *. rewrite E. cbn [bind]. exists fl, m'. rewrite mask_select_marked by auto. split; auto. split; auto. split; auto. split; [|split].
  - intros i Hi T (q & Hq & Dq). destruct (In_nth rows q [] Hq) as (j & Hj & <-). apply (Q1 i j Hi Hj T); rewrite ?nth_map_z, ?row_map by auto; apply Dq.
  - intros i j Hi Hj Nq Ti Tj Eq. apply (Q2 i j Hi Hj Nq Ti Tj); rewrite ?nth_map_z, ?row_map by auto; now rewrite Eq.
  - intros i Hi. destruct (Q3 i Hi) as (j & Hj & Ej & Tj & Wj). exists j. rewrite ?nth_map_z, ?row_map in * by auto. auto.
Qed.

(** ** indicators with a reference set *)
Lemma unary_step : forall B m data ref d A R maximise mx (metric : list point -> list point -> list bool -> outcome B),
  contents m data d A -> contents m ref d R -> for_each d maximise mx ->
  exists m', kept m m' /\ py_unary m data ref maximise metric = bind (metric A R mx) (fun v => Ret (v, m')).
Proof.
  intros B m data ref d A R maximise mx metric Ha Hr Fm. destruct (asarray_ok m data d A Ha) as (m1 & a & x & E & K & N & C & Rx & _).
  destruct (asarray_ok m1 ref d R (contents_kept _ _ _ _ _ K Hr)) as (m2 & b & y & E' & K' & N' & C' & Ry & _). exists m2. split. now apply (kept_trans m m1).
  unfold py_unary. rewrite E, E', (rd_some _ _ _ _ (kept_nth _ _ _ _ K' N)), (rd_some _ _ _ _ N'). cbn [bind]. rewrite C, C', Nat.eqb_refl. cbn [assert_ bind].
  rewrite (of_length_ok _ _ _ _ Fm), Rx, Ry. reflexivity.
Qed.
Lemma flags_nonempty : forall d maximise mx, (1 <= d)%nat -> for_each d maximise mx -> mx <> ([] : list bool).
Proof. intros d maximise mx Hd F E. pose proof (for_each_length _ _ _ F) as L. subst mx. cbn in L. lia. Qed.
Theorem C72_epsilon_additive : forall m data ref d A R maximise mx, contents m data d A -> contents m ref d R -> for_each d maximise mx ->
  (1 <= d)%nat -> A <> [] -> R <> [] ->
  exists v m', py_epsilon_additive m data ref maximise = Ret (Fin v, m') /\ kept m m' /\
    covers_add mx A R (inject_Z v) /\ forall e : Q, covers_add mx A R e -> (inject_Z v <= e)%Q.
Proof.
  intros m data ref d A R maximise mx Ha Hr Fm Hd Na Nr. unfold py_epsilon_additive. destruct (unary_step _ m data ref d A R maximise mx (fun A R mx => Ret (epsilon_additive A R mx)) Ha Hr Fm) as (m' & K & ->).
  destruct (C15_additive_epsilon_is_least_shift mx A R (flags_nonempty _ _ _ Hd Fm) Na Nr) as (v & E & C1 & C2). rewrite E. cbn [bind]. exists v, m'. auto.
Qed.
Theorem C72_epsilon_mult : forall m data ref d A R maximise mx, contents m data d A -> contents m ref d R -> for_each d maximise mx ->
  (1 <= d)%nat -> A <> [] -> R <> [] -> (forall p i, In p A \/ In p R -> (i < d)%nat -> 0 < coord p i) ->
  exists v m', py_epsilon_mult m data ref maximise = Ret (Fin v, m') /\ kept m m' /\
    covers_mult mx A R v /\ forall e : Q, covers_mult mx A R e -> (v <= e)%Q.
Proof.
  intros m data ref d A R maximise mx Ha Hr Fm Hd Na Nr P. unfold py_epsilon_mult. destruct (unary_step _ m data ref d A R maximise mx epsilon_mult Ha Hr Fm) as (m' & K & ->).
  pose proof (for_each_length _ _ _ Fm) as Lm.
  destruct (C16_multiplicative_epsilon_is_least_factor mx A R (flags_nonempty _ _ _ Hd Fm) Na Nr) as (v & E & C1 & C2).
  { intros p Hp i Hi. apply P; auto; lia. } { intros p Hp i Hi. apply P; auto; lia. }
  rewrite E. cbn [bind]. exists v, m'. auto.
Qed.
Theorem C72_igd : forall m data ref d A R maximise mx, contents m data d A -> contents m ref d R -> for_each d maximise mx -> A <> [] -> R <> [] ->
  exists v ms m', py_igd m data ref maximise = Ret (Fin v, m') /\ kept m m' /\
    nearest_dists (euclid d) R A ms /\ v = (rlist_sum ms / INR (length R))%R.
Proof.
  intros m data ref d A R maximise mx Ha Hr Fm Na Nr. unfold py_igd. destruct (unary_step _ m data ref d A R maximise mx (fun A R mx => Ret (IGD A R mx)) Ha Hr Fm) as (m' & K & ->).
  destruct (C18_gd_igd_definition mx A R Na Nr) as [_ (v & ms & E & C1 & C2)]. rewrite E. cbn [bind]. exists v, ms, m'. rewrite <- (for_each_length _ _ _ Fm). auto.
Qed.
Theorem C72_igd_plus : forall m data ref d A R maximise mx, contents m data d A -> contents m ref d R -> for_each d maximise mx -> A <> [] -> R <> [] ->
  exists v ms m', py_igd_plus m data ref maximise = Ret (Fin v, m') /\ kept m m' /\
    nearest_dists (fun r a => dist_plus mx a r) R A ms /\ v = (rlist_sum ms / INR (length R))%R.
Proof.
  intros m data ref d A R maximise mx Ha Hr Fm Na Nr. unfold py_igd_plus. destruct (unary_step _ m data ref d A R maximise mx (fun A R mx => Ret (IGD_plus A R mx)) Ha Hr Fm) as (m' & K & ->).
  destruct (C19_igd_plus_definition mx A R Na Nr) as (v & ms & E & C1 & C2). rewrite E. cbn [bind]. exists v, ms, m'. auto.
Qed.
(** the parameter is a whole number of 32 bits *)
Theorem C72_avg_hausdorff : forall m data ref d A R maximise mx k, contents m data d A -> contents m ref d R -> for_each d maximise mx -> A <> [] -> R <> [] ->
  1 <= k < 2 ^ 32 ->
  exists v gd igd m', py_avg_hausdorff_dist m data ref maximise (inject_Z k) = Ret (Fin v, m') /\ kept m m' /\
    p_mean_nearest d A R (Z.to_nat k) gd /\ p_mean_nearest d R A (Z.to_nat k) igd /\ v = Rmax gd igd.
Proof.
  intros m data ref d A R maximise mx k Ha Hr Fm Na Nr Hk. unfold py_avg_hausdorff_dist.
  assert (P : Qle_bool (inject_Z k) 0 = false). { destruct (Qle_bool (inject_Z k) 0) eqn:P; auto. apply Qle_bool_imp_le in P. unfold Qle in P. cbn in P. lia. }
  rewrite P. cbn [negb assert_ bind]. unfold cast_unsigned. rewrite Qfloor_Z, Z.mod_small by lia.
  destruct (unary_step _ m data ref d A R maximise mx (fun A R mx => Ret (avg_Hausdorff_dist A R mx (Z.to_nat k))) Ha Hr Fm) as (m' & K & ->).
  destruct (C18_avg_hausdorff_definition mx A R (Z.to_nat k) Na Nr ltac:(lia)) as (v & gd & igd & E & C1 & C2 & C3 & _). rewrite E. cbn [bind].
  exists v, gd, igd, m'. rewrite <- (for_each_length _ _ _ Fm). auto.
Qed.
(** a parameter with a fraction is cut off without a warning *)
Theorem C72_parameter_cut_off : forall m data ref maximise (p : Q), (1 <= p)%Q ->
  py_avg_hausdorff_dist m data ref maximise p = py_avg_hausdorff_dist m data ref maximise (inject_Z (Qfloor p)).
Proof.
  intros m data ref maximise p Hp. unfold py_avg_hausdorff_dist, cast_unsigned. rewrite Qfloor_Z.
  assert (F : 1 <= Qfloor p). { change 1 with (Qfloor 1). now apply Qfloor_resp_le. }
  assert (P : Qle_bool (inject_Z (Qfloor p)) 0 = false). { destruct (Qle_bool (inject_Z (Qfloor p)) 0) eqn:P; auto. apply Qle_bool_imp_le in P. unfold Qle in P. cbn in P. lia. }
  assert (P' : Qle_bool p 0 = false). { destruct (Qle_bool p 0) eqn:P'; auto. apply Qle_bool_imp_le in P'. exfalso. apply (Qlt_irrefl 0). apply Qlt_le_trans with p; auto. apply Qlt_le_trans with 1%Q; auto. reflexivity. }
  now rewrite P, P'.
Qed.
Theorem C72_parameter_not_positive : forall m data ref maximise (p : Q), (p <= 0)%Q -> py_avg_hausdorff_dist m data ref maximise p = AssertFailed.
Proof. intros m data ref maximise p Hp. unfold py_avg_hausdorff_dist. apply Qle_bool_iff in Hp. now rewrite Hp. Qed.
(** a parameter between 0 and 1 is accepted, and the result is 1 whatever the data, even for
    a set and itself *)
Lemma gd_common_0 : forall dim mm A R, A <> [] -> R <> [] -> gd_common dim mm A R false true 0 = Fin 1%R.
Proof.
  intros dim mm A R Na Nr. unfold gd_common.
  assert (M : forall a, exists z, min_sq_dist dim mm false R a = Fin z).
  { intros a. unfold min_sq_dist. destruct R as [|r R]; [tauto|]. cbn [fold_left eleb negb].
    assert (Q : forall l z, exists z', fold_left (fun m0 r0 => let dist := Fin (sq_dist dim mm false a r0) in if negb (eleb Z.leb m0 dist) then dist else m0) l (Fin z) = Fin z').
    { induction l as [|r' l IHl]; intros z; cbn [fold_left]; eauto. cbn zeta. destruct (negb _); apply IHl. }
    apply Q. }
  assert (S : forall l x, fold_left (fun gd a => add_ext gd (pow_ext (sqrt_ext (min_sq_dist dim mm false R a)) 0)) l (Fin x) = Fin (x + INR (length l))%R).
  { induction l as [|a l IHl]; intros x; cbn [fold_left length]. { cbn. f_equal. ring. }
    destruct (M a) as (z & ->). cbn [sqrt_ext pow_ext Nat.eqb pow add_ext]. rewrite IHl, S_INR. f_equal. ring. }
  destruct A as [|a A]; [tauto|]. rewrite S. cbn [Nat.eqb lift_ext]. f_equal.
  assert (I : INR (length (a :: A)) <> 0%R). { apply not_0_INR. discriminate. }
  replace ((0 + INR (length (a :: A))) / INR (length (a :: A)))%R with 1%R by (field; auto).
  unfold powl_inv. destruct (Req_EM_T 1 0) as [Q|Q]; [now apply R1_neq_R0 in Q|]. unfold Rpower. rewrite ln_1, Rmult_0_r. apply exp_0.
Qed.
Theorem C72_small_parameter_refuted : forall m data ref d A R maximise mx (p : Q), contents m data d A -> contents m ref d R -> for_each d maximise mx -> A <> [] -> R <> [] ->
  (0 < p < 1)%Q -> exists m', py_avg_hausdorff_dist m data ref maximise p = Ret (Fin 1%R, m').
Proof.
  intros m data ref d A R maximise mx p Ha Hr Fm Na Nr [P0 P1]. unfold py_avg_hausdorff_dist.
  assert (P' : Qle_bool p 0 = false). { destruct (Qle_bool p 0) eqn:P'; auto. apply Qle_bool_imp_le in P'. exfalso. apply (Qlt_irrefl 0). now apply Qlt_le_trans with p. }
  rewrite P'. cbn [negb assert_ bind].
  assert (F : Qfloor p = 0).
  { assert (0 <= Qfloor p). { change 0 with (Qfloor 0). apply Qfloor_resp_le. now apply Qlt_le_weak. }
    assert (Qfloor p < 1). { pose proof (Qfloor_le p) as L. assert (L' : (inject_Z (Qfloor p) < inject_Z 1)%Q) by (now apply Qle_lt_trans with p). unfold Qlt in L'. cbn in L'. lia. } lia. }
  unfold cast_unsigned. rewrite F. cbn [Z.modulo]. change (Z.to_nat (0 mod 2 ^ 32)) with 0%nat.
  destruct (unary_step _ m data ref d A R maximise mx (fun A R mx => Ret (avg_Hausdorff_dist A R mx 0)) Ha Hr Fm) as (m' & K & ->). exists m'.
  unfold avg_Hausdorff_dist. rewrite !gd_common_0 by auto. cbn [bind]. do 2 f_equal. unfold emax. now destruct (eleb _ _ _).
Qed.

(** ** errors *)
Theorem C72_columns_differ : forall m data ref d d' A R maximise p, contents m data d A -> contents m ref d' R -> d <> d' ->
  py_epsilon_additive m data ref maximise = AssertFailed /\ py_epsilon_mult m data ref maximise = AssertFailed /\
  py_igd m data ref maximise = AssertFailed /\ py_igd_plus m data ref maximise = AssertFailed /\ py_avg_hausdorff_dist m data ref maximise p = AssertFailed.
Proof.
  intros m data ref d d' A R maximise p Ha Hr Nd.
  assert (U : forall B (metric : list point -> list point -> list bool -> outcome B), py_unary m data ref maximise metric = AssertFailed).
  { intros B metric. destruct (asarray_ok m data d A Ha) as (m1 & a & x & E & K & N & C & Rx & _).
    destruct (asarray_ok m1 ref d' R (contents_kept _ _ _ _ _ K Hr)) as (m2 & b & y & E' & K' & N' & C' & Ry & _).
    unfold py_unary. rewrite E, E', (rd_some _ _ _ _ (kept_nth _ _ _ _ K' N)), (rd_some _ _ _ _ N'). cbn [bind]. rewrite C, C', (proj2 (Nat.eqb_neq d d') Nd). reflexivity. }
  unfold py_epsilon_additive, py_epsilon_mult, py_igd, py_igd_plus, py_avg_hausdorff_dist. rewrite !U. repeat (split; [reflexivity|]). now destruct (negb (Qle_bool p 0)).
Qed.
(** neither one value nor one for each objective *)
Definition wrong_length {A} (d : nat) (l : list A) : Prop := length l <> 1%nat /\ length l <> d.
Theorem C72_lengths : forall m data d rows, contents m data d rows ->
  (forall reference maximise, wrong_length d reference \/ wrong_length d maximise -> py_hypervolume m data reference maximise = AssertFailed) /\
  (forall maximise, wrong_length d maximise -> py_pareto_rank m data maximise = AssertFailed /\
     forall keep, py_is_nondominated m data maximise keep = AssertFailed /\ py_filter_dominated m data maximise keep = AssertFailed) /\
  (forall maximise keep, (d < 3)%nat \/ wrong_length (d - 1) maximise -> py_filter_dominated_within_sets m data maximise keep = AssertFailed) /\
  (forall ref R maximise p, contents m ref d R -> wrong_length d maximise ->
     py_epsilon_additive m data ref maximise = AssertFailed /\ py_epsilon_mult m data ref maximise = AssertFailed /\
     py_igd m data ref maximise = AssertFailed /\ py_igd_plus m data ref maximise = AssertFailed /\ py_avg_hausdorff_dist m data ref maximise p = AssertFailed).
Proof.
  intros m data d rows H. destruct (asarray_ok m data d rows H) as (m1 & a & x & E & K & N & C & R & _).
  assert (Nd : forall maximise keep, wrong_length d maximise -> py_is_nondominated m data maximise keep = AssertFailed).
  { intros maximise keep [W1 W2]. unfold PyIndModel.py_is_nondominated. rewrite E, (rd_some _ _ _ _ N). cbn [bind]. rewrite C, (of_length_wrong _ _ _ W1 W2). reflexivity. }
  split; [|split; [|split]].
  - intros reference maximise W. unfold PyIndModel.py_hypervolume, asarray_maybe_copy. rewrite E, (rd_some _ _ _ _ N). cbn [bind]. rewrite C.
    destruct W as [[W1 W2]|[W1 W2]].
    + now rewrite (of_length_wrong _ _ _ W1 W2).
    + rewrite (of_length_wrong _ _ _ W1 W2). now destruct (of_length_or _ d reference) as [(l' & -> & _)| ->].
  - intros maximise W. split.
    + destruct W as [W1 W2]. unfold PyIndModel.py_pareto_rank, asarray_maybe_copy. rewrite E, (rd_some _ _ _ _ N). cbn [bind]. now rewrite C, (of_length_wrong _ _ _ W1 W2).
    + intros keep. rewrite (Nd maximise keep W). split; auto. unfold PyIndModel.py_filter_dominated. now rewrite (Nd maximise keep W).
  - intros maximise keep W. unfold PyIndModel.py_filter_dominated_within_sets. rewrite E, (rd_some _ _ _ _ N). cbn [bind]. rewrite C.
    destruct (Nat.leb_spec 3 d); auto. destruct W as [W|[W1 W2]]; [lia|]. cbn [assert_ bind]. now rewrite (of_length_wrong _ _ _ W1 W2).
  - intros ref R' maximise p Hr [W1 W2].
    assert (U : forall B (metric : list point -> list point -> list bool -> outcome B), py_unary m data ref maximise metric = AssertFailed).
    { intros B metric. destruct (asarray_ok m1 ref d R' (contents_kept _ _ _ _ _ K Hr)) as (m2 & b & y & E' & K' & N' & C' & Ry & _).
      unfold py_unary. rewrite E, E', (rd_some _ _ _ _ (kept_nth _ _ _ _ K' N)), (rd_some _ _ _ _ N'). cbn [bind]. rewrite C, C', Nat.eqb_refl, (of_length_wrong _ _ _ W1 W2). reflexivity. }
    unfold py_epsilon_additive, py_epsilon_mult, py_igd, py_igd_plus, py_avg_hausdorff_dist. rewrite !U. repeat (split; [reflexivity|]). now destruct (negb (Qle_bool p 0)).
Qed.

(** ** what happens to the arguments *)
(** an object that is not a numpy.ndarray but shares its floats, with an objective to
    maximise: the caller's values are negated *)
Theorem C72_shared_is_negated_refuted : forall m a d rows reference ref maximise mx, valid_sort2d sort2d -> stable_sort sortd ->
  contents m (Shared a) d rows -> (2 <= d)%nat -> for_each d reference ref -> for_each d maximise mx -> In true mx ->
  (forall p i, In p rows -> (i < d)%nat -> - dbl_max <= coord p i <= dbl_max) ->
  exists v m' rows', py_hypervolume m (Shared a) reference maximise = Ret (v, m') /\ contents m' (Shared a) d rows' /\ length rows' = length rows /\
    forall i k, (i < length rows)%nat -> (k < d)%nat ->
      coord (nth i rows' []) k = (if nth k mx false then - coord (nth i rows []) k else coord (nth i rows []) k).
Proof.
  intros m a d rows reference ref maximise mx S2 Ss H Hd Fr Fm Tr B. pose proof H as (W & x & Cx & Rx & Nx).
  destruct (C72_hypervolume m (Shared a) d rows reference ref maximise mx S2 Ss H Hd Fr Fm B) as (v & m' & E & _). exists v, m', (map (negate_cols mx) rows). split; auto.
  split; [|split; [apply map_length|]].
  - split. { unfold wf_points in *. rewrite Forall_forall in *. intros q Hq. apply in_map_iff in Hq. destruct Hq as (p & <- & Hp). rewrite negate_cols_length. auto. }
    exists (mkArray (a_contiguous x) (a_ncol x) (map (negate_cols mx) (a_rows x))). cbn [a_ncol a_rows]. rewrite Rx. repeat split; auto.
    revert E. unfold PyIndModel.py_hypervolume, asarray_maybe_copy. cbn [np_asarray]. rewrite (rd_some _ _ _ _ Nx). cbn [bind]. rewrite Cx, (of_length_ok _ _ _ _ Fr), (of_length_ok _ _ _ _ Fm). cbn [bind].
    assert (An : any mx = true). { unfold any. apply existsb_exists. exists true. auto. }
    unfold negate_data. rewrite An. cbn [bind fst snd]. unfold np_negate. rewrite (rd_some _ _ _ _ Nx). cbn [bind]. rewrite wr_ok by (apply nth_error_Some; congruence). cbn [bind fst snd].
    destruct (hypervolume_of _ _ _ _ _ _ _) as [h| | |]; cbn [bind]; try discriminate. intros E. injection E as _ <-. rewrite Cx, Rx. exact (nth_error_upd_same _ _ _ _ _ Nx).
  - intros i k Hi Hk. rewrite (nth_indep _ [] (negate_cols mx [])) by (now rewrite map_length). rewrite map_nth. apply coord_negate_cols.
Qed.
(** whv_rect: the value of C70; the array of the caller is sorted in place if its rows are
    stored one after the other, and its rows are the same ones in another order *)
Theorem C72_whv_rect : forall m data rows rs reference ref, valid_sortd sortp -> valid_sortr sortr -> contents m data 2 rows -> for_each 2 reference ref ->
  antichain rows -> (forall r, In r rs -> valid_rect r) ->
  exists v rows' m', py_whv_rect_mem m data (map rect_row rs) 5 reference (Flag false) = Ret (v, m') /\ Permutation rows rows' /\
    weighted_area_where (not_below_lowest_top rows rs ref) rows ref rs v /\
    match data with
    | Nested _ | Converted _ => kept m m'
    | Array a | Shared a => forall x, nth_error m a = Some x -> m' = if a_contiguous x then upd m a (mkArray true 2 rows') else m
    end.
Proof.
  intros m data rows rs reference ref Sp Sr H Fr An V. destruct (asarray_ok m data 2 rows H) as (m1 & a & x & E & K & N & C & R & D).
  destruct (C70_py_whv_rect sortp sortr junk rows rs reference ref Sp Sr (proj1 H) Fr An V) as (v & rows' & Ev & P & A & _).
  unfold PyIndModel.py_whv_rect_mem. rewrite E, (rd_some _ _ _ _ N). cbn [bind]. rewrite C, R, Ev. cbn [bind fst snd].
  assert (La : (a < length m1)%nat) by (apply nth_error_Some; congruence).
  destruct data as [y|y|b|b].
  - destruct D as (-> & -> & ->). rewrite wr_ok by auto. cbn [bind]. eexists v, rows', _. split; [reflexivity|]. split; auto. split; auto. rewrite upd_app_middle. apply kept_app.
  - destruct D as (-> & -> & ->). rewrite wr_ok by auto. cbn [bind]. eexists v, rows', _. split; [reflexivity|]. split; auto. split; auto. rewrite upd_app_middle. apply kept_app.
  - destruct D as (-> & ->). destruct (a_contiguous x) eqn:Cg; [rewrite wr_ok by auto|]; cbn [bind]; eexists v, rows', _; (split; [reflexivity|]); (split; [auto|]); (split; [auto|]); intros x' Nx'; rewrite N in Nx'; injection Nx' as <-; now rewrite Cg.
  - destruct D as (-> & ->). destruct (a_contiguous x) eqn:Cg; [rewrite wr_ok by auto|]; cbn [bind]; eexists v, rows', _; (split; [reflexivity|]); (split; [auto|]); (split; [auto|]); intros x' Nx'; rewrite N in Nx'; injection Nx' as <-; now rewrite Cg.
Qed.
End C72.

(** ** instances *)
Definition ex_rows : list point := [[1; 4]; [3; 2]; [2; 5]].
Definition ex_mem : memory := [mkArray true 2 [[0; 0]]; mkArray false 2 ex_rows].
Example C72_contents_meets : contents ex_mem (Array 1) 2 ex_rows /\ contents ex_mem (Shared 1) 2 ex_rows /\ contents ex_mem (Nested (mkArray true 2 ex_rows)) 2 ex_rows /\
  for_each 2 [false; true] [false; true] /\ for_each 2 [5] [5; 5].
Proof.
  assert (W : wf_points 2 ex_rows) by (repeat constructor). repeat split; auto; try (eexists; repeat split; reflexivity).
  left. auto. right. exists 5. auto.
Qed.
Example C72_hypervolume_meets :
  (exists m', py_hypervolume sort2d_exec sortd_rev 1000 st0 ex_mem (Array 1) [5; 0] [false; true] = Ret (19, m') /\ firstn 2 m' = ex_mem) /\
  bind (hv_init [5] [false]) (fun o => hv_call sort2d_exec sortd_rev 1000 st0 o ex_mem (Array 1)) = Ret (8, ex_mem) /\
  py_hypervolume sort2d_exec sortd_rev 1000 st0 ex_mem (Array 1) [5; 0; 0] [false] = AssertFailed.
Proof. split; [|split]; [|vm_compute; reflexivity..]. eexists. split; vm_compute; reflexivity. Qed.
(** the same call twice on a data frame: two values *)
Theorem C72_shared_twice_refuted : exists m1 m2, py_hypervolume sort2d_exec sortd_rev 1000 st0 ex_mem (Shared 1) [0] [true] = Ret (12, m1) /\
  py_hypervolume sort2d_exec sortd_rev 1000 st0 m1 (Shared 1) [0] [true] = Ret (0, m2).
Proof. eexists _, _. split; vm_compute; reflexivity. Qed.
Example C72_nondominated_meets :
  py_is_nondominated sort2d_exec ex_mem (Array 1) [false] false = Ret ([true; true; false], ex_mem) /\
  py_filter_dominated sort2d_exec ex_mem (Array 1) [false; true] false = Ret ([[1; 4]; [2; 5]], ex_mem) /\
  py_filter_dominated_within_sets sort2d_exec argsort_exec ([mkArray true 3 [[1; 4; 1]; [3; 2; 2]; [2; 5; 1]]] ++ ex_mem) (Array 0) [false] false = Ret ([[1; 4; 1]; [3; 2; 2]], [mkArray true 3 [[1; 4; 1]; [3; 2; 2]; [2; 5; 1]]] ++ ex_mem).
Proof. repeat split; vm_compute; reflexivity. Qed.
(** whv_rect exchanges the rows of the caller *)
Theorem C72_whv_rect_sorts_refuted : exists v, py_whv_rect_mem PropWhv.sortd_exec PropWhv.sortr_exec (fun _ => c_zero) [mkArray true 2 [[3; 2]; [1; 4]]] (Array 0) (map rect_row doc_rects) 5 [12] (Flag false) =
  Ret (v, [mkArray true 2 [[1; 4]; [3; 2]]]).
Proof. eexists. vm_compute. reflexivity. Qed.

Print Assumptions C72_hypervolume.
Print Assumptions C72_object.
Print Assumptions C72_pareto_rank.
Print Assumptions C72_is_nondominated_weakly.
Print Assumptions C72_is_nondominated.
Print Assumptions C72_filter_dominated.
Print Assumptions C72_filter_within_sets_weakly.
Print Assumptions C72_filter_within_sets.
Print Assumptions C72_epsilon_additive.
Print Assumptions C72_epsilon_mult.
Print Assumptions C72_igd.
Print Assumptions C72_igd_plus.
Print Assumptions C72_avg_hausdorff.
Print Assumptions C72_small_parameter_refuted.
Print Assumptions C72_lengths.
Print Assumptions C72_shared_is_negated_refuted.
Print Assumptions C72_whv_rect.
