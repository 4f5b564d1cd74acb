(** Property theorems about the hypervolume, continued: the shifted entry point
    (C09, C10), maximisation (C13), contributions (C14), symmetric difference
    (C44). *)
From Coq Require Import List ZArith Lia Bool Arith Permutation.
From Verif Require Import Base Spec NondomModel NondomProofs2d NondomMain
  ParetoRankModel ParetoRankProofs
  HvSpec Hv2dModel Hv2dProofs HvModel HvMain HvFacts HvShiftModel HvShiftProofs.
Import ListNotations.
Open Scope Z_scope.

(** ** C09/C10 for [fpli_hv_shift].  The caller's array is overwritten with the
    shifted points (except with two objectives). *)
Theorem C09_hv3d_shift_exact :
  forall sort2d sortd dbl_max g (pts : list point) (ref : point),
  valid_sort2d sort2d -> valid_sort sortd -> wf_points 3 pts -> length ref = 3%nat ->
  (forall p i, In p pts -> (i < 3)%nat -> - dbl_max <= coord p i - coord ref i) ->
  exists v pts', fpli_hv_shift sort2d sortd dbl_max g pts 3 ref = Ret (v, pts') /\
    hypervolume pts ref v.
Proof.
  intros. destruct (fpli_hv_shift_ok sort2d sortd dbl_max g pts 3 ref) as (v & p & E & Hv & _); auto. eauto.
Qed.
Print Assumptions C09_hv3d_shift_exact.

Theorem C10_hv_shift_exact_stable_partial :
  (* full claim: for every qsort; see C10_unstable_sort_refuted *)
  forall sort2d sortd dbl_max g d (pts : list point) (ref : point),
  valid_sort2d sort2d -> stable_sort sortd -> wf_points d pts -> length ref = d -> (1 <= d)%nat ->
  (forall p i, In p pts -> (i < d)%nat -> - dbl_max <= coord p i - coord ref i) ->
  exists v, hypervolume pts ref v /\
    fpli_hv_shift sort2d sortd dbl_max g pts d ref =
      Ret (v, if (d =? 2)%nat then pts
              else map (fun p => map (fun k => coord p k - coord ref k) (seq 0 d)) pts).
Proof.
  intros. destruct (fpli_hv_shift_ok sort2d sortd dbl_max g pts d ref) as (v & p & E & Hv & ->); auto.
  apply H0. eauto.
Qed.
Print Assumptions C10_hv_shift_exact_stable_partial.

Example C09_C10_shift_nonvacuous :
  fpli_hv_shift sort2d_exec sortd_exec 1000 st0 [[1;3;2]; [3;1;2]; [2;2;1]; [4;4;4]; [9;0;0]] 3 [5;5;5]
    = Ret (48, [[-4;-2;-3]; [-2;-4;-3]; [-3;-3;-4]; [-1;-1;-1]; [4;-5;-5]]) /\
  (exists a, fpli_hv_shift sort2d_exec sortd_exec 1000 st0
     [[1;1;1;1;7]; [1;1;1;2;3]; [5;5;0;3;2]; [2;0;6;1;1]; [0;7;2;2;2]] 5 [10;10;10;10;10]
    = Ret (56290, a)) /\
  fpli_hv_shift sort2d_exec sortd_exec 1000 st0 [[3];[1];[7]] 1 [5] = Ret (4, [[-2];[-4];[2]]).
Proof.
  split. vm_compute; reflexivity. split. eexists; vm_compute; reflexivity. vm_compute; reflexivity.
Qed.

(** ** C13: maximisation.  [hypervolume_mx] counts the unit cells between some
    point and the reference, each objective oriented by its own direction. *)
Theorem C13_hypervolume_maximise :
  forall sort2d sortd dbl_max g d (pts : list point) (ref : point) (maximise : list bool),
  valid_sort2d sort2d -> stable_sort sortd -> wf_points d pts -> length ref = d ->
  length maximise = d -> (2 <= d)%nat ->
  (forall p i, In p pts -> (i < d)%nat -> - dbl_max <= coord p i <= dbl_max) ->
  exists v, hypervolume_py sort2d sortd dbl_max g pts d ref maximise = Ret v /\
            hypervolume_mx maximise pts ref v.
Proof.
  intros * H1 H2 H3 H4 H5 H6 H7. rewrite hypervolume_py_negate by auto.
  destruct (fpli_hv_ok_gen sort2d sortd dbl_max g (map (negate_cols maximise) pts) d (negate_cols maximise ref))
    as (v & E & Hv); auto.
  - apply H2.
  - unfold wf_points in *. rewrite Forall_forall in *. intros p Hp. apply in_map_iff in Hp.
    destruct Hp as (q & <- & Hq). rewrite negate_cols_length. auto.
  - now rewrite negate_cols_length.
  - intros p i Hp Hi. apply in_map_iff in Hp. destruct Hp as (q & <- & Hq). rewrite coord_negate_cols.
    specialize (H7 q i Hq Hi). destruct (nth i maximise false); lia.
  - exists v. split; auto. now apply hypervolume_negate.
Qed.
Print Assumptions C13_hypervolume_maximise.

(** The same call with the flagged columns of the data and of the reference
    negated, minimising everything. *)
Theorem C13_hypervolume_negation :
  forall sort2d sortd dbl_max g d (pts : list point) (ref : point) (maximise : list bool),
  length ref = d -> length maximise = d ->
  hypervolume_py sort2d sortd dbl_max g pts d ref maximise =
  hypervolume_py sort2d sortd dbl_max g (map (negate_cols maximise) pts) d
                 (negate_cols maximise ref) (repeat false d).
Proof.
  intros. rewrite !hypervolume_py_negate; auto.
  - assert (N : forall p, negate_cols (repeat false d) p = p).
    { intros. apply negate_cols_none. induction d; simpl; auto. clear. induction d; simpl; auto. }
    rewrite N. f_equal. rewrite map_map. apply map_ext. intros. now rewrite N.
  - now rewrite negate_cols_length.
  - apply repeat_length.
Qed.
Print Assumptions C13_hypervolume_negation.

Example C13_hypervolume_nonvacuous :
  hypervolume_py sort2d_exec sortd_exec 1000 st0 [[5;5];[4;6];[2;7];[7;4]] 2 [0;0] [true;true] = Ret 39 /\
  hypervolume_py sort2d_exec sortd_exec 1000 st0 [[5;5];[4;6];[2;7];[7;4]] 2 [10;0] [false;true] = Ret 56.
Proof. split; vm_compute; reflexivity. Qed.

Lemma chain_idx : forall mx S i r, chain_ending mx S i r -> (i < length S)%nat.
Proof. destruct 1; auto. Qed.

(** python [pareto_rank] (python/src/moocore/_moocore.py:958-972) *)
Theorem C13_pareto_rank_maximise :
  forall sort2d garbage debug (pts : list point) (maximise : list bool),
  valid_sort2d sort2d -> (1 <= length pts)%nat \/ length maximise <> 2%nat ->
  exists rank, pareto_rank_py sort2d garbage debug pts maximise = Ret rank /\
    length rank = length pts /\
    forall i, (i < length pts)%nat -> is_rank maximise pts i (nth i rank 0%nat).
Proof.
  intros * Hs Hn. unfold pareto_rank_py.
  set (pts' := map (negate_cols maximise) pts).
  assert (Hl : length pts' = length pts) by apply map_length.
  destruct (pareto_rank_ok sort2d garbage debug pts' (length maximise) Hs) as (rank & E & L & H).
  { rewrite Hl. auto. }
  assert (Epy : (if existsb (fun b => b) maximise
     then pareto_rank sort2d garbage debug pts' (length maximise)
     else pareto_rank sort2d garbage debug pts (length maximise)) = Ret rank).
  { destruct (existsb (fun b => b) maximise) eqn:EE; auto.
    replace pts with pts'; auto. unfold pts'. rewrite (map_ext _ (fun p => p)). apply map_id.
    intros; now apply negate_cols_none. }
  exists rank. split; auto. rewrite Hl in *. split; auto.
  intros i Hi. specialize (H i Hi).
  assert (R : forall x, (x < length pts)%nat -> row pts' x = negate_cols maximise (row pts x)).
  { intros x Hx. unfold row. rewrite nth_indep with (d' := negate_cols maximise []) by (now rewrite Hl).
    apply map_nth. }
  assert (AG : forall p q d, as_good (minimise (length maximise)) (negate_cols maximise p) (negate_cols maximise q) d
             <-> as_good maximise p q d).
  { intros. unfold as_good, minimise. rewrite nth_repeat, !coord_negate_cols. destruct (nth d maximise false); lia. }
  assert (BT : forall p q d, better (minimise (length maximise)) (negate_cols maximise p) (negate_cols maximise q) d
             <-> better maximise p q d).
  { intros. unfold better, minimise. rewrite nth_repeat, !coord_negate_cols. destruct (nth d maximise false); lia. }
  assert (D : forall x y, (x < length pts)%nat -> (y < length pts)%nat ->
     (dom (minimise (length maximise)) (row pts' x) (row pts' y) <-> dom maximise (row pts x) (row pts y))).
  { intros x y Hx Hy. rewrite !R by auto. unfold dom, wdom.
    replace (length (minimise (length maximise))) with (length maximise)
      by (unfold minimise; now rewrite repeat_length).
    split; intros [A (k & Hk & B)]; split.
    - intros; apply AG; auto. - exists k. split; auto. now apply BT.
    - intros; apply AG; auto. - exists k. split; auto. now apply BT. }
  assert (C1 : forall x r, chain_ending (minimise (length maximise)) pts' x r -> chain_ending maximise pts x r).
  { induction 1. - constructor. now rewrite <- Hl. - rewrite Hl in *. pose proof (chain_idx _ _ _ _ IHchain_ending). apply chain_more with (j := j); auto. apply D; auto. }
  assert (C2 : forall x r, chain_ending maximise pts x r -> chain_ending (minimise (length maximise)) pts' x r).
  { induction 1. - constructor. now rewrite Hl. - pose proof (chain_idx _ _ _ _ H0). apply chain_more with (j := j); rewrite ?Hl; auto. apply D; auto. }
  destruct H as [Ha Hb]. split; auto.
Qed.
Print Assumptions C13_pareto_rank_maximise.

Example C13_pareto_rank_nonvacuous :
  pareto_rank_py sort2d_exec 77 false [[1;5];[2;5];[2;6];[0;0]] [false;true] = Ret [1;2;1;1]%nat.
Proof. vm_compute; reflexivity. Qed.

(** ** C14: contributions.  [tol] is the tolerance sqrt(DBL_EPSILON) on the
    integer grid (so [tol <= 1] stands for inputs whose grid is coarser than the
    tolerance, for which the results are exact). *)
Theorem C14_hv_contributions :
  forall sort2d sortd dbl_max g tol (pts : list point) d ref,
  hv_input sort2d sortd dbl_max pts d ref ->
  (forall i, (i < d)%nat -> - dbl_max <= coord ref i) ->
  exists hvc total,
    (* the array is returned unchanged *)
    hv_contributions sort2d sortd dbl_max g tol pts d ref = Ret (hvc, pts) /\
    length hvc = length pts /\ hypervolume pts ref total /\
    forall i, (i < length pts)%nat ->
      exists rest, hypervolume (firstn i pts ++ skipn (S i) pts) ref rest /\
        0 <= total - rest /\
        nth i hvc 0 = (if tol <=? total - rest then total - rest else 0).
Proof.
  intros * H Hb. destruct (hv_contributions_ok sort2d sortd dbl_max g tol pts d ref H Hb)
    as (total & hvc & E & Ht & L & Hi).
  exists hvc, total. do 3 (split; auto). intros i Hl. destruct (Hi i Hl) as (v & Hv & Hle & En).
  exists v. split; auto. split; [lia|auto].
Qed.
Print Assumptions C14_hv_contributions.

Theorem C14_exact_nonnegative_and_zero_if_covered :
  forall sort2d sortd dbl_max g tol (pts : list point) d ref,
  hv_input sort2d sortd dbl_max pts d ref ->
  (forall i, (i < d)%nat -> - dbl_max <= coord ref i) -> tol <= 1 ->
  exists hvc total,
    hv_contributions sort2d sortd dbl_max g tol pts d ref = Ret (hvc, pts) /\
    hypervolume pts ref total /\
    forall i, (i < length pts)%nat ->
      hypervolume (firstn i pts ++ skipn (S i) pts) ref (total - nth i hvc 0) /\
      0 <= nth i hvc 0 /\
      ((exists j, (j < length pts)%nat /\ j <> i /\
          forall k, (k < d)%nat -> coord (row pts j) k <= coord (row pts i) k) ->
       nth i hvc 0 = 0).
Proof.
  intros * H Hb Ht1. destruct (hv_contributions_ok sort2d sortd dbl_max g tol pts d ref H Hb)
    as (total & hvc & E & Ht & L & Hi).
  exists hvc, total. do 2 (split; auto). intros i Hl. destruct (Hi i Hl) as (v & Hv & Hle & En).
  assert (En2 : nth i hvc 0 = total - v). { rewrite En. destruct (Z.leb_spec tol (total - v)); lia. }
  rewrite En2. replace (total - (total - v)) with v by ring. split; auto. split; [lia|].
  intros (j & Hj & Hji & Hd). assert (total <= v); [|lia].
  eapply hypervolume_mono; [exact Ht|exact Hv|]. apply cover_cells.
  pose proof H as (_ & _ & _ & _ & Hr & _). rewrite Hr.
  intros p Hp _. rewrite (split_row pts i Hl) in Hp. apply in_app_iff in Hp. destruct Hp as [Hp|[<-|Hp]].
  - exists p. split; [|intros; lia]. unfold remove_row. apply in_app_iff; auto.
  - exists (row pts j). split; auto. unfold remove_row. apply in_app_iff.
    destruct (Nat.lt_ge_cases j i).
    + left. unfold row. rewrite <- (firstn_skipn i pts) at 1. rewrite app_nth1. apply nth_In.
      all: rewrite firstn_length; lia.
    + right. unfold row. rewrite <- (firstn_skipn (S i) pts) at 1.
      rewrite app_nth2; rewrite firstn_length; [|lia].
      apply nth_In. rewrite skipn_length. lia.
  - exists p. split; [|intros; lia]. unfold remove_row. apply in_app_iff; auto.
Qed.
Print Assumptions C14_exact_nonnegative_and_zero_if_covered.

Example C14_nonvacuous :
  hv_contributions sort2d_exec sortd_exec 1000 st0 1
    [[1;3;2]; [3;1;2]; [2;2;1]; [4;4;4]; [9;0;0]; [3;1;2]] 3 [5;5;5]
  = Ret ([6; 0; 12; 0; 0; 0], [[1;3;2]; [3;1;2]; [2;2;1]; [4;4;4]; [9;0;0]; [3;1;2]]).
Proof. vm_compute; reflexivity. Qed.

(** ** C44: the quantity averaged by vorobDev is the volume of the symmetric
    difference of the two dominated regions. *)
Theorem C44_symmetric_difference :
  forall sort2d sortd dbl_max g A B d ref,
  hv_input sort2d sortd dbl_max (A ++ B) d ref ->
  let hv pts := fpli_hv sort2d sortd dbl_max g pts d ref in
  exists v, hv_symdiff hv A B = Ret v /\ hv_symdiff hv B A = Ret v /\
    (exists cells, NoDup cells /\ v = Z.of_nat (length cells) /\
       forall z, In z cells <-> (dominated_cell A ref z /\ ~ dominated_cell B ref z) \/
                                (dominated_cell B ref z /\ ~ dominated_cell A ref z)) /\
    0 <= v /\
    (v = 0 <-> forall z, dominated_cell A ref z <-> dominated_cell B ref z).
Proof.
  intros * H hv.
  assert (HA : hv_input sort2d sortd dbl_max A d ref).
  { apply (hv_input_sub _ _ _ (A ++ B)); auto. intros p Hp; apply in_app_iff; auto. }
  assert (HB : hv_input sort2d sortd dbl_max B d ref).
  { apply (hv_input_sub _ _ _ (A ++ B)); auto. intros p Hp; apply in_app_iff; auto. }
  assert (HBA : hv_input sort2d sortd dbl_max (B ++ A) d ref).
  { apply (hv_input_sub _ _ _ (A ++ B)); auto. intros p Hp; apply in_app_iff. apply in_app_iff in Hp. tauto. }
  destruct (fpli_hv_exact _ _ _ g _ _ _ HA) as (a & Ea & Va).
  destruct (fpli_hv_exact _ _ _ g _ _ _ HB) as (b & Eb & Vb).
  destruct (fpli_hv_exact _ _ _ g _ _ _ H) as (u & Eu & Vu).
  destruct (fpli_hv_exact _ _ _ g _ _ _ HBA) as (u' & Eu' & Vu').
  assert (u' = u).
  { apply Z.le_antisymm; [apply (hypervolume_mono (B ++ A) (A ++ B) ref u' u Vu' Vu)|apply (hypervolume_mono (A ++ B) (B ++ A) ref u u' Vu Vu')];
    apply cover_cells; intros p Hp _; exists p;
      (split; [apply in_app_iff in Hp; apply in_app_iff; tauto|intros; lia]). }
  subst u'.
  destruct (hypervolume_symdiff A B ref a b u Va Vb Vu) as (cells & N & I & Ev).
  exists (2 * u - a - b). unfold hv_symdiff, hv. rewrite Ea, Eb, Eu, Eu'. cbn [bind].
  split; auto. split. { f_equal. lia. } split. { exists cells. auto. } rewrite Ev. split; [lia|]. split.
  - intros E0 z. assert (cells = []) by (destruct cells; [auto|simpl in E0; lia]). subst cells.
    assert (Hno := I z). simpl in Hno.
    assert (dec : forall (x y : point), {x = y} + {x <> y}) by (apply list_eq_dec, Z.eq_dec).
    destruct Va as (LA & _ & IA & _), Vb as (LB & _ & IB & _). rewrite <- IA, <- IB in *.
    destruct (in_dec dec z LA), (in_dec dec z LB); tauto.
  - intros Hz. destruct cells as [|z cells]; auto. exfalso.
    destruct (proj1 (I z) (or_introl eq_refl)) as [[P Q]|[P Q]]; apply Q, Hz, P.
Qed.
Print Assumptions C44_symmetric_difference.

Example C44_nonvacuous :
  hv_symdiff (fun pts => fpli_hv sort2d_exec sortd_exec 1000 st0 pts 2 [5;5])
     [[1;3]; [3;1]] [[2;2]] = Ret 5 /\
  hv_symdiff (fun pts => fpli_hv sort2d_exec sortd_exec 1000 st0 pts 2 [5;5])
     [[1;3]; [3;1]] [[3;1]; [1;3]; [4;4]] = Ret 0.
Proof. split; vm_compute; reflexivity. Qed.
