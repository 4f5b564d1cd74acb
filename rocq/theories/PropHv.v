(** Property theorems about the hypervolume indicator (C08-C12).
    The specification is [hypervolume] in HvSpec.v: the number of unit cells
    (integer coordinates) that are weakly dominated by some point of the set and
    lie below the reference point. *)
From Coq Require Import List ZArith Lia Bool Arith Permutation.
From Verif Require Import Base Spec NondomModel NondomProofs2d NondomMain NondomExtra
  HvSpec Hv2dModel Hv2dProofs HvModel HvMain HvFacts.
Import ListNotations.
Open Scope Z_scope.

(** ** C08: with two objectives the result is the exact area. *)
Theorem C08_hv2d_exact :
  forall (sort2d : list point -> list nat) (pts : list point) (ref : point),
  valid_sort2d sort2d -> length ref = 2%nat ->
  exists v, hv2d sort2d pts ref = Ret v /\ hypervolume pts ref v.
Proof. intros. now apply hv2d_ok. Qed.
Print Assumptions C08_hv2d_exact.

Example C08_nonvacuous :
  hv2d sort2d_exec [[1;3]; [3;1]; [2;2]; [4;4]; [9;0]; [2;2]] [5;5] = Ret 13 /\
  valid_sort2d sort2d_exec.
Proof. split. reflexivity. apply sort2d_exec_valid. Qed.

(** ** C09: three objectives.  [sortd] is any correct [qsort], [g] is the
    contents of the uninitialised memory, [dbl_max] is DBL_MAX. *)
Theorem C09_hv3d_exact :
  forall sort2d sortd dbl_max g (pts : list point) (ref : point),
  valid_sort2d sort2d -> valid_sort sortd ->
  wf_points 3 pts -> length ref = 3%nat ->
  (forall p i, In p pts -> (i < 3)%nat -> - dbl_max <= coord p i) ->
  exists v, fpli_hv sort2d sortd dbl_max g pts 3 ref = Ret v /\ hypervolume pts ref v.
Proof. intros. apply fpli_hv_ok_gen; auto. Qed.
Print Assumptions C09_hv3d_exact.

Example C09_nonvacuous :
  fpli_hv sort2d_exec sortd_rev 1000 st0
    [[1;3;2]; [3;1;2]; [2;2;1]; [4;4;4]; [9;0;0]; [2;2;1]; [1;3;2]] 3 [5;5;5] = Ret 48 /\
  valid_sort2d sort2d_exec /\ valid_sort sortd_rev /\
  wf_points 3 [[1;3;2]; [3;1;2]; [2;2;1]; [4;4;4]; [9;0;0]; [2;2;1]; [1;3;2]].
Proof.
  split. vm_compute; reflexivity. split. apply sort2d_exec_valid. split. apply sortd_rev_valid.
  repeat constructor.
Qed.

(** ** C10: any number of objectives.  Full claim: for every [qsort].  Proved for
    every stable [qsort], and for every [qsort] when no two rows share a value in
    the objectives 3..d-1; refuted for unstable ones below. *)
Theorem C10_hv_exact_stable_partial :
  forall sort2d sortd dbl_max g d (pts : list point) (ref : point),
  valid_sort2d sort2d -> stable_sort sortd ->
  wf_points d pts -> length ref = d -> (2 <= d)%nat ->
  (forall p i, In p pts -> (i < d)%nat -> - dbl_max <= coord p i) ->
  exists v, fpli_hv sort2d sortd dbl_max g pts d ref = Ret v /\ hypervolume pts ref v.
Proof. intros. apply fpli_hv_ok_gen; auto. apply H0. Qed.
Print Assumptions C10_hv_exact_stable_partial.

Theorem C10_hv_exact_no_ties_partial :
  forall sort2d sortd dbl_max g d (pts : list point) (ref : point),
  valid_sort2d sort2d -> valid_sort sortd ->
  wf_points d pts -> length ref = d -> (2 <= d)%nat ->
  (forall p i, In p pts -> (i < d)%nat -> - dbl_max <= coord p i) ->
  (forall i a b, (2 <= i)%nat -> (i + 1 < d)%nat -> (a < length pts)%nat -> (b < length pts)%nat ->
     a <> b -> coord (row pts a) i <> coord (row pts b) i) ->
  exists v, fpli_hv sort2d sortd dbl_max g pts d ref = Ret v /\ hypervolume pts ref v.
Proof. intros. apply fpli_hv_ok_gen; auto. Qed.
Print Assumptions C10_hv_exact_no_ties_partial.

Example C10_nonvacuous :
  let pts := [[1;1;1;1;7]; [1;1;1;2;3]; [5;5;0;3;2]; [2;0;6;1;1]; [0;7;2;2;2]] in
  fpli_hv sort2d_exec sortd_exec 1000 st0 pts 5 [10;10;10;10;10] = Ret 56290 /\
  stable_sort sortd_exec /\ wf_points 5 pts.
Proof.
  split. vm_compute; reflexivity. split. apply sortd_exec_stable. repeat constructor.
Qed.

(** Four objectives, three rows, ties: a correct but unstable [qsort] makes
    [fpli_hv] return 3208 although the hypervolume is 6736. *)
Theorem C10_unstable_sort_refuted :
  exists pts ref sortd v v',
    valid_sort sortd /\ wf_points 4 pts /\ length ref = 4%nat /\
    (forall p i, In p pts -> (i < 4)%nat -> - 1000 <= coord p i) /\
    fpli_hv sort2d_exec sortd 1000 st0 pts 4 ref = Ret v /\
    hypervolume pts ref v' /\ v <> v'.
Proof.
  set (pts := [[1;1;1;1]; [1;1;1;2]; [5;5;0;3]]). set (ref := [10;10;10;10]).
  assert (W : wf_points 4 pts) by (repeat constructor).
  assert (B : forall p i, In p pts -> (i < 4)%nat -> - 1000 <= coord p i).
  { intros p i Hp Hi. simpl in Hp.
    destruct Hp as [<-|[<-|[<-|[]]]]; destruct i as [|[|[|[|]]]]; cbn; lia. }
  destruct (C10_hv_exact_stable_partial sort2d_exec sortd_exec 1000 st0 4 pts ref) as (v & E & Hv); auto.
  apply sort2d_exec_valid. apply sortd_exec_stable.
  exists pts, ref, sortd_rev, 3208, v. split. apply sortd_rev_valid.
  do 3 (split; auto). split. vm_compute; reflexivity. split; auto.
  assert (E2 : fpli_hv sort2d_exec sortd_exec 1000 st0 pts 4 ref = Ret 6736) by (vm_compute; reflexivity).
  rewrite E in E2. injection E2 as ->. lia.
Qed.
Print Assumptions C10_unstable_sort_refuted.

(** One objective is not supported: [ASSUME(d > 2)] is violated. *)
Theorem C10_one_objective_refuted :
  exists pts ref, wf_points 1 pts /\ length ref = 1%nat /\
    fpli_hv sort2d_exec sortd_exec 1000 st0 pts 1 ref = AssertFailed.
Proof. exists [[3]], [5]. split. repeat constructor. split; reflexivity. Qed.
Print Assumptions C10_one_objective_refuted.

(** ** C11: what does not matter.  [hv_input] (HvFacts.v) collects the
    preconditions of C08-C10. *)

(** only the set of rows matters: neither their order nor repetitions *)
Theorem C11_rows_order_and_duplicates :
  forall sort2d sortd dbl_max g1 g2 A B d ref,
  hv_input sort2d sortd dbl_max A d ref ->
  (forall p, In p A <-> In p B) ->
  exists v, fpli_hv sort2d sortd dbl_max g1 A d ref = Ret v /\
            fpli_hv sort2d sortd dbl_max g2 B d ref = Ret v.
Proof.
  intros. apply fpli_hv_eq; auto.
  - eapply hv_input_sub; eauto. intros p Hp. now apply H0.
  - intros p Hp _. exists p. split. now apply H0. intros; lia.
  - intros p Hp _. exists p. split. now apply H0. intros; lia.
Qed.
Print Assumptions C11_rows_order_and_duplicates.

(** a weakly dominated row can be removed *)
Theorem C11_remove_weakly_dominated :
  forall sort2d sortd dbl_max g1 g2 l1 p l2 d ref,
  hv_input sort2d sortd dbl_max (l1 ++ p :: l2) d ref ->
  (exists q, In q (l1 ++ l2) /\ forall i, (i < d)%nat -> coord q i <= coord p i) ->
  exists v, fpli_hv sort2d sortd dbl_max g1 (l1 ++ p :: l2) d ref = Ret v /\
            fpli_hv sort2d sortd dbl_max g2 (l1 ++ l2) d ref = Ret v.
Proof.
  intros * H (q & Hq & Hd). apply fpli_hv_eq; auto.
  - eapply hv_input_sub; eauto. intros x Hx. apply in_app_iff in Hx. apply in_app_iff. simpl. tauto.
  - intros x Hx _. apply in_app_iff in Hx. simpl in Hx.
    destruct Hx as [Hx|[<-|Hx]]; [exists x|exists q|exists x]; (split; [first [assumption|apply in_app_iff; auto]|intros; try lia; auto]).
  - intros x Hx _. exists x. split. { apply in_app_iff in Hx. apply in_app_iff. simpl. tauto. } intros; lia.
Qed.
Print Assumptions C11_remove_weakly_dominated.

(** a row that is not strictly better than the reference everywhere can be
    removed *)
Theorem C11_remove_outside :
  forall sort2d sortd dbl_max g1 g2 l1 p l2 d ref,
  hv_input sort2d sortd dbl_max (l1 ++ p :: l2) d ref ->
  (exists i, (i < d)%nat /\ coord ref i <= coord p i) ->
  exists v, fpli_hv sort2d sortd dbl_max g1 (l1 ++ p :: l2) d ref = Ret v /\
            fpli_hv sort2d sortd dbl_max g2 (l1 ++ l2) d ref = Ret v.
Proof.
  intros * H (i & Hi & Hd). apply fpli_hv_eq; auto.
  - eapply hv_input_sub; eauto. intros x Hx. apply in_app_iff in Hx. apply in_app_iff. simpl. tauto.
  - intros x Hx Hb. apply in_app_iff in Hx. simpl in Hx.
    destruct Hx as [Hx|[<-|Hx]]; [exists x| |exists x]; try (split; [first [assumption|apply in_app_iff; auto]|intros; try lia; auto]).
    specialize (Hb i Hi). lia.
  - intros x Hx _. exists x. split. { apply in_app_iff in Hx. apply in_app_iff. simpl. tauto. } intros; lia.
Qed.
Print Assumptions C11_remove_outside.

(** filtering dominated rows first (python [filter_dominated]) changes nothing *)
Theorem C11_filter_dominated :
  forall sort2d sortd dbl_max g1 g2 pts d ref keep_weakly,
  hv_input sort2d sortd dbl_max pts d ref ->
  exists nondom v,
    is_nondominated sort2d pts (repeat false d) keep_weakly = Ret nondom /\
    fpli_hv sort2d sortd dbl_max g1 pts d ref = Ret v /\
    fpli_hv sort2d sortd dbl_max g2 (select pts nondom) d ref = Ret v.
Proof.
  intros * H. pose proof H as (H1 & _ & _ & H4 & _).
  assert (W : wf_points (length (repeat false d)) pts) by now rewrite repeat_length.
  assert (WD : forall p q, wdom (repeat false d) p q -> forall i, (i < d)%nat -> coord p i <= coord q i).
  { intros p q Hw i Hi. specialize (Hw i). rewrite repeat_length in Hw. specialize (Hw Hi).
    unfold as_good in Hw. replace (nth i (repeat false d) false) with false in Hw; auto.
    symmetry. apply nth_repeat. }
  destruct (is_nondominated_ok sort2d (repeat false d) pts false H1 W) as (nd0 & E0 & L0 & A0 & _ & B0).
  assert (Hex : exists nondom, is_nondominated sort2d pts (repeat false d) keep_weakly = Ret nondom /\
     length nondom = length pts /\
     forall i, (i < length pts)%nat -> exists j, (j < length pts)%nat /\ nth j nondom false = true /\
        wdom (repeat false d) (row pts j) (row pts i)).
  { destruct keep_weakly.
    - destruct (is_nondominated_ok sort2d (repeat false d) pts true H1 W) as (nd & E & L & A).
      exists nd. do 2 (split; auto). intros i Hi. destruct (B0 i Hi) as (j & Hj & K & Hw).
      exists j. split; auto. split; auto. apply A; auto.
    - exists nd0. auto. }
  destruct Hex as (nd & E & L & B). exists nd.
  destruct (fpli_hv_eq sort2d sortd dbl_max g1 g2 pts (select pts nd) d ref) as (v & V1 & V2); eauto.
  - eapply hv_input_sub; eauto. intros p Hp. apply select_In in Hp; auto.
    destruct Hp as (i & Hi & _ & <-). now apply In_row.
  - intros p Hp _. apply row_In_inv in Hp. destruct Hp as (i & Hi & <-).
    destruct (B i Hi) as (j & Hj & K & Hw). exists (row pts j). split.
    + apply select_In; eauto.
    + now apply WD.
  - intros p Hp _. exists p. split; [|intros; lia]. apply select_In in Hp; auto.
    destruct Hp as (i & Hi & _ & <-). now apply In_row.
Qed.
Print Assumptions C11_filter_dominated.

(** ** C12: order properties *)
Theorem C12_adding_points_never_decreases :
  forall sort2d sortd dbl_max g1 g2 A B d ref,
  hv_input sort2d sortd dbl_max B d ref -> incl A B ->
  exists va vb, fpli_hv sort2d sortd dbl_max g1 A d ref = Ret va /\
    fpli_hv sort2d sortd dbl_max g2 B d ref = Ret vb /\ va <= vb.
Proof.
  intros. apply fpli_hv_le; auto. eapply hv_input_sub; eauto.
  intros p Hp _. exists p. split; auto. intros; lia.
Qed.
Print Assumptions C12_adding_points_never_decreases.

(** Pareto compliance: if every row of [B] is weakly dominated by a row of [A]
    then hv(A) >= hv(B), and hv(A) > hv(B) when moreover [A] has a row inside the
    reference region that no row of [B] weakly dominates. *)
Theorem C12_pareto_compliant :
  forall sort2d sortd dbl_max g1 g2 A B d ref,
  hv_input sort2d sortd dbl_max A d ref -> hv_input sort2d sortd dbl_max B d ref ->
  (forall b, In b B -> exists a, In a A /\ forall i, (i < d)%nat -> coord a i <= coord b i) ->
  exists va vb, fpli_hv sort2d sortd dbl_max g1 A d ref = Ret va /\
    fpli_hv sort2d sortd dbl_max g2 B d ref = Ret vb /\ vb <= va /\
    ((exists a, In a A /\ (forall i, (i < d)%nat -> coord a i < coord ref i) /\
        ~ exists b, In b B /\ forall i, (i < d)%nat -> coord b i <= coord a i) -> vb < va).
Proof.
  intros * HA HB H. destruct (fpli_hv_exact _ _ _ g1 _ _ _ HA) as (va & Ea & Va).
  destruct (fpli_hv_exact _ _ _ g2 _ _ _ HB) as (vb & Eb & Vb).
  pose proof HA as (_ & _ & _ & W & Hr & _).
  assert (C : forall z, dominated_cell B ref z -> dominated_cell A ref z).
  { apply cover_cells. rewrite Hr. auto. }
  exists va, vb. repeat (split; auto).
  - eapply hypervolume_mono; eauto.
  - intros (a & Ha & Hlt & Hn). eapply (hypervolume_strict B A ref vb va a); eauto.
    + split. { unfold wf_points in W. rewrite Forall_forall in W. rewrite W by auto. auto. }
      rewrite Hr. split; auto. exists a. split; auto. intros; lia.
    + intros (_ & (b & Hb & Hle) & _). rewrite Hr in Hle. apply Hn. eauto.
Qed.
Print Assumptions C12_pareto_compliant.

Theorem C12_nonnegative_and_zero_iff :
  forall sort2d sortd dbl_max g A d ref,
  hv_input sort2d sortd dbl_max A d ref ->
  exists v, fpli_hv sort2d sortd dbl_max g A d ref = Ret v /\ 0 <= v /\
    (v = 0 <-> ~ exists p, In p A /\ forall i, (i < d)%nat -> coord p i < coord ref i).
Proof.
  intros * HA. destruct (fpli_hv_exact _ _ _ g _ _ _ HA) as (v & E & Hv).
  pose proof HA as (_ & _ & _ & W & Hr & _).
  exists v. split; auto. split. eapply hypervolume_nonneg; eauto.
  destruct Hv as (L & N & I & ->). split.
  - intros HL (p & Hp & Hlt). assert (In p L).
    { apply I. split. { unfold wf_points in W. rewrite Forall_forall in W. rewrite W by auto. auto. }
      rewrite Hr. split; auto. exists p. split; auto. intros; lia. }
    destruct L; simpl in *; [contradiction|lia].
  - intros Hn. destruct L as [|z L]; auto. exfalso. apply Hn.
    destruct (proj1 (I z) (or_introl eq_refl)) as (_ & (p & Hp & Hle) & Hlt).
    exists p. split; auto. intros i Hi. rewrite Hr in *. specialize (Hle i Hi). specialize (Hlt i Hi). lia.
Qed.
Print Assumptions C12_nonnegative_and_zero_iff.

Lemma hv_input_example :
  hv_input sort2d_exec sortd_exec 1000
    [[1;1;1;1]; [1;1;1;2]; [5;5;0;3]; [12;0;0;0]] 4 [10;10;10;10].
Proof.
  split. apply sort2d_exec_valid. split. apply sortd_exec_stable. split. right; apply sortd_exec_stable.
  split. repeat constructor. split. reflexivity. split. lia.
  intros p i Hp Hi. simpl in Hp.
  destruct Hp as [<-|[<-|[<-|[<-|[]]]]]; destruct i as [|[|[|[|]]]]; cbn; lia.
Qed.

Example C11_C12_nonvacuous :
  let hv pts := fpli_hv sort2d_exec sortd_exec 1000 st0 pts 4 [10;10;10;10] in
  hv [[1;1;1;1]; [1;1;1;2]; [5;5;0;3]; [12;0;0;0]] = Ret 6736 /\
  hv [[5;5;0;3]; [1;1;1;1]; [1;1;1;1]] = Ret 6736 /\
  hv [[5;5;0;3]] = Ret 1750 /\ hv [[12;0;0;0]; [10;1;1;1]] = Ret 0.
Proof. repeat split; vm_compute; reflexivity. Qed.
