(** From the sweep to the specification: attainment of locations by runs. *)
From Coq Require Import List ZArith Lia Bool Arith Permutation Sorting.Sorted.
From Verif Require Import Base Spec EafSpec EafModel EafProofs.
Import ListNotations.
Open Scope Z_scope.

Lemma wdom2_iff : forall p z, wdom (minimise 2) p z <->
  coord p 0 <= coord z 0 /\ coord p 1 <= coord z 1.
Proof.
  intros. unfold wdom, minimise, as_good. simpl. split.
  - intros H. split; [apply (H 0%nat)|apply (H 1%nat)]; lia.
  - intros [H0 H1] [|[|k]] Hk; simpl; auto; lia.
Qed.

Lemma NoDup_app_l : forall A (a b : list A), NoDup (a ++ b) -> NoDup a.
Proof.
  induction a; simpl; intros; constructor; inversion H; subst.
  - intro. apply H2. apply in_or_app; auto.
  - eapply IHa; eauto.
Qed.

(** the number of true entries as a set of indices *)
Lemma countb_ge_iff : forall (f : nat -> bool) m (l : nat),
  (l <= countb f (seq 0 m))%nat <->
  exists ks, NoDup ks /\ length ks = l /\ forall k, In k ks -> (k < m)%nat /\ f k = true.
Proof.
  intros. rewrite countb_filter. split.
  - intros H. exists (firstn l (filter f (seq 0 m))).
    assert (N : NoDup (filter f (seq 0 m))) by (apply NoDup_filter, seq_NoDup).
    split; [|split].
    + rewrite <- (firstn_skipn l) in N. apply NoDup_app_l in N. auto.
    + rewrite firstn_length. lia.
    + intros k Hk. assert (In k (filter f (seq 0 m))).
      { rewrite <- (firstn_skipn l). apply in_or_app. auto. }
      apply filter_In in H0. destruct H0 as [H0 H1]. apply in_seq in H0. split; auto. lia.
  - intros (ks & N & L & H). subst l. apply NoDup_incl_length; auto.
    intros k Hk. apply filter_In. destruct (H k Hk). split; auto. apply in_seq. lia.
Qed.

Section Runs.
Variable runs : list (list point).
Let data := concat runs.
Let rt := runtab_spec 0 runs.

Lemma att_at_attains : forall zx zy k, (k < length runs)%nat ->
  (att_at data rt zx zy k = true <-> attains 2 (nth k runs []) [zx; zy]).
Proof.
  intros. unfold att_at. rewrite existsb_exists. unfold attains. split.
  - intros (i & Hi & F). apply in_seq in Hi.
    apply andb_prop in F. destruct F as [F F3]. apply andb_prop in F. destruct F as [F1 F2].
    apply Nat.eqb_eq in F1. apply Z.leb_le in F2. apply Z.leb_le in F3.
    exists (row data i). split.
    + apply (runtab_spec_In runs 0 k (row data i)). exists i. split; auto. unfold data in Hi. lia.
    + apply wdom2_iff. auto.
  - intros (p & Hp & W). apply wdom2_iff in W. destruct W as [W0 W1].
    change (coord [zx; zy] 0) with zx in W0. change (coord [zx; zy] 1) with zy in W1.
    destruct (proj2 (runtab_spec_In runs 0 k p) (conj H Hp)) as (i & Hi & R & E).
    exists i. split. apply in_seq. unfold data. lia.
    unfold rt. rewrite R, Nat.eqb_refl. fold data in E. rewrite E.
    rewrite (proj2 (Z.leb_le _ _) W0). now rewrite (proj2 (Z.leb_le _ _) W1).
Qed.

Lemma count_at_attained : forall zx zy (l : nat),
  (Z.of_nat l <= count_at data rt (length runs) zx zy <-> attained_by_at_least 2 l runs [zx; zy]).
Proof.
  intros. unfold count_at. rewrite <- Nat2Z.inj_le, countb_ge_iff. unfold attained_by_at_least.
  split; intros (ks & N & L & H); exists ks; (split; [exact N|split; [exact L|]]); intros k Hk; destruct (H k Hk);
    (split; [assumption|]); now apply att_at_attains.
Qed.
End Runs.

Lemma point2 : forall p : point, length p = 2%nat -> p = [coord p 0; coord p 1].
Proof. intros [|a [|b [|? ?]]]; simpl; intros; try discriminate. reflexivity. Qed.

Lemma cumsizes_total : forall runs, runs <> [] ->
  rd (cumsizes runs) (length runs - 1) = Ret (length (concat runs)).
Proof.
  intros. assert (0 < length runs)%nat by (destruct runs; simpl; [congruence|lia]).
  unfold cumsizes. rewrite (rd_ok _ _ _ O) by (rewrite cumsizes_from_length; lia).
  rewrite cumsizes_from_nth by lia. replace (S (length runs - 1)) with (length runs) by lia.
  rewrite firstn_all. reflexivity.
Qed.

Lemma runtab_cumsizes : forall runs, (forall r, In r runs -> r <> []) ->
  runtab_loop (cumsizes runs) (length (concat runs)) 0 0 = Ret (runtab_spec 0 runs).
Proof. intros. apply (runtab_loop_ok runs [] 0); auto. Qed.

(** what one level returns *)
Definition surface_ok (runs : list (list point)) (l : nat) (s : list (point * list bool)) : Prop :=
  staircase (map fst s) /\
  (forall o, In o s -> length (fst o) = 2%nat /\ length (snd o) = length runs /\
     forall k, (k < length runs)%nat ->
       (nth k (snd o) false = true <-> attains 2 (nth k runs []) (fst o))) /\
  (forall z, length z = 2%nat ->
     ((exists o, In o s /\ wdom (minimise 2) (fst o) z) <-> attained_by_at_least 2 l runs z)).

Lemma eaf2d_levels_ok : forall runs sortx sorty,
  runs <> [] -> (forall r, In r runs -> r <> []) -> wf_points 2 (concat runs) ->
  is_datax (concat runs) (sortx (concat runs)) -> is_datay (concat runs) (sorty (concat runs)) ->
  forall levels, Forall (fun l => (1 <= l)%nat) levels ->
  exists out, eaf2d sortx sorty (concat runs) (cumsizes runs) (length runs) (map Z.of_nat levels) = Ret out /\
    Forall2 (surface_ok runs) levels out.
Proof.
  intros runs sortx sorty Hr Hne Hwf Hdx Hdy levels Hl.
  unfold eaf2d. rewrite cumsizes_total by auto. cbn [bind]. rewrite firstn_all.
  rewrite runtab_cumsizes by auto. cbn [bind].
  assert (Hn : (1 <= length (concat runs))%nat).
  { destruct runs as [|r runs]; try congruence. simpl. rewrite app_length.
    specialize (Hne r (or_introl eq_refl)). destruct r; simpl; try congruence. lia. }
  induction levels as [|l levels]; cbn [map eaf2d_levels].
  - exists []. auto.
  - inversion Hl; subst. destruct (IHlevels H2) as (rest & E & F).
    destruct (eaf2d_level_ok (concat runs) (sortx (concat runs)) (sorty (concat runs))
       (runtab_spec 0 runs) (length runs) (Z.of_nat l)) as (s & E1 & O & C & S); auto; try lia.
    { apply runtab_spec_length. }
    { intros i Hi. pose proof (runtab_spec_range runs 0 i Hi). lia. }
    exists (s :: rest). rewrite E1. cbn [bind]. rewrite E. cbn [bind]. split; auto.
    constructor; auto. rewrite Forall_forall in O.
    split; auto. split.
    + intros o Ho. destruct (O o Ho) as (zx & zy & Ez & _ & L & Fl). rewrite Ez. split; auto. split; auto.
      intros k Hk. rewrite Fl by auto. now apply att_at_attains.
    + intros z Hz. rewrite (point2 z Hz). set (zx := coord z 0). set (zy := coord z 1). split.
      * intros (o & Ho & W). apply wdom2_iff in W. destruct W as [W0 W1].
        destruct (O o Ho) as (ox & oy & Eo & Lo & _). rewrite Eo in W0, W1.
        change (ox <= zx) in W0. change (oy <= zy) in W1.
        apply count_at_attained. eapply Z.le_trans; [apply Lo|]. apply count_at_mono; auto. apply runtab_spec_length.
      * intros A. apply count_at_attained in A. destruct (C zx zy A) as (o & Ho & W0 & W1).
        exists o. split; auto. apply wdom2_iff. auto.
Qed.

Lemma sortx_exec_ok : forall data, is_datax data (sortx_exec data).
Proof.
  intros. apply sort_by_is_qsort; unfold le_x_asc; intros.
  - now apply Z.leb_le. - apply Z.leb_gt in H. lia. - lia.
Qed.
Lemma sorty_exec_ok : forall data, is_datay data (sorty_exec data).
Proof.
  intros. apply sort_by_is_qsort; unfold le_y_desc; intros.
  - now apply Z.leb_le. - apply Z.leb_gt in H. lia. - lia.
Qed.
