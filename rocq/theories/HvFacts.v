(** Consequences of exactness: order properties of [hypervolume] and of the
    results of [fpli_hv]. *)
From Coq Require Import List ZArith Lia Bool Arith Permutation Sorted.
From Verif Require Import Base Spec NondomModel NondomMain HvSpec Hv2dModel Hv2dProofs HvModel HvMain.
Import ListNotations.
Open Scope Z_scope.

(** What a caller has to provide: [qsort] behaves like a sort ([stable] only
    matters for four or more objectives), rectangular data, a reference point of
    the same dimension, and no coordinate below [-DBL_MAX]. *)
Definition hv_input sort2d sortd dbl_max (data : list point) (d : nat) (ref : point) : Prop :=
  valid_sort2d sort2d /\ valid_sort sortd /\ ((d <= 3)%nat \/ stable_sort sortd) /\
  wf_points d data /\ length ref = d /\ (2 <= d)%nat /\
  (forall p i, In p data -> (i < d)%nat -> - dbl_max <= coord p i).

Lemma fpli_hv_exact : forall sort2d sortd dbl_max g data d ref,
  hv_input sort2d sortd dbl_max data d ref ->
  exists v, fpli_hv sort2d sortd dbl_max g data d ref = Ret v /\ hypervolume data ref v.
Proof. intros * (A & B & C & D & E & F & G). apply fpli_hv_ok_gen; tauto. Qed.

Lemma hypervolume_mono : forall A B ref va vb,
  hypervolume A ref va -> hypervolume B ref vb ->
  (forall z, dominated_cell A ref z -> dominated_cell B ref z) -> va <= vb.
Proof.
  intros A B ref va vb (L & N & I & ->) (L' & N' & I' & ->) H.
  apply inj_le. apply NoDup_incl_length; auto. intros z Hz. apply I', H, I. auto.
Qed.

Lemma hypervolume_strict : forall A B ref va vb z0,
  hypervolume A ref va -> hypervolume B ref vb ->
  (forall z, dominated_cell A ref z -> dominated_cell B ref z) ->
  dominated_cell B ref z0 -> ~ dominated_cell A ref z0 -> va < vb.
Proof.
  intros A B ref va vb z0 (L & N & I & ->) (L' & N' & I' & ->) H H1 H2.
  apply inj_lt. apply (NoDup_incl_length (l := z0 :: L) (l' := L')).
  - constructor; auto. now rewrite I.
  - intros z [<-|Hz]. now apply I'. apply I', H, I. auto.
Qed.

Lemma hypervolume_nonneg : forall A ref v, hypervolume A ref v -> 0 <= v.
Proof. intros A ref v (L & _ & _ & ->). lia. Qed.

(** [q] covers [p] as far as the region below [ref] is concerned *)
Lemma cover_cells : forall A B ref,
  (forall p, In p A -> (forall i, (i < length ref)%nat -> coord p i < coord ref i) ->
     exists q, In q B /\ forall i, (i < length ref)%nat -> coord q i <= coord p i) ->
  forall z, dominated_cell A ref z -> dominated_cell B ref z.
Proof.
  intros A B ref H z (L & (p & Hp & Hle) & Hlt). split; auto. split; auto.
  destruct (H p Hp) as (q & Hq & Hqp).
  { intros i Hi. specialize (Hle i Hi). specialize (Hlt i Hi). lia. }
  exists q. split; auto. intros i Hi. specialize (Hqp i Hi). specialize (Hle i Hi). lia.
Qed.

Lemma fpli_hv_le : forall sort2d sortd dbl_max g1 g2 A B d ref,
  hv_input sort2d sortd dbl_max A d ref -> hv_input sort2d sortd dbl_max B d ref ->
  (forall p, In p A -> (forall i, (i < d)%nat -> coord p i < coord ref i) ->
     exists q, In q B /\ forall i, (i < d)%nat -> coord q i <= coord p i) ->
  exists va vb, fpli_hv sort2d sortd dbl_max g1 A d ref = Ret va /\
    fpli_hv sort2d sortd dbl_max g2 B d ref = Ret vb /\ va <= vb.
Proof.
  intros * HA HB H. destruct (fpli_hv_exact _ _ _ g1 _ _ _ HA) as (va & Ea & Va).
  destruct (fpli_hv_exact _ _ _ g2 _ _ _ HB) as (vb & Eb & Vb).
  exists va, vb. repeat split; auto. eapply hypervolume_mono; eauto.
  apply cover_cells. destruct HA as (_ & _ & _ & _ & -> & _). auto.
Qed.

Lemma fpli_hv_eq : forall sort2d sortd dbl_max g1 g2 A B d ref,
  hv_input sort2d sortd dbl_max A d ref -> hv_input sort2d sortd dbl_max B d ref ->
  (forall p, In p A -> (forall i, (i < d)%nat -> coord p i < coord ref i) ->
     exists q, In q B /\ forall i, (i < d)%nat -> coord q i <= coord p i) ->
  (forall p, In p B -> (forall i, (i < d)%nat -> coord p i < coord ref i) ->
     exists q, In q A /\ forall i, (i < d)%nat -> coord q i <= coord p i) ->
  exists v, fpli_hv sort2d sortd dbl_max g1 A d ref = Ret v /\
    fpli_hv sort2d sortd dbl_max g2 B d ref = Ret v.
Proof.
  intros * HA HB H1 H2. destruct (fpli_hv_le _ _ _ g1 g2 _ _ _ _ HA HB H1) as (va & vb & Ea & Eb & L1).
  destruct (fpli_hv_le _ _ _ g2 g1 _ _ _ _ HB HA H2) as (vb' & va' & Eb' & Ea' & L2).
  exists va. split; auto. rewrite Eb. f_equal. rewrite Ea in Ea'. rewrite Eb in Eb'.
  injection Ea' as ->. injection Eb' as ->. lia.
Qed.

Lemma hv_input_sub : forall sort2d sortd dbl_max A B d ref,
  hv_input sort2d sortd dbl_max A d ref -> incl B A -> hv_input sort2d sortd dbl_max B d ref.
Proof.
  intros * (H1 & H2 & H3 & H4 & H5 & H6 & H7) I. unfold hv_input.
  do 3 (split; auto). split.
  - unfold wf_points in *. rewrite Forall_forall in *. auto.
  - do 2 (split; auto). 
Qed.

Lemma sortd_exec_stable : stable_sort sortd_exec.
Proof.
  assert (V : valid_sort sortd_exec).
  { intros key l. unfold sortd_exec.
    apply sort_by_is_qsort; intros; try (apply Z.leb_le in H); try (apply Z.leb_gt in H); lia. }
  split; auto. intros key l v. unfold sortd_exec.
  assert (Hins : forall x l, StronglySorted (fun a b => key a <= key b) l ->
     filter (fun a => key a =? v) (insert_by (fun a b => key a <=? key b) x l) =
     filter (fun a => key a =? v) (x :: l)).
  { intros x l0. induction l0 as [|y t IH]; intros S0; cbn [insert_by]; auto.
    destruct (Z.leb_spec (key x) (key y)); auto.
    inversion S0; subst. cbn [filter]. rewrite IH by auto. cbn [filter].
    destruct (Z.eqb_spec (key x) v), (Z.eqb_spec (key y) v); auto. lia. }
  induction l as [|x l IH]; auto.
  change (sort_by (fun a b => key a <=? key b) (x :: l)) with
    (insert_by (fun a b => key a <=? key b) x (sort_by (fun a b => key a <=? key b) l)).
  rewrite Hins by apply (V key l). cbn [filter]. now rewrite IH.
Qed.

Lemma sortd_rev_valid : valid_sort sortd_rev.
Proof.
  intros key l. destruct (proj1 sortd_exec_stable key (rev l)) as [P S0]. split; auto.
  eapply Permutation_trans; [apply Permutation_rev|]. exact P.
Qed.

Lemma select_In : forall pts nd p, length nd = length pts ->
  (In p (select pts nd) <-> exists i, (i < length pts)%nat /\ nth i nd false = true /\ row pts i = p).
Proof.
  induction pts as [|q pts IH]; intros [|b nd] p HL; simpl in HL; try discriminate.
  - simpl. split; [tauto|]. intros (i & H & _). lia.
  - cbn [select]. specialize (IH nd p ltac:(lia)). split.
    + intros H. destruct b.
      * destruct H as [<-|H]. { exists 0%nat. simpl. repeat split; auto. lia. }
        apply IH in H. destruct H as (i & A & B & C). exists (S i). simpl. repeat split; auto. lia.
      * apply IH in H. destruct H as (i & A & B & C). exists (S i). simpl. repeat split; auto. lia.
    + intros ([|i] & A & B & C); simpl in A, B, C.
      * subst. simpl. auto.
      * assert (In p (select pts nd)) by (apply IH; exists i; repeat split; auto; lia).
        destruct b; simpl; auto.
Qed.
