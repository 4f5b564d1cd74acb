(** Further lemmas about c/nondominated.h and check_nondominated. *)
From Coq Require Import List ZArith Lia Bool Arith Permutation Sorted.
From Verif Require Import Base Spec NondomModel NondomProofs NondomProofs2d NondomMain.
Import ListNotations.
Open Scope Z_scope.

Lemma is_nondominated_ok : forall sort2d mx pts kw,
  valid_sort2d sort2d -> wf_points (length mx) pts ->
  exists nd, is_nondominated sort2d pts mx kw = Ret nd /\ filter_spec kw mx pts nd.
Proof.
  intros. destruct (find_nd_filter_ok sort2d H mx pts H0 kw) as (nd & r & E & HF & _).
  exists nd. unfold is_nondominated. rewrite E. auto.
Qed.

Lemma is_nondominated_last : forall sort2d mx pts nd,
  valid_sort2d sort2d -> wf_points (length mx) pts -> length mx <> 2%nat ->
  is_nondominated sort2d pts mx false = Ret nd ->
  forall i j, (i < j < length pts)%nat -> row pts i = row pts j -> nth i nd false = false.
Proof.
  intros. unfold is_nondominated in H2. apply bind_Ret_inv in H2.
  destruct H2 as ([nd' r] & E & E'). inversion E'; subst. simpl.
  eapply find_nd_last_ok; eauto.
Qed.

(** *** Maximisation = minimisation of negated columns *)

Lemma leq_pair_negate : forall mx p q, length p = length mx -> length q = length mx ->
  wdomA AGREE_NONE (minmax_from_bool mx) (length mx) p q =
  wdomA AGREE_NONE (minmax_from_bool (map (fun _ => false) mx)) (length mx)
        (negate_max (minmax_from_bool mx) p) (negate_max (minmax_from_bool mx) q).
Proof.
  intros. apply eq_true_iff_eq.
  rewrite wdomA_wdom.
  replace (length mx) with (length (map (fun _ : bool => false) mx)) at 1 by apply map_length.
  rewrite wdomA_wdom. unfold wdom, as_good. rewrite map_length.
  split; intros K d Hd; specialize (K d Hd);
    rewrite ?negate_max_coord in * by auto;
    rewrite (nth_map_lt _ _ (fun _ : bool => false) mx d false false) in * by auto;
    destruct (nth d mx false); lia.
Qed.

Lemma wdomA_seq : forall agree mm dim p q,
  forallb (goodA agree mm p q) (seq 0 dim) = wdomA agree mm dim p q.
Proof. reflexivity. Qed.

Lemma nd_inner_negate : forall mx pts fd kw k js nd,
  wf_points (length mx) pts ->
  nd_inner pts (length mx) (minmax_from_bool mx) AGREE_NONE fd kw k js nd =
  nd_inner (map (negate_max (minmax_from_bool mx)) pts) (length mx)
     (minmax_from_bool (map (fun _ => false) mx)) AGREE_NONE fd kw k js nd.
Proof.
  induction js; intros; cbn [nd_inner]; auto.
  destruct (rd nd k); cbn [bind]; auto. destruct (negb a0); auto.
  destruct (rd nd a); cbn [bind]; auto. destruct (negb a1). auto.
  unfold rd at 1 2 5 6. rewrite !nth_error_map.
  destruct (nth_error pts k) as [pk|] eqn:Ek; cbn [option_map bind]; auto.
  destruct (nth_error pts a) as [pj|] eqn:Ej; cbn [option_map bind]; auto.
  rewrite !leq_pair_eq, !wdomA_seq.
  unfold wf_points in H. pose proof H as H'. rewrite Forall_forall in H'.
  pose proof (H' _ (nth_error_In _ _ Ek)). pose proof (H' _ (nth_error_In _ _ Ej)).
  rewrite <- !leq_pair_negate by auto. cbn [andb].
  destruct (wr nd k _); cbn [bind]; auto.
  destruct (wr a2 a _); cbn [bind]; auto.
  destruct (rd a3 k); cbn [bind]; auto.
  destruct (rd a3 a); cbn [bind]; auto.
  destruct (assert_ _); cbn [bind]; auto.
  destruct (fd && _); auto.
Qed.

Lemma nd_outer_negate : forall mx pts fd kw ks nd,
  wf_points (length mx) pts ->
  nd_outer pts (length mx) (minmax_from_bool mx) AGREE_NONE fd kw ks nd =
  nd_outer (map (negate_max (minmax_from_bool mx)) pts) (length mx)
     (minmax_from_bool (map (fun _ => false) mx)) AGREE_NONE fd kw ks nd.
Proof.
  induction ks; intros; cbn [nd_outer]; auto.
  rewrite map_length. rewrite <- nd_inner_negate by auto.
  destruct (nd_inner _ _ _ _ _ _ _ _ _) as [[nd' [pos|]]| | |]; cbn [bind]; auto.
Qed.

Lemma nomax_map_false : forall mx : list bool,
  existsb (fun m => 0 <? m) (minmax_from_bool (map (fun _ => false) mx)) = false.
Proof. induction mx; simpl; auto. Qed.

Lemma negate_nomax : forall mx p,
  existsb (fun m => 0 <? m) (minmax_from_bool mx) = false ->
  negate_max (minmax_from_bool mx) p = p.
Proof.
  induction mx; simpl; intros; auto. destruct p; auto.
  destruct a; simpl in *; try discriminate. f_equal. auto.
Qed.

Lemma force_agree_negate : forall mx pts,
  force_agree_minimize pts (minmax_from_bool mx) AGREE_NONE =
  Ret (map (negate_max (minmax_from_bool mx)) pts).
Proof.
  intros. unfold force_agree_minimize. simpl.
  destruct (existsb (fun m => 0 <? m) (minmax_from_bool mx)) eqn:E.
  - assert (A : forallb (fun m => negb (m =? 0)) (minmax_from_bool mx) = true).
    { clear. induction mx; simpl; auto. destruct a; auto. }
    now rewrite A.
  - f_equal. rewrite <- (map_id pts) at 1. apply map_ext. intros. now rewrite negate_nomax.
Qed.

Lemma force_agree_nomax : forall (mx : list bool) pts,
  force_agree_minimize pts (minmax_from_bool (map (fun _ => false) mx)) AGREE_NONE = Ret pts.
Proof. intros. unfold force_agree_minimize. simpl. now rewrite nomax_map_false. Qed.

Lemma find_nd_negate : forall sort2d mx pts nd fd kw,
  wf_points (length mx) pts ->
  find_nondominated_set_ sort2d pts (length mx) (minmax_from_bool mx) AGREE_NONE nd fd kw =
  find_nondominated_set_ sort2d (map (negate_max (minmax_from_bool mx)) pts) (length mx)
     (minmax_from_bool (map (fun _ => false) mx)) AGREE_NONE nd fd kw.
Proof.
  intros. unfold find_nondominated_set_. rewrite !map_length.
  destruct (length pts <? 2)%nat; auto.
  destruct (Nat.eqb_spec (length mx) 2).
  - rewrite force_agree_negate, force_agree_nomax. reflexivity.
  - now rewrite <- nd_outer_negate by auto.
Qed.

Lemma is_nondominated_negate : forall sort2d mx pts kw,
  wf_points (length mx) pts ->
  is_nondominated sort2d pts mx kw =
  is_nondominated sort2d (map (negate_max (minmax_from_bool mx)) pts)
                  (map (fun _ => false) mx) kw.
Proof.
  intros. unfold is_nondominated. rewrite !map_length.
  now rewrite <- find_nd_negate by auto.
Qed.

(** *** check_nondominated for three or more objectives *)

Definition has_redundant (mx : list bool) (s : list point) : Prop :=
  exists i j, (i < length s)%nat /\ (j < length s)%nat /\ i <> j /\
              wdom mx (row s i) (row s j).

Lemma countb_all : forall nd : list bool, countb (fun b => b) nd = length nd ->
  forall i, (i < length nd)%nat -> nth i nd false = true.
Proof.
  induction nd; simpl; intros; try lia.
  pose proof (countb_le nd (fun b => b)).
  destruct a; try lia. destruct i; auto. apply IHnd; lia.
Qed.

Lemma countb_notall : forall nd : list bool, (countb (fun b => b) nd < length nd)%nat ->
  exists i, (i < length nd)%nat /\ nth i nd false = false.
Proof.
  induction nd; simpl; intros; try lia.
  destruct a.
  - destruct IHnd as (i & Hi & E); try lia. exists (S i). split; auto. lia.
  - exists O. split; auto. lia.
Qed.

Lemma strict_filter_all : forall mx pts nd, wf_points (length mx) pts ->
  strict_filter_spec mx pts nd ->
  ((countb (fun b => b) nd < length pts)%nat <-> has_redundant mx pts).
Proof.
  intros mx pts nd Hwf (HL & H1 & H2 & H3). split.
  - intros H. rewrite <- HL in H. destruct (countb_notall nd H) as (i & Hi & E).
    rewrite HL in Hi. destruct (H3 i Hi) as (j & Hj & Kj & W).
    exists j, i. split; auto. split; auto. split; auto.
    intro; subst. unfold kept in Kj. congruence.
  - intros (i & j & Hi & Hj & Hne & W).
    pose proof (countb_le nd (fun b => b)) as CL.
    destruct (Nat.lt_ge_cases (countb (fun b => b) nd) (length pts)); auto. exfalso.
    assert (A : forall k, (k < length pts)%nat -> kept nd k).
    { intros. apply countb_all; lia. }
    destruct (dec_wdom mx (row pts j) (row pts i)) as [W'|W'].
    + apply (H2 i j); auto. eapply wdom_antisym; eauto; eapply wf_row_length; eauto.
    + apply (H1 j Hj (A j Hj)). exists i. split; auto. rewrite dom_iff. auto.
Qed.

Lemma check_nondominated_ok : forall sort2d mx sets,
  valid_sort2d sort2d -> Forall (wf_points (length mx)) sets -> length mx <> 2%nat ->
  exists nds found,
    check_nondominated sort2d sets (length mx) (minmax_from_bool mx) AGREE_NONE
      = Ret (concat nds, found) /\
    Forall2 (strict_filter_spec mx) sets nds /\
    (found = true <-> exists s, In s sets /\ has_redundant mx s).
Proof.
  intros sort2d mx sets Hs Hwf Hd. induction Hwf as [|s sets Hwf1 Hwf IH].
  - exists [], false. split; auto. split; auto. split; [discriminate|].
    intros (s & [] & _).
  - cbn [check_nondominated]. unfold find_nondominated_set_agree.
    destruct (find_nd_filter_ok sort2d Hs mx s Hwf1 false) as (nd & r & E & HF & Hr).
    rewrite E. cbn [bind].
    assert (HL : length nd = length s) by (destruct HF; auto).
    assert (Hr' : r = Z.of_nat (countb (fun b => b) nd)).
    { rewrite Hr. destruct (Nat.ltb_spec (length s) 2).
      - destruct HF as (_ & _ & _ & HF). f_equal.
        destruct s as [|p [|]]; simpl in *; try lia; destruct nd as [|b [|]]; simpl in *; try lia; auto.
        destruct (HF 0%nat ltac:(lia)) as (j & Hj & K & _).
        assert (j = 0)%nat by lia. subst. unfold kept in K. simpl in K. subst. reflexivity.
      - destruct (Nat.eqb_spec (length mx) 2); auto. lia. }
    pose proof (countb_le nd (fun b => b)) as CL. rewrite HL in CL.
    destruct (Z.leb_spec r (Z.of_nat (length s))); try lia. cbn [assert_ bind].
    destruct IH as (nds & found & E' & F2 & HFd). rewrite E'. cbn [bind].
    exists (nd :: nds), ((r <? Z.of_nat (length s)) || found).
    split; auto. split; [constructor; auto|].
    rewrite orb_true_iff, Z.ltb_lt, HFd.
    rewrite Hr', <- Nat2Z.inj_lt, (strict_filter_all mx s nd Hwf1 HF). split.
    + intros [K|(s' & I & K)]. exists s; simpl; auto. exists s'; simpl; auto.
    + intros (s' & [->|I] & K); eauto.
Qed.
