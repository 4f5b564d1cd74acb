From Coq Require Import List ZArith Lia Bool Arith Permutation Sorted.
From Verif Require Import Base NondomModel GroupModel GroupSpec.
Import ListNotations.
Open Scope Z_scope.

(** ** np.unique *)
Lemma np_unique_In : forall a v, In v (np_unique a) <-> In v a.
Proof.
  intros. unfold np_unique. rewrite <- (nodup_In Z.eq_dec a v).
  split; apply Permutation_in. apply Permutation_sym. all: apply sort_by_perm.
Qed.
Lemma np_unique_NoDup : forall a, NoDup (np_unique a).
Proof.
  intros. eapply Permutation_NoDup. apply sort_by_perm. apply NoDup_nodup.
Qed.
Lemma np_unique_sorted : forall a, StronglySorted Z.le (np_unique a).
Proof.
  intros. apply (sort_by_sorted Z Z.leb Z.le).
  all: intros; try (apply Z.leb_le; assumption); try lia.
  all: try (destruct (Z.leb_spec x y); lia).
Qed.

(** ** first_pos *)
Lemma first_pos_In : forall v a, In v a -> (first_pos v a < length a)%nat /\ nth (first_pos v a) a 0 = v.
Proof.
  induction a; simpl; intros. contradiction.
  destruct (Z.eqb_spec a v). subst. split. lia. reflexivity.
  destruct H. contradiction. destruct (IHa H). split. lia. assumption.
Qed.
Lemma first_pos_inj : forall a v w, In v a -> In w a -> first_pos v a = first_pos w a -> v = w.
Proof.
  intros. destruct (first_pos_In v a H) as [_ E1]. destruct (first_pos_In w a H0) as [_ E2].
  rewrite H1 in E1. congruence.
Qed.
Lemma first_pos_nth : forall a i, NoDup a -> (i < length a)%nat -> first_pos (nth i a 0) a = i.
Proof.
  intros. apply (proj1 (NoDup_nth a 0) H). apply first_pos_In. now apply nth_In. assumption.
  apply first_pos_In. now apply nth_In.
Qed.

(** ** strictly sorted lists with the same elements are equal *)
Lemma strict_sorted_unique : forall A (f : A -> nat) l1 l2,
  StronglySorted (fun a b => f a < f b)%nat l1 ->
  StronglySorted (fun a b => f a < f b)%nat l2 ->
  (forall a, In a l1 <-> In a l2) -> l1 = l2.
Proof.
  induction l1; intros.
  - destruct l2; auto. exfalso. apply (proj2 (H1 a)). left; auto.
  - destruct l2. exfalso. apply (proj1 (H1 a)). left; auto.
    inversion H; subst; clear H. inversion H0; subst; clear H0.
    rewrite Forall_forall in *.
    assert (a = a0).
    { destruct (proj1 (H1 a) (or_introl eq_refl)); auto.
      destruct (proj2 (H1 a0) (or_introl eq_refl)); auto.
      specialize (H5 _ H0). specialize (H6 _ H). lia. }
    subst. f_equal. apply IHl1; auto.
    intros x. split; intros.
    + destruct (proj1 (H1 x) (or_intror H)); auto. subst. specialize (H5 _ H). lia.
    + destruct (proj2 (H1 x) (or_intror H)); auto. subst. specialize (H6 _ H). lia.
Qed.

Lemma StronglySorted_strict : forall A (f : A -> nat) l,
  StronglySorted le (map f l) -> NoDup (map f l) ->
  StronglySorted (fun a b => f a < f b)%nat l.
Proof.
  induction l; simpl; intros; constructor.
  - inversion H; inversion H0; subst; auto.
  - inversion H; inversion H0; subst. rewrite Forall_forall in *. intros.
    specialize (H4 (f x) (in_map f _ _ H1)). assert (f a <> f x).
    { intro E. apply H7. rewrite E. now apply in_map. } lia.
Qed.

Lemma NoDup_map_in : forall A B (f : A -> B) l,
  (forall x y, In x l -> In y l -> f x = f y -> x = y) -> NoDup l -> NoDup (map f l).
Proof.
  induction l; simpl; intros; constructor; inversion H0; subst.
  - rewrite in_map_iff. intros (y & E & Hy). apply H3. rewrite (H a y); auto.
  - apply IHl; auto.
Qed.

(** ** in_order_of_appearance *)
Lemma ioa_In : forall a v, In v (in_order_of_appearance a) <-> In v a.
Proof.
  induction a; simpl; intros. tauto.
  rewrite filter_In, IHa. destruct (Z.eqb_spec v a); simpl; split; intros.
  all: intuition congruence.
Qed.
Lemma ioa_sorted : forall a,
  StronglySorted (fun v w => first_pos v a < first_pos w a)%nat (in_order_of_appearance a).
Proof.
  induction a; simpl. constructor.
  constructor.
  - assert (forall l, (forall v, In v l -> v <> a) ->
       StronglySorted (fun v w => first_pos v a0 < first_pos w a0)%nat l ->
       StronglySorted (fun v w => (if Z.eqb a v then 0 else S (first_pos v a0)) <
                                (if Z.eqb a w then 0 else S (first_pos w a0)))%nat l).
    { induction l; intros; constructor; inversion H0; subst.
      apply IHl; auto. intros. apply H. right; auto.
      rewrite Forall_forall in *. intros.
      destruct (Z.eqb_spec a a1). subst. exfalso. apply (H a1); auto. left; auto.
      destruct (Z.eqb_spec a x). subst. exfalso. apply (H x); auto. right; auto.
      specialize (H4 x H1). lia. }
    apply H.
    + intros. apply filter_In in H0. destruct H0. destruct (Z.eqb_spec v a); auto. discriminate.
    + clear H. induction IHa; simpl. constructor.
      destruct (negb (a1 =? a)); auto. constructor; auto.
      rewrite Forall_forall in *. intros. apply filter_In in H0. apply H, H0.
  - apply Forall_forall. intros. rewrite Z.eqb_refl. apply filter_In in H. destruct H.
    destruct (Z.eqb_spec a x). subst. rewrite Z.eqb_refl in H0. discriminate. lia.
Qed.
Lemma ioa_NoDup : forall a, NoDup (in_order_of_appearance a).
Proof.
  intros. generalize (ioa_sorted a). generalize (in_order_of_appearance a).
  induction l; intros; constructor.
  - intro. inversion H; subst. rewrite Forall_forall in H4. specialize (H4 _ H0). lia.
  - inversion H; auto.
Qed.

(** ** argsort *)
Lemma argsort_unique : forall argsort, valid_argsort le argsort -> forall a,
  map (fun i => nth i (np_unique a) 0) (argsort (unique_index a)) = in_order_of_appearance a.
Proof.
  intros argsort HA a. destruct (HA (unique_index a)) as [HP HS].
  set (p := argsort (unique_index a)) in *.
  assert (HL : length (unique_index a) = length (np_unique a)) by apply map_length.
  apply (strict_sorted_unique Z (fun v => first_pos v a)).
  - apply StronglySorted_strict; rewrite map_map.
    + specialize (HS 0%nat). erewrite map_ext_in. exact HS. intros i Hi.
      apply (Permutation_in _ (Permutation_sym HP)), in_seq in Hi. unfold unique_index.
      rewrite (nth_map_lt _ _ (fun v => first_pos v a) (np_unique a) i 0%nat 0). reflexivity. lia.
    + eapply Permutation_NoDup. apply Permutation_map. exact HP.
      rewrite HL. apply NoDup_map_in.
      * intros x y Hx Hy E. apply in_seq in Hx, Hy.
        apply first_pos_inj in E; try (apply np_unique_In; apply nth_In; lia).
        apply (proj1 (NoDup_nth (np_unique a) 0) (np_unique_NoDup a)); auto; lia.
      * apply seq_NoDup.
  - apply ioa_sorted.
  - intros v. rewrite ioa_In, in_map_iff. split.
    + intros (i & E & Hi). subst. apply (Permutation_in _ (Permutation_sym HP)), in_seq in Hi.
      apply np_unique_In, nth_In. lia.
    + intros. apply np_unique_In in H. destruct (first_pos_In _ _ H).
      exists (first_pos v (np_unique a)). split; auto.
      apply (Permutation_in _ HP), in_seq. lia.
Qed.

Lemma argsort_perm : forall argsort, valid_argsort le argsort -> forall l,
  Permutation (seq 0 (length l)) l ->
  map (fun i => nth i l 0%nat) (argsort l) = seq 0 (length l).
Proof.
  intros argsort HA l Hl. destruct (HA l) as [HP HS]. specialize (HS 0%nat).
  assert (HPm : Permutation (map (fun i => nth i l 0%nat) (argsort l)) (seq 0 (length l))).
  { transitivity (map (fun i => nth i l 0%nat) (seq 0 (length l))).
    apply Permutation_map. now symmetry.
    replace (map (fun i => nth i l 0%nat) (seq 0 (length l))) with l. now symmetry.
    apply (list_ext _ 0%nat). now rewrite map_length, seq_length. intros.
    rewrite (nth_map_lt _ _ _ _ i _ 0%nat). now rewrite seq_nth. now rewrite seq_length. }
  apply (strict_sorted_unique nat (fun i => i)).
  - apply StronglySorted_strict; rewrite map_id. exact HS.
    eapply Permutation_NoDup. symmetry. exact HPm. apply seq_NoDup.
  - apply StronglySorted_strict; rewrite map_id.
    assert (forall n k, StronglySorted le (seq k n)).
    { induction n; simpl; intros; constructor. apply IHn. apply Forall_forall. intros. apply in_seq in H. lia. }
    apply H. apply seq_NoDup.
  - intros. split; apply Permutation_in. exact HPm. symmetry; exact HPm.
Qed.

(** ** positions of a label *)
Fixpoint positions (k : nat) (labels : list Z) (v : Z) : list nat :=
  match labels with
  | [] => []
  | l :: labels' => if l =? v then k :: positions (S k) labels' v else positions (S k) labels' v
  end.

Lemma positions_flat : forall labels v k f, 
  (forall j, (j < length labels)%nat -> nth (k + j) f false = (nth j labels 0 =? v)) ->
  filter (fun i => nth i f false) (seq k (length labels)) = positions k labels v.
Proof.
  induction labels; simpl; intros. reflexivity.
  pose proof (H 0%nat ltac:(lia)). rewrite Nat.add_0_r in H0. simpl in H0. rewrite H0.
  rewrite (IHlabels v (S k)).
  reflexivity. intros. specialize (H (S j) ltac:(lia)). simpl in H.
  rewrite <- H. f_equal. lia.
Qed.

Lemma group_indices_eq : forall argsort, valid_argsort le argsort -> forall sets,
  group_indices argsort sets = map (positions 0 sets) (in_order_of_appearance sets).
Proof.
  intros. unfold group_indices. rewrite <- (argsort_unique argsort H), map_map.
  apply map_ext_in. intros i Hi. destruct (H (unique_index sets)) as [HP _].
  apply (Permutation_in _ (Permutation_sym HP)), in_seq in Hi.
  unfold unique_index in Hi. rewrite map_length in Hi.
  unfold flatnonzero. rewrite map_length. unfold unique_inverse at 2. rewrite map_length.
  apply (positions_flat sets _ 0).
  intros j Hj. simpl. unfold unique_inverse. rewrite map_map.
  rewrite (nth_map_lt _ _ _ _ j _ 0) by lia.
  assert (In (nth j sets 0) (np_unique sets)) by (apply np_unique_In, nth_In; lia).
  destruct (first_pos_In _ _ H0) as [HL HE].
  destruct (Nat.eqb_spec (first_pos (nth j sets 0) (np_unique sets)) i).
  - subst i. rewrite HE. symmetry. apply Z.eqb_refl.
  - destruct (Z.eqb_spec (nth j sets 0) (nth i (np_unique sets) 0)); auto.
    exfalso. apply n. rewrite e. apply first_pos_nth. apply np_unique_NoDup. lia.
Qed.

Lemma positions_In : forall labels v k i,
  In i (positions k labels v) <-> (k <= i < k + length labels)%nat /\ nth (i - k) labels 0 = v.
Proof.
  induction labels; simpl; intros.
  - split; [tauto|]. intros [H _]. lia.
  - destruct (Z.eqb_spec a v); simpl; rewrite ?IHlabels.
    + split.
      * intros [H|[H E]]. subst. rewrite Nat.sub_diag. split; [lia|reflexivity].
        split. lia. destruct (i - k)%nat eqn:?. lia. replace n with (i - S k)%nat by lia. auto.
      * intros [H E]. destruct (Nat.eq_dec i k). auto. right. split. lia.
        destruct (i - k)%nat eqn:?. lia. replace (i - S k)%nat with n0 by lia. auto.
    + split.
      * intros [H E]. split. lia. destruct (i - k)%nat eqn:?. lia. replace n0 with (i - S k)%nat by lia. auto.
      * intros [H E]. destruct (i - k)%nat eqn:?. contradiction. split. lia.
        replace (i - S k)%nat with n0 by lia. auto.
Qed.
Lemma positions_NoDup : forall labels v k, NoDup (positions k labels v).
Proof.
  induction labels; simpl; intros. constructor.
  destruct (a =? v); auto. constructor; auto. rewrite positions_In. lia.
Qed.
Lemma positions_rank : forall labels v k r,
  (r < length (positions k labels v))%nat ->
  countb (Z.eqb v) (firstn (nth r (positions k labels v) 0%nat - k) labels) = r.
Proof.
  induction labels; simpl; intros. lia.
  destruct (Z.eqb_spec a v).
  - subst. destruct r; simpl. now rewrite Nat.sub_diag. simpl in H.
    assert (Hin : In (nth r (positions (S k) labels v) 0%nat) (positions (S k) labels v)) by (apply nth_In; lia).
    apply positions_In in Hin. destruct Hin as [Hr _].
    specialize (IHlabels v (S k) r ltac:(lia)).
    destruct (nth r (positions (S k) labels v) 0%nat - k)%nat eqn:E. lia.
    simpl. rewrite Z.eqb_refl. replace n with (nth r (positions (S k) labels v) 0 - S k)%nat by lia.
    rewrite IHlabels. lia.
  - assert (Hin : In (nth r (positions (S k) labels v) 0%nat) (positions (S k) labels v)) by (apply nth_In; lia).
    apply positions_In in Hin. destruct Hin as [Hr _].
    specialize (IHlabels v (S k) r ltac:(lia)).
    destruct (nth r (positions (S k) labels v) 0%nat - k)%nat eqn:E. lia.
    simpl. destruct (Z.eqb_spec v a). subst; contradiction.
    replace n0 with (nth r (positions (S k) labels v) 0 - S k)%nat by lia.
    rewrite IHlabels. lia.
Qed.
Lemma positions_length : forall A (x : list A) labels v k, length x = length labels ->
  length (positions k labels v) = length (rows_with x labels v).
Proof.
  induction x; destruct labels; simpl; intros; try discriminate; auto.
  destruct (z =? v); simpl; auto.
Qed.

Lemma concat_positions_perm : forall sets,
  Permutation (seq 0 (length sets))
    (concat (map (positions 0 sets) (in_order_of_appearance sets))).
Proof.
  intros. apply NoDup_Permutation.
  - apply seq_NoDup.
  - generalize (ioa_NoDup sets). generalize (in_order_of_appearance sets).
    induction l; simpl; intros. constructor.
    inversion H; subst. apply IHl in H3.
    assert (forall A (l1 l2 : list A), NoDup l1 -> NoDup l2 -> (forall z, In z l1 -> ~ In z l2) -> NoDup (l1 ++ l2)).
    { clear. induction l1; simpl; intros; auto. inversion H; subst. constructor.
      rewrite in_app_iff. intros [?|?]. auto. apply (H1 a); auto. apply IHl1; auto. }
    apply H0; auto. apply positions_NoDup.
    intros i Hi Hc. apply positions_In in Hi. apply in_concat in Hc.
    destruct Hc as (g & Hg & Hig). apply in_map_iff in Hg. destruct Hg as (w & <- & Hw).
    apply positions_In in Hig. destruct Hi, Hig. congruence.
  - intros i. rewrite in_seq, in_concat. split.
    + intros. exists (positions 0 sets (nth i sets 0)). split.
      apply in_map, ioa_In, nth_In. lia.
      apply positions_In. split. lia. now rewrite Nat.sub_0_r.
    + intros (g & Hg & Hi). apply in_map_iff in Hg. destruct Hg as (v & <- & Hv).
      apply positions_In in Hi. lia.
Qed.

(** ** take *)
Lemma take_ok : forall A (x : list A) d idx, (forall i, In i idx -> (i < length x)%nat) ->
  take x idx = Ret (map (fun i => nth i x d) idx).
Proof.
  induction idx; simpl; intros. reflexivity.
  rewrite (rd_ok _ x a d) by (apply H; auto). simpl. rewrite IHidx; auto.
Qed.
Lemma take_positions_aux : forall A (x : list A) labels v k pre, length x = length labels -> length pre = k ->
  take (pre ++ x) (positions k labels v) = Ret (rows_with x labels v).
Proof.
  induction x; destruct labels; simpl; intros; try discriminate; auto.
  assert (E : take (pre ++ a :: x) (positions (S k) labels v) = Ret (rows_with x labels v)).
  { replace (pre ++ a :: x) with ((pre ++ [a]) ++ x) by now rewrite <- app_assoc.
    apply IHx. lia. rewrite app_length. simpl. lia. }
  destruct (z =? v); auto. simpl.
  rewrite (rd_ok _ (pre ++ a :: x) k a) by (rewrite app_length; simpl; lia).
  rewrite app_nth2 by lia. rewrite H0, Nat.sub_diag. simpl. now rewrite E.
Qed.
Lemma take_positions : forall A (x : list A) labels v, length x = length labels ->
  take x (positions 0 labels v) = Ret (rows_with x labels v).
Proof. intros. now apply (take_positions_aux A x labels v 0 []). Qed.

(** ** unique_nosort *)
Lemma unique_nosort_ok : forall argsort, valid_argsort le argsort -> forall a,
  unique_nosort argsort a = Ret (in_order_of_appearance a).
Proof.
  intros. unfold unique_nosort. rewrite (take_ok _ _ 0).
  - f_equal. now apply argsort_unique.
  - intros. destruct (H (unique_index a)) as [HP _].
    apply (Permutation_in _ (Permutation_sym HP)), in_seq in H0.
    unfold unique_index in H0. rewrite map_length in H0. lia.
Qed.

(** ** scattering the concatenated results back *)
Lemma concat_split : forall A B (gs : list (list A)) (zs : list (list B)) da db p,
  Forall2 (fun g z => length z = length g) gs zs -> (p < length (concat gs))%nat ->
  exists k r, (k < length gs)%nat /\ (r < length (nth k gs []))%nat /\
    nth p (concat gs) da = nth r (nth k gs []) da /\
    nth p (concat zs) db = nth r (nth k zs []) db.
Proof.
  intros A B gs zs da db p H. revert p. induction H; simpl; intros. lia.
  rewrite app_length in H1. destruct (lt_dec p (length x)).
  - exists 0%nat, p. simpl. rewrite !app_nth1 by lia. repeat split; lia || reflexivity.
  - destruct (IHForall2 (p - length x)%nat ltac:(lia)) as (k & r & Hk & Hr & E1 & E2).
    exists (S k), r. simpl. rewrite !app_nth2 by lia. rewrite H. repeat split; auto. lia.
Qed.

Definition aligned {A B} (x : list A) (sets : list Z) (res : list B) (func : list A -> list B) (d : B) :=
  length res = length x /\
  forall i, (i < length x)%nat ->
    nth i res d = nth (rank_in_set sets i) (func (rows_with x sets (nth i sets 0))) d.

Lemma scatter_ok : forall A B argsort (x : list A) (sets : list Z) (func : list A -> list B) d,
  valid_argsort le argsort -> length x = length sets ->
  let vs := in_order_of_appearance sets in
  (forall v, In v sets -> length (func (rows_with x sets v)) = length (rows_with x sets v)) ->
  exists res, take (concat (map (fun v => func (rows_with x sets v)) vs))
                   (argsort (concat (map (positions 0 sets) vs))) = Ret res /\
              aligned x sets res func d.
Proof.
  intros A B argsort x sets func d HA HL vs HF.
  set (gs := map (positions 0 sets) vs). set (zs := map (fun v => func (rows_with x sets v)) vs).
  pose proof (concat_positions_perm sets) as HP. fold vs gs in HP.
  assert (HLc : length (concat gs) = length sets).
  { rewrite <- (Permutation_length HP). apply seq_length. }
  assert (HFa : Forall2 (fun (g : list nat) (z : list B) => length z = length g) gs zs).
  { unfold gs, zs. assert (Hin : forall v, In v vs -> In v sets) by (intros; now apply ioa_In).
    clearbody vs. clear - HL HF Hin. induction vs; simpl; constructor.
    rewrite HF by (apply Hin; left; auto). symmetry. now apply positions_length.
    apply IHvs. intros. apply Hin. now right. }
  assert (HLz : length (concat zs) = length (concat gs)).
  { clearbody gs zs. clear - HFa. induction HFa; simpl; auto. rewrite !app_length. lia. }
  pose proof (argsort_perm argsort HA (concat gs)) as Hperm. rewrite HLc in Hperm. specialize (Hperm HP).
  destruct (HA (concat gs)) as [HPa _]. rewrite HLc in HPa.
  exists (map (fun i => nth i (concat zs) d) (argsort (concat gs))). split.
  - apply take_ok. intros. apply (Permutation_in _ (Permutation_sym HPa)), in_seq in H. lia.
  - assert (HLa : length (argsort (concat gs)) = length sets).
    { rewrite <- (Permutation_length HPa). apply seq_length. }
    split. rewrite map_length. lia.
    intros i Hi. rewrite (nth_map_lt _ _ _ _ i _ 0%nat) by lia.
    set (p := nth i (argsort (concat gs)) 0%nat).
    assert (Hp : (p < length sets)%nat).
    { assert (In p (argsort (concat gs))) by (apply nth_In; lia).
      apply (Permutation_in _ (Permutation_sym HPa)), in_seq in H. lia. }
    assert (Ei : nth p (concat gs) 0%nat = i).
    { assert (nth i (map (fun j => nth j (concat gs) 0%nat) (argsort (concat gs))) 0%nat = i).
      rewrite Hperm. rewrite seq_nth by lia. reflexivity.
      rewrite (nth_map_lt _ _ _ _ i _ 0%nat) in H by lia. exact H. }
    destruct (concat_split _ _ gs zs 0%nat d p HFa ltac:(lia)) as (k & r & Hk & Hr & E1 & E2).
    rewrite E2. rewrite E1 in Ei.
    unfold gs in Hk. rewrite map_length in Hk.
    unfold gs in Ei, Hr. rewrite (nth_map_lt _ _ _ _ k _ 0) in Ei, Hr by lia.
    unfold zs. rewrite (nth_map_lt _ _ _ _ k _ 0) by lia.
    assert (Hin : In i (positions 0 sets (nth k vs 0))) by (rewrite <- Ei; now apply nth_In).
    apply positions_In in Hin. destruct Hin as [_ Hv]. rewrite Nat.sub_0_r in Hv.
    unfold rank_in_set. rewrite Hv. pose proof (positions_rank sets (nth k vs 0) 0 r Hr).
    rewrite Nat.sub_0_r, Ei in H. now rewrite H.
Qed.

(** ** the loops *)
Lemma map_groups_ok : forall A B (func : list A -> outcome (list B)) (f : list A -> list B)
    (x : list A) sets vs, length x = length sets ->
  (forall v, In v vs -> func (rows_with x sets v) = Ret (f (rows_with x sets v))) ->
  map_groups func x (map (positions 0 sets) vs) = Ret (map (fun v => f (rows_with x sets v)) vs).
Proof.
  induction vs; simpl; intros. reflexivity.
  rewrite take_positions by auto. simpl. rewrite H0 by auto. simpl. rewrite IHvs; auto.
Qed.

Lemma apply_loop_ok : forall A B (func : list A -> outcome (list B)) (f : list A -> list B)
    (x : list A) sets, length x = length sets -> forall vs sh,
  (forall v, In v vs -> func (rows_with x sets v) = Ret (f (rows_with x sets v)) /\
     (length (f (rows_with x sets v)) = length (rows_with x sets v) \/
      length (f (rows_with x sets v)) = 1%nat)) ->
  apply_loop func x (map (positions 0 sets) vs) sh
  = Ret (map (fun v => f (rows_with x sets v)) vs,
         sh || existsb (fun v => negb (length (f (rows_with x sets v)) =? length (rows_with x sets v))%nat) vs).
Proof.
  intros A B func f x sets HL. induction vs; simpl; intros. now rewrite orb_false_r.
  rewrite take_positions by auto. simpl. destruct (H a (or_introl eq_refl)) as [E HC]. rewrite E. simpl.
  rewrite (positions_length _ x sets a 0 HL).
  destruct (Nat.eqb_spec (length (f (rows_with x sets a))) (length (rows_with x sets a))); simpl.
  - rewrite IHvs by auto. reflexivity.
  - destruct HC. contradiction. rewrite H0. simpl. rewrite IHvs by auto. simpl. now rewrite orb_true_r.
Qed.

Lemma apply_loop_bad : forall A B (func : list A -> outcome (list B)) (f : list A -> list B)
    (x : list A) sets, length x = length sets -> forall vs sh,
  (forall v, In v vs -> func (rows_with x sets v) = Ret (f (rows_with x sets v))) ->
  (exists v, In v vs /\ length (f (rows_with x sets v)) <> length (rows_with x sets v) /\
             length (f (rows_with x sets v)) <> 1%nat) ->
  apply_loop func x (map (positions 0 sets) vs) sh = AssertFailed.
Proof.
  intros A B func f x sets HL. induction vs; simpl; intros sh H H0. destruct H0 as (? & [] & _).
  rewrite take_positions by auto. simpl. rewrite H by auto. simpl.
  rewrite (positions_length _ x sets a 0 HL).
  destruct (Nat.eqb_spec (length (f (rows_with x sets a))) (length (rows_with x sets a))); simpl.
  - rewrite IHvs; auto. destruct H0 as (v & [Hv|Hv] & H1 & H2). subst; contradiction. exists v; auto.
  - destruct (Nat.eqb_spec (length (f (rows_with x sets a))) 1); simpl; auto.
    rewrite IHvs; auto. destruct H0 as (v & [Hv|Hv] & H1 & H2). subst; contradiction. exists v; auto.
Qed.
