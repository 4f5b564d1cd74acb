From Coq Require Import List ZArith Lia Bool Arith Permutation Sorted QArith Lqa FinFun.
From Verif Require Import Base Spec EafSpec EafModel EafProofs EafMain EafStoreModel EafStoreProofs EafTop PropEaf
  NondomModel GroupModel GroupSpec GroupProofs PyEafModel PyEafSpec.
Import ListNotations.
Open Scope Z_scope.

Lemma sorted_eq_gen : forall A (R : A -> A -> Prop) l1 l2,
  (forall a b, R a b -> R b a -> False) ->
  StronglySorted R l1 -> StronglySorted R l2 -> (forall a, In a l1 <-> In a l2) -> l1 = l2.
Proof.
  intros A R l1 l2 HR. revert l2. induction l1; intros.
  - destruct l2; auto. exfalso. apply (proj2 (H1 a)). left; auto.
  - destruct l2. exfalso. apply (proj1 (H1 a)). left; auto.
    inversion H; subst; clear H. inversion H0; subst; clear H0.
    rewrite Forall_forall in *.
    assert (a = a0).
    { destruct (proj1 (H1 a) (or_introl eq_refl)); auto.
      destruct (proj2 (H1 a0) (or_introl eq_refl)); auto.
      exfalso. eauto. }
    subst. f_equal. apply IHl1; auto.
    intros x. split; intros.
    + destruct (proj1 (H1 x) (or_intror H)); auto. subst. exfalso. eauto.
    + destruct (proj2 (H1 x) (or_intror H)); auto. subst. exfalso. eauto.
Qed.

Lemma sorted_NoDup_lt : forall l, StronglySorted Z.le l -> NoDup l -> StronglySorted Z.lt l.
Proof.
  induction l; intros; constructor; inversion H; inversion H0; subst; auto.
  rewrite Forall_forall in *. intros. specialize (H4 x H1).
  assert (a <> x) by (intros ->; contradiction). lia.
Qed.

Lemma sorted_first_pos : forall a v w, StronglySorted Z.le a -> In v a -> In w a ->
  (first_pos v a < first_pos w a)%nat -> v < w.
Proof.
  intros. destruct (first_pos_In v a H0) as [L1 E1]. destruct (first_pos_In w a H1) as [L2 E2].
  pose proof (StronglySorted_nth _ _ _ 0 _ _ H (conj H2 L2)). rewrite E1, E2 in H3.
  assert (v <> w) by (intros ->; lia). lia.
Qed.

Lemma sorted_ioa : forall a, StronglySorted Z.le a -> in_order_of_appearance a = np_unique a.
Proof.
  intros a HS. apply (sorted_eq_gen Z Z.lt). lia.
  - pose proof (ioa_sorted a).
    assert (forall v, In v (in_order_of_appearance a) -> In v a) by (intros; now apply ioa_In).
    induction H; constructor.
    + apply IHStronglySorted. intros. apply H0. now right.
    + rewrite Forall_forall in *. intros. apply (sorted_first_pos a); auto. apply H0; now left. apply H0; now right.
  - apply sorted_NoDup_lt. apply np_unique_sorted. apply np_unique_NoDup.
  - intros. now rewrite ioa_In, np_unique_In.
Qed.

Lemma rows_with_notin : forall A (x : list A) ls v, ~ In v ls -> rows_with x ls v = [].
Proof.
  induction x; destruct ls; simpl; intros; auto. destruct (Z.eqb_spec z v). subst; tauto. auto.
Qed.
Lemma rows_with_map : forall A B (f : A -> B) x ls v,
  rows_with (map f x) ls v = map f (rows_with x ls v).
Proof. induction x; destruct ls; simpl; intros; auto. destruct (z =? v); simpl; congruence. Qed.

Lemma concat_sorted_groups : forall A (x : list A) ls, length x = length ls -> StronglySorted Z.le ls ->
  concat (map (rows_with x ls) (in_order_of_appearance ls)) = x.
Proof.
  induction x; destruct ls as [|l ls]; simpl; intros HL HS; try discriminate; auto.
  inversion HS as [|? ? HS' HF]; subst. rewrite Forall_forall in HF.
  rewrite Z.eqb_refl. simpl. f_equal. transitivity (concat (map (rows_with x ls) (in_order_of_appearance ls))); [|apply IHx; auto; lia].
  assert (G : forall vs, (forall v, In v vs -> v <> l) ->
     map (fun v => if l =? v then a :: rows_with x ls v else rows_with x ls v) vs = map (rows_with x ls) vs).
  { intros. apply map_ext_in. intros v Hv. destruct (Z.eqb_spec l v); auto. subst. exfalso. apply (H v); auto. }
  rewrite G.
  2:{ intros v Hv. apply filter_In in Hv. destruct Hv as [_ Hv]. destruct (Z.eqb_spec v l); auto. discriminate. }
  destruct (in_dec Z.eq_dec l ls).
  - destruct ls as [|l' ls]; [contradiction|].
    assert (l' = l). { inversion HS'; subst. rewrite Forall_forall in H2. specialize (HF l' (or_introl eq_refl)).
      destruct i; auto. specialize (H2 l H). lia. }
    subst l'. change (in_order_of_appearance (l :: ls)) with
      (l :: filter (fun w => negb (w =? l)) (in_order_of_appearance ls)).
    cbn [filter]. rewrite Z.eqb_refl. cbn [negb map concat]. f_equal. f_equal. f_equal.
    generalize (in_order_of_appearance ls). induction l0; cbn [filter]; auto.
    destruct (a0 =? l) eqn:E; cbn [negb filter]; auto. rewrite E. cbn [negb]. congruence.
  - rewrite (rows_with_notin _ x ls l n). cbn [app]. f_equal. f_equal.
    assert (H : ~ In l (in_order_of_appearance ls)) by now rewrite ioa_In.
    induction (in_order_of_appearance ls); simpl; auto. destruct (Z.eqb_spec a0 l).
    subst. exfalso. apply H. now left. simpl. f_equal. apply IHl0. intro. apply H. now right.
Qed.

Lemma rows_with_length : forall A (x : list A) ls v, length x = length ls ->
  length (rows_with x ls v) = countb (Z.eqb v) ls.
Proof.
  induction x; destruct ls; simpl; intros; try discriminate; auto.
  rewrite (Z.eqb_sym v z). destruct (z =? v); simpl; rewrite IHx; auto; lia.
Qed.
Lemma rows_with_nonempty : forall A (x : list A) ls v, length x = length ls -> In v ls -> rows_with x ls v <> [].
Proof.
  induction x; destruct ls; simpl; intros; try discriminate; auto.
  destruct (Z.eqb_spec z v). discriminate. apply IHx; auto. destruct H0; congruence || auto.
Qed.
Lemma cumsizes_cumsum : forall runs acc, cumsizes_from acc runs = cumsum_from acc (map (@length point) runs).
Proof. induction runs; simpl; intros; auto. now rewrite IHruns. Qed.

(** the C library sees exactly the sets given by the labels *)
Lemma sorted_labels_runs : forall data labels, length data = length labels -> StronglySorted Z.le labels ->
  concat (sets_of data labels) = data /\
  np_cumsum (unique_counts labels) = cumsizes (sets_of data labels) /\
  length (np_cumsum (unique_counts labels)) = length (sets_of data labels) /\
  (forall r, In r (sets_of data labels) -> r <> []).
Proof.
  intros data labels HL HS.
  assert (E : np_cumsum (unique_counts labels) = cumsizes (sets_of data labels)).
  { unfold cumsizes, np_cumsum, sets_of. rewrite cumsizes_cumsum, map_map. f_equal.
    unfold unique_counts. rewrite (sorted_ioa labels HS). apply map_ext. intros. now rewrite rows_with_length. }
  split; [now apply concat_sorted_groups|]. split; [exact E|]. split.
  - rewrite E. unfold cumsizes. generalize 0%nat. clear. induction (sets_of data labels); intros; cbn [cumsizes_from length]; auto.
  - intros r Hr. unfold sets_of in Hr. apply in_map_iff in Hr. destruct Hr as (v & <- & Hv).
    apply rows_with_nonempty; auto. now apply ioa_In.
Qed.

(** ** permuting the rows within the sets *)
Lemma rows_with_combine : forall A (x : list A) ls v, rows_with x ls v =
  map fst (filter (fun p => snd p =? v) (combine x ls)).
Proof. induction x; destruct ls; simpl; intros; auto. rewrite IHx. destruct (z =? v); reflexivity. Qed.
Lemma filter_perm : forall A (f : A -> bool) l l', Permutation l l' -> Permutation (filter f l) (filter f l').
Proof.
  induction 1; simpl; auto. destruct (f x); auto. destruct (f x), (f y); auto. constructor.
  etransitivity; eauto.
Qed.
Lemma map_nth_seq : forall A (x : list A) d, map (fun i => nth i x d) (seq 0 (length x)) = x.
Proof.
  intros. apply (list_ext _ d). now rewrite map_length, seq_length. intros.
  rewrite map_length, seq_length in H.
  rewrite (nth_map_lt _ _ _ _ i _ 0%nat) by (now rewrite seq_length). now rewrite seq_nth.
Qed.
Lemma combine_map_nth : forall A B (x : list A) (y : list B) dx dy p,
  length x = length y ->
  combine (map (fun i => nth i x dx) p) (map (fun i => nth i y dy) p) =
  map (fun i => nth i (combine x y) (dx, dy)) p.
Proof.
  induction p; simpl; intros; auto. rewrite IHp by auto. f_equal. now rewrite combine_nth.
Qed.
Lemma rows_with_argsorted : forall A (x : list A) ls dx p v, length x = length ls ->
  Permutation (seq 0 (length ls)) p ->
  Permutation (rows_with x ls v) (rows_with (map (fun i => nth i x dx) p) (map (fun i => nth i ls 0) p) v).
Proof.
  intros. rewrite !rows_with_combine. apply Permutation_map, filter_perm.
  rewrite combine_map_nth by auto. rewrite <- (map_nth_seq _ (combine x ls) (dx, 0)) at 1.
  apply Permutation_map. rewrite combine_length, H, Nat.min_id. exact H0.
Qed.
Lemma unique_perm : forall a b, (forall v, In v a <-> In v b) -> np_unique a = np_unique b.
Proof.
  intros. apply (sorted_eq_gen Z Z.lt). lia.
  1,2: apply sorted_NoDup_lt; [apply np_unique_sorted|apply np_unique_NoDup].
  intros. now rewrite !np_unique_In.
Qed.

(** two collections of sets with the same points *)
Definition same_sets (r1 r2 : list (list point)) : Prop :=
  length r1 = length r2 /\ forall k p, In p (nth k r1 []) <-> In p (nth k r2 []).

(** negating the maximised columns *)
Lemma neg_cols_length : forall mx p, length (neg_cols mx p) = length p.
Proof. induction mx; destruct p; simpl; intros; auto. Qed.
Lemma neg_cols_invol : forall mx p, neg_cols mx (neg_cols mx p) = p.
Proof. induction mx; destruct p; simpl; intros; auto. rewrite IHmx. destruct a; f_equal; lia. Qed.
Lemma neg_cols_coord : forall mx p c, (c < length p)%nat -> (c < length mx)%nat ->
  coord (neg_cols mx p) c = if nth c mx false then - coord p c else coord p c.
Proof.
  unfold coord. induction mx; destruct p; simpl; intros; try lia. destruct c; simpl; auto. apply IHmx; lia.
Qed.
Lemma neg_cols_wdom : forall mx p q, length mx = 2%nat -> length p = 2%nat -> length q = 2%nat ->
  (wdom (minimise 2) (neg_cols mx p) (neg_cols mx q) <-> wdom mx p q).
Proof.
  intros mx p q Hm Hp Hq.
  assert (H : forall d, (d < 2)%nat ->
     (as_good (minimise 2) (neg_cols mx p) (neg_cols mx q) d <-> as_good mx p q d)).
  { intros d Hd. unfold as_good. rewrite !neg_cols_coord by lia.
    assert (nth d (minimise 2) false = false) as -> by (destruct d as [|[|]]; [reflexivity|reflexivity|lia]).
    destruct (nth d mx false); lia. }
  unfold wdom. rewrite Hm. split; intros G d Hd; apply H; auto; apply G; exact Hd.
Qed.

(** ** transporting counts along a bijection *)
Definition bij (n : nat) (f g : nat -> nat) : Prop :=
  forall k, (k < n)%nat -> (f k < n)%nat /\ (g k < n)%nat /\ f (g k) = k /\ g (f k) = k.
Lemma bij_sym : forall n f g, bij n f g -> bij n g f.
Proof. intros n f g H k Hk. destruct (H k Hk) as (A & B & C & D). auto. Qed.

Definition atleastP (P : nat -> Prop) (n l : nat) : Prop :=
  exists ks : list nat, NoDup ks /\ length ks = l /\ forall k, In k ks -> (k < n)%nat /\ P k.
Definition exactlyP (P : nat -> Prop) (n l : nat) : Prop :=
  exists ks : list nat, NoDup ks /\ length ks = l /\ forall k, In k ks <-> (k < n)%nat /\ P k.

Lemma atleast_transfer : forall n f g (P1 P2 : nat -> Prop) l, bij n f g ->
  (forall k, (k < n)%nat -> (P2 k -> P1 (f k))) -> atleastP P2 n l -> atleastP P1 n l.
Proof.
  intros n f g P1 P2 l HB HP (ks & N & L & K). exists (map f ks). split; [|split].
  - apply NoDup_map_in; auto. intros x y Hx Hy E.
    destruct (K x Hx), (K y Hy). destruct (HB x H) as (_ & _ & _ & <-). destruct (HB y H1) as (_ & _ & _ & <-). congruence.
  - now rewrite map_length.
  - intros k Hk. apply in_map_iff in Hk. destruct Hk as (j & <- & Hj). destruct (K j Hj).
    split. apply HB; auto. auto.
Qed.
Lemma exactly_transfer : forall n f g (P1 P2 : nat -> Prop) l, bij n f g ->
  (forall k, (k < n)%nat -> (P2 k <-> P1 (f k))) -> exactlyP P2 n l -> exactlyP P1 n l.
Proof.
  intros n f g P1 P2 l HB HP (ks & N & L & K). exists (map f ks). split; [|split].
  - apply NoDup_map_in; auto. intros x y Hx Hy E.
    apply K in Hx, Hy. destruct Hx, Hy. destruct (HB x H) as (_ & _ & _ & <-). destruct (HB y H1) as (_ & _ & _ & <-). congruence.
  - now rewrite map_length.
  - intros k. rewrite in_map_iff. split.
    + intros (j & <- & Hj). apply K in Hj. destruct Hj. split. apply HB; auto. now apply HP.
    + intros [Hk Pk]. destruct (HB k Hk) as (_ & Hg & Fg & _). exists (g k). split; auto.
      apply K. split; auto. apply HP; auto. now rewrite Fg.
Qed.

(** [r2] has the same sets as [r1], in another order and negated by [mx] *)
Definition matched (mx : list bool) (r1 r2 : list (list point)) : Prop :=
  length r1 = length r2 /\
  exists f g, bij (length r1) f g /\
    forall k, (k < length r1)%nat -> forall p, In p (nth k r2 []) <-> In (neg_cols mx p) (nth (f k) r1 []).

Lemma matched_attains : forall mx r1 r2 f k z, length mx = 2%nat -> wf_points 2 (concat r1) ->
  length z = 2%nat -> (f k < length r1)%nat ->
  (forall p, In p (nth k r2 []) <-> In (neg_cols mx p) (nth (f k) r1 [])) ->
  (attains 2 (nth k r2 []) (neg_cols mx z) <-> attains_mx mx (nth (f k) r1 []) z).
Proof.
  intros mx r1 r2 f k z Hm HW Hz Hf H. unfold wf_points in HW. rewrite Forall_forall in HW.
  assert (HW' : forall p, In p (nth (f k) r1 []) -> length p = 2%nat).
  { intros p Hp. apply HW. apply in_concat. exists (nth (f k) r1 []). split; auto. now apply nth_In. }
  split; intros (p & Hp & W).
  - exists (neg_cols mx p). split. now apply H. apply H, HW' in Hp. rewrite neg_cols_length in Hp.
    apply neg_cols_wdom; auto. now rewrite neg_cols_length. now rewrite neg_cols_invol.
  - exists (neg_cols mx p). split. apply H. now rewrite neg_cols_invol.
    apply neg_cols_wdom; auto.
Qed.

Lemma matched_atleast : forall mx r1 r2 l z, length mx = 2%nat -> wf_points 2 (concat r1) -> length z = 2%nat ->
  matched mx r1 r2 ->
  (attained_by_at_least 2 l r2 (neg_cols mx z) <-> at_least_attain mx l r1 z).
Proof.
  intros mx r1 r2 l z Hm HW Hz (HL & f & g & HB & H).
  change (atleastP (fun k => attains 2 (nth k r2 []) (neg_cols mx z)) (length r2) l <->
          atleastP (fun k => attains_mx mx (nth k r1 []) z) (length r1) l).
  rewrite <- HL. split.
  - apply (atleast_transfer _ f g); auto. intros k Hk A. apply (matched_attains mx r1 r2 f k z); auto. now apply HB.
  - apply (atleast_transfer _ g f). now apply bij_sym. intros k Hk A.
    destruct (HB k Hk) as (_ & Hg & Fg & _).
    apply (matched_attains mx r1 r2 f (g k) z); auto. now apply HB. now rewrite Fg.
Qed.
Lemma matched_exactly : forall mx r1 r2 l z, length mx = 2%nat -> wf_points 2 (concat r1) -> length z = 2%nat ->
  matched mx r1 r2 ->
  attained_by_exactly 2 l r2 (neg_cols mx z) -> exactly_attain mx l r1 z.
Proof.
  intros mx r1 r2 l z Hm HW Hz (HL & f & g & HB & H).
  change (exactlyP (fun k => attains 2 (nth k r2 []) (neg_cols mx z)) (length r2) l ->
          exactlyP (fun k => attains_mx mx (nth k r1 []) z) (length r1) l).
  rewrite <- HL. apply (exactly_transfer _ f g); auto.
  intros k Hk. apply (matched_attains mx r1 r2 f k z); auto. now apply HB.
Qed.

Lemma matched_app : forall mx a1 a2 b1 b2, matched mx a1 a2 -> matched mx b1 b2 -> matched mx (a1 ++ b1) (a2 ++ b2).
Proof.
  intros mx a1 a2 b1 b2 (L1 & f1 & g1 & B1 & H1) (L2 & f2 & g2 & B2 & H2). split.
  rewrite !app_length. lia.
  exists (fun k => if (k <? length a1)%nat then f1 k else (length a1 + f2 (k - length a1))%nat),
         (fun k => if (k <? length a1)%nat then g1 k else (length a1 + g2 (k - length a1))%nat).
  rewrite app_length. split.
  - intros k Hk. destruct (Nat.ltb_spec k (length a1)).
    + destruct (B1 k H) as (A & B & C & D).
      destruct (Nat.ltb_spec (g1 k) (length a1)); try lia. destruct (Nat.ltb_spec (f1 k) (length a1)); lia.
    + destruct (B2 (k - length a1)%nat ltac:(lia)) as (A & B & C & D).
      destruct (Nat.ltb_spec (length a1 + g2 (k - length a1))%nat (length a1)); try lia.
      destruct (Nat.ltb_spec (length a1 + f2 (k - length a1))%nat (length a1)); try lia.
      rewrite !(Nat.add_comm (length a1)), !Nat.add_sub, C, D. lia.
  - intros k Hk p. destruct (Nat.ltb_spec k (length a1)).
    + destruct (B1 k H) as (A & _). rewrite !app_nth1 by lia. now apply H1.
    + rewrite (app_nth2 a2 b2) by lia. rewrite (app_nth2 a1 b1) by lia.
      rewrite (Nat.add_comm (length a1)), Nat.add_sub, <- L1. apply H2. lia.
Qed.

Lemma matched_argsorted : forall mx x lx p dx, length x = length lx ->
  Permutation (seq 0 (length lx)) p ->
  StronglySorted Z.le (map (fun i => nth i lx 0) p) ->
  matched mx (sets_of x lx)
    (map (map (neg_cols mx)) (sets_of (map (fun i => nth i x dx) p) (map (fun i => nth i lx 0) p))).
Proof.
  intros mx x lx p dx HL HP HS. set (x' := map (fun i => nth i x dx) p) in *. set (lx' := map (fun i => nth i lx 0) p) in *.
  assert (HI : forall v, In v lx' <-> In v lx).
  { intros v. assert (Permutation lx lx').
    { rewrite <- (map_nth_seq _ lx 0). apply Permutation_map. exact HP. }
    split; apply Permutation_in; auto. now symmetry. }
  unfold sets_of. rewrite (sorted_ioa lx' HS), (unique_perm _ _ HI).
  set (u := np_unique lx). set (o := in_order_of_appearance lx).
  assert (Po : Permutation o u).
  { apply NoDup_Permutation. apply ioa_NoDup. apply np_unique_NoDup. intros. unfold o, u. now rewrite ioa_In, np_unique_In. }
  split. rewrite !map_length. now apply Permutation_length.
  rewrite map_length.
  pose proof (proj1 (Permutation_nth o u 0) Po) as (Lu & f & F1 & F2 & F3).
  destruct (bSurjective_bBijective F1 (proj1 (bInjective_bSurjective F1) F2)) as (g & G1 & G2).
  exists f, g. split.
  - intros k Hk. destruct (G2 k Hk). repeat split; auto.
  - intros k Hk q. rewrite map_map.
    rewrite (nth_map_lt _ _ _ u k _ 0) by lia. rewrite (nth_map_lt _ _ _ o (f k) _ 0) by (apply F1; auto).
    rewrite F3 by auto. rewrite in_map_iff.
    pose proof (rows_with_argsorted _ x lx dx p (nth (f k) o 0) HL HP) as PR. fold x' lx' in PR.
    split.
    + intros (q' & <- & Hq'). rewrite neg_cols_invol. eapply Permutation_in. symmetry. exact PR. exact Hq'.
    + intros Hq'. exists (neg_cols mx q). split. apply neg_cols_invol. eapply Permutation_in. exact PR. exact Hq'.
Qed.

Lemma concat_map_map : forall A B (f : A -> B) l, concat (map (map f) l) = map f (concat l).
Proof. intros. symmetry. apply concat_map. Qed.

Lemma unique_rows_In : forall l r, In r (unique_rows l) -> In r l.
Proof. induction l; simpl; intros; auto. destruct H; auto. apply filter_In in H. right. apply IHl, H. Qed.
Lemma unique_rows_fst : forall l p c, In (p, c) l -> exists c', In (p, c') (unique_rows l) /\ (c == c')%Q.
Proof.
  induction l as [|[q d] l IH]; simpl; intros. contradiction.
  destruct H.
  - inversion H; subst. exists c. split; auto. reflexivity.
  - destruct (IH p c H) as (c' & H1 & H2).
    destruct (row_eqb (p, c') (q, d)) eqn:E.
    + unfold row_eqb in E. cbn [fst snd] in E. destruct (list_eq_dec Z.eq_dec p q); [|discriminate].
      cbn [andb] in E. apply Qeq_bool_iff in E. subst. exists d. split; auto. now rewrite H2.
    + exists c'. split; auto. right. apply filter_In. rewrite E. auto.
Qed.
Lemma unique_rows_NoDup : forall l, (forall p c c', In (p, c) l -> In (p, c') l -> (c == c')%Q) ->
  NoDup (map fst (unique_rows l)).
Proof.
  induction l as [|[q d] l IH]; simpl; intros. constructor.
  constructor.
  - intro Hin. apply in_map_iff in Hin. destruct Hin as ((p & c) & E & Hin). cbn [fst] in E. subst p.
    apply filter_In in Hin. destruct Hin as [Hin Hr]. apply unique_rows_In in Hin.
    assert (row_eqb (q, c) (q, d) = true); [|rewrite H0 in Hr; discriminate].
    unfold row_eqb. cbn [fst snd]. destruct (list_eq_dec Z.eq_dec q q); [|contradiction]. cbn [andb].
    apply Qeq_bool_iff. apply (H q); auto.
  - assert (N : NoDup (map fst (unique_rows l))) by (apply IH; eauto).
    clear - N. induction (unique_rows l) as [|a u IHu]; simpl; auto. inversion N; subst.
    destruct (negb (row_eqb a (q, d))); auto. simpl. constructor; auto.
    intro Hin. apply H1. apply in_map_iff in Hin. destruct Hin as (b & E & Hb). apply filter_In in Hb.
    apply in_map_iff. exists b. intuition.
Qed.

Lemma exactly_unique : forall dim m m' runs z,
  attained_by_exactly dim m runs z -> attained_by_exactly dim m' runs z -> m = m'.
Proof.
  intros dim m m' runs z (ks & N & L & K) (ks' & N' & L' & K'). subst.
  apply Nat.le_antisymm; apply NoDup_incl_length; auto; intros k Hk; [apply K', K|apply K, K']; auto.
Qed.
