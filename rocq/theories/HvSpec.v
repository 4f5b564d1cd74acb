(** Specification of the hypervolume indicator and basic measure theory.

    Coordinates are integers.  The region weakly dominated by [S] and bounded by
    [ref] is the union of the half-open boxes [p, ref), p in S; for integer
    corners it is a disjoint union of unit cells [z, z+1), so its Lebesgue
    measure is the number of cells.  A cell is named by its lower corner. *)
From Coq Require Import List ZArith Lia Bool Arith Permutation Sorted.
From Verif Require Import Base.
Import ListNotations.
Open Scope Z_scope.

(** the unit cell with lower corner [z] lies in the dominated region *)
Definition dominated_cell (S : list point) (ref z : point) : Prop :=
  length z = length ref /\
  (exists p, In p S /\ forall i, (i < length ref)%nat -> coord p i <= coord z i) /\
  (forall i, (i < length ref)%nat -> coord z i < coord ref i).

(** [v] is the volume of the region dominated by [S] and bounded by [ref] *)
Definition hypervolume (S : list point) (ref : point) (v : Z) : Prop :=
  exists L, NoDup L /\ (forall z, In z L <-> dominated_cell S ref z) /\
            v = Z.of_nat (length L).

Lemma hypervolume_unique : forall S ref v v',
  hypervolume S ref v -> hypervolume S ref v' -> v = v'.
Proof.
  intros S ref v v' (L & N & I & ->) (L' & N' & I' & ->). f_equal.
  apply Permutation_length. apply NoDup_Permutation; auto.
  intros. now rewrite I, I'.
Qed.

(** ** Integer intervals *)

Definition zrange (a b : Z) : list Z :=
  map (fun k => a + Z.of_nat k) (seq 0 (Z.to_nat (b - a))).

Lemma in_zrange : forall a b z, In z (zrange a b) <-> a <= z < b.
Proof.
  unfold zrange. intros. rewrite in_map_iff. split.
  - intros (k & <- & H). apply in_seq in H. lia.
  - intros. exists (Z.to_nat (z - a)). split. lia. apply in_seq. lia.
Qed.

Lemma zrange_nodup : forall a b, NoDup (zrange a b).
Proof.
  intros. unfold zrange. apply FinFun.Injective_map_NoDup. intros x y H. lia.
  apply seq_NoDup.
Qed.

Lemma zrange_nil : forall a b, b <= a -> zrange a b = [].
Proof. intros. unfold zrange. replace (Z.to_nat (b - a)) with O by lia. reflexivity. Qed.

Lemma zrange_split : forall a b c, a <= b <= c -> zrange a c = zrange a b ++ zrange b c.
Proof.
  intros. unfold zrange.
  replace (Z.to_nat (c - a)) with (Z.to_nat (b - a) + Z.to_nat (c - b))%nat by lia.
  rewrite seq_app, map_app. f_equal.
  set (n := Z.to_nat (b - a)). simpl.
  assert (G : forall m s, map (fun k => a + Z.of_nat k) (seq (n + s) m) =
                          map (fun k => b + Z.of_nat k) (seq s m)).
  { induction m; simpl; intros; auto. f_equal. unfold n. lia.
    rewrite <- IHm. do 2 f_equal. lia. }
  specialize (G (Z.to_nat (c - b)) 0%nat). rewrite Nat.add_0_r in G. exact G.
Qed.

Lemma zrange_length : forall a b, Z.of_nat (length (zrange a b)) = Z.max 0 (b - a).
Proof. intros. unfold zrange. rewrite map_length, seq_length. lia. Qed.

Definition sumf (f : Z -> Z) (l : list Z) : Z := zsum (map f l).

Lemma sumf_app : forall f l1 l2, sumf f (l1 ++ l2) = sumf f l1 + sumf f l2.
Proof. intros. unfold sumf. now rewrite map_app, zsum_app. Qed.

Lemma sumf_const : forall f l k, (forall z, In z l -> f z = k) ->
  sumf f l = k * Z.of_nat (length l).
Proof.
  unfold sumf. induction l; intros; simpl map; simpl zsum; simpl length.
  - cbn. lia.
  - rewrite (H a) by (simpl; auto). rewrite (IHl k) by (intros; apply H; simpl; auto). lia.
Qed.

Lemma sumf_ext : forall f g l, (forall z, In z l -> f z = g z) -> sumf f l = sumf g l.
Proof.
  unfold sumf. induction l; intros; simpl; auto. rewrite H by (simpl; auto).
  rewrite IHl; auto. intros; apply H; simpl; auto.
Qed.

Lemma sumf_le : forall f g l, (forall z, In z l -> f z <= g z) -> sumf f l <= sumf g l.
Proof.
  unfold sumf. induction l; intros; simpl. lia.
  assert (f a <= g a) by (apply H; simpl; auto).
  assert (zsum (map f l) <= zsum (map g l)) by (apply IHl; intros; apply H; simpl; auto). lia.
Qed.

Lemma sumf_eq_all : forall f g l, (forall z, In z l -> f z <= g z) -> sumf g l <= sumf f l ->
  forall z, In z l -> f z = g z.
Proof.
  induction l; intros; simpl in *; try contradiction.
  assert (f a <= g a) by (apply H; auto).
  assert (sumf f l <= sumf g l) by (apply sumf_le; intros; apply H; auto).
  unfold sumf in *. simpl in H0.
  destruct H1.
  - subst. lia.
  - apply IHl; auto. lia.
Qed.

Lemma sumf_zrange_const : forall f a b k, a <= b -> (forall z, a <= z < b -> f z = k) ->
  sumf f (zrange a b) = k * (b - a).
Proof.
  intros. rewrite sumf_const with (k := k).
  - rewrite zrange_length. f_equal. lia.
  - intros. apply H0. now apply in_zrange.
Qed.

Lemma sumf_nonneg : forall f l, (forall z, In z l -> 0 <= f z) -> 0 <= sumf f l.
Proof.
  intros. replace 0 with (sumf (fun _ => 0) l). apply sumf_le; auto.
  rewrite sumf_const with (k := 0); auto.
Qed.

Lemma sumf_plus : forall f g l, sumf (fun z => f z + g z) l = sumf f l + sumf g l.
Proof. unfold sumf. induction l; simpl; auto. rewrite IHl. lia. Qed.

(** ** The measure, by slicing along the last objective *)

(** [q] is at most [p] in objectives [0 .. m-1] *)
Definition leq_upto (m : nat) (q p : point) : Prop :=
  forall i, (i < m)%nat -> coord q i <= coord p i.

Lemma leq_upto_refl : forall m p, leq_upto m p p.
Proof. unfold leq_upto. intros. lia. Qed.

Lemma leq_upto_trans : forall m a b c, leq_upto m a b -> leq_upto m b c -> leq_upto m a c.
Proof. unfold leq_upto. intros. specialize (H i H1). specialize (H0 i H1). lia. Qed.

Lemma leq_upto_le : forall m m' a b, (m' <= m)%nat -> leq_upto m a b -> leq_upto m' a b.
Proof. unfold leq_upto. intros. apply H0. lia. Qed.

(** points of [S] visible at height [z] of objective [m] *)
Definition below (m : nat) (z : Z) (S : list point) : list point :=
  filter (fun p => coord p m <=? z) S.

Lemma in_below : forall m z S p, In p (below m z S) <-> In p S /\ coord p m <= z.
Proof. intros. unfold below. rewrite filter_In, Z.leb_le. tauto. Qed.

Section Measure.
  Variable lo : Z.
  Variable ref : point.

  Fixpoint V (m : nat) (S : list point) : Z :=
    match m with
    | O => match S with [] => 0 | _ => 1 end
    | Datatypes.S m' => sumf (fun z => V m' (below m' z S)) (zrange lo (coord ref m'))
    end.

  (** [S'] covers [S] in the first [m] objectives *)
  Definition covers (m : nat) (S' S : list point) : Prop :=
    forall p, In p S -> exists q, In q S' /\ leq_upto m q p.

  Lemma covers_refl : forall m S, covers m S S.
  Proof. intros m S p H. exists p. split; auto. apply leq_upto_refl. Qed.

  Lemma covers_trans : forall m A B C, covers m A B -> covers m B C -> covers m A C.
  Proof.
    intros m A B C H1 H2 p Hp. destruct (H2 p Hp) as (q & Hq & L).
    destruct (H1 q Hq) as (r & Hr & L'). exists r. split; auto. eapply leq_upto_trans; eauto.
  Qed.

  Lemma covers_incl : forall m A B, incl B A -> covers m A B.
  Proof. intros m A B H p Hp. exists p. split; auto. apply leq_upto_refl. Qed.

  Lemma covers_app : forall m A B C, covers m A B -> covers m A C -> covers m A (B ++ C).
  Proof. intros m A B C H1 H2 p Hp. apply in_app_iff in Hp. destruct Hp; auto. Qed.

  Lemma covers_below : forall m z A B, covers (S m) A B -> covers m (below m z A) (below m z B).
  Proof.
    intros m z A B H p Hp. apply in_below in Hp. destruct Hp as [Hp Hz].
    destruct (H p Hp) as (q & Hq & L). exists q. split.
    - apply in_below. split; auto. specialize (L m ltac:(lia)). lia.
    - eapply leq_upto_le; [|eauto]. lia.
  Qed.

  Lemma V_nonneg : forall m S, 0 <= V m S.
  Proof.
    induction m; intros; simpl. destruct S; lia. apply sumf_nonneg. auto.
  Qed.

  Lemma V_mono : forall m A B, covers m A B -> V m B <= V m A.
  Proof.
    induction m; intros; simpl.
    - destruct B; destruct A; try lia. destruct (H p) as (q & [] & _). simpl; auto.
    - apply sumf_le. intros. apply IHm. now apply covers_below.
  Qed.

  Lemma V_equiv : forall m A B, covers m A B -> covers m B A -> V m A = V m B.
  Proof.
    intros. pose proof (V_mono _ _ _ H). pose proof (V_mono _ _ _ H0). lia.
  Qed.

  Lemma V_incl : forall m A B, incl B A -> V m B <= V m A.
  Proof. intros. apply V_mono. now apply covers_incl. Qed.

  Lemma V_same : forall m A B, (forall p, In p A <-> In p B) -> V m A = V m B.
  Proof. intros. apply V_equiv; apply covers_incl; intros p Hp; now apply H. Qed.

  Lemma V_perm : forall m A B, Permutation A B -> V m A = V m B.
  Proof.
    intros. apply V_same. intros. split; apply Permutation_in; auto. now apply Permutation_sym.
  Qed.

  Lemma V_nil : forall m, V m [] = 0.
  Proof.
    induction m; simpl; auto. rewrite sumf_const with (k := 0); auto.
  Qed.

  (** every coordinate below [m] of [p] is between [lo] and [ref] *)
  Definition inside (m : nat) (p : point) : Prop :=
    forall i, (i < m)%nat -> lo <= coord p i < coord ref i.

  Lemma V_add_le : forall m S p, inside m p -> V m (p :: S) <= V m S ->
    exists q, In q S /\ leq_upto m q p.
  Proof.
    induction m; intros S p Hin Hle; simpl in *.
    - destruct S as [|q S]; try lia. exists q. split; simpl; auto. intros i Hi. lia.
    - assert (E : forall z, In z (zrange lo (coord ref m)) ->
         V m (below m z S) = V m (below m z (p :: S))).
      { apply sumf_eq_all; auto. intros. apply V_incl.
        intros q Hq. apply in_below in Hq. apply in_below. simpl. tauto. }
      pose proof (Hin m ltac:(lia)) as Hm.
      specialize (E (coord p m) ltac:(apply in_zrange; lia)).
      assert (EB : below m (coord p m) (p :: S) = p :: below m (coord p m) S).
      { unfold below. simpl. rewrite Z.leb_refl. reflexivity. }
      rewrite EB in E.
      destruct (IHm (below m (coord p m) S) p) as (q & Hq & L).
      + intros i Hi. apply Hin. lia.
      + lia.
      + apply in_below in Hq. destruct Hq as [Hq Hqm]. exists q. split; auto.
        intros i Hi. destruct (Nat.eq_dec i m). subst; auto. apply L. lia.
  Qed.

  Lemma V_pos : forall m p, inside m p -> 0 < V m [p].
  Proof.
    intros. pose proof (V_nonneg m [p]). destruct (Z.eq_dec (V m [p]) 0); try lia.
    destruct (V_add_le m [] p H) as (q & [] & _). rewrite V_nil. lia.
  Qed.

  (** One point: the product of the edge lengths. *)
  Fixpoint box (m : nat) (p : point) : Z :=
    match m with
    | O => 1
    | Datatypes.S m' => box m' p * (coord ref m' - coord p m')
    end.

  Lemma V_single : forall m p, inside m p -> V m [p] = box m p.
  Proof.
    induction m; intros; simpl; auto.
    pose proof (H m ltac:(lia)) as Hm.
    rewrite (zrange_split lo (coord p m) (coord ref m)) by lia.
    rewrite sumf_app.
    rewrite (sumf_zrange_const _ _ _ 0); [|lia|].
    2:{ intros z Hz. unfold below. simpl. destruct (Z.leb_spec (coord p m) z); try lia. apply V_nil. }
    rewrite (sumf_zrange_const _ _ _ (box m p)); [lia|lia|].
    intros z Hz. unfold below. simpl. destruct (Z.leb_spec (coord p m) z); try lia.
    apply IHm. intros i Hi. apply H. lia.
  Qed.

  (** ** Sweeping along objective [m] *)

  Definition sorted_on (m : nat) (l : list point) : Prop :=
    StronglySorted (fun p q => coord p m <= coord q m) l.

  (** coordinate where the next slab starts *)
  Definition next_z (m : nat) (rest : list point) : Z :=
    match rest with [] => coord ref m | q :: _ => coord q m end.

  Fixpoint sweep (m : nat) (pre rest : list point) : Z :=
    match rest with
    | [] => 0
    | p :: rest' =>
        V m (pre ++ [p]) * (next_z m rest' - coord p m) + sweep m (pre ++ [p]) rest'
    end.

  Lemma below_split : forall m z A B,
    (forall p, In p A -> coord p m <= z) -> (forall p, In p B -> z < coord p m) ->
    below m z (A ++ B) = A.
  Proof.
    intros. unfold below. rewrite filter_app.
    replace (filter (fun p => coord p m <=? z) B) with (@nil point).
    - rewrite app_nil_r. induction A; simpl; auto.
      destruct (Z.leb_spec (coord a m) z). f_equal. apply IHA. intros; apply H; simpl; auto.
      specialize (H a (or_introl eq_refl)). lia.
    - clear H. induction B; simpl; auto. destruct (Z.leb_spec (coord a m) z).
      specialize (H0 a (or_introl eq_refl)). lia. apply IHB. intros; apply H0; simpl; auto.
  Qed.

  Lemma sweep_sum : forall m rest pre,
    sorted_on m (pre ++ rest) ->
    (forall p, In p (pre ++ rest) -> coord p m <= coord ref m) -> rest <> [] ->
    sumf (fun z => V m (below m z (pre ++ rest))) (zrange (next_z m rest) (coord ref m))
    = sweep m pre rest.
  Proof.
    induction rest as [|p rest IH]; intros pre HS Hr Hne; [congruence|].
    cbn [sweep]. cbn [next_z].
    assert (HS' := HS). replace (pre ++ p :: rest) with ((pre ++ [p]) ++ rest) in HS' by (now rewrite <- app_assoc).
    destruct (StronglySorted_app_inv _ _ _ _ HS') as (S1 & S2 & S3).
    assert (Hp1 : forall q, In q (pre ++ [p]) -> coord q m <= coord p m).
    { intros q Hq. apply in_app_iff in Hq. destruct Hq as [Hq|[->|[]]]; try lia.
      destruct (StronglySorted_app_inv _ _ _ _ S1) as (_ & _ & S4). apply S4; simpl; auto. }
    assert (Hn : coord p m <= next_z m rest <= coord ref m).
    { destruct rest as [|q rest]; simpl.
      - split; try lia. apply Hr. apply in_app_iff. simpl; auto.
      - split. apply S3; simpl; auto. apply in_app_iff; simpl; auto.
        apply Hr. apply in_app_iff. simpl; auto. }
    rewrite (zrange_split (coord p m) (next_z m rest) (coord ref m)) by lia.
    rewrite sumf_app.
    replace (pre ++ p :: rest) with ((pre ++ [p]) ++ rest) in * by (now rewrite <- app_assoc).
    f_equal.
    - apply sumf_zrange_const; [lia|]. intros z Hz. f_equal.
      apply below_split.
      + intros q Hq. specialize (Hp1 q Hq). lia.
      + intros q Hq. destruct rest as [|q0 rest]; simpl in *; try contradiction.
        destruct Hq as [->|Hq]; try lia.
        inversion S2; subst. rewrite Forall_forall in H2. specialize (H2 q Hq). lia.
    - destruct rest as [|q rest].
      + simpl. rewrite zrange_nil by lia. reflexivity.
      + apply IH; auto. discriminate.
  Qed.

  Lemma V_sweep : forall m l, sorted_on m l ->
    (forall p, In p l -> lo <= coord p m <= coord ref m) ->
    V (S m) l = sweep m [] l.
  Proof.
    intros m l HS Hr. destruct l as [|p l].
    - simpl. rewrite sumf_const with (k := 0); auto. intros. apply V_nil.
    - rewrite <- (sweep_sum m (p :: l) []); auto; try discriminate.
      2:{ intros. apply Hr. auto. }
      cbn [app V next_z].
      pose proof (Hr p ltac:(simpl; auto)).
      rewrite (zrange_split lo (coord p m) (coord ref m)) by lia.
      rewrite sumf_app. rewrite (sumf_zrange_const _ lo _ 0); [lia|lia|].
      intros z Hz. replace (below m z (p :: l)) with (@nil point). apply V_nil.
      symmetry. apply (below_split m z [] (p :: l)). intros q [].
      intros q [->|Hq]; try lia. inversion HS; subst. rewrite Forall_forall in H3.
      specialize (H3 q Hq). lia.
  Qed.

  (** ** The measure counts cells *)

  Fixpoint cells (m : nat) (S : list point) : list point :=
    match m with
    | O => match S with [] => [] | _ => [[]] end
    | Datatypes.S m' =>
        flat_map (fun z => map (fun c => c ++ [z]) (cells m' (below m' z S)))
                 (zrange lo (coord ref m'))
    end.

  Lemma cells_length : forall m S, Z.of_nat (length (cells m S)) = V m S.
  Proof.
    induction m; intros; simpl. destruct S; auto.
    induction (zrange lo (coord ref m)); simpl; auto.
    rewrite app_length, map_length. unfold sumf in *. simpl. rewrite Nat2Z.inj_add. f_equal; [apply IHm|apply IHl].
  Qed.

  Lemma cells_len : forall m S c, In c (cells m S) -> length c = m.
  Proof.
    induction m; intros; simpl in *. destruct S; simpl in H; intuition. now subst.
    apply in_flat_map in H. destruct H as (z & _ & H). apply in_map_iff in H.
    destruct H as (c' & <- & H). rewrite app_length. apply IHm in H. simpl. lia.
  Qed.

  Lemma cells_in : forall m S c,
    (forall p i, In p S -> (i < m)%nat -> lo <= coord p i) ->
    In c (cells m S) <->
    length c = m /\ (exists p, In p S /\ leq_upto m p c) /\
    (forall i, (i < m)%nat -> coord c i < coord ref i).
  Proof.
    induction m; intros S c Hlo; simpl.
    - destruct S as [|p S].
      + simpl. split; [contradiction|]. intros (_ & (p & [] & _) & _).
      + split.
        * intros [<-|[]]. split; auto. split. exists p. split; simpl; auto.
          intros i Hi; lia. intros; lia.
        * intros (L & _ & _). left. destruct c; simpl in L; auto; lia.
    - rewrite in_flat_map. split.
      + intros (z & Hz & H). apply in_map_iff in H. destruct H as (c' & <- & H).
        apply in_zrange in Hz. apply IHm in H.
        2:{ intros p i Hp Hi. apply in_below in Hp. apply Hlo; tauto || lia. }
        destruct H as (L & (p & Hp & LP) & HB). apply in_below in Hp.
        rewrite app_length. simpl. split; [lia|].
        assert (C1 : forall i, (i < m)%nat -> coord (c' ++ [z]) i = coord c' i).
        { intros. unfold coord. apply app_nth1. lia. }
        assert (C2 : coord (c' ++ [z]) m = z).
        { unfold coord. rewrite app_nth2 by lia. replace (m - length c')%nat with O by lia. reflexivity. }
        split.
        * exists p. split. tauto. intros i Hi. destruct (Nat.eq_dec i m).
          subst i. rewrite C2. tauto. rewrite C1 by lia. apply LP. lia.
        * intros i Hi. destruct (Nat.eq_dec i m).
          subst i. rewrite C2. lia. rewrite C1 by lia. apply HB. lia.
      + intros (L & (p & Hp & LP) & HB).
        assert (Ec : c = firstn m c ++ [coord c m]).
        { rewrite <- (firstn_skipn m c) at 1. f_equal. unfold coord.
          destruct (skipn m c) as [|z l] eqn:E.
          - apply (f_equal (@length Z)) in E. rewrite skipn_length in E. simpl in E. lia.
          - assert (length l = O). { apply (f_equal (@length Z)) in E. rewrite skipn_length in E. simpl in E. lia. }
            destruct l; try discriminate. f_equal.
            rewrite <- (firstn_skipn m c) at 1. rewrite app_nth2; rewrite firstn_length_le by lia; try lia.
            rewrite Nat.sub_diag, E. reflexivity. }
        assert (C1 : forall i, (i < m)%nat -> coord (firstn m c) i = coord c i).
        { intros. rewrite Ec at 2. unfold coord. rewrite app_nth1; auto. rewrite firstn_length_le; lia. }
        exists (coord c m). split.
        * apply in_zrange. specialize (LP m ltac:(lia)). specialize (HB m ltac:(lia)).
          specialize (Hlo p m Hp ltac:(lia)). lia.
        * apply in_map_iff. exists (firstn m c). split.
          -- symmetry; exact Ec.
          -- apply IHm.
             { intros q i Hq Hi. apply in_below in Hq. apply Hlo; tauto || lia. }
             split. rewrite firstn_length_le; lia. split.
             ++ exists p. split. apply in_below. split; [auto|apply LP; lia].
                intros i Hi. rewrite C1 by auto. apply LP. lia.
             ++ intros i Hi. rewrite C1 by auto. apply HB. lia.
  Qed.

  Lemma cells_nodup : forall m S, NoDup (cells m S).
  Proof.
    induction m; intros; simpl. destruct S; repeat constructor; auto.
    pose proof (zrange_nodup lo (coord ref m)) as HN.
    induction (zrange lo (coord ref m)); simpl. constructor.
    inversion HN; subst.
    assert (G : forall A (l1 l2 : list A), NoDup l1 -> NoDup l2 -> (forall x, In x l1 -> ~ In x l2) -> NoDup (l1 ++ l2)).
    { clear. induction l1; simpl; intros; auto. inversion H; subst. constructor.
      rewrite in_app_iff. intros [|]; auto. apply (H1 a); auto. apply IHl1; auto. }
    apply G; auto.
    - apply FinFun.Injective_map_NoDup; auto. intros x y E. now apply app_inj_tail in E.
    - intros c Hc C. apply in_map_iff in Hc. destruct Hc as (c' & <- & _).
      apply in_flat_map in C. destruct C as (z & Hz & C). apply in_map_iff in C.
      destruct C as (c'' & E & _). apply app_inj_tail in E. destruct E; subst. auto.
  Qed.

  Theorem V_hypervolume : forall S,
    (forall p i, In p S -> (i < length ref)%nat -> lo <= coord p i) ->
    hypervolume S ref (V (length ref) S).
  Proof.
    intros. exists (cells (length ref) S). split; [apply cells_nodup|]. split.
    - intros z. rewrite cells_in by auto. unfold dominated_cell, leq_upto. tauto.
    - symmetry. apply cells_length.
  Qed.
End Measure.

(** A lower bound of all coordinates exists, so [V] always computes the volume. *)
Definition min_coord (S : list point) : Z :=
  fold_right (fun p m => fold_right Z.min m p) 0 S.

Lemma fold_min_le : forall (l : list Z) m, fold_right Z.min m l <= m /\
  forall x, In x l -> fold_right Z.min m l <= x.
Proof.
  induction l; simpl; intros. split; [lia|contradiction].
  destruct (IHl m). split. lia. intros x [->|Hx]. lia. specialize (H0 x Hx). lia.
Qed.

Lemma min_coord_ok : forall S p i, In p S -> min_coord S <= coord p i.
Proof.
  assert (Hle0 : forall S, min_coord S <= 0).
  { induction S; simpl. lia. pose proof (proj1 (fold_min_le a (min_coord S))). unfold min_coord in *. lia. }
  induction S; simpl; intros; try contradiction.
  destruct (fold_min_le a (min_coord S)) as [H1 H2]. fold (min_coord S).
  destruct H as [->|H].
  - unfold coord. destruct (Nat.lt_ge_cases i (length p)).
    + apply H2. apply nth_In. auto.
    + rewrite nth_overflow by auto. specialize (Hle0 S). lia.
  - specialize (IHS p i H). lia.
Qed.

Theorem hypervolume_exists : forall S ref, exists v, hypervolume S ref v.
Proof.
  intros. exists (V (min_coord S) ref (length ref) S). apply V_hypervolume.
  intros. now apply min_coord_ok.
Qed.

(** ** Points that do not strictly dominate the reference point are irrelevant *)

Definition below_ref (ref : point) (m : nat) (p : point) : bool :=
  forallb (fun i => coord p i <? coord ref i) (seq 0 m).

Lemma below_ref_iff : forall ref m p, below_ref ref m p = true <->
  forall i, (i < m)%nat -> coord p i < coord ref i.
Proof.
  intros. unfold below_ref. rewrite forallb_forall. split; intros.
  - apply Z.ltb_lt. apply H. apply in_seq. lia.
  - apply Z.ltb_lt. apply H. apply in_seq in H0. lia.
Qed.

Lemma V_filter : forall lo ref m S, V lo ref m S = V lo ref m (filter (below_ref ref m) S).
Proof.
  induction m; intros.
  - f_equal. induction S; simpl; auto. f_equal. auto.
  - cbn [V]. apply sumf_ext. intros z Hz. apply in_zrange in Hz.
    rewrite IHm. symmetry. rewrite IHm. apply V_same. intros p.
    rewrite !filter_In, !in_below, !filter_In. split; [tauto|].
    intros ((H1 & H2) & H3). split; auto. split; auto. split; auto.
    rewrite below_ref_iff in *. intros i Hi. destruct (Nat.eq_dec i m). subst; lia. apply H3; lia.
Qed.

Lemma V_outside : forall lo ref m S,
  (forall p, In p S -> exists i, (i < m)%nat /\ coord ref i <= coord p i) -> V lo ref m S = 0.
Proof.
  intros. rewrite V_filter. replace (filter (below_ref ref m) S) with (@nil point). apply V_nil.
  symmetry. apply Permutation_nil. apply NoDup_Permutation_bis; simpl; auto; try constructor.
  - destruct (filter (below_ref ref m) S) as [|p l] eqn:E; auto. exfalso.
    assert (Hp : In p (filter (below_ref ref m) S)) by (rewrite E; simpl; auto).
    apply filter_In in Hp. destruct Hp as [Hp B]. destruct (H p Hp) as (i & Hi & C).
    rewrite below_ref_iff in B. specialize (B i Hi). lia.
  - intros p []. 
Qed.

Lemma V_dim1 : forall lo ref S p, In p S -> lo <= coord p 0 < coord ref 0 ->
  (forall q, In q S -> coord p 0 <= coord q 0) -> V lo ref 1 S = coord ref 0 - coord p 0.
Proof.
  intros. rewrite (V_equiv lo ref 1 S [p]).
  - rewrite V_single. { cbn [box]; lia. } intros i Hi. replace i with O by lia. auto.
  - intros q [<-|[]]. exists p. split; auto. apply leq_upto_refl.
  - intros q Hq. exists p. split; simpl; auto. intros i Hi. replace i with O by lia. auto.
Qed.
