(** Property C38: applying a function within each set of a data set
    (apply_within_sets, is_nondominated_within_sets).

    Specification: GroupSpec.v and Spec.v.  Model: GroupModel.v. *)
From Coq Require Import List ZArith Lia Bool Arith Permutation Sorted.
From Verif Require Import Base Spec NondomModel NondomMain PropNondom GroupModel GroupSpec GroupProofs.
Import ListNotations.
Open Scope Z_scope.

Lemma argsort_exec_valid : valid_argsort le argsort_exec.
Proof.
  intros l. split. apply sort_by_perm.
  intros d. unfold argsort_exec.
  assert (P := sort_by_perm nat (fun i j => nth i l 0 <=? nth j l 0)%nat (seq 0 (length l))).
  assert (S : StronglySorted (fun i j => nth i l 0 <= nth j l 0)%nat
           (sort_by (fun i j => nth i l 0 <=? nth j l 0)%nat (seq 0 (length l)))).
  { apply sort_by_sorted; intros.
    all: try (apply Nat.leb_le; assumption); try (apply Nat.leb_nle in H; lia); try lia. }
  revert P S. generalize (sort_by (fun i j => nth i l 0 <=? nth j l 0)%nat (seq 0 (length l))).
  intros p P S. assert (Hin : forall i, In i p -> (i < length l)%nat).
  { intros. apply (Permutation_in _ (Permutation_sym P)), in_seq in H. lia. }
  clear P. induction S; simpl; constructor.
  - apply IHS. intros. apply Hin. now right.
  - rewrite Forall_forall in *. intros y Hy. apply in_map_iff in Hy. destruct Hy as (j & <- & Hj).
    rewrite !(nth_indep l d 0%nat); auto. apply Hin. now right. apply Hin. now left.
Qed.

Lemma np_concatenate_ok : forall C (l : list (list C)), l <> [] -> np_concatenate l = Ret (concat l).
Proof. destruct l; intros. contradiction. reflexivity. Qed.

Lemma groups_nonempty : forall argsort, valid_argsort le argsort -> forall sets, sets <> [] ->
  group_indices argsort sets <> [] /\ in_order_of_appearance sets <> [].
Proof.
  intros. rewrite (group_indices_eq argsort H). destruct sets. contradiction.
  split; discriminate.
Qed.

(** ** a function with one result per row: the i-th result is the one computed
    for row i within the rows having the same label, whatever the order of the
    rows and of the labels *)
Theorem C38_row_results_aligned :
  forall A B (argsort : list nat -> list nat) (func : list A -> outcome (list B)) (x : list A) (sets : list Z) (d : B),
  valid_argsort le argsort -> x <> [] -> length sets = length x ->
  (forall v, In v sets -> exists z, func (rows_with x sets v) = Ret z /\ length z = length (rows_with x sets v)) ->
  exists res, apply_within_sets argsort func x sets = Ret res /\
    length res = length x /\
    forall i, (i < length x)%nat -> forall z, func (rows_with x sets (nth i sets 0)) = Ret z ->
      nth i res d = nth (rank_in_set sets i) z d.
Proof.
  intros A B argsort func x sets d HA Hne HL HF.
  set (f := fun rows => match func rows with Ret z => z | _ => [] end).
  assert (Hf : forall v, In v sets -> func (rows_with x sets v) = Ret (f (rows_with x sets v)) /\
     length (f (rows_with x sets v)) = length (rows_with x sets v)).
  { intros v Hv. destruct (HF v Hv) as (z & E & L). unfold f. rewrite E. auto. }
  assert (Hs : sets <> []) by (intros ->; destruct x; [auto|discriminate]).
  destruct (groups_nonempty argsort HA sets Hs) as [G1 G2].
  unfold apply_within_sets. rewrite (group_indices_eq argsort HA) in *.
  rewrite (apply_loop_ok _ _ func f) by (auto; intros v Hv; apply ioa_In, Hf in Hv; destruct Hv; auto).
  cbn [bind fst snd orb].
  assert (Hex : existsb (fun v => negb (length (f (rows_with x sets v)) =? length (rows_with x sets v))%nat)
                  (in_order_of_appearance sets) = false).
  { apply not_true_is_false. rewrite existsb_exists. intros (v & Hv & E). apply ioa_In, Hf in Hv.
    rewrite (proj2 (Nat.eqb_eq _ _) (proj2 Hv)) in E. discriminate. }
  rewrite Hex.
  destruct (scatter_ok A B argsort x sets f d HA (eq_sym HL)) as (res & E & [RL RN]).
  { intros v Hv. apply Hf, Hv. }
  exists res. split; [|split; auto].
  - pose proof np_concatenate_ok as NC.
    rewrite !NC; auto. intro M. apply map_eq_nil in M. auto.
  - intros i Hi z Hz. rewrite RN by auto. f_equal. unfold f. now rewrite Hz.
Qed.
Print Assumptions C38_row_results_aligned.

(** ** a function with one result per set (such as an indicator): one result per
    distinct label, in order of first appearance of the labels *)
Theorem C38_one_result_per_set :
  forall A B (argsort : list nat -> list nat) (func : list A -> outcome (list B)) (f : list A -> B)
         (x : list A) (sets : list Z),
  valid_argsort le argsort -> x <> [] -> length sets = length x ->
  (forall v, In v sets -> func (rows_with x sets v) = Ret [f (rows_with x sets v)]) ->
  apply_within_sets argsort func x sets =
    Ret (map (fun v => f (rows_with x sets v)) (in_order_of_appearance sets)).
Proof.
  intros A B argsort func f x sets HA Hne HL HF.
  assert (Hs : sets <> []) by (intros ->; destruct x; [auto|discriminate]).
  destruct (groups_nonempty argsort HA sets Hs) as [G1 G2].
  pose proof np_concatenate_ok as NC.
  assert (CC : concat (map (fun v => [f (rows_with x sets v)]) (in_order_of_appearance sets))
               = map (fun v => f (rows_with x sets v)) (in_order_of_appearance sets)).
  { generalize (in_order_of_appearance sets). induction l; simpl; congruence. }
  destruct (existsb (fun v => negb (1 =? length (rows_with x sets v))%nat)
                  (in_order_of_appearance sets)) eqn:Hex.
  - unfold apply_within_sets. rewrite (group_indices_eq argsort HA) in *.
    rewrite (apply_loop_ok _ _ func (fun g => [f g])) by (auto; intros v Hv; apply ioa_In, HF in Hv; auto).
    cbn [bind fst snd orb length]. rewrite Hex.
    rewrite NC by (intro M; apply map_eq_nil in M; auto). cbn [bind]. now rewrite CC.
  - (* every set has exactly one row *)
    assert (H1 : forall v, In v sets -> length (rows_with x sets v) = 1%nat).
    { intros v Hv. apply ioa_In in Hv. destruct (Nat.eqb_spec 1 (length (rows_with x sets v))); auto.
      assert (existsb (fun v => negb (1 =? length (rows_with x sets v))%nat)
                  (in_order_of_appearance sets) = true); [|congruence].
      apply existsb_exists. exists v. split; auto. apply Nat.eqb_neq in n. now rewrite n. }
    destruct x as [|a0 x0]; [contradiction|]. set (x := a0 :: x0) in *.
    set (d := f [a0]).
    destruct (C38_row_results_aligned A B argsort func x sets d HA Hne HL) as (res & E & RL & RN).
    { intros v Hv. exists [f (rows_with x sets v)]. split; auto. now rewrite H1. }
    rewrite E. f_equal.
    assert (ND : NoDup sets).
    { apply NoDup_nth with (d := 0). intros i j Hi Hj Eij.
      destruct (Nat.eq_dec i j); auto. exfalso.
      specialize (H1 (nth i sets 0) (nth_In _ _ Hi)).
      rewrite <- (positions_length _ x sets (nth i sets 0) 0) in H1 by auto.
      assert (In i (positions 0 sets (nth i sets 0)) /\ In j (positions 0 sets (nth i sets 0))) as [I1 I2].
      { rewrite !positions_In, !Nat.sub_0_r. repeat split; auto; lia. }
      destruct (positions 0 sets (nth i sets 0)) as [|q [|q' l]]; simpl in *; try lia. }
    assert (IO : in_order_of_appearance sets = sets).
    { clear - ND. induction ND; simpl; auto. rewrite IHND. f_equal. clear - H.
      induction l; simpl; auto. destruct (Z.eqb_spec a x). subst. exfalso. apply H. now left.
      simpl. rewrite IHl; auto. intro. apply H. now right. }
    rewrite IO. apply (list_ext _ d). rewrite map_length. lia.
    intros i Hi. rewrite (nth_map_lt _ _ _ _ i _ 0) by lia.
    assert (Hn : In (nth i sets 0) sets) by (apply nth_In; lia).
    rewrite (RN i ltac:(lia) _ (HF _ Hn)).
    assert (R0 : rank_in_set sets i = 0%nat).
    { unfold rank_in_set. clear - ND Hi RL HL. assert (i < length sets)%nat as Hi' by lia. clear Hi RL HL.
      revert i Hi'. induction ND; simpl; intros. lia. destruct i; simpl; auto.
      match goal with |- context [nth i l 0 =? ?y] => destruct (Z.eqb_spec (nth i l 0) y) end. subst. exfalso. apply H, nth_In. lia. simpl. apply IHND. lia. }
    now rewrite R0.
Qed.
Print Assumptions C38_one_result_per_set.

(** ** any other number of results for some set raises ValueError *)
Theorem C38_wrong_length_raises :
  forall A B (argsort : list nat -> list nat) (func : list A -> outcome (list B)) (f : list A -> list B)
         (x : list A) (sets : list Z) v,
  valid_argsort le argsort -> length sets = length x ->
  (forall v, In v sets -> func (rows_with x sets v) = Ret (f (rows_with x sets v))) ->
  In v sets -> length (f (rows_with x sets v)) <> 1%nat ->
  length (f (rows_with x sets v)) <> length (rows_with x sets v) ->
  apply_within_sets argsort func x sets = AssertFailed.
Proof.
  intros. unfold apply_within_sets. rewrite (group_indices_eq argsort H).
  rewrite (apply_loop_bad _ _ func f); auto.
  - intros. now apply H1, ioa_In.
  - exists v. rewrite ioa_In. auto.
Qed.
Print Assumptions C38_wrong_length_raises.

(** ** nondominated within each set *)
Lemma rows_with_wf : forall d x sets v, wf_points d x -> wf_points d (rows_with x sets v).
Proof.
  unfold wf_points. induction x; destruct sets; simpl; intros; try constructor.
  inversion H; subst. destruct (z =? v); auto. all: try constructor; auto.
Qed.

(** row [i] is the [rank_in_set]-th row with its label *)
Lemma rows_with_rank : forall A (x : list A) sets d i, length sets = length x -> (i < length x)%nat ->
  (rank_in_set sets i < length (rows_with x sets (nth i sets 0%Z)))%nat /\
  nth (rank_in_set sets i) (rows_with x sets (nth i sets 0)) d = nth i x d.
Proof.
  unfold rank_in_set. induction x; destruct sets; simpl; intros; try lia.
  destruct i; simpl.
  - rewrite Z.eqb_refl. simpl. split. lia. reflexivity.
  - destruct (IHx sets d i ltac:(lia) ltac:(lia)).
    destruct (Z.eqb_spec z (nth i sets 0)); destruct (Z.eqb_spec (nth i sets 0) z); try congruence; simpl; split; auto; lia.
Qed.
Lemma rows_with_inv : forall A (x : list A) sets d v r, length sets = length x ->
  (r < length (rows_with x sets v))%nat ->
  exists i, (i < length x)%nat /\ nth i sets 0 = v /\ rank_in_set sets i = r /\
            nth i x d = nth r (rows_with x sets v) d.
Proof.
  unfold rank_in_set. induction x; destruct sets; simpl; intros; try lia.
  destruct (Z.eqb_spec z v).
  - destruct r; simpl in *. exists 0%nat. simpl. repeat split; auto; lia.
    destruct (IHx sets d v r ltac:(lia) ltac:(lia)) as (i & Hi & E1 & E2 & E3).
    exists (S i). simpl. rewrite E1 in *. destruct (Z.eqb_spec v z); try congruence. repeat split; auto; lia.
  - destruct (IHx sets d v r ltac:(lia) ltac:(lia)) as (i & Hi & E1 & E2 & E3).
    exists (S i). simpl. rewrite E1 in *. destruct (Z.eqb_spec v z); try congruence. repeat split; auto; lia.
Qed.

Lemma within_sets_scatter : forall argsort sort2d data sets maximise kw,
  valid_argsort le argsort -> valid_sort2d sort2d -> wf_points (length maximise) data ->
  (2 <= length maximise)%nat -> data <> [] -> length sets = length data ->
  exists nondom, is_nondominated_within_sets argsort sort2d data sets maximise kw = Ret nondom /\
    length nondom = length data /\
    forall i, (i < length data)%nat ->
    forall z, is_nondominated sort2d (rows_with data sets (nth i sets 0)) maximise kw = Ret z ->
      nth i nondom false = nth (rank_in_set sets i) z false.
Proof.
  intros argsort sort2d data sets mx kw HA HS HW Hd Hne HL.
  set (func := fun rows => is_nondominated sort2d rows mx kw).
  set (f := fun rows => match func rows with Ret z => z | _ => [] end).
  assert (Hf : forall v, func (rows_with data sets v) = Ret (f (rows_with data sets v)) /\
     length (f (rows_with data sets v)) = length (rows_with data sets v)).
  { intros v. pose proof (rows_with_wf (length mx) data sets v HW) as W.
    unfold f, func. destruct kw.
    destruct (C01_is_nondominated_keep_weakly_exact sort2d mx _ HS W) as (z & E & L & _). now rewrite E.
    destruct (C02_is_nondominated_strict_filter sort2d mx _ HS W) as (z & E & L & _). now rewrite E. }
  assert (Hs : sets <> []) by (intros ->; destruct data; [auto|discriminate]).
  destruct (groups_nonempty argsort HA sets Hs) as [G1 G2].
  destruct (scatter_ok _ _ argsort data sets f false HA (eq_sym HL)) as (res & E & [RL RN]).
  { intros v Hv. apply Hf. }
  exists res. split; [|split; auto].
  - unfold is_nondominated_within_sets. apply Nat.leb_le in Hd. rewrite Hd. cbn [assert_ bind].
    rewrite (group_indices_eq argsort HA) in *. fold func.
    rewrite (map_groups_ok _ _ func f) by (auto; intros v Hv; apply Hf).
    cbn [bind].
    pose proof np_concatenate_ok as NC.
    rewrite !NC; auto. intro M. apply map_eq_nil in M. auto.
  - intros i Hi z Hz. rewrite RN by auto. f_equal. unfold f, func. now rewrite Hz.
Qed.

Theorem C38_nondominated_within_sets :
  forall argsort sort2d (data : list point) (sets : list Z) (maximise : list bool),
  valid_argsort le argsort -> valid_sort2d sort2d -> wf_points (length maximise) data ->
  (2 <= length maximise)%nat -> data <> [] -> length sets = length data ->
  exists nondom, is_nondominated_within_sets argsort sort2d data sets maximise true = Ret nondom /\
    length nondom = length data /\
    forall i, (i < length data)%nat ->
      (nth i nondom false = true <->
       ~ exists j, (j < length data)%nat /\ nth j sets 0 = nth i sets 0 /\
                   dom maximise (row data j) (row data i)).
Proof.
  intros argsort sort2d data sets mx HA HS HW Hd Hne HL.
  destruct (within_sets_scatter argsort sort2d data sets mx true HA HS HW Hd Hne HL) as (nd & E & L & N).
  exists nd. split; [exact E|split; [exact L|]]. intros i Hi.
  destruct (C01_is_nondominated_keep_weakly_exact sort2d mx (rows_with data sets (nth i sets 0)) HS)
    as (z & Ez & Lz & Hz). now apply rows_with_wf.
  rewrite (N i Hi z Ez). destruct (rows_with_rank _ data sets [] i HL Hi) as [Hr Er].
  rewrite (Hz _ Hr). unfold row in *. rewrite Er. split; intros Hn (j & Hj & D).
  - apply Hn. destruct D as [Es D]. destruct (rows_with_rank _ data sets [] j HL Hj) as [Hr' Er'].
    rewrite Es in *. exists (rank_in_set sets j). split; auto. now rewrite Er'.
  - apply Hn. destruct (rows_with_inv _ data sets [] _ j HL Hj) as (k & Hk & E1 & E2 & E3).
    exists k. split; auto. split; auto. now rewrite E3.
Qed.
Print Assumptions C38_nondominated_within_sets.

Theorem C38_nondominated_within_sets_strict :
  forall argsort sort2d (data : list point) (sets : list Z) (maximise : list bool),
  valid_argsort le argsort -> valid_sort2d sort2d -> wf_points (length maximise) data ->
  (2 <= length maximise)%nat -> data <> [] -> length sets = length data ->
  exists nondom, is_nondominated_within_sets argsort sort2d data sets maximise false = Ret nondom /\
    length nondom = length data /\
    (* no kept row is dominated by a row of its set *)
    (forall i j, (i < length data)%nat -> (j < length data)%nat -> nth i nondom false = true ->
       nth j sets 0 = nth i sets 0 -> ~ dom maximise (row data j) (row data i)) /\
    (* two kept rows of the same set differ *)
    (forall i j, (i < length data)%nat -> (j < length data)%nat -> i <> j ->
       nth i nondom false = true -> nth j nondom false = true ->
       nth j sets 0 = nth i sets 0 -> row data i <> row data j) /\
    (* every row is weakly dominated by a kept row of its set *)
    (forall i, (i < length data)%nat -> exists j, (j < length data)%nat /\
       nth j sets 0 = nth i sets 0 /\ nth j nondom false = true /\
       wdom maximise (row data j) (row data i)).
Proof.
  intros argsort sort2d data sets mx HA HS HW Hd Hne HL.
  destruct (within_sets_scatter argsort sort2d data sets mx false HA HS HW Hd Hne HL) as (nd & E & L & N).
  exists nd. split; [exact E|split; [exact L|]].
  assert (R : forall v, exists z, is_nondominated sort2d (rows_with data sets v) mx false = Ret z /\
     length z = length (rows_with data sets v) /\
     (forall i, (i < length data)%nat -> nth i sets 0 = v ->
        nth i nd false = nth (rank_in_set sets i) z false) /\
    (forall i, (i < length (rows_with data sets v))%nat -> nth i z false = true ->
       ~ exists j, (j < length (rows_with data sets v))%nat /\ dom mx (row (rows_with data sets v) j) (row (rows_with data sets v) i)) /\
    (forall i j, (i < length (rows_with data sets v))%nat -> (j < length (rows_with data sets v))%nat ->
       nth i z false = true -> nth j z false = true ->
       i <> j -> row (rows_with data sets v) i <> row (rows_with data sets v) j) /\
    (forall i, (i < length (rows_with data sets v))%nat ->
       exists j, (j < length (rows_with data sets v))%nat /\ nth j z false = true /\
                 wdom mx (row (rows_with data sets v) j) (row (rows_with data sets v) i))).
  { intros v. destruct (C02_is_nondominated_strict_filter sort2d mx (rows_with data sets v) HS)
      as (z & Ez & Lz & H1 & H2 & H3). now apply rows_with_wf.
    exists z. split; auto. split; auto. split; auto. intros i Hi Ev. apply N; auto. now rewrite Ev. }
  assert (Rk : forall i, (i < length data)%nat ->
     (rank_in_set sets i < length (rows_with data sets (nth i sets 0%Z)))%nat /\
     row (rows_with data sets (nth i sets 0)) (rank_in_set sets i) = row data i).
  { intros. now apply rows_with_rank. }
  split; [|split].
  - intros i j Hi Hj Ki Es D. destruct (R (nth i sets 0)) as (z & _ & _ & Nz & H1 & _).
    destruct (Rk i Hi) as [Ri Ei]. destruct (Rk j Hj) as [Rj Ej]. rewrite Es in Rj, Ej.
    rewrite (Nz i Hi eq_refl) in Ki. apply (H1 _ Ri Ki). exists (rank_in_set sets j). split; auto.
    now rewrite Ei, Ej.
  - intros i j Hi Hj Nij Ki Kj Es Eq. destruct (R (nth i sets 0)) as (z & _ & _ & Nz & _ & H2 & _).
    destruct (Rk i Hi) as [Ri Ei]. destruct (Rk j Hj) as [Rj Ej]. rewrite Es in Rj, Ej.
    rewrite (Nz i Hi eq_refl) in Ki. rewrite (Nz j Hj Es) in Kj.
    apply (H2 _ _ Ri Rj Ki Kj); [|congruence].
    intro Er. apply Nij. (* equal rank and equal label *)
    rewrite <- (positions_length _ data sets (nth i sets 0) 0) in Ri by auto.
    assert (P : forall k, (k < length data)%nat -> nth k sets 0 = nth i sets 0 ->
              nth (rank_in_set sets k) (positions 0 sets (nth i sets 0)) 0%nat = k).
    { intros k Hk Ek. assert (In k (positions 0 sets (nth i sets 0))).
      { apply positions_In. rewrite Nat.sub_0_r. split; auto; lia. }
      destruct (In_nth _ _ 0%nat H) as (r & Hr & Er').
      pose proof (positions_rank sets (nth i sets 0) 0 r Hr) as PR. rewrite Er', Nat.sub_0_r in PR.
      unfold rank_in_set. rewrite Ek, PR. exact Er'. }
    rewrite <- (P i Hi eq_refl), <- (P j Hj Es). now rewrite Er.
  - intros i Hi. destruct (R (nth i sets 0)) as (z & _ & _ & Nz & _ & _ & H3).
    destruct (Rk i Hi) as [Ri Ei]. destruct (H3 _ Ri) as (r & Hr & Kr & W).
    destruct (rows_with_inv _ data sets [] _ r HL Hr) as (k & Hk & E1 & E2 & E3).
    exists k. split; auto. split; auto. rewrite (Nz k Hk E1), E2. split; auto.
    unfold row in *. rewrite E3, <- Ei. exact W.
Qed.
Print Assumptions C38_nondominated_within_sets_strict.

(** unique_nosort: the distinct values in order of first appearance *)
Theorem C38_unique_nosort : forall argsort a, valid_argsort le argsort ->
  unique_nosort argsort a = Ret (in_order_of_appearance a).
Proof. intros. now apply unique_nosort_ok. Qed.
Print Assumptions C38_unique_nosort.

(** interleaved labels; the last two examples are those of the documentation *)
Example C38_nonvacuous :
  valid_argsort le argsort_exec /\
  is_nondominated_within_sets argsort_exec sort2d_exec
     [[1;2];[1;3];[2;1];[2;2]] [1;1;1;2] [false;false] true = Ret [true;false;true;true] /\
  is_nondominated_within_sets argsort_exec sort2d_exec
     [[5;5];[1;2];[4;4];[1;2];[6;6];[1;3]] [7;3;7;3;7;3] [false;false] false
     = Ret [false;true;true;false;false;false] /\
  apply_within_sets argsort_exec (fun g => Ret (map (fun v => v * 10 + Z.of_nat (length g)) g))
     [1;2;3;4;5] [9;1;9;1;4] = Ret [12;22;32;42;51] /\
  apply_within_sets argsort_exec (fun g => Ret [zsum g]) [1;2;3;4;5] [9;1;9;1;4] = Ret [4;6;5] /\
  apply_within_sets argsort_exec (fun g => Ret (g ++ g)) [1;2;3] [1;1;2] = AssertFailed /\
  in_order_of_appearance [9;1;9;1;4] = [9;1;4] /\
  rows_with [1;2;3;4;5] [9;1;9;1;4] 1 = [2;4].
Proof. split. apply argsort_exec_valid. repeat split; vm_compute; reflexivity. Qed.

(** Rows beyond the last label are silently ignored when [sets] is too short. *)
Theorem C38_short_sets_refuted : exists x sets,
  (length sets < length x)%nat /\
  apply_within_sets argsort_exec (fun g => Ret (map (fun v : Z => v) g)) x sets = Ret [1;2].
Proof. exists [1;2;3], [1;2]. split. simpl; lia. vm_compute. reflexivity. Qed.
