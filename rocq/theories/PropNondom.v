(** Properties C01-C05, C13 (nondominated filtering), C45, C46. *)
From Coq Require Import List ZArith Lia Bool Arith.
From Verif Require Import Base Spec NondomModel NondomProofs2d NondomMain NondomExtra.
Import ListNotations.
Open Scope Z_scope.

(** ** C01 *)
Theorem C01_is_nondominated_keep_weakly_exact :
  forall (sort2d : list point -> list nat) (maximise : list bool) (pts : list point),
  valid_sort2d sort2d -> wf_points (length maximise) pts ->
  exists nondom,
    is_nondominated sort2d pts maximise true = Ret nondom /\
    length nondom = length pts /\
    forall i, (i < length pts)%nat ->
      (nth i nondom false = true <->
       ~ exists j, (j < length pts)%nat /\ dom maximise (row pts j) (row pts i)).
Proof. intros. exact (is_nondominated_ok sort2d maximise pts true H H0). Qed.
Print Assumptions C01_is_nondominated_keep_weakly_exact.

Example C01_nonvacuous :
  valid_sort2d sort2d_exec /\ wf_points 2 [[1;1];[0;1];[1;0];[1;0]] /\
  is_nondominated sort2d_exec [[1;1];[0;1];[1;0];[1;0]] [false;false] true
    = Ret [false;true;true;true] /\
  is_nondominated sort2d_exec [[1;1;2];[0;1;2];[1;0;5];[1;0;5]] [false;false;true] true
    = Ret [false;true;true;true].
Proof.
  split. apply sort2d_exec_valid. split. repeat constructor.
  split; vm_compute; reflexivity.
Qed.

(** ** C02 *)
Theorem C02_is_nondominated_strict_filter :
  forall (sort2d : list point -> list nat) (maximise : list bool) (pts : list point),
  valid_sort2d sort2d -> wf_points (length maximise) pts ->
  exists nondom,
    is_nondominated sort2d pts maximise false = Ret nondom /\
    length nondom = length pts /\
    (* no kept row is dominated *)
    (forall i, (i < length pts)%nat -> nth i nondom false = true ->
       ~ exists j, (j < length pts)%nat /\ dom maximise (row pts j) (row pts i)) /\
    (* kept rows are pairwise different *)
    (forall i j, (i < length pts)%nat -> (j < length pts)%nat ->
       nth i nondom false = true -> nth j nondom false = true ->
       i <> j -> row pts i <> row pts j) /\
    (* every row is weakly dominated by a kept row *)
    (forall i, (i < length pts)%nat ->
       exists j, (j < length pts)%nat /\ nth j nondom false = true /\
                 wdom maximise (row pts j) (row pts i)).
Proof. intros. exact (is_nondominated_ok sort2d maximise pts false H H0). Qed.
Print Assumptions C02_is_nondominated_strict_filter.

Theorem C02_keeps_last_duplicate :
  forall (sort2d : list point -> list nat) (maximise : list bool) (pts : list point) nondom,
  valid_sort2d sort2d -> wf_points (length maximise) pts -> length maximise <> 2%nat ->
  is_nondominated sort2d pts maximise false = Ret nondom ->
  forall i j, (i < j < length pts)%nat -> row pts i = row pts j ->
    nth i nondom false = false.
Proof. exact is_nondominated_last. Qed.
Print Assumptions C02_keeps_last_duplicate.

Example C02_nonvacuous :
  is_nondominated sort2d_exec [[1;1];[0;1];[1;0];[1;0]] [false;false] false
    = Ret [false;true;true;false] /\
  is_nondominated sort2d_exec [[1;1;2];[0;1;2];[1;0;5];[1;0;5]] [false;false;true] false
    = Ret [false;true;false;true].
Proof. split; vm_compute; reflexivity. Qed.

(** ** C03: the returned count *)

(** For dimensions other than 2 the count is the number of kept rows. *)
Theorem C03_count_correct_partial :
  (* full claim: also for two objectives -- refuted below *)
  forall (sort2d : list point -> list nat) (maximise : list bool) (pts : list point),
  valid_sort2d sort2d -> wf_points (length maximise) pts -> length maximise <> 2%nat ->
  (2 <= length pts)%nat ->
  exists nondom,
    find_nondominated_set sort2d pts (length maximise) (minmax_from_bool maximise)
       (nondom_init (length pts))
    = Ret (nondom, Z.of_nat (countb (fun b => b) nondom)).
Proof.
  intros. destruct (find_nd_filter_ok sort2d H maximise pts H0 false) as (nd & r & E & HF & Hr).
  exists nd. unfold find_nondominated_set. rewrite E, Hr.
  destruct (Nat.ltb_spec (length pts) 2); try lia.
  destruct (Nat.eqb_spec (length maximise) 2); try contradiction. reflexivity.
Qed.
Print Assumptions C03_count_correct_partial.

(** For two objectives the returned number is the number of rows *removed*. *)
Theorem C03_count_2d_is_number_removed :
  forall (sort2d : list point -> list nat) (maximise : list bool) (pts : list point),
  valid_sort2d sort2d -> wf_points 2 pts -> length maximise = 2%nat ->
  (2 <= length pts)%nat ->
  exists nondom,
    find_nondominated_set sort2d pts 2 (minmax_from_bool maximise) (nondom_init (length pts))
    = Ret (nondom, Z.of_nat (countb negb nondom)).
Proof.
  intros. rewrite <- H1 in H0. destruct (find_nd_filter_ok sort2d H maximise pts H0 false) as (nd & r & E & HF & Hr).
  exists nd. unfold find_nondominated_set. rewrite H1 in E. rewrite E, Hr.
  destruct (Nat.ltb_spec (length pts) 2); try lia. rewrite H1. reflexivity.
Qed.
Print Assumptions C03_count_2d_is_number_removed.

(** A set of three mutually nondominated points: the function returns 0. *)
Theorem C03_count_2d_refuted :
  exists pts nondom r, wf_points 2 pts /\
    find_nondominated_set sort2d_exec pts 2 (minmax_from_bool [false;false])
      (nondom_init (length pts)) = Ret (nondom, r) /\
    countb (fun b => b) nondom = 3%nat /\ r = 0.
Proof.
  exists [[1;3];[2;2];[3;1]], [true;true;true], 0.
  split. repeat constructor. split. vm_compute; reflexivity. split; reflexivity.
Qed.
Print Assumptions C03_count_2d_refuted.

(** ** C04: get_nondominated_set *)
Theorem C04_get_nondominated_set_partial :
  (* full claim: also for two objectives -- refuted below *)
  forall (sort2d : list point -> list nat) (maximise : list bool) (pts : list point),
  valid_sort2d sort2d -> wf_points (length maximise) pts ->
  length maximise <> 2%nat \/ (length pts < 2)%nat ->
  exists nondom, strict_filter_spec maximise pts nondom /\
    get_nondominated_set sort2d pts (length maximise) (minmax_from_bool maximise)
      = Ret (select pts nondom, Z.of_nat (length (select pts nondom))).
Proof. exact get_nondominated_set_ok. Qed.
Print Assumptions C04_get_nondominated_set_partial.

Example C04_nonvacuous :
  get_nondominated_set sort2d_exec [[1;1;2];[0;1;2];[1;0;5];[1;0;5]] 3
     (minmax_from_bool [false;false;true]) = Ret ([[0;1;2];[1;0;5]], 2).
Proof. vm_compute; reflexivity. Qed.

(** Three mutually nondominated 2-objective points: the buffer has room for 0
    rows and the first copied row is out of bounds. *)
Theorem C04_get_nondominated_set_2d_refuted :
  exists pts, wf_points 2 pts /\
    get_nondominated_set sort2d_exec pts 2 (minmax_from_bool [false;false]) = OutOfBounds.
Proof. exists [[1;3];[2;2];[3;1]]. split. repeat constructor. vm_compute; reflexivity. Qed.
Print Assumptions C04_get_nondominated_set_2d_refuted.

(** ** C05: find_dominated_point *)
Theorem C05_find_dominated_point_correct :
  forall (sort2d : list point -> list nat) (maximise : list bool) (pts : list point),
  valid_sort2d sort2d -> wf_points (length maximise) pts -> (2 <= length pts)%nat ->
  exists r,
    find_dominated_point sort2d pts (length maximise) (minmax_from_bool maximise) = Ret r /\
    ((r = -1 /\ forall i j, (i < length pts)%nat -> (j < length pts)%nat -> i <> j ->
           ~ wdom maximise (row pts i) (row pts j)) \/
     exists i j, (i < length pts)%nat /\ (j < length pts)%nat /\ i <> j /\
           wdom maximise (row pts i) (row pts j) /\ r = Z.of_nat j).
Proof. intros. exact (find_dominated_ok sort2d H maximise pts H0 H1). Qed.
Print Assumptions C05_find_dominated_point_correct.

Example C05_nonvacuous :
  find_dominated_point sort2d_exec [[1;3];[2;2];[3;3]] 2 (minmax_from_bool [false;false]) = Ret 2 /\
  find_dominated_point sort2d_exec [[1;3];[2;2];[3;3]] 2 (minmax_from_bool [false;true]) = Ret 1 /\
  find_dominated_point sort2d_exec [[1;3;0];[2;2;0];[3;1;0]] 3 (minmax_from_bool [false;false;false]) = Ret (-1).
Proof. repeat split; vm_compute; reflexivity. Qed.

(** With a single point (nothing can be dominated) the answer is 1, not -1:
    an index past the end of the set. *)
Theorem C05_single_point_refuted :
  forall sort2d p dim mm, find_dominated_point sort2d [p] dim mm = Ret 1.
Proof. reflexivity. Qed.
Print Assumptions C05_single_point_refuted.

(** ** C13 (filtering part): maximising = minimising negated columns *)
Theorem C13_is_nondominated_maximise_is_negation :
  forall sort2d maximise pts keep_weakly,
  wf_points (length maximise) pts ->
  is_nondominated sort2d pts maximise keep_weakly =
  is_nondominated sort2d (map (negate_max (minmax_from_bool maximise)) pts)
                  (map (fun _ => false) maximise) keep_weakly.
Proof. exact is_nondominated_negate. Qed.
Print Assumptions C13_is_nondominated_maximise_is_negation.

Example C13_negation_example :
  negate_max (minmax_from_bool [false;true;true]) [1;2;3] = [1;-2;-3].
Proof. reflexivity. Qed.

(** ** C45: the command-line check for dominated points *)
Theorem C45_check_nondominated_partial :
  (* full claim: also for two objectives -- refuted below *)
  forall sort2d maximise (sets : list (list point)),
  valid_sort2d sort2d -> Forall (wf_points (length maximise)) sets ->
  length maximise <> 2%nat ->
  exists nds found,
    check_nondominated sort2d sets (length maximise) (minmax_from_bool maximise) AGREE_NONE
      = Ret (concat nds, found) /\
    Forall2 (strict_filter_spec maximise) sets nds /\
    (found = true <->
     exists s, In s sets /\
       exists i j, (i < length s)%nat /\ (j < length s)%nat /\ i <> j /\
                   wdom maximise (row s i) (row s j)).
Proof. exact check_nondominated_ok. Qed.
Print Assumptions C45_check_nondominated_partial.

Example C45_nonvacuous :
  check_nondominated sort2d_exec [[[1;3;1];[2;2;1]]; [[1;1;1];[2;2;2]]] 3 [-1;-1;-1] AGREE_NONE
   = Ret ([true;true;true;false], true).
Proof. vm_compute; reflexivity. Qed.

(** A two-objective set without any dominated or duplicated point is reported
    as containing dominated points. *)
Theorem C45_check_nondominated_2d_refuted :
  exists s, wf_points 2 s /\
    (forall i j, (i < length s)%nat -> (j < length s)%nat -> i <> j ->
        ~ wdom [false;false] (row s i) (row s j)) /\
    check_nondominated sort2d_exec [s] 2 (minmax_from_bool [false;false]) AGREE_NONE
      = Ret ([true;true], true).
Proof.
  exists [[1;3];[2;2]]. split. repeat constructor. split.
  - intros i j Hi Hj Hne W. simpl in Hi, Hj.
    pose proof (W 0%nat ltac:(simpl; lia)). pose proof (W 1%nat ltac:(simpl; lia)).
    destruct i as [|[|]], j as [|[|]]; try lia; unfold as_good, coord, row in *; simpl in *; lia.
  - vm_compute; reflexivity.
Qed.
Print Assumptions C45_check_nondominated_2d_refuted.

(** ** C46: filtering after the objectives have been made to agree *)

(** "--agree=min" on two-objective data stops at an assertion ... *)
Theorem C46_agree_minimise_2d_refuted :
  exists s, wf_points 2 s /\
    check_nondominated sort2d_exec [agree_objectives s [-1;1] AGREE_MINIMISE] 2 [-1;1] AGREE_MINIMISE
    = AssertFailed.
Proof. exists [[1;3];[2;2]]. split. repeat constructor. vm_compute; reflexivity. Qed.
Print Assumptions C46_agree_minimise_2d_refuted.

(** ... and "--agree=max" marks a dominated point as nondominated: with objectives (min, max), (1,3) dominates (2,2). *)
Theorem C46_agree_maximise_2d_refuted :
  exists s, wf_points 2 s /\ dom [false;true] (row s 0) (row s 1) /\
    exists found,
    check_nondominated sort2d_exec [agree_objectives s [-1;1] AGREE_MAXIMISE] 2 [-1;1] AGREE_MAXIMISE
    = Ret ([true;true], found).
Proof.
  exists [[1;3];[2;2]]. split. repeat constructor. split.
  - split.
    + intros d Hd. simpl in Hd. destruct d as [|[|]]; try lia; unfold as_good, coord, row; simpl; lia.
    + exists 0%nat. split. simpl; lia. unfold better, coord, row. simpl. lia.
  - eexists. vm_compute; reflexivity.
Qed.
Print Assumptions C46_agree_maximise_2d_refuted.
