(** Properties C06, C07 (nondominated sorting). *)
From Coq Require Import List ZArith Lia Bool Arith.
From Verif Require Import Base Spec NondomModel NondomProofs2d ParetoRankModel ParetoRankProofs.
Import ListNotations.
Open Scope Z_scope.

(** ** C06: every row gets the length of its longest dominance chain.
    The hypothesis excludes only the empty two-objective set. *)
Theorem C06_pareto_rank_correct :
  forall (sort2d : list point -> list nat) garbage debug (pts : list point) (dim : nat),
  valid_sort2d sort2d -> (1 <= length pts)%nat \/ dim <> 2%nat ->
  exists rank, pareto_rank sort2d garbage debug pts dim = Ret rank /\
    length rank = length pts /\
    forall i, (i < length pts)%nat -> is_rank (minimise dim) pts i (nth i rank 0%nat).
Proof. exact pareto_rank_ok. Qed.
Print Assumptions C06_pareto_rank_correct.

(** The same in terms of fronts: dominance strictly increases the rank, front
    [r+1] is dominated by front [r], the first front is the nondominated set,
    duplicates share their rank. *)
Theorem C06_pareto_rank_fronts :
  forall (sort2d : list point -> list nat) garbage debug (pts : list point) (dim : nat) rank,
  valid_sort2d sort2d -> (1 <= length pts)%nat \/ dim <> 2%nat ->
  pareto_rank sort2d garbage debug pts dim = Ret rank ->
  (forall i j, (i < length pts)%nat -> (j < length pts)%nat ->
     dom (minimise dim) (row pts j) (row pts i) -> (nth j rank 0 < nth i rank 0)%nat) /\
  (forall i r, (i < length pts)%nat -> nth i rank 0%nat = S (S r) ->
     exists j, (j < length pts)%nat /\ nth j rank 0%nat = S r /\
               dom (minimise dim) (row pts j) (row pts i)) /\
  (forall i, (i < length pts)%nat ->
     (nth i rank 0%nat = 1%nat <-> ~ dominated_in (minimise dim) pts i)) /\
  (forall i j, (i < length pts)%nat -> (j < length pts)%nat ->
     row pts i = row pts j -> nth i rank 0%nat = nth j rank 0%nat).
Proof.
  intros sort2d g dbg pts dim rank Hs Hn E.
  destruct (pareto_rank_ok sort2d g dbg pts dim Hs Hn) as (rank' & E' & L & H).
  rewrite E in E'. inversion E'; subst rank'. clear E E'.
  split; [|split; [|split]].
  - intros i j Hi Hj Hd. eapply rank_dom; eauto.
  - intros i r Hi Er. pose proof (H i Hi) as Ri. rewrite Er in Ri.
    destruct (rank_pred _ _ _ _ Ri) as (j & Hj & Dj & Rj).
    exists j. split; auto. split; auto. eapply R_unique; eauto.
  - intros i Hi. pose proof (H i Hi) as Ri. split.
    + intros E1 (j & Hj & Dj). pose proof (rank_dom _ _ _ _ _ _ Ri (H j Hj) Dj).
      pose proof (R_bound _ _ _ _ (H j Hj)). lia.
    + intros ND. pose proof (R_bound _ _ _ _ Ri) as [_ Hb].
      destruct (nth i rank 0%nat) as [|[|r]] eqn:Er; try lia.
      destruct (rank_pred _ _ _ _ Ri) as (j & Hj & Dj & Rj).
      exfalso. apply ND. exists j. auto.
  - assert (K : forall i j, (j < length pts)%nat -> row pts i = row pts j ->
       forall r, chain_ending (minimise dim) pts i r -> chain_ending (minimise dim) pts j r).
    { intros i j Hj Eij r C. inversion C; subst. now constructor.
      apply chain_more with (j := j0); auto. now rewrite <- Eij. }
    intros i j Hi Hj Eij. destruct (H i Hi) as [Ci Mi], (H j Hj) as [Cj Mj].
    apply Nat.le_antisymm; [apply Mj|apply Mi]; eapply K; eauto.
Qed.
Print Assumptions C06_pareto_rank_fronts.

Example C06_nonvacuous :
  valid_sort2d sort2d_exec /\
  pareto_rank sort2d_exec 77 true [[5;1];[1;5];[5;5];[6;6];[3;3];[3;3];[4;3]] 2
    = Ret [1;1;3;4;1;1;2]%nat /\
  pareto_rank sort2d_exec 77 true [[5;1;0];[1;5;0];[5;5;0];[6;6;0];[3;3;1]] 3
    = Ret [1;1;2;3;1]%nat.
Proof. split. apply sort2d_exec_valid. split; vm_compute; reflexivity. Qed.

(** ** C07: termination without out-of-bounds accesses or assertion failures is
    part of C06 (the outcome is [Ret]); the ranks are between 1 and the number
    of points and no front between is empty. *)
Theorem C07_pareto_rank_bounds :
  forall (sort2d : list point -> list nat) garbage debug (pts : list point) (dim : nat),
  valid_sort2d sort2d -> (1 <= length pts)%nat \/ dim <> 2%nat ->
  exists rank, pareto_rank sort2d garbage debug pts dim = Ret rank /\
    length rank = length pts /\
    (forall i, (i < length pts)%nat -> (1 <= nth i rank 0 <= length pts)%nat) /\
    (forall i r, (i < length pts)%nat -> (1 <= r <= nth i rank 0)%nat ->
       exists j, (j < length pts)%nat /\ nth j rank 0%nat = r).
Proof.
  intros sort2d g dbg pts dim Hs Hn.
  destruct (pareto_rank_ok sort2d g dbg pts dim Hs Hn) as (rank & E & L & H).
  exists rank. split; auto. split; auto. split.
  - intros i Hi. apply (R_bound _ _ _ _ (H i Hi)).
  - intros i r Hi Hr. destruct (Nat.eq_dec r (nth i rank 0%nat)). exists i; auto.
    pose proof (H i Hi) as Ri.
    replace (nth i rank 0%nat) with (r + S (nth i rank 0 - r - 1))%nat in Ri by lia.
    destruct (rank_below _ _ _ _ _ Ri) as (j & Hj & _ & Rj). lia.
    exists j. split; auto. eapply R_unique; eauto.
Qed.
Print Assumptions C07_pareto_rank_bounds.

(** With an empty two-objective matrix the function writes out of bounds. *)
Theorem C07_empty_2d_refuted : forall sort2d garbage debug,
  pareto_rank sort2d garbage debug [] 2 = OutOfBounds.
Proof. reflexivity. Qed.
Print Assumptions C07_empty_2d_refuted.
