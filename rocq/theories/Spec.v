(** Specifications: what the words of the properties mean.  Nothing here refers
    to the modelled code. *)
From Coq Require Import List ZArith Lia Bool Arith.
From Verif Require Import Base.
Import ListNotations.
Open Scope Z_scope.

(** ** Pareto dominance

    [mx] has one boolean per objective: [true] = maximise. *)

(** [p] is at least as good as [q] in objective [d]. *)
Definition as_good (mx : list bool) (p q : point) (d : nat) : Prop :=
  if nth d mx false then coord q d <= coord p d else coord p d <= coord q d.

(** [p] is strictly better than [q] in objective [d]. *)
Definition better (mx : list bool) (p q : point) (d : nat) : Prop :=
  if nth d mx false then coord q d < coord p d else coord p d < coord q d.

(** weak dominance: at least as good in every objective *)
Definition wdom (mx : list bool) (p q : point) : Prop :=
  forall d, (d < length mx)%nat -> as_good mx p q d.

(** dominance: at least as good everywhere and better somewhere *)
Definition dom (mx : list bool) (p q : point) : Prop :=
  wdom mx p q /\ exists d, (d < length mx)%nat /\ better mx p q d.

(** minimisation of every objective *)
Definition wdom_min (p q : point) : Prop :=
  length p = length q /\ forall d, (d < length p)%nat -> coord p d <= coord q d.
Definition dom_min (p q : point) : Prop :=
  wdom_min p q /\ exists d, (d < length p)%nat /\ coord p d < coord q d.

(** row [i] of [S] is dominated by some row of [S] *)
Definition dominated_in (mx : list bool) (S : list point) (i : nat) : Prop :=
  exists j, (j < length S)%nat /\ dom mx (row S j) (row S i).

(** ** Facts showing the definitions are the usual ones *)

Lemma dom_iff : forall mx p q, dom mx p q <-> wdom mx p q /\ ~ wdom mx q p.
Proof.
  unfold dom, wdom, as_good, better. intros. split; intros [H1 H2]; split; auto.
  - destruct H2 as (d & Hd & H). intro C. specialize (C d Hd).
    destruct (nth d mx false); lia.
  - assert (K : forall n, (n <= length mx)%nat ->
      (forall d, (d < n)%nat -> if nth d mx false then coord p d <= coord q d else coord q d <= coord p d) \/
      exists d, (d < n)%nat /\ if nth d mx false then coord q d < coord p d else coord p d < coord q d).
    { induction n; intros. left; intros; lia.
      destruct IHn as [IH|(d & Hd & IH)]; try lia.
      - pose proof (H1 n ltac:(lia)) as G.
        destruct (nth n mx false) eqn:E.
        + destruct (Z_lt_le_dec (coord q n) (coord p n)).
          * right. exists n. rewrite E. split; auto.
          * left. intros d Hd. destruct (Nat.eq_dec d n). subst. now rewrite E.
            apply IH. lia.
        + destruct (Z_lt_le_dec (coord p n) (coord q n)).
          * right. exists n. rewrite E. split; auto.
          * left. intros d Hd. destruct (Nat.eq_dec d n). subst. now rewrite E.
            apply IH. lia.
      - right. exists d. split; auto. }
    destruct (K _ (le_n _)) as [K'|(d & Hd & K')]; eauto.
    exfalso; auto.
Qed.

Lemma wdom_refl : forall mx p, wdom mx p p.
Proof. unfold wdom, as_good. intros. destruct (nth d mx false); lia. Qed.

Lemma wdom_trans : forall mx p q r, wdom mx p q -> wdom mx q r -> wdom mx p r.
Proof.
  unfold wdom, as_good. intros. specialize (H d H1). specialize (H0 d H1).
  destruct (nth d mx false); lia.
Qed.

Lemma wdom_antisym : forall mx p q,
  length p = length mx -> length q = length mx ->
  wdom mx p q -> wdom mx q p -> p = q.
Proof.
  intros. apply (list_ext _ 0); try lia. intros.
  assert (Hi : (i < length mx)%nat) by lia.
  specialize (H1 i Hi). specialize (H2 i Hi). unfold as_good, coord in *.
  destruct (nth i mx false); lia.
Qed.

(** Every objective is to be minimised. *)
Definition minimise (dim : nat) : list bool := repeat false dim.

Lemma wdom_minimise : forall dim p q,
  wdom (minimise dim) p q <-> forall d, (d < dim)%nat -> coord p d <= coord q d.
Proof.
  unfold wdom, minimise, as_good. intros. rewrite repeat_length.
  assert (E : forall d, nth d (repeat false dim) false = false).
  { induction dim; destruct d; simpl; auto. }
  split; intros H d Hd; specialize (H d Hd); rewrite E in *; auto.
Qed.

(** ** Dominance rank

    [chain_ending mx S i r]: there are [r] rows of [S], each dominating the
    next, the last one being row [i]. *)
Inductive chain_ending (mx : list bool) (S : list point) : nat -> nat -> Prop :=
| chain_one : forall i, (i < length S)%nat -> chain_ending mx S i 1
| chain_more : forall j i r, chain_ending mx S j r -> (i < length S)%nat ->
    dom mx (row S j) (row S i) -> chain_ending mx S i (1 + r).

(** The rank of row [i] is the length of the longest dominance chain ending in
    row [i] (front number of nondominated sorting, first front = 1). *)
Definition is_rank (mx : list bool) (S : list point) (i r : nat) : Prop :=
  chain_ending mx S i r /\ forall r', chain_ending mx S i r' -> (r' <= r)%nat.
