(** Common vocabulary of the model: outcomes, checked array accesses, points,
    and generic list lemmas.  No moocore function is modelled in this file. *)
From Coq Require Import List ZArith Lia Bool Arith Permutation Sorted.
Import ListNotations.
Open Scope Z_scope.

(** ** Outcomes of a modelled C function *)

Inductive outcome (A : Type) : Type :=
| Ret (a : A)          (* normal return *)
| AssertFailed         (* an [assert]/[eaf_assert] fails (or [abort]/[fatal_error]) *)
| OutOfBounds          (* an array access outside the allocated object *)
| OutOfFuel.           (* model artefact: the bound on loop iterations was too small *)
Arguments Ret {A} a.
Arguments AssertFailed {A}.
Arguments OutOfBounds {A}.
Arguments OutOfFuel {A}.

Definition bind {A B} (x : outcome A) (f : A -> outcome B) : outcome B :=
  match x with
  | Ret a => f a
  | AssertFailed => AssertFailed
  | OutOfBounds => OutOfBounds
  | OutOfFuel => OutOfFuel
  end.

Declare Scope outcome_scope.
Delimit Scope outcome_scope with outcome.
Notation "x <- e1 ;; e2" := (bind e1 (fun x => e2))
  (at level 61, e1 at next level, right associativity) : outcome_scope.
Open Scope outcome_scope.

Definition assert_ (b : bool) : outcome unit :=
  if b then Ret tt else AssertFailed.

(** ** Checked arrays (C arrays are lists with bounds-checked access) *)

Definition rd {A} (a : list A) (i : nat) : outcome A :=
  match nth_error a i with Some v => Ret v | None => OutOfBounds end.

Fixpoint upd {A} (l : list A) (i : nat) (v : A) : list A :=
  match l, i with
  | [], _ => []
  | _ :: t, O => v :: t
  | h :: t, S i' => h :: upd t i' v
  end.

Definition wr {A} (a : list A) (i : nat) (v : A) : outcome (list A) :=
  if (i <? length a)%nat then Ret (upd a i v) else OutOfBounds.

(** ** Points *)

Definition point := list Z.

(** coordinate [d] of point [p] *)
Definition coord (p : point) (d : nat) : Z := nth d p 0.

(** the [i]-th row of a matrix of points *)
Definition row (S : list point) (i : nat) : point := nth i S [].

Definition wf_points (dim : nat) (S : list point) : Prop :=
  Forall (fun p => length p = dim) S.

(** ** Lemmas about arrays *)

Lemma rd_ok : forall A (a : list A) i d,
  (i < length a)%nat -> rd a i = Ret (nth i a d).
Proof.
  intros. unfold rd. rewrite (nth_error_nth' a d) by auto. reflexivity.
Qed.

Lemma rd_inv : forall A (a : list A) i v d,
  rd a i = Ret v -> (i < length a)%nat /\ v = nth i a d.
Proof.
  unfold rd. intros. destruct (nth_error a i) eqn:E; inversion H; subst.
  split. apply nth_error_Some. congruence.
  symmetry. now apply nth_error_nth.
Qed.

Lemma upd_length : forall A (l : list A) i v, length (upd l i v) = length l.
Proof. induction l; destruct i; simpl; auto. Qed.

Lemma nth_upd_same : forall A (l : list A) i v d,
  (i < length l)%nat -> nth i (upd l i v) d = v.
Proof.
  induction l; destruct i; simpl; intros; auto; try lia.
  apply IHl; lia.
Qed.

Lemma nth_upd_other : forall A (l : list A) i j v d,
  i <> j -> nth j (upd l i v) d = nth j l d.
Proof.
  induction l; destruct i; destruct j; simpl; intros; auto; try lia.
Qed.

Lemma nth_upd : forall A (l : list A) i j v d,
  (i < length l)%nat ->
  nth j (upd l i v) d = if (i =? j)%nat then v else nth j l d.
Proof.
  intros. destruct (Nat.eqb_spec i j).
  - subst. now apply nth_upd_same.
  - now apply nth_upd_other.
Qed.

Lemma upd_out : forall A (l : list A) i v, (length l <= i)%nat -> upd l i v = l.
Proof.
  induction l; destruct i; simpl; intros; auto; try lia.
  rewrite IHl; auto; lia.
Qed.

Lemma upd_app_middle : forall A (l1 l2 : list A) x v,
  upd (l1 ++ x :: l2) (length l1) v = l1 ++ v :: l2.
Proof. induction l1; simpl; intros; auto. now rewrite IHl1. Qed.

Lemma wr_ok : forall A (a : list A) i v,
  (i < length a)%nat -> wr a i v = Ret (upd a i v).
Proof. intros. unfold wr. destruct (Nat.ltb_spec i (length a)); auto; lia. Qed.

Lemma bind_Ret_inv : forall A B (x : outcome A) (f : A -> outcome B) b,
  bind x f = Ret b -> exists a, x = Ret a /\ f a = Ret b.
Proof. intros. destruct x; simpl in H; try discriminate. eauto. Qed.

Lemma list_ext : forall A (d : A) (l1 l2 : list A),
  length l1 = length l2 ->
  (forall i, (i < length l1)%nat -> nth i l1 d = nth i l2 d) -> l1 = l2.
Proof. intros. apply nth_ext with (d := d) (d' := d); auto. Qed.

Lemma In_row : forall (S : list point) i, (i < length S)%nat -> In (row S i) S.
Proof. intros. apply nth_In. auto. Qed.

Lemma row_In_inv : forall (S : list point) p,
  In p S -> exists i, (i < length S)%nat /\ row S i = p.
Proof. intros. apply In_nth with (d := []) in H. exact H. Qed.

(** ** Sorting

    [qsort] is specified, not implemented: its result is any permutation of
    its input that is sorted for the comparator.  [le] is "the comparator
    returns a value <= 0". *)
Definition is_qsort_of {A} (le : A -> A -> Prop) (l l' : list A) : Prop :=
  Permutation l l' /\ StronglySorted le l'.

(** An executable sort, used only to exhibit concrete sorted arrays. *)
Fixpoint insert_by {A} (leb : A -> A -> bool) (x : A) (l : list A) : list A :=
  match l with
  | [] => [x]
  | y :: t => if leb x y then x :: l else y :: insert_by leb x t
  end.
Definition sort_by {A} (leb : A -> A -> bool) (l : list A) : list A :=
  fold_right (insert_by leb) [] l.

Lemma insert_by_perm : forall A leb (x : A) l,
  Permutation (x :: l) (insert_by leb x l).
Proof.
  induction l; simpl; auto.
  destruct (leb x a); auto.
  rewrite perm_swap. now constructor.
Qed.

Lemma sort_by_perm : forall A leb (l : list A), Permutation l (sort_by leb l).
Proof.
  induction l; simpl; auto.
  rewrite <- insert_by_perm. now constructor.
Qed.

Lemma insert_by_sorted : forall A (leb : A -> A -> bool) (le : A -> A -> Prop) x l,
  (forall a b, leb a b = true -> le a b) ->
  (forall a b, leb a b = false -> le b a) ->
  (forall a b c, le a b -> le b c -> le a c) ->
  StronglySorted le l -> StronglySorted le (insert_by leb x l).
Proof.
  intros A leb le x l H1 H2 H3. induction 1; simpl.
  - constructor; constructor.
  - destruct (leb x a) eqn:E.
    + constructor. now constructor.
      constructor; auto. eapply Forall_impl; [|apply H0]. eauto.
    + constructor; auto.
      eapply Permutation_Forall; [apply insert_by_perm|].
      constructor; auto.
Qed.

Lemma sort_by_sorted : forall A (leb : A -> A -> bool) (le : A -> A -> Prop) l,
  (forall a b, leb a b = true -> le a b) ->
  (forall a b, leb a b = false -> le b a) ->
  (forall a b c, le a b -> le b c -> le a c) ->
  StronglySorted le (sort_by leb l).
Proof.
  intros. induction l; simpl. constructor.
  now apply insert_by_sorted.
Qed.

Lemma sort_by_is_qsort : forall A (leb : A -> A -> bool) (le : A -> A -> Prop) l,
  (forall a b, leb a b = true -> le a b) ->
  (forall a b, leb a b = false -> le b a) ->
  (forall a b c, le a b -> le b c -> le a c) ->
  is_qsort_of le l (sort_by leb l).
Proof. intros. split. apply sort_by_perm. now apply sort_by_sorted. Qed.

Lemma StronglySorted_app_inv : forall A (R : A -> A -> Prop) l1 l2,
  StronglySorted R (l1 ++ l2) ->
  StronglySorted R l1 /\ StronglySorted R l2 /\
  (forall x y, In x l1 -> In y l2 -> R x y).
Proof.
  induction l1; simpl; intros.
  - split; [constructor|]. split; auto. intros; contradiction.
  - inversion H; subst. apply IHl1 in H2. destruct H2 as (A1 & A2 & A3).
    rewrite Forall_app in H3. destruct H3.
    split. constructor; auto. split; auto.
    intros x y [->|?] Hy; auto.
    rewrite Forall_forall in H1. auto.
Qed.

Lemma StronglySorted_app : forall A (R : A -> A -> Prop) l1 l2,
  StronglySorted R l1 -> StronglySorted R l2 ->
  (forall x y, In x l1 -> In y l2 -> R x y) ->
  StronglySorted R (l1 ++ l2).
Proof.
  induction l1; simpl; intros; auto.
  inversion H; subst. constructor.
  - apply IHl1; auto.
  - apply Forall_app. split; auto. apply Forall_forall. auto.
Qed.

Lemma StronglySorted_nth : forall A (R : A -> A -> Prop) l d i j,
  StronglySorted R l -> (i < j < length l)%nat -> R (nth i l d) (nth j l d).
Proof.
  intros A R l d i j H. revert i j. induction H; simpl; intros; try lia.
  destruct j; try lia. destruct i.
  - rewrite Forall_forall in H0. apply H0. apply nth_In. lia.
  - apply IHStronglySorted. lia.
Qed.

(** ** Sums and counts *)

Fixpoint countb {A} (f : A -> bool) (l : list A) : nat :=
  match l with
  | [] => O
  | x :: t => if f x then S (countb f t) else countb f t
  end.

Lemma countb_filter : forall A (f : A -> bool) l, countb f l = length (filter f l).
Proof. induction l; simpl; auto. destruct (f a); simpl; auto. Qed.

Definition zsum (l : list Z) : Z := fold_right Z.add 0 l.

Lemma zsum_app : forall l1 l2, zsum (l1 ++ l2) = zsum l1 + zsum l2.
Proof. induction l1; simpl; intros; auto. rewrite IHl1. lia. Qed.

Lemma zsum_perm : forall l1 l2, Permutation l1 l2 -> zsum l1 = zsum l2.
Proof. induction 1; simpl; lia. Qed.

Lemma nth_map_lt : forall A B (f : A -> B) l i d d0,
  (i < length l)%nat -> nth i (map f l) d = f (nth i l d0).
Proof.
  intros. rewrite nth_indep with (d' := f d0) by (now rewrite map_length).
  apply map_nth.
Qed.

Lemma row_map : forall (f : point -> point) pts i,
  (i < length pts)%nat -> row (map f pts) i = f (row pts i).
Proof. intros. unfold row. now apply nth_map_lt. Qed.
