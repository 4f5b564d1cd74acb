(** Proofs about the 2-objective EAF sweep. *)
From Coq Require Import List ZArith Lia Bool Arith Permutation Sorting.Sorted.
From Verif Require Import Base Spec EafSpec EafModel.
Import ListNotations.
Open Scope Z_scope.

(** ** Counting *)

Lemma countb_ext : forall A (f g : A -> bool) l, (forall x, In x l -> f x = g x) ->
  countb f l = countb g l.
Proof.
  induction l; simpl; intros; auto. rewrite (H a) by auto. rewrite IHl by auto. reflexivity.
Qed.

Lemma countb_le : forall A (f g : A -> bool) l, (forall x, In x l -> f x = true -> g x = true) ->
  (countb f l <= countb g l)%nat.
Proof.
  induction l; simpl; intros; auto.
  specialize (IHl ltac:(auto)). specialize (H a (or_introl eq_refl)).
  destruct (f a). rewrite H by auto. lia. destruct (g a); lia.
Qed.

Lemma countb_zero : forall A (f : A -> bool) l, (forall x, In x l -> f x = false) -> countb f l = 0%nat.
Proof. induction l; simpl; intros; auto. rewrite H by auto. auto. Qed.

Lemma countb_pos : forall A (f : A -> bool) l, (0 < countb f l)%nat <-> exists x, In x l /\ f x = true.
Proof.
  induction l; simpl; split; intros.
  - lia.
  - destruct H as (x & [] & _).
  - destruct (f a) eqn:E; eauto. apply IHl in H. destruct H as (x & Hx & F). eauto.
  - destruct H as (x & [->|Hx] & F). rewrite F. lia.
    destruct (f a); [lia|]. apply IHl. eauto.
Qed.

(** two predicates that differ in one element only *)
Lemma countb_change : forall A (f g : A -> bool) l x0,
  NoDup l -> In x0 l -> (forall x, In x l -> x <> x0 -> f x = g x) ->
  Z.of_nat (countb g l) = Z.of_nat (countb f l) - (if f x0 then 1 else 0) + (if g x0 then 1 else 0).
Proof.
  induction l; simpl; intros; try tauto. inversion H; subst. destruct H0 as [->|H0].
  - rewrite (countb_ext _ f g l).
    + destruct (f x0); destruct (g x0); lia.
    + intros x Hx. apply H1; auto. intro; subst; tauto.
  - assert (a <> x0) by (intro; subst; tauto).
    rewrite (H1 a) by auto. specialize (IHl x0 H5 H0 ltac:(auto)).
    destruct (g a); lia.
Qed.

Lemma nth_repeat_lt : forall A (a d : A) m k, (k < m)%nat -> nth k (repeat a m) d = a.
Proof. induction m; destruct k; simpl; intros; try lia; auto. apply IHm. lia. Qed.

(** ** Positions in a permutation *)

Fixpoint pos (l : list nat) (i : nat) : nat :=
  match l with
  | [] => O
  | j :: t => if (i =? j)%nat then O else S (pos t i)
  end.

Lemma pos_lt : forall l i, In i l -> (pos l i < length l)%nat /\ nth (pos l i) l O = i.
Proof.
  induction l; simpl; intros; try tauto.
  destruct (Nat.eqb_spec i a). subst. split; [lia|auto].
  destruct H; try congruence. destruct (IHl i H). split; [lia|auto].
Qed.

Lemma pos_nth : forall l x, NoDup l -> (x < length l)%nat -> pos l (nth x l O) = x.
Proof.
  induction l; simpl; intros; try lia. inversion H; subst. destruct x.
  - now rewrite Nat.eqb_refl.
  - destruct (Nat.eqb_spec (nth x l O) a).
    + exfalso. apply H3. rewrite <- e. apply nth_In. lia.
    + rewrite IHl; auto; lia.
Qed.

Section Sweep.
Variables (data : list point) (dx dy runtab : list nat) (nruns : nat) (level : Z).
Let n := length data.
Hypothesis Hwf : wf_points 2 data.
Hypothesis Hdx : is_datax data dx.
Hypothesis Hdy : is_datay data dy.
Hypothesis Hrl : length runtab = n.
Hypothesis Hrr : forall i, (i < n)%nat -> (nth i runtab O < nruns)%nat.
Hypothesis Hlev : 1 <= level.

Notation X i := (coord (row data i) 0).
Notation Y i := (coord (row data i) 1).
Notation dxn x := (nth x dx O).
Notation dyn y := (nth y dy O).
Notation run i := (nth i runtab O).

Lemma dx_len : length dx = n.
Proof. destruct Hdx as [P _]. apply Permutation_length in P. rewrite seq_length in P. auto. Qed.
Lemma dy_len : length dy = n.
Proof. destruct Hdy as [P _]. apply Permutation_length in P. rewrite seq_length in P. auto. Qed.
Lemma dx_nodup : NoDup dx.
Proof. destruct Hdx as [P _]. eapply Permutation_NoDup; eauto. apply seq_NoDup. Qed.
Lemma dy_nodup : NoDup dy.
Proof. destruct Hdy as [P _]. eapply Permutation_NoDup; eauto. apply seq_NoDup. Qed.
Lemma dx_in : forall i, In i dx <-> (i < n)%nat.
Proof.
  intros. destruct Hdx as [P _]. split; intros.
  - apply Permutation_sym in P. eapply Permutation_in in P; eauto. apply in_seq in P. unfold n. lia.
  - eapply Permutation_in; eauto. apply in_seq. unfold n in H. lia.
Qed.
Lemma dy_in : forall i, In i dy <-> (i < n)%nat.
Proof.
  intros. destruct Hdy as [P _]. split; intros.
  - apply Permutation_sym in P. eapply Permutation_in in P; eauto. apply in_seq in P. unfold n. lia.
  - eapply Permutation_in; eauto. apply in_seq. unfold n in H. lia.
Qed.
Lemma dxn_lt : forall x, (x < n)%nat -> (dxn x < n)%nat.
Proof. intros. apply dx_in. apply nth_In. rewrite dx_len. auto. Qed.
Lemma dyn_lt : forall y, (y < n)%nat -> (dyn y < n)%nat.
Proof. intros. apply dy_in. apply nth_In. rewrite dy_len. auto. Qed.

Definition px i := pos dx i.
Definition py i := pos dy i.
Lemma px_ok : forall i, (i < n)%nat -> (px i < n)%nat /\ dxn (px i) = i.
Proof. intros. unfold px. rewrite <- dx_len. apply pos_lt. now apply dx_in. Qed.
Lemma py_ok : forall i, (i < n)%nat -> (py i < n)%nat /\ dyn (py i) = i.
Proof. intros. unfold py. rewrite <- dy_len. apply pos_lt. now apply dy_in. Qed.
Lemma px_dxn : forall x, (x < n)%nat -> px (dxn x) = x.
Proof. intros. apply pos_nth. apply dx_nodup. rewrite dx_len. auto. Qed.
Lemma py_dyn : forall y, (y < n)%nat -> py (dyn y) = y.
Proof. intros. apply pos_nth. apply dy_nodup. rewrite dy_len. auto. Qed.

Lemma X_mono : forall a b, (a <= b)%nat -> (b < n)%nat -> X (dxn a) <= X (dxn b).
Proof.
  intros. destruct (Nat.eq_dec a b). subst; lia.
  destruct Hdx as [_ S]. apply (StronglySorted_nth _ (le_x_asc data) dx O a b); auto; try lia.
  rewrite dx_len. lia.
Qed.
Lemma Y_mono : forall a b, (a <= b)%nat -> (b < n)%nat -> Y (dyn b) <= Y (dyn a).
Proof.
  intros. destruct (Nat.eq_dec a b). subst; lia.
  destruct Hdy as [_ S]. apply (StronglySorted_nth _ (le_y_desc data) dy O a b); auto; try lia.
  rewrite dy_len. lia.
Qed.

(** ** Reads succeed *)

Lemma rdc_x : forall x c, (x < n)%nat -> (c < 2)%nat -> rdc data dx x c = Ret (coord (row data (dxn x)) c).
Proof.
  intros. unfold rdc. rewrite (rd_ok _ dx x O) by (rewrite dx_len; auto). cbn [bind].
  rewrite (rd_ok _ data _ []) by (apply dxn_lt; auto). cbn [bind].
  apply rd_ok. unfold wf_points in Hwf. rewrite Forall_forall in Hwf.
  rewrite Hwf; auto. apply nth_In. apply dxn_lt. auto.
Qed.
Lemma rdc_y : forall y c, (y < n)%nat -> (c < 2)%nat -> rdc data dy y c = Ret (coord (row data (dyn y)) c).
Proof.
  intros. unfold rdc. rewrite (rd_ok _ dy y O) by (rewrite dy_len; auto). cbn [bind].
  rewrite (rd_ok _ data _ []) by (apply dyn_lt; auto). cbn [bind].
  apply rd_ok. unfold wf_points in Hwf. rewrite Forall_forall in Hwf.
  rewrite Hwf; auto. apply nth_In. apply dyn_lt. auto.
Qed.
Lemma rdrun_x : forall x, (x < n)%nat -> rdrun runtab dx x = Ret (run (dxn x)).
Proof.
  intros. unfold rdrun. rewrite (rd_ok _ dx x O) by (rewrite dx_len; auto). cbn [bind].
  apply rd_ok. rewrite Hrl. apply dxn_lt. auto.
Qed.
Lemma rdrun_y : forall y, (y < n)%nat -> rdrun runtab dy y = Ret (run (dyn y)).
Proof.
  intros. unfold rdrun. rewrite (rd_ok _ dy y O) by (rewrite dy_len; auto). cbn [bind].
  apply rd_ok. rewrite Hrl. apply dyn_lt. auto.
Qed.

(** ** The invariant of the counters

    After the sweep has reached column [x] and row [y], the counted points are
    those at most at position [x] of datax and at least at position [y] of
    datay. *)
Definition inb (x y i : nat) : bool := (px i <=? x)%nat && (y <=? py i)%nat.
Definition cnt (k x y : nat) : Z :=
  Z.of_nat (countb (fun i => (run i =? k)%nat && inb x y i) (seq 0 n)).
Definition N (x y : nat) : Z := Z.of_nat (countb (fun k => 0 <? cnt k x y) (seq 0 nruns)).

Definition Inv (x y : nat) (att : list Z) (na : Z) : Prop :=
  length att = nruns /\ (forall k, (k < nruns)%nat -> nth k att 0 = cnt k x y) /\ na = N x y.

Lemma cnt_nonneg : forall k x y, 0 <= cnt k x y.
Proof. intros. unfold cnt. lia. Qed.

Lemma cnt_pos : forall k x y, 0 < cnt k x y <->
  exists i, (i < n)%nat /\ run i = k /\ (px i <= x)%nat /\ (y <= py i)%nat.
Proof.
  intros. unfold cnt. change 0 with (Z.of_nat 0). rewrite <- Nat2Z.inj_lt, countb_pos.
  split.
  - intros (i & Hi & F). apply in_seq in Hi. unfold inb in F.
    apply andb_prop in F. destruct F as [F1 F]. apply andb_prop in F. destruct F as [F2 F3].
    apply Nat.eqb_eq in F1. apply Nat.leb_le in F2. apply Nat.leb_le in F3.
    exists i. repeat split; auto. lia.
  - intros (i & Hi & F1 & F2 & F3). exists i. split. apply in_seq. lia.
    unfold inb. rewrite F1, Nat.eqb_refl. rewrite (proj2 (Nat.leb_le _ _) F2).
    now rewrite (proj2 (Nat.leb_le _ _) F3).
Qed.

(** one point enters or leaves *)
Lemma cnt_change : forall x y x' y' i0 k, (i0 < n)%nat ->
  (forall i, (i < n)%nat -> i <> i0 -> inb x' y' i = inb x y i) ->
  cnt k x' y' = cnt k x y + (if (run i0 =? k)%nat then
      (if inb x' y' i0 then 1 else 0) - (if inb x y i0 then 1 else 0) else 0).
Proof.
  intros. unfold cnt.
  rewrite (countb_change _ (fun i => (run i =? k)%nat && inb x y i)
                           (fun i => (run i =? k)%nat && inb x' y' i) (seq 0 n) i0).
  - destruct (run i0 =? k)%nat; cbn [andb]; lia.
  - apply seq_NoDup.
  - apply in_seq. lia.
  - intros i Hi Hn. apply in_seq in Hi. rewrite H0; auto. lia.
Qed.

Lemma N_change : forall x y x' y' i0, (i0 < n)%nat ->
  (forall i, (i < n)%nat -> i <> i0 -> inb x' y' i = inb x y i) ->
  N x' y' = N x y - (if 0 <? cnt (run i0) x y then 1 else 0)
                  + (if 0 <? cnt (run i0) x' y' then 1 else 0).
Proof.
  intros. unfold N.
  apply countb_change with (f := fun k => 0 <? cnt k x y) (g := fun k => 0 <? cnt k x' y').
  - apply seq_NoDup.
  - apply in_seq. pose proof (Hrr i0 H). lia.
  - intros k Hk Hn. rewrite (cnt_change x y x' y' i0 k); auto.
    destruct (Nat.eqb_spec (run i0) k); try congruence. now rewrite Z.add_0_r.
Qed.

Lemma Inv_same : forall x y x' y' att na,
  (forall i, (i < n)%nat -> inb x' y' i = inb x y i) ->
  Inv x y att na -> Inv x' y' att na.
Proof.
  intros. destruct H0 as (H1 & H2 & H3).
  assert (C : forall k, cnt k x' y' = cnt k x y).
  { intros. unfold cnt. f_equal. apply countb_ext. intros i Hi. apply in_seq in Hi.
    rewrite H; auto. lia. }
  split; auto. split. intros. rewrite C. auto.
  subst na. unfold N. f_equal. apply countb_ext. intros. now rewrite C.
Qed.

Lemma Inv_inc : forall x y x' y' att na i0, (i0 < n)%nat ->
  (forall i, (i < n)%nat -> i <> i0 -> inb x' y' i = inb x y i) ->
  inb x y i0 = false -> inb x' y' i0 = true ->
  Inv x y att na ->
  let v := nth (run i0) att 0 in
  Inv x' y' (upd att (run i0) (v + 1)) (if v =? 0 then na + 1 else na).
Proof.
  intros x y x' y' att na i0 Hi Hs E1 E2 (H1 & H2 & H3) v. subst v.
  pose proof (Hrr i0 Hi) as Hr. rewrite (H2 _ Hr).
  assert (C : forall k, cnt k x' y' = cnt k x y + (if (run i0 =? k)%nat then 1 else 0)).
  { intros. rewrite (cnt_change x y x' y' i0 k Hi Hs). rewrite E1, E2.
    destruct (run i0 =? k)%nat; lia. }
  split. now rewrite upd_length. split.
  - intros k Hk. rewrite nth_upd by (rewrite H1; auto). rewrite C, (H2 k) by auto.
    destruct (Nat.eqb_spec (run i0) k).
    + now subst k.
    + lia.
  - rewrite (N_change x y x' y' i0 Hi Hs). rewrite C, Nat.eqb_refl. subst na.
    pose proof (cnt_nonneg (run i0) x y).
    destruct (Z.eqb_spec (cnt (run i0) x y) 0).
    + rewrite e. simpl. lia.
    + destruct (Z.ltb_spec 0 (cnt (run i0) x y)); try lia.
      destruct (Z.ltb_spec 0 (cnt (run i0) x y + 1)); lia.
Qed.

Lemma Inv_dec : forall x y x' y' att na i0, (i0 < n)%nat ->
  (forall i, (i < n)%nat -> i <> i0 -> inb x' y' i = inb x y i) ->
  inb x y i0 = true -> inb x' y' i0 = false ->
  Inv x y att na ->
  let v := nth (run i0) att 0 in
  Inv x' y' (upd att (run i0) (v - 1)) (if v - 1 =? 0 then na - 1 else na).
Proof.
  intros x y x' y' att na i0 Hi Hs E1 E2 (H1 & H2 & H3) v. subst v.
  pose proof (Hrr i0 Hi) as Hr. rewrite (H2 _ Hr).
  assert (C : forall k, cnt k x' y' = cnt k x y - (if (run i0 =? k)%nat then 1 else 0)).
  { intros. rewrite (cnt_change x y x' y' i0 k Hi Hs). rewrite E1, E2.
    destruct (run i0 =? k)%nat; lia. }
  split. now rewrite upd_length. split.
  - intros k Hk. rewrite nth_upd by (rewrite H1; auto). rewrite C, (H2 k) by auto.
    destruct (Nat.eqb_spec (run i0) k).
    + now subst k.
    + lia.
  - rewrite (N_change x y x' y' i0 Hi Hs). rewrite C, Nat.eqb_refl. subst na.
    pose proof (cnt_nonneg (run i0) x' y') as P. rewrite C, Nat.eqb_refl in P.
    destruct (Z.ltb_spec 0 (cnt (run i0) x y)); try lia.
    destruct (Z.eqb_spec (cnt (run i0) x y - 1) 0).
    + rewrite e. simpl. lia.
    + destruct (Z.ltb_spec 0 (cnt (run i0) x y - 1)); lia.
Qed.

(** ** Group boundaries *)
Definition ygroup (y : nat) : Prop := (y = 0)%nat \/ (y < n)%nat /\ Y (dyn y) < Y (dyn (y - 1)).
Definition xgroup (x : nat) : Prop := (x = n - 1)%nat \/ (x < n - 1)%nat /\ X (dxn x) < X (dxn (x + 1)).

Lemma ygroup_iff : forall y i, ygroup y -> (y < n)%nat -> (i < n)%nat ->
  (Y i <= Y (dyn y) <-> (y <= py i)%nat).
Proof.
  intros. destruct (py_ok i H1) as [P1 P2]. rewrite <- P2 at 1. split; intros.
  - destruct (le_lt_dec y (py i)); auto. exfalso.
    destruct H as [->|[_ G]]; try lia.
    pose proof (Y_mono (py i) (y - 1) ltac:(lia) ltac:(lia)). lia.
  - apply Y_mono; auto.
Qed.

Lemma xgroup_iff : forall x i, xgroup x -> (x < n)%nat -> (i < n)%nat ->
  (X i <= X (dxn x) <-> (px i <= x)%nat).
Proof.
  intros. destruct (px_ok i H1) as [P1 P2]. rewrite <- P2 at 1. split; intros.
  - destruct (le_lt_dec (px i) x); auto. exfalso.
    destruct H as [->|[_ G]]; try lia.
    pose proof (X_mono (x + 1) (px i) ltac:(lia) ltac:(lia)). lia.
  - apply X_mono; auto.
Qed.

(** ** Attainment counts of locations *)
(** number of runs attaining (zx, zy) *)
Definition att_at (zx zy : Z) (k : nat) : bool :=
  existsb (fun i => (run i =? k)%nat && (X i <=? zx) && (Y i <=? zy)) (seq 0 n).
Definition count_at (zx zy : Z) : Z := Z.of_nat (countb (att_at zx zy) (seq 0 nruns)).

Lemma att_at_iff : forall zx zy k, att_at zx zy k = true <->
  exists i, (i < n)%nat /\ run i = k /\ X i <= zx /\ Y i <= zy.
Proof.
  intros. unfold att_at. rewrite existsb_exists. split.
  - intros (i & Hi & F). apply in_seq in Hi. apply andb_prop in F. destruct F as [F F3].
    apply andb_prop in F. destruct F as [F1 F2].
    apply Nat.eqb_eq in F1. apply Z.leb_le in F2. apply Z.leb_le in F3.
    exists i. repeat split; auto. lia.
  - intros (i & Hi & F1 & F2 & F3). exists i. split. apply in_seq; lia.
    rewrite F1, Nat.eqb_refl. rewrite (proj2 (Z.leb_le _ _) F2).
    now rewrite (proj2 (Z.leb_le _ _) F3).
Qed.

(** a location all of whose attaining points are counted has a count of at most N *)
Lemma count_at_le_N : forall zx zy x y,
  (forall i, (i < n)%nat -> X i <= zx -> Y i <= zy -> (px i <= x)%nat /\ (y <= py i)%nat) ->
  count_at zx zy <= N x y.
Proof.
  intros. unfold count_at, N. apply Nat2Z.inj_le. apply countb_le. intros k Hk A.
  apply Z.ltb_lt. apply cnt_pos. apply att_at_iff in A. destruct A as (i & Hi & R & H1 & H2).
  destruct (H i Hi H1 H2). exists i. auto.
Qed.

Lemma att_at_group : forall x y k, xgroup x -> (x < n)%nat -> ygroup y -> (y < n)%nat ->
  att_at (X (dxn x)) (Y (dyn y)) k = (0 <? cnt k x y).
Proof.
  intros. apply eq_true_iff_eq. rewrite att_at_iff, Z.ltb_lt, cnt_pos.
  split; intros (i & Hi & R & H3 & H4); exists i; repeat split; auto.
  - now apply xgroup_iff.
  - now apply ygroup_iff.
  - now apply xgroup_iff.
  - now apply ygroup_iff.
Qed.

Lemma count_at_group : forall x y, xgroup x -> (x < n)%nat -> ygroup y -> (y < n)%nat ->
  count_at (X (dxn x)) (Y (dyn y)) = N x y.
Proof.
  intros. unfold count_at, N. f_equal. apply countb_ext. intros. now apply att_at_group.
Qed.

Lemma count_at_mono : forall zx zy zx' zy', zx <= zx' -> zy <= zy' -> count_at zx zy <= count_at zx' zy'.
Proof.
  intros. unfold count_at. apply Nat2Z.inj_le. apply countb_le. intros k Hk A.
  apply att_at_iff in A. apply att_at_iff. destruct A as (i & Hi & R & H1 & H2).
  exists i. repeat split; auto; lia.
Qed.

Lemma count_at_none : forall zx zy, (forall i, (i < n)%nat -> X i <= zx -> Y i <= zy -> False) ->
  count_at zx zy = 0.
Proof.
  intros. unfold count_at. rewrite countb_zero; auto. intros k Hk.
  destruct (att_at zx zy k) eqn:E; auto. apply att_at_iff in E.
  destruct E as (i & Hi & R & H1 & H2). exfalso. eauto.
Qed.

Lemma N_y_n : forall x y, (n <= y)%nat -> N x y = 0.
Proof.
  intros. unfold N. rewrite countb_zero; auto. intros k Hk.
  destruct (Z.ltb_spec 0 (cnt k x y)); auto. apply cnt_pos in H0.
  destruct H0 as (i & Hi & R & H1 & H2). destruct (py_ok i Hi). lia.
Qed.

(** ** Moving right *)

(** everything strictly left of column [x] (with rows from [y] on) is below the level *)
Definition below_left (x y : nat) : Prop :=
  forall zx zy, zx < X (dxn x) ->
    (forall i, (i < n)%nat -> Y i <= zy -> (y <= py i)%nat) -> count_at zx zy < level.

Lemma move_right_ok : forall fuel x y att na,
  (n <= fuel + x)%nat -> (x < n)%nat -> (y < n)%nat -> (1 <= fuel)%nat -> ygroup y ->
  Inv x y att na -> below_left x y ->
  exists x' att' na', move_right data dx dy runtab level fuel (mkSweep x y att na)
      = Ret (mkSweep x' y att' na') /\
    (x <= x' < n)%nat /\ xgroup x' /\ Inv x' y att' na' /\ below_left x' y /\
    (level <= N x' y \/ (x' = n - 1)%nat).
Proof.
  induction fuel; intros x y att na Hf Hx Hy Hf1 Yg I B. lia.
  cbn [move_right sx sy satt snat].
  destruct (Nat.ltb_spec x (length data - 1)).
  2:{ fold n in H. exists x, att, na. cbn [negb]. split; auto.
      assert (x = n - 1)%nat by lia. split; [lia|]. split. left; auto. split; auto. }
  fold n in H. cbn [negb].
  rewrite (rdc_x x 0), (rdc_x (x + 1) 0) by lia. cbn [bind].
  (* decide whether the loop continues *)
  assert (D : forall go : bool,
     go = (if na <? level then true else X (dxn x) =? X (dxn (x + 1))) ->
     exists x' att' na',
      (if negb go then Ret (mkSweep x y att na) else
       let x0 := (x + 1)%nat in
       a <- rdc data dx x0 1 ;; b <- rdc data dy y 1 ;;
       if a <=? b then
         r <- att_inc runtab dx x0 att na ;;
         move_right data dx dy runtab level fuel (mkSweep x0 y (fst r) (snd r))
       else move_right data dx dy runtab level fuel (mkSweep x0 y att na))
      = Ret (mkSweep x' y att' na') /\
    (x <= x' < n)%nat /\ xgroup x' /\ Inv x' y att' na' /\ below_left x' y /\
    (level <= N x' y \/ (x' = n - 1)%nat)).
  { intros go Eg. destruct go; cbn [negb].
    - (* one step to the right *)
      cbv zeta. rewrite rdc_x by lia. rewrite rdc_y by lia. cbn [bind].
      set (i0 := dxn (x + 1)). assert (Hi0 : (i0 < n)%nat) by (apply dxn_lt; lia).
      assert (P0 : px i0 = (x + 1)%nat) by (apply px_dxn; lia).
      assert (Hs : forall i, (i < n)%nat -> i <> i0 -> inb (x + 1) y i = inb x y i).
      { intros i Hi Hn. unfold inb. f_equal. destruct (px_ok i Hi) as [Q1 Q2].
        destruct (Nat.leb_spec (px i) (x + 1)); destruct (Nat.leb_spec (px i) x); try lia; auto.
        exfalso. apply Hn. unfold i0. rewrite <- Q2. f_equal. lia. }
      assert (E1 : inb x y i0 = false).
      { unfold inb. rewrite P0. destruct (Nat.leb_spec (x + 1) x); try lia; auto. }
      assert (B' : below_left (x + 1) y).
      { intros zx zy Hz Hy'. destruct (Z_lt_le_dec zx (X (dxn x))). apply B; auto.
        destruct (Z.ltb_spec na level).
        - destruct I as (_ & _ & ->). eapply Z.le_lt_trans; [|exact H0].
          apply count_at_le_N. intros i Hi Hix Hiy. split; auto.
          destruct (px_ok i Hi) as [Q1 Q2].
          destruct (le_lt_dec (px i) x); auto. exfalso.
          pose proof (X_mono (x + 1) (px i) ltac:(lia) ltac:(lia)) as M. rewrite Q2 in M. lia.
        - symmetry in Eg. apply Z.eqb_eq in Eg. lia. }
      destruct (Z.leb_spec (Y i0) (Y (dyn y))).
      + (* counted *)
        assert (E2 : inb (x + 1) y i0 = true).
        { unfold inb. rewrite P0, Nat.leb_refl. apply Nat.leb_le. apply ygroup_iff; auto. }
        unfold att_inc. rewrite rdrun_x by lia. cbn [bind]. fold i0.
        destruct I as (I1 & I2 & I3).
        rewrite (rd_ok _ att _ 0) by (rewrite I1; apply Hrr; auto). cbn [bind].
        rewrite wr_ok by (rewrite I1; apply Hrr; auto). cbn [bind fst snd].
        assert (I : Inv x y att na) by (split; auto).
        destruct (IHfuel (x + 1)%nat y (upd att (run i0) (nth (run i0) att 0 + 1))
                   (if nth (run i0) att 0 =? 0 then na + 1 else na))
          as (x' & att' & na' & E & R & G & I' & B'' & L); auto; try lia.
        { apply (Inv_inc x y (x + 1) y att na i0); auto. }
        exists x', att', na'. rewrite E. split; auto. split; [lia|auto].
      + assert (E2 : inb (x + 1) y i0 = false).
        { unfold inb. rewrite P0, Nat.leb_refl. apply Nat.leb_gt.
          destruct (le_lt_dec y (py i0)); auto. apply (ygroup_iff y i0) in l; auto. lia. }
        destruct (IHfuel (x + 1)%nat y att na)
          as (x' & att' & na' & E & R & G & I' & B'' & L); auto; try lia.
        { apply (Inv_same x y); auto. intros i Hi.
          destruct (Nat.eq_dec i i0). subst i. congruence. apply Hs; auto. }
        exists x', att', na'. rewrite E. split; auto. split; [lia|auto].
    - exists x, att, na. split; auto. split; [lia|].
      destruct (Z.ltb_spec na level); try discriminate.
      symmetry in Eg. apply Z.eqb_neq in Eg.
      split. { right. split; auto. pose proof (X_mono x (x + 1) ltac:(lia) ltac:(lia)). lia. }
      split; auto. split; auto. left. destruct I as (_ & _ & <-). lia. }
  destruct (na <? level) eqn:En.
  - cbn [bind]. apply (D true). reflexivity.
  - cbn [bind]. apply (D (X (dxn x) =? X (dxn (x + 1)))). reflexivity.
Qed.

(** ** Moving down *)

Lemma drop_group_ok : forall fuel x y att na,
  (n - y < fuel)%nat -> (x < n)%nat -> (y < n)%nat -> xgroup x ->
  Inv x y att na ->
  exists y' att' na', drop_group data dx dy runtab fuel (mkSweep x y att na)
      = Ret (mkSweep x y' att' na') /\
    (y < y' <= n)%nat /\ (y' = n \/ ygroup y') /\ Inv x y' att' na' /\
    Y (dyn (y' - 1)) = Y (dyn y).
Proof.
  induction fuel; intros x y att na Hf Hx Hy Xg I. lia.
  cbn [drop_group sx sy satt snat].
  rewrite rdc_y by lia. rewrite rdc_x by lia. cbn [bind].
  set (i0 := dyn y). assert (Hi0 : (i0 < n)%nat) by (apply dyn_lt; lia).
  assert (P0 : py i0 = y) by (apply py_dyn; lia).
  assert (Hs : forall i, (i < n)%nat -> i <> i0 -> inb x (y + 1) i = inb x y i).
  { intros i Hi Hn. unfold inb. f_equal. destruct (py_ok i Hi) as [Q1 Q2].
    destruct (Nat.leb_spec (y + 1) (py i)); destruct (Nat.leb_spec y (py i)); try lia; auto.
    exfalso. apply Hn. unfold i0. rewrite <- Q2. f_equal. lia. }
  assert (E2 : inb x (y + 1) i0 = false).
  { unfold inb. rewrite P0. destruct (Nat.leb_spec (y + 1) y); try lia; apply andb_false_r. }
  assert (D : exists att1 na1,
     (if X i0 <=? X (dxn x) then att_dec runtab dy y att na else Ret (att, na)) = Ret (att1, na1) /\
     Inv x (y + 1) att1 na1).
  { destruct (Z.leb_spec (X i0) (X (dxn x))).
    - assert (E1 : inb x y i0 = true).
      { unfold inb. rewrite P0, Nat.leb_refl, andb_true_r. apply Nat.leb_le. apply xgroup_iff; auto. }
      unfold att_dec. rewrite rdrun_y by lia. cbn [bind]. fold i0.
      pose proof (proj1 I) as I1.
      rewrite (rd_ok _ att _ 0) by (rewrite I1; apply Hrr; auto). cbn [bind].
      rewrite wr_ok by (rewrite I1; apply Hrr; auto). cbn [bind].
      eexists. eexists. split. reflexivity.
      apply (Inv_dec x y x (y + 1) att na i0); auto.
    - assert (E1 : inb x y i0 = false).
      { unfold inb. rewrite P0, Nat.leb_refl, andb_true_r. apply Nat.leb_gt.
        destruct (le_lt_dec (px i0) x); auto. apply (xgroup_iff x i0) in l; auto. lia. }
      exists att, na. split; auto. apply (Inv_same x y); auto. intros i Hi.
      destruct (Nat.eq_dec i i0). subst i. congruence. apply Hs; auto. }
  destruct D as (att1 & na1 & E & I').
  rewrite E. cbn [bind fst snd].
  destruct (Nat.ltb_spec (y + 1) (length data)).
  - fold n in H. rewrite !rdc_y by lia. cbn [bind].
    replace (y + 1 - 1)%nat with y by lia.
    destruct (Z.eqb_spec (Y (dyn (y + 1))) (Y (dyn y))).
    + destruct (IHfuel x (y + 1)%nat att1 na1) as (y' & att' & na' & E' & R & G & I'' & EY); auto; try lia.
      exists y', att', na'. rewrite E'. split; auto. split; [lia|]. split; auto. split; auto. rewrite EY. exact e.
    + exists (y + 1)%nat, att1, na1. split; auto. split; [lia|].
      split. { right. right. split; auto. replace (y + 1 - 1)%nat with y by lia.
               pose proof (Y_mono y (y + 1) ltac:(lia) ltac:(lia)). lia. }
      split; auto. now replace (y + 1 - 1)%nat with y by lia.
  - fold n in H. exists (y + 1)%nat, att1, na1. split; auto. split; [lia|].
    split. left; lia. split; auto. now replace (y + 1 - 1)%nat with y by lia.
Qed.

Lemma move_down_ok : forall fuel x y att na,
  (n - y < fuel)%nat -> (x < n)%nat -> (y < n)%nat -> xgroup x -> ygroup y ->
  Inv x y att na -> level <= N x y ->
  exists y' y0 att' na' save, move_down data dx dy runtab level fuel (mkSweep x y att na)
      = Ret (mkSweep x y' att' na', save) /\
    (y <= y0 < y')%nat /\ (y' <= n)%nat /\ (y' = n \/ ygroup y') /\ ygroup y0 /\
    Inv x y' att' na' /\ N x y' < level /\ level <= N x y0 /\
    Inv x y0 save (N x y0) /\ Y (dyn (y' - 1)) = Y (dyn y0).
Proof.
  induction fuel; intros x y att na Hf Hx Hy Xg Yg I L. lia.
  cbn [move_down].
  destruct (drop_group_ok (S (length data)) x y att na) as (y1 & att1 & na1 & E & R & G & I' & EY); auto.
  { fold n. lia. }
  rewrite E. cbn [bind sx sy satt snat].
  assert (Is : Inv x y att (N x y)) by (destruct I as (I0 & I1 & I2); split; [auto|split; auto]).
  destruct (Z.leb_spec level na1); cbn [andb].
  - destruct (Nat.ltb_spec y1 (length data)).
    + fold n in H0. destruct G as [G|G]; try lia.
      destruct (IHfuel x y1 att1 na1) as (y' & y0 & att' & na' & save & E' & Q); auto; try lia.
      { destruct I' as (_ & _ & <-). auto. }
      exists y', y0, att', na', save. rewrite E'. split; auto.
      destruct Q as (Q1 & Q2). split; [lia|auto].
    + fold n in H0. exfalso. destruct I' as (_ & _ & ->).
      rewrite N_y_n in H by lia. lia.
  - exists y1, y, att1, na1, att. split; auto. split; [lia|]. split; [lia|].
    split; auto. split; auto. split; auto.
    split. { destruct I' as (_ & _ & <-). auto. }
    split; auto.
Qed.

(** ** The outer loop *)

(** the flags of an output *)
Definition out_ok (o : point * list bool) : Prop :=
  exists zx zy, fst o = [zx; zy] /\ level <= count_at zx zy /\
    length (snd o) = nruns /\
    forall k, (k < nruns)%nat -> nth k (snd o) false = att_at zx zy k.

Definition cover (out : list (point * list bool)) (y : nat) : Prop :=
  forall zx zy, level <= count_at zx zy ->
    (exists o, In o out /\ coord (fst o) 0 <= zx /\ coord (fst o) 1 <= zy) \/
    (forall i, (i < n)%nat -> Y i <= zy -> (y <= py i)%nat).

(** the outputs form a staircase ending left of or at column x and above row y *)
Inductive stairs : list (point * list bool) -> Z -> Z -> Prop :=
| stairs_one : forall o x y, coord (fst o) 0 = x -> coord (fst o) 1 = y -> stairs [o] x y
| stairs_app : forall l o x y x' y', stairs l x y -> coord (fst o) 0 = x' -> coord (fst o) 1 = y' ->
    x < x' -> y' < y -> stairs (l ++ [o]) x' y'.

Definition last_ok (out : list (point * list bool)) (x y : nat) : Prop :=
  out = [] \/
  (xgroup x /\ N x y < level /\ (1 <= y)%nat /\ stairs out (X (dxn x)) (Y (dyn (y - 1)))).

Lemma sweep_loop_ok : forall fuel x y att na out,
  (n - y < fuel)%nat -> (x < n)%nat -> (y < n)%nat -> ygroup y ->
  Inv x y att na -> below_left x y ->
  Forall out_ok out -> cover out y -> last_ok out x y ->
  exists out', sweep_loop data dx dy runtab level fuel (mkSweep x y att na) out = Ret out' /\
    Forall out_ok out' /\
    (forall zx zy, level <= count_at zx zy ->
       exists o, In o out' /\ coord (fst o) 0 <= zx /\ coord (fst o) 1 <= zy) /\
    (out' = [] \/ exists a b, stairs out' a b).
Proof.
  induction fuel; intros x y att na out Hf Hx Hy Yg I B O C Lo. lia.
  cbn [sweep_loop].
  destruct (move_right_ok (S (length data)) x y att na) as (x1 & att1 & na1 & E & R & Xg & I1 & B1 & L1); auto.
  { fold n; lia. } { lia. }
  rewrite E. cbn [bind snat].
  destruct (Z.ltb_spec na1 level).
  - (* the level is not reached any more: done *)
    cbn [bind fst snd sx sy].
    assert (NN : N x1 y = na1) by (destruct I1 as (_ & _ & ->); auto).
    assert (x1 = n - 1)%nat by (destruct L1; [lia|auto]).
    assert (Nat.ltb x1 (length data - 1) = false) as -> by (apply Nat.ltb_ge; fold n; lia).
    cbn [andb]. exists out. split; auto. split; auto. split.
    + intros zx zy Hc. destruct (C zx zy Hc) as [K|K]; auto. exfalso.
      assert (count_at zx zy <= N x1 y); [|lia].
      apply count_at_le_N. intros i Hi H1 H2. split; auto.
      destruct (px_ok i Hi). lia.
    + destruct Lo as [->|(_ & _ & _ & S)]; auto. right. eauto.
  - assert (NN : N x1 y = na1) by (destruct I1 as (_ & _ & ->); auto).
    destruct (move_down_ok (S (length data)) x1 y att1 na1)
      as (y1 & y0 & att2 & na2 & save & E2 & R1 & R2 & G1 & G0 & I2 & L2 & L3 & Is & EY); auto; try lia.
    rewrite E2. cbn [bind fst snd snat sx sy].
    assert (na2 < level) by (destruct I2 as (_ & _ & ->); auto).
    rewrite (proj2 (Z.ltb_lt _ _) H0). cbn [assert_ bind].
    rewrite rdc_x by lia. rewrite rdc_y by lia. cbn [bind fst snd sx sy].
    set (o := ([X (dxn x1); Y (dyn (y1 - 1))], map (fun v => negb (v =? 0)) save)).
    assert (Oo : out_ok o).
    { exists (X (dxn x1)), (Y (dyn (y1 - 1))). split; auto. rewrite EY.
      rewrite count_at_group by (auto; lia). split; auto.
      destruct Is as (Is1 & Is2 & _). split. cbn [o snd]. now rewrite map_length.
      intros k Hk. rewrite att_at_group by (auto; lia). cbn [o snd].
      rewrite (nth_map_lt _ _ _ save k false 0) by lia. rewrite Is2 by auto.
      pose proof (cnt_nonneg k x1 y0).
      destruct (Z.eqb_spec (cnt k x1 y0) 0); destruct (Z.ltb_spec 0 (cnt k x1 y0)); auto; lia. }
    assert (O' : Forall out_ok (out ++ [o])) by (apply Forall_app; split; auto).
    assert (C' : cover (out ++ [o]) y1).
    { intros zx zy Hc. destruct (C zx zy Hc) as [(o' & K1 & K2)|K].
      - left. exists o'. split; auto. apply in_or_app; auto.
      - destruct (Z_le_gt_dec (Y (dyn (y1 - 1))) zy).
        + left. exists o. split. apply in_or_app; right; now left.
          cbn [o fst]. unfold coord at 1 3. simpl. split; auto.
          destruct (Z_le_gt_dec (X (dxn x1)) zx); auto. exfalso.
          pose proof (B1 zx zy ltac:(lia) K). lia.
        + right. intros i Hi Hiy. destruct (py_ok i Hi) as [Q1 Q2].
          destruct (le_lt_dec y1 (py i)); auto. exfalso.
          pose proof (Y_mono (py i) (y1 - 1) ltac:(lia) ltac:(lia)) as M. rewrite Q2 in M. lia. }
    assert (S' : stairs (out ++ [o]) (X (dxn x1)) (Y (dyn (y1 - 1)))).
    { destruct Lo as [->|(Xg0 & N0 & Y0 & S)].
      - simpl. constructor; auto.
      - econstructor; eauto.
        + assert (x <> x1) by (intro; subst; lia).
          destruct Xg0 as [->|[? G]]; try lia.
          pose proof (X_mono (x + 1) x1 ltac:(lia) ltac:(lia)). lia.
        + destruct Yg as [->|[? G]]; try lia. rewrite EY.
          pose proof (Y_mono y y0 ltac:(lia) ltac:(lia)). lia. }
    destruct (Nat.ltb_spec x1 (length data - 1)); cbn [andb].
    + fold n in H1. destruct (Nat.ltb_spec y1 (length data)).
      * fold n in H2. destruct G1 as [G1|G1]; try lia.
        apply IHfuel; auto; try lia.
        -- intros zx zy Hz Hzy. apply B1; auto. intros i Hi Hiy. specialize (Hzy i Hi Hiy). lia.
        -- right. split; auto. split; auto. split; [lia|auto].
      * fold n in H2. exists (out ++ [o]). split; auto. split; auto. split; [|right; eauto].
        intros zx zy Hc. destruct (C' zx zy Hc) as [K|K]; auto. exfalso.
        rewrite count_at_none in Hc; [lia|]. intros i Hi _ Hiy.
        specialize (K i Hi Hiy). destruct (py_ok i Hi). lia.
    + fold n in H1. exists (out ++ [o]). split; auto. split; auto. split; [|right; eauto].
      intros zx zy Hc. destruct (C' zx zy Hc) as [K|K]; auto. exfalso.
      assert (count_at zx zy <= N x1 y1); [|lia].
      apply count_at_le_N. intros i Hi _ Hiy. split; auto. destruct (px_ok i Hi). lia.
Qed.

Lemma stairs_staircase : forall out a b, stairs out a b ->
  (forall o, In o out -> coord (fst o) 0 <= a /\ b <= coord (fst o) 1) /\
  staircase (map fst out).
Proof.
  induction 1.
  - split. intros o' [<-|[]]. lia. unfold staircase. simpl. intros; lia.
  - destruct IHstairs as [H4 H5]. split.
    + intros o' Ho. apply in_app_or in Ho. destruct Ho as [Ho|[<-|[]]]; [|lia].
      specialize (H4 o' Ho). lia.
    + rewrite map_app. simpl. intros i j Hij. rewrite app_length, map_length in Hij. simpl in Hij.
      unfold row. assert (Hi : (i < length (map fst l))%nat) by (rewrite map_length; lia).
      rewrite (app_nth1 _ _ _ Hi).
      destruct (Nat.eq_dec j (length l)).
      * subst j. rewrite (app_nth2 (map fst l)) by (rewrite map_length; lia).
        rewrite map_length, Nat.sub_diag. cbn [nth].
        match goal with |- context [nth i (map fst l) ?d] =>
          pose proof (nth_In (map fst l) d Hi) as Hq; set (q := nth i (map fst l) d) in * end.
        apply in_map_iff in Hq. destruct Hq as (o' & E & Ho').
        rewrite <- E. specialize (H4 o' Ho'). lia.
      * rewrite app_nth1 by (rewrite map_length; lia).
        apply H5. rewrite map_length. lia.
Qed.

Lemma eaf2d_level_ok : (1 <= n)%nat ->
  exists out, eaf2d_level data dx dy runtab level nruns = Ret out /\
    Forall out_ok out /\
    (forall zx zy, level <= count_at zx zy ->
       exists o, In o out /\ coord (fst o) 0 <= zx /\ coord (fst o) 1 <= zy) /\
    staircase (map fst out).
Proof.
  intros Hn. unfold eaf2d_level.
  rewrite rdrun_x by lia. cbn [bind].
  set (i0 := dxn 0). assert (Hi0 : (i0 < n)%nat) by (apply dxn_lt; lia).
  pose proof (Hrr i0 Hi0) as Hr.
  rewrite (rd_ok _ _ _ 0) by (rewrite repeat_length; auto). cbn [bind].
  rewrite wr_ok by (rewrite repeat_length; auto). cbn [bind fst snd].
  assert (RP : forall m k, nth k (repeat 0 m) 0 = 0) by (induction m; destruct k; simpl; auto).
  assert (P0 : forall i, (i < n)%nat -> (inb 0 0 i = true <-> i = i0)).
  { intros i Hi. unfold inb. rewrite andb_true_r. rewrite Nat.leb_le. split; intros.
    - destruct (px_ok i Hi) as [_ Q]. rewrite <- Q. unfold i0. f_equal. lia.
    - subst i. unfold i0. rewrite px_dxn; lia. }
  assert (C0 : forall k, cnt k 0 0 = if (run i0 =? k)%nat then 1 else 0).
  { intros. unfold cnt.
    rewrite (countb_change _ (fun _ => false) _ (seq 0 n) i0).
    - rewrite (countb_zero _ (fun _ => false)) by auto.
      rewrite (proj2 (P0 i0 Hi0) eq_refl), andb_true_r. destruct (run i0 =? k)%nat; lia.
    - apply seq_NoDup.
    - apply in_seq; lia.
    - intros i Hi Hne. apply in_seq in Hi. symmetry. apply andb_false_intro2.
      destruct (inb 0 0 i) eqn:E; auto. apply P0 in E; [tauto|lia]. }
  destruct (sweep_loop_ok (S (length data)) 0 0 (upd (repeat 0 nruns) (run i0) (nth (run i0) (repeat 0 nruns) 0 + 1)) 1 [])
    as (out & E & O & C & S); auto; try lia.
  - left; auto.
  - split. now rewrite upd_length, repeat_length. split.
    + intros k Hk. rewrite C0, nth_upd, !RP by (rewrite repeat_length; auto).
      destruct (Nat.eqb_spec (run i0) k); auto.
    + unfold N. rewrite (countb_change _ (fun _ => false) _ (seq 0 nruns) (run i0)).
      * rewrite (countb_zero _ (fun _ => false)) by auto. rewrite C0, Nat.eqb_refl. reflexivity.
      * apply seq_NoDup.
      * apply in_seq; lia.
      * intros k Hk Hne. rewrite C0. destruct (Nat.eqb_spec (run i0) k); [exfalso; auto|reflexivity].
  - intros zx zy Hz _. rewrite count_at_none; [lia|]. intros i Hi Hix _.
    destruct (px_ok i Hi) as [Q1 Q2].
    pose proof (X_mono 0 (px i) ltac:(lia) Q1) as M. rewrite Q2 in M. lia.
  - intros zx zy _. right. intros; lia.
  - left; auto.
  - exists out. rewrite E. split; auto. split; auto. split; auto.
    destruct S as [->|(a & b & S)]. unfold staircase; simpl; intros; lia.
    eapply stairs_staircase; eauto.
Qed.
End Sweep.

(** ** The run table *)

Fixpoint runtab_spec (k : nat) (runs : list (list point)) : list nat :=
  match runs with
  | [] => []
  | r :: runs => repeat k (length r) ++ runtab_spec (S k) runs
  end.

Lemma cumsizes_from_length : forall runs acc, length (cumsizes_from acc runs) = length runs.
Proof. induction runs; simpl; intros; auto. Qed.

Lemma cumsizes_from_nth : forall runs acc k, (k < length runs)%nat ->
  nth k (cumsizes_from acc runs) O = (acc + length (concat (firstn (S k) runs)))%nat.
Proof.
  induction runs; simpl; intros; try lia. destruct k.
  - simpl. rewrite app_nil_r. auto.
  - rewrite IHruns by lia. simpl. rewrite app_length. destruct runs; simpl in *; lia.
Qed.

Lemma cumsizes_from_ge : forall runs acc c, In c (cumsizes_from acc runs) -> (acc <= c)%nat.
Proof.
  induction runs; simpl; intros; try tauto. destruct H; subst; try lia.
  apply IHruns in H. lia.
Qed.

(** the part of the loop inside one run: [pre] are the cumulative sizes of the
    finished runs *)
Lemma runtab_within : forall m cums j k c tail_m,
  rd cums j = Ret c -> (k + m <= c)%nat -> (m = 0 \/ k <> c)%nat ->
  runtab_loop cums (m + tail_m) k j =
  (rest <- runtab_loop cums tail_m (k + m) j ;; Ret (repeat j m ++ rest)).
Proof.
  induction m; intros; simpl.
  - rewrite Nat.add_0_r. destruct (runtab_loop cums tail_m k j); reflexivity.
  - rewrite H. cbn [bind]. destruct (Nat.eqb_spec k c); try lia.
    rewrite (IHm cums j (S k) c tail_m) by (auto; lia).
    replace (k + S m)%nat with (S k + m)%nat by lia.
    destruct (runtab_loop cums tail_m (S k + m) j); reflexivity.
Qed.

Lemma runtab_loop_ok : forall runs pre acc,
  (forall r, In r runs -> r <> []) ->
  forall k, (runs <> [] -> k = acc) ->
  runtab_loop (pre ++ cumsizes_from acc runs) (length (concat runs)) k (length pre)
    = Ret (runtab_spec (length pre) runs).
Proof.
  induction runs; intros pre acc Hne k Hk; simpl; auto.
  rewrite Hk by discriminate. clear k Hk.
  rewrite app_length.
  assert (Hr : rd (pre ++ (acc + length a)%nat :: cumsizes_from (acc + length a) runs) (length pre)
            = Ret (acc + length a)%nat).
  { rewrite (rd_ok _ _ _ O) by (rewrite app_length; simpl; lia).
    rewrite app_nth2 by lia. rewrite Nat.sub_diag. reflexivity. }
  assert (La : (length a <> 0)%nat) by (specialize (Hne a (or_introl eq_refl)); destruct a; simpl; congruence).
  rewrite (runtab_within (length a) _ (length pre) acc (acc + length a)%nat) by (auto; lia).
  destruct (Nat.eq_dec (length (concat runs)) 0) as [Z|Z].
  { rewrite Z. simpl.
    assert (runs = []). { destruct runs as [|r runs]; auto. simpl in Z. rewrite app_length in Z.
      specialize (Hne r ltac:(simpl; auto)). destruct r; simpl in Z; try lia; try congruence. }
    subst runs. reflexivity. }
  (* the next point opens the next run *)
  destruct (length (concat runs)) as [|m] eqn:Em; try lia.
  specialize (IHruns (pre ++ [(acc + length a)%nat]) (acc + length a)%nat ltac:(intros; apply Hne; simpl; auto)
                (acc + length a)%nat ltac:(auto)).
  rewrite <- app_assoc in IHruns. cbn [app] in IHruns.
  rewrite app_length in IHruns. simpl length in IHruns.
  replace (length pre + 1)%nat with (S (length pre)) in IHruns by lia.
  cbn [runtab_loop] in IHruns |- *. rewrite Hr. cbn [bind]. rewrite Nat.eqb_refl.
  (* in the reference the index already points to the next run *)
  destruct runs as [|r runs]; [simpl in Em; lia|].
  assert (Hr2 : rd (pre ++ (acc + length a)%nat :: cumsizes_from (acc + length a) (r :: runs)) (S (length pre))
            = Ret (acc + length a + length r)%nat).
  { rewrite (rd_ok _ _ _ O) by (rewrite app_length; simpl; lia).
    rewrite app_nth2 by lia. replace (S (length pre) - length pre)%nat with 1%nat by lia. reflexivity. }
  rewrite Hr2 in IHruns. cbn [bind] in IHruns.
  assert (Lr : (length r <> 0)%nat) by (specialize (Hne r ltac:(simpl; auto)); destruct r; simpl; congruence).
  destruct (Nat.eqb_spec (acc + length a) (acc + length a + length r)); try lia.
  rewrite IHruns. reflexivity.
Qed.

Lemma runtab_spec_length : forall runs k, length (runtab_spec k runs) = length (concat runs).
Proof. induction runs; simpl; intros; auto. now rewrite !app_length, repeat_length, IHruns. Qed.

Lemma runtab_spec_range : forall runs k i, (i < length (concat runs))%nat ->
  (k <= nth i (runtab_spec k runs) O < k + length runs)%nat.
Proof.
  induction runs; simpl; intros; try lia. rewrite app_length in H.
  destruct (lt_dec i (length a)).
  - rewrite app_nth1 by (now rewrite repeat_length). rewrite nth_repeat_lt by auto. lia.
  - rewrite app_nth2 by (rewrite repeat_length; lia). rewrite repeat_length.
    specialize (IHruns (S k) (i - length a)%nat ltac:(lia)). lia.
Qed.

(** a point belongs to run [k] iff it occurs at an index labelled [k] *)
Lemma runtab_spec_In : forall runs k0 k p,
  (exists i, (i < length (concat runs))%nat /\ nth i (runtab_spec k0 runs) O = (k0 + k)%nat /\
             row (concat runs) i = p) <->
  (k < length runs)%nat /\ In p (nth k runs []).
Proof.
  induction runs; simpl; intros.
  - split. intros (i & Hi & _). lia. intros [H _]. lia.
  - split.
    + intros (i & Hi & R & E). rewrite app_length in Hi. unfold row in E.
      destruct (lt_dec i (length a)).
      * rewrite app_nth1 in R by (now rewrite repeat_length). rewrite nth_repeat_lt in R by auto.
        rewrite app_nth1 in E by auto. assert (k = 0)%nat by lia. subst k.
        split. lia. rewrite <- E. apply nth_In. auto.
      * rewrite app_nth2 in R by (rewrite repeat_length; lia). rewrite repeat_length in R.
        rewrite app_nth2 in E by lia.
        pose proof (runtab_spec_range runs (S k0) (i - length a) ltac:(lia)).
        destruct k; [lia|].
        destruct (IHruns (S k0) k p) as [F _].
        destruct F as [F1 F2]. { exists (i - length a)%nat. repeat split; auto; lia. }
        split; auto. lia.
    + intros [Hk Hp]. destruct k.
      * apply In_nth with (d := []) in Hp. destruct Hp as (i & Hi & E).
        exists i. rewrite app_length. split; [lia|]. split.
        -- rewrite app_nth1 by (now rewrite repeat_length). rewrite nth_repeat_lt by auto. lia.
        -- unfold row. now rewrite app_nth1 by auto.
      * destruct (IHruns (S k0) k p) as [_ F]. destruct F as (i & Hi & R & E). split; auto; lia.
        exists (length a + i)%nat. rewrite app_length. split; [lia|]. split.
        -- rewrite app_nth2 by (rewrite repeat_length; lia). rewrite repeat_length.
           replace (length a + i - length a)%nat with i by lia. rewrite R. lia.
        -- unfold row. rewrite app_nth2 by lia.
           replace (length a + i - length a)%nat with i by lia. exact E.
Qed.
