(** R matrices and their rows. *)
From Coq Require Import List ZArith Lia Bool Arith.
From Verif Require Import Base CmdModel RMatModel RMatSpec.
From Verif Require CmdProofs.
Import ListNotations.
Open Scope Z_scope.

Section Mat.
Context {A : Type}.
Variable na : A.
Implicit Types (x y : rmat A).

Lemma concat_cols : forall (f : nat -> nat -> A) r c s i j, (i < r)%nat -> (j < c)%nat ->
  nth (j * r + i) (concat (map (fun j => map (fun i => f i j) (seq 0 r)) (seq s c))) na = f i (s + j)%nat.
Proof.
  intros f r c. induction c as [|c IH]; intros s i j Hi Hj; [lia|]. cbn [seq map concat].
  assert (L : length (map (fun i => f i s) (seq 0 r)) = r) by now rewrite map_length, seq_length.
  destruct j as [|j].
  - rewrite app_nth1 by (rewrite L; lia). rewrite Nat.mul_0_l, Nat.add_0_l, Nat.add_0_r. rewrite (nth_indep _ na (f 0%nat s)) by (rewrite L; lia).
    rewrite (map_nth (fun i => f i s)), seq_nth by lia. reflexivity.
  - rewrite app_nth2 by (rewrite L; cbn; lia). rewrite L. replace (S j * r + i - r)%nat with (j * r + i)%nat by (cbn; lia).
    rewrite IH by lia. f_equal. lia.
Qed.
Lemma concat_cols_length : forall (f : nat -> nat -> A) r c s, length (concat (map (fun j => map (fun i => f i j) (seq 0 r)) (seq s c))) = (r * c)%nat.
Proof.
  intros f r c. induction c as [|c IH]; intros s; cbn [seq map concat]. { cbn. lia. }
  rewrite app_length, IH, map_length, seq_length. lia.
Qed.
Lemma cell_matrix_of : forall (f : nat -> nat -> A) r c i j, (i < r)%nat -> (j < c)%nat -> cell na (matrix_of r c f) i j = f i j.
Proof. intros. unfold cell, matrix_of. cbn [nrow values]. now rewrite concat_cols by auto. Qed.

(** the rows of a matrix *)
Definition rows_of x : list (list A) := map (fun i => map (fun j => cell na x i j) (seq 0 (ncol x))) (seq 0 (nrow x)).
Definition mat_ok x : Prop := length (values x) = (nrow x * ncol x)%nat.

Lemma nth_map_seq : forall {B} (g : nat -> B) n k d, (k < n)%nat -> nth k (map g (seq 0 n)) d = g k.
Proof.
  intros B g n k d H. rewrite (nth_indep _ d (g 0%nat)) by (now rewrite map_length, seq_length).
  rewrite (map_nth g), seq_nth by auto. reflexivity.
Qed.
Lemma nth_map_in : forall {B C} (g : B -> C) l k d d', (k < length l)%nat -> nth k (map g l) d = g (nth k l d').
Proof.
  intros B C g l k d d' H. rewrite (nth_indep _ d (g d')) by (now rewrite map_length). now rewrite map_nth.
Qed.
Lemma list_by_nth : forall {B} (l : list B) d, l = map (fun i => nth i l d) (seq 0 (length l)).
Proof.
  intros B l d. apply nth_ext with (d := d) (d' := d). now rewrite map_length, seq_length.
  intros n Hn. rewrite nth_map_seq by auto. reflexivity.
Qed.
Lemma has_rows_cell : forall x d rows i j, has_rows x d rows -> (i < length rows)%nat -> (j < d)%nat -> cell na x i j = nth j (nth i rows []) na.
Proof. intros x d rows i j (N & C & L & W & H) Hi Hj. unfold cell. rewrite N. apply H; auto. Qed.
Lemma has_rows_eq : forall x d rows, has_rows x d rows -> rows_of x = rows.
Proof.
  intros x d rows H. pose proof H as (N & C & L & W & _). unfold rows_of. rewrite N, C. rewrite (list_by_nth rows []) at 2.
  apply map_ext_in. intros i Hi. apply in_seq in Hi. rewrite Forall_forall in W.
  assert (Lr : length (nth i rows []) = d) by (apply W; apply nth_In; lia). rewrite (list_by_nth (nth i rows []) na) at 1. rewrite Lr.
  apply map_ext_in. intros j Hj. apply in_seq in Hj. apply (has_rows_cell x d); auto; lia.
Qed.
Lemma matrix_of_rows : forall (rows : list (list A)) r c f, r = length rows -> Forall (fun p => length p = c) rows ->
  (forall i j, (i < r)%nat -> (j < c)%nat -> f i j = nth j (nth i rows []) na) -> has_rows (matrix_of r c f) c rows.
Proof.
  intros rows r c f -> W H. split; [reflexivity|]. split; [reflexivity|]. split; [apply concat_cols_length|]. split; auto.
  intros na' i j Hi Hj. rewrite (nth_indep _ na' na).
  2:{ cbn [matrix_of values]. rewrite concat_cols_length. nia. }
  pose proof (cell_matrix_of f (length rows) c i j Hi Hj) as E. unfold cell in E. cbn [matrix_of nrow] in E. rewrite E, H by auto.
  apply nth_indep. rewrite Forall_forall in W. rewrite W; auto. now apply nth_In.
Qed.
Lemma mat_ok_rows : forall x, mat_ok x -> has_rows x (ncol x) (rows_of x).
Proof.
  intros x H. unfold has_rows, rows_of. rewrite map_length, seq_length. split; auto. split; auto. split; auto. split.
  - apply Forall_forall. intros r Hr. apply in_map_iff in Hr. destruct Hr as (i & <- & _). now rewrite map_length, seq_length.
  - intros na' i j Hi Hj. rewrite nth_map_seq by auto. rewrite nth_map_seq by auto. unfold cell. apply nth_indep. rewrite H. nia.
Qed.
Lemma has_rows_mat_ok : forall x d rows, has_rows x d rows -> mat_ok x.
Proof. intros x d rows (N & C & L & _). unfold mat_ok. now rewrite N, C, L. Qed.

(** values of the transposed matrix: the rows one after the other *)
Lemma t_values : forall x d rows, has_rows x d rows -> values (r_t na x) = concat rows.
Proof.
  intros x d rows H. unfold r_t, matrix_of. cbn [values]. rewrite <- (has_rows_eq x d rows H). reflexivity.
Qed.
Lemma rows_rows : forall x d rows idx, has_rows x d rows -> (forall i, In i idx -> (i < length rows)%nat) ->
  has_rows (r_rows na x idx) d (map (fun i => nth i rows []) idx).
Proof.
  intros x d rows idx H Hi. pose proof H as (N & C & L & W & _). unfold r_rows. rewrite C. rewrite Forall_forall in W.
  apply matrix_of_rows. now rewrite map_length. { apply Forall_forall. intros r Hr. apply in_map_iff in Hr. destruct Hr as (i & <- & K). apply W. apply nth_In. auto. }
  intros i j Ii Ij. rewrite (has_rows_cell x d rows) by (auto; apply Hi; now apply nth_In).
  now rewrite (nth_map_in (fun i => nth i rows []) idx i [] 0%nat) by auto.
Qed.
Lemma rbind_rows : forall x y d rx ry, has_rows x d rx -> has_rows y d ry -> has_rows (r_rbind na x y) d (rx ++ ry).
Proof.
  intros x y d rx ry H K. pose proof H as (N & C & L & W & _). pose proof K as (N' & C' & L' & W' & _). unfold r_rbind. rewrite C.
  apply matrix_of_rows. { rewrite app_length. lia. } { apply Forall_app; auto. }
  intros i j Hi Hj. destruct (Nat.ltb_spec i (nrow x)).
  - rewrite (has_rows_cell x d rx) by (auto; lia). rewrite app_nth1 by lia. reflexivity.
  - rewrite (has_rows_cell y d ry) by (auto; lia). rewrite app_nth2 by lia. now rewrite N.
Qed.
Lemma init_rows : forall x d rows, has_rows x (S d) rows -> has_rows (r_init na x) d (map (firstn d) rows).
Proof.
  intros x d rows H. pose proof H as (N & C & L & W & _). unfold r_init. rewrite C. replace (S d - 1)%nat with d by lia. rewrite Forall_forall in W.
  apply matrix_of_rows. { now rewrite map_length. } { apply Forall_forall. intros r Hr. apply in_map_iff in Hr. destruct Hr as (q & <- & Hq). rewrite firstn_length, (W q) by auto. lia. }
  intros i j Hi Hj. rewrite (has_rows_cell x (S d) rows) by (auto; lia).
  rewrite (nth_map_in (firstn d) rows i [] []) by lia.
  assert (X : forall (l : list A) n k, (k < n)%nat -> nth k (firstn n l) na = nth k l na).
  { clear. induction l as [|a l IH]; intros [|n] [|k] H; cbn; auto; try lia. apply IH. lia. }
  now rewrite X.
Qed.
Lemma col_rows : forall x d rows j, has_rows x d rows -> (j < d)%nat -> r_col na x j = map (fun r => nth j r na) rows.
Proof.
  intros x d rows j H Hj. pose proof H as (N & _). unfold r_col. rewrite N. rewrite (list_by_nth rows []) at 2. rewrite map_map.
  apply map_ext_in. intros i Hi. apply in_seq in Hi. apply (has_rows_cell x d); auto; lia.
Qed.
Lemma as_matrix_ok : forall x d rows, has_rows x d rows -> rows <> [] -> (2 <= d)%nat -> as_double_matrix x = Ret x.
Proof.
  intros x d rows (N & C & _) Ne Hd. unfold as_double_matrix. rewrite N, C.
  destruct rows; [congruence|]. cbn [length Nat.leb assert_ bind]. destruct d as [|[|d]]; try lia. reflexivity.
Qed.
Lemma as_matrix_refused : forall x d rows, has_rows x d rows -> rows = [] \/ (d <= 1)%nat -> as_double_matrix x = AssertFailed.
Proof.
  intros x d rows (N & C & _) H. unfold as_double_matrix. rewrite N, C. destruct H as [->|H]; [reflexivity|].
  destruct (1 <=? length rows)%nat; [|reflexivity]. cbn [assert_ bind]. destruct d as [|[|d]]; try lia; reflexivity.
Qed.

Lemma cbind_t_values : forall x y d rx ry, has_rows x d rx -> has_rows y d ry ->
  values (r_cbind (r_t na x) (r_t na y)) = concat (rx ++ ry).
Proof. intros x y d rx ry H K. unfold r_cbind. cbn [values]. rewrite (t_values x d rx), (t_values y d ry) by auto. now rewrite concat_app. Qed.
End Mat.

Lemma t_rows : forall {A} (na : A) x d rows, has_rows x d rows -> nrow (r_t na x) = d /\ ncol (r_t na x) = length rows /\ values (r_t na x) = concat rows.
Proof. intros A na x d rows H. pose proof H as (N & C & _). split; [exact C|]. split; [exact N|]. now apply (t_values na x d). Qed.

Lemma which_spec : forall flags, (forall i, In i (which flags) <-> (i < length flags)%nat /\ nth i flags false = true).
Proof. intros flags i. unfold which. rewrite filter_In, in_seq. intuition lia. Qed.

(** ** Recycling *)
Lemma rep_len_length : forall {A} (a : A) l n, length (rep_len a l n) = n.
Proof. intros. unfold rep_len. now rewrite map_length, seq_length. Qed.
Lemma rep_len_for_each : forall {A} (a : A) l l' d, for_each d l l' -> rep_len a l d = l'.
Proof.
  intros A a l l' d [[-> L]|(b & -> & ->)].
  - unfold rep_len. rewrite L. etransitivity; [|symmetry; apply (list_by_nth l a)]. rewrite L. apply map_ext_in. intros k Hk. apply in_seq in Hk. now rewrite Nat.mod_small by lia.
  - unfold rep_len. cbn [length]. assert (E : forall s n, map (fun k => nth (k mod 1) [b] a) (seq s n) = repeat b n).
    { intros s n. revert s. induction n as [|n IH]; intros s; cbn [seq map repeat]; auto. rewrite Nat.mod_1_r. cbn [nth]. now rewrite IH. } apply E.
Qed.
Lemma for_each_length : forall {A} d (l l' : list A), for_each d l l' -> length l' = d.
Proof. intros A d l l' [[-> L]|(a & _ & ->)]; auto. apply repeat_length. Qed.

(** ** transform_maximise *)
(** the flagged elements of [p] negated *)
Definition flip {A} (na : A) (opp : A -> A) (mx : list bool) (p : list A) : list A :=
  map (fun k => if nth k mx false then opp (nth k p na) else nth k p na) (seq 0 (length p)).
Lemma flip_length : forall {A} (na : A) opp mx p, length (flip na opp mx p) = length p.
Proof. intros. unfold flip. now rewrite map_length, seq_length. Qed.
Lemma flip_none : forall {A} (na : A) opp mx p, any mx = false -> flip na opp mx p = p.
Proof.
  intros A na opp mx p H. unfold flip. etransitivity; [|symmetry; apply (list_by_nth p na)]. apply map_ext. intros k.
  assert (E : nth k mx false = false); [|now rewrite E]. destruct (nth k mx false) eqn:E; auto.
  assert (any mx = true); [|congruence]. unfold any. apply existsb_exists. exists true. split; auto. rewrite <- E.
  destruct (Nat.ltb_spec k (length mx)). now apply nth_In. rewrite nth_overflow in E by lia. discriminate.
Qed.
Lemma flip_all : forall {A} (na : A) opp mx p, all mx = true -> length mx = length p -> flip na opp mx p = map opp p.
Proof.
  intros A na opp mx p H L. unfold flip. transitivity (map (fun k => opp (nth k p na)) (seq 0 (length p))).
  2:{ rewrite <- (map_map (fun k => nth k p na) opp). f_equal. symmetry. apply list_by_nth. }
  apply map_ext_in. intros k Hk. apply in_seq in Hk.
  unfold all in H. rewrite forallb_forall in H. rewrite (H (nth k mx false)); auto. apply nth_In. lia.
Qed.
Lemma any_repeat : forall b n, (0 < n)%nat -> any (repeat b n) = b.
Proof. intros b n H. unfold any. induction n as [|[|n] IH]; [lia| |]; cbn in *. now destruct b. rewrite IH by lia. now destruct b. Qed.
Lemma all_repeat : forall b n, (0 < n)%nat -> all (repeat b n) = b.
Proof. intros b n H. unfold all. induction n as [|[|n] IH]; [lia| |]; cbn in *. now destruct b. rewrite IH by lia. now destruct b. Qed.
Lemma for_each_any : forall d mx mx', (0 < d)%nat -> for_each d mx mx' -> any mx = any mx'.
Proof. intros d mx mx' Hd [[-> _]|(b & -> & ->)]; auto. rewrite any_repeat by auto. now destruct b. Qed.
Lemma for_each_all : forall d mx mx', (0 < d)%nat -> for_each d mx mx' -> all mx = all mx'.
Proof. intros d mx mx' Hd [[-> _]|(b & -> & ->)]; auto. rewrite all_repeat by auto. now destruct b. Qed.

Lemma transform_ok : forall {A} (na : A) opp x d rows maximise mx, (0 < d)%nat -> has_rows x d rows -> for_each d maximise mx ->
  exists x', transform_maximise na opp x maximise = Ret x' /\ has_rows x' d (map (flip na opp mx) rows).
Proof.
  intros A na opp x d rows maximise mx Hd H F. pose proof (for_each_length d _ _ F) as Lm. pose proof H as (N & C & L & W & E). rewrite Forall_forall in W.
  unfold transform_maximise. rewrite (for_each_any d maximise mx), (for_each_all d maximise mx) by auto.
  destruct (any mx) eqn:Ea.
  2:{ exists x. split; auto. rewrite (map_ext _ (fun p => p)), map_id; auto. intros p. now apply flip_none. }
  destruct (all mx) eqn:El.
  - eexists. split; [reflexivity|]. split; [cbn; now rewrite map_length|]. split; [auto|]. split; [cbn [values]; now rewrite !map_length|]. split.
    + apply Forall_forall. intros r Hr. apply in_map_iff in Hr. destruct Hr as (q & <- & Hq). rewrite flip_length. auto.
    + rewrite map_length. intros na' i j Hi Hj. cbn [values].
      assert (B : (j * length rows + i < length (values x))%nat) by (rewrite L; nia).
      rewrite (nth_map_in opp (values x) _ na' na) by auto. rewrite E by auto.
      rewrite (nth_map_in (flip na opp mx) rows i [] []) by auto. assert (Lr : length (nth i rows []) = d) by (apply W; now apply nth_In).
      rewrite flip_all by (auto; lia). rewrite (nth_map_in opp _ j na' na) by lia. reflexivity.
  - assert (Q : maximise = mx).
    { destruct F as [[-> _]|(b & -> & ->)]; auto. rewrite any_repeat in Ea by auto. rewrite all_repeat in El by auto. congruence. }
    subst maximise. rewrite Lm, C, Nat.eqb_refl. eexists. split; [reflexivity|]. apply (matrix_of_rows na).
    + now rewrite map_length.
    + apply Forall_forall. intros r Hr. apply in_map_iff in Hr. destruct Hr as (q & <- & Hq). rewrite flip_length. auto.
    + intros i j Hi Hj. rewrite N in Hi. rewrite (has_rows_cell na x d rows) by (auto; lia). rewrite (nth_map_in (flip na opp mx) rows i [] []) by lia.
      unfold flip. rewrite nth_map_seq; auto. rewrite W; auto. now apply nth_In.
Qed.

(** ** C *)
Lemma c_rows_t : forall (x : rmat Z) d rows, (0 < d)%nat -> has_rows x d rows -> c_rows (r_t 0 x) = Ret rows.
Proof.
  intros x d rows Hd H. destruct (t_rows 0 x d rows H) as (N & C & V). unfold c_rows. rewrite N, C, V.
  destruct H as (_ & _ & _ & W & _). rewrite (CmdProofs.rows_at_ok d rows 0 (length rows)).
  - cbn [skipn]. now rewrite firstn_all.
  - rewrite Forall_forall in W. exact W.
  - apply Nat.le_refl.
Qed.
