(** C70: normalise, whv_rect, total_whv_rect and whv_hype in R; whv_rect and
    total_whv_rect in Python.
    Specification: RWhvSpec.v, RMatSpec.v, WhvSpec.v, HvShiftProofs.hypervolume_mx,
    NormSpec.v, HypeSpec.v.  Model: RWhvModel.v. *)
From Coq Require Import List ZArith QArith Qabs Lqa Lia Bool Arith Permutation.
From Verif Require Import Base Spec NondomModel HvSpec RectSpec WhvSpec WhvModel PropWhv NormSpec NormModel PropNorm MtModel HypeSpec HypeModel PropHype
  Hv2dModel Hv2dProofs HvModel HvMain HvFacts HvShiftModel HvShiftProofs RMatModel RMatSpec RMatProofs RIndModel PropRInd RFileModel PropRFile RWhvModel RWhvSpec.
Import ListNotations.
Open Scope Z_scope.
Notation length := List.length.

(** ** Reading the rows of a transposed matrix *)
Lemma gconcat_row : forall {A} d (rows : list (list A)) i, Forall (fun r => length r = d) rows -> (i < length rows)%nat ->
  firstn d (skipn (d * i) (concat rows)) = nth i rows [].
Proof.
  intros A d rows i. revert rows. induction i as [|i IH]; intros [|r rows] W Hi; cbn in Hi; try lia; inversion_clear W as [|? ? Lr W'].
  - rewrite Nat.mul_0_r. cbn [skipn concat nth].
    rewrite firstn_app, Lr, Nat.sub_diag, <- Lr, firstn_all. cbn. apply app_nil_r.
  - cbn [concat nth].
    rewrite skipn_app, Lr. replace (d * S i - d)%nat with (d * i)%nat by lia.
    rewrite (skipn_all2 r) by lia. cbn [app]. apply IH; [auto|lia].
Qed.
Lemma gconcat_length : forall {A} d (rows : list (list A)), Forall (fun r => length r = d) rows -> length (concat rows) = (d * length rows)%nat.
Proof.
  intros A d. induction rows as [|r rows IH]; intros W; cbn [concat length]; [lia|]. inversion_clear W as [|? ? Lr W'].
  rewrite app_length, IH by auto. rewrite Lr. lia.
Qed.
Lemma read_rows_t : forall {A} (na : A) x d rows, has_rows x d rows -> read_rows (r_t na x) = Ret rows.
Proof.
  intros A na x d rows H. destruct (t_rows na x d rows H) as (N & C & V). destruct H as (_ & _ & _ & W & _).
  unfold read_rows. rewrite N, C, V, (gconcat_length d) by auto. rewrite Nat.leb_refl. f_equal.
  etransitivity; [|symmetry; apply (list_by_nth rows [])]. apply map_ext_in. intros i Hi. apply in_seq in Hi. apply gconcat_row; auto; lia.
Qed.
Lemma nth_window : forall {A} (na : A) d l k j, (j < d)%nat -> nth (k + j) l na = nth j (firstn d (skipn k l)) na.
Proof.
  intros A na d l k j Hj. revert l. induction k as [|k IH]; intros l.
  - cbn [skipn Nat.add]. revert l j Hj. induction d as [|d IH]; intros l j Hj; [lia|]. destruct l as [|a l]; [now destruct j|]. destruct j; [reflexivity|]. cbn. apply IH. lia.
  - destruct l as [|a l]; [|apply IH]. cbn [skipn]. rewrite firstn_nil. now destruct j.
Qed.
(** and the other way: an array of rows, transposed *)
Lemma t_of_rows : forall {A} (na : A) d (rows : list (list A)), Forall (fun r => length r = d) rows ->
  has_rows (r_t na (mkMat d (length rows) (concat rows))) d rows.
Proof.
  intros A na d rows W. unfold r_t. cbn [nrow ncol]. apply (matrix_of_rows na); auto. intros i j Hi Hj. unfold cell. cbn [nrow values].
  rewrite <- (gconcat_row d rows i) by auto. rewrite (Nat.mul_comm i d). apply nth_window. exact Hj.
Qed.

(** ** normalise *)
Open Scope Q_scope.
Lemma fold1_min : forall c, c <> [] -> In (fold1 qmin c) c /\ forall v, In v c -> fold1 qmin c <= v.
Proof.
  intros [|a c] Ne; [congruence|]. clear Ne. cbn [fold1]. revert a. induction c as [|b c IH]; intros a; cbn [fold_left].
  - split; [now left|]. intros v [->|[]]. lra.
  - destruct (IH (qmin a b)) as [H1 H2]. destruct (qmin_spec a b) as (M1 & M2 & M3). specialize (H2 (qmin a b) ltac:(now left)) as H3. split.
    + destruct H1 as [H1|H1]; [|right; now right]. rewrite <- H1. destruct M3 as [->| ->]; [now left|right; now left].
    + intros v [<-|[<-|Hv]]; [lra|lra|]. apply H2. now right.
Qed.
Lemma fold1_max : forall c, c <> [] -> In (fold1 qmax c) c /\ forall v, In v c -> v <= fold1 qmax c.
Proof.
  intros [|a c] Ne; [congruence|]. clear Ne. cbn [fold1]. revert a. induction c as [|b c IH]; intros a; cbn [fold_left].
  - split; [now left|]. intros v [->|[]]. lra.
  - destruct (IH (qmax a b)) as [H1 H2]. destruct (qmax_spec a b) as (M1 & M2 & M3). specialize (H2 (qmax a b) ltac:(now left)) as H3. split.
    + destruct H1 as [H1|H1]; [|right; now right]. rewrite <- H1. destruct M3 as [->| ->]; [now left|right; now left].
    + intros v [<-|[<-|Hv]]; [lra|lra|]. apply H2. now right.
Qed.
Lemma fill_nth : forall given f d k, length given = d -> (k < d)%nat ->
  nth k (fill_na given (map f (seq 0 d))) 0 = match nth k given None with Some v => v | None => f k end.
Proof.
  intros given f d k L Hk. unfold fill_na. rewrite L, nth_map_seq by auto. destruct (nth k given None); auto. now rewrite nth_map_seq.
Qed.
Lemma normalise_wide : forall dim mx lo hi lb ub pts, Forall (fun r => length r = dim) (agree_normalise dim mx lo hi lb ub pts).
Proof.
  intros. unfold agree_normalise, c_normalise. apply Forall_forall. intros r Hr. apply in_map_iff in Hr. destruct Hr as (q & <- & _).
  unfold normalise_row. cbv zeta. now rewrite map_length, seq_length.
Qed.
Lemma normalise_length : forall dim mx lo hi lb ub pts, length (agree_normalise dim mx lo hi lb ub pts) = length pts.
Proof. intros. unfold agree_normalise, c_normalise. now rewrite !map_length. Qed.

(** the result in terms of the C function, for the bounds in use *)
Lemma r_normalise_ok : forall x d rows lo hi lower lower' upper upper' maximise mx,
  has_rows x d rows -> rows <> [] -> (2 <= d)%nat ->
  for_each d lower lower' -> for_each d upper upper' -> for_each d maximise mx ->
  exists z lb ub, r_normalise x [lo; hi] lower upper maximise = Ret z /\
    has_rows z d (agree_normalise d mx lo hi lb ub rows) /\ length lb = d /\ length ub = d /\
    forall j, (j < d)%nat -> lower_bound (nth j lower' None) (column rows j) (nth j lb 0) /\ upper_bound (nth j upper' None) (column rows j) (nth j ub 0).
Proof.
  intros x d rows lo hi lower lower' upper upper' maximise mx H Ne Hd Fl Fu Fm.
  pose proof (for_each_length _ _ _ Fl) as Ll. pose proof (for_each_length _ _ _ Fu) as Lu. pose proof (for_each_length _ _ _ Fm) as Lm.
  pose proof (proj1 (proj2 H)) as C.
  unfold r_normalise. rewrite (as_matrix_ok x d rows) by auto. cbn [bind]. rewrite C.
  rewrite (rep_len_for_each _ _ _ _ Fl), (rep_len_for_each _ _ _ _ Fu), (rep_len_for_each _ _ _ _ Fm).
  unfold col_ranges. rewrite C, !map_map. cbn [fst snd].
  set (lb := fill_na lower' (map (fun j => fold1 qmin (r_col 0 x j)) (seq 0 d))).
  set (ub := fill_na upper' (map (fun j => fold1 qmax (r_col 0 x j)) (seq 0 d))).
  assert (Elb : length lb = d) by (unfold lb, fill_na; now rewrite map_length, seq_length).
  assert (Eub : length ub = d) by (unfold ub, fill_na; now rewrite map_length, seq_length).
  change (length [lo; hi] =? 2)%nat with true. cbn [assert_ bind].
  destruct (t_rows 0 x d rows H) as (N' & C' & _).
  unfold normalise_C. rewrite N', C', Elb, Eub, Lm, !Nat.eqb_refl. change (length [lo; hi] =? 2)%nat with true. cbn [assert_ bind].
  rewrite (read_rows_t 0 x d rows H). cbn [bind]. exists (r_t 0 (mkMat d (length rows) (concat (agree_normalise d mx lo hi lb ub rows)))), lb, ub.
  split; [reflexivity|]. split; [|split; [auto|split; [auto|]]].
  - rewrite <- (normalise_length d mx lo hi lb ub rows) at 1. apply t_of_rows, normalise_wide.
  - intros j Hj. unfold lb, ub. rewrite !fill_nth by auto. rewrite (col_rows 0 x d rows j H Hj). fold (column rows j).
    assert (Nc : column rows j <> []) by (destruct rows; [congruence|discriminate]). split.
    + destruct (nth j lower' None) as [v|]; [reflexivity|]. now apply fold1_min.
    + destruct (nth j upper' None) as [v|]; [reflexivity|]. now apply fold1_max.
Qed.

(** every value is moved from the bounds of its column to the range *)
Theorem C70_normalise : forall x d rows lo hi lower lower' upper upper' maximise mx,
  has_rows x d rows -> rows <> [] -> (2 <= d)%nat ->
  for_each d lower lower' -> for_each d upper upper' -> for_each d maximise mx ->
  exists z out, r_normalise x [lo; hi] lower upper maximise = Ret z /\ has_rows z d out /\ length out = length rows /\
    forall j, (j < d)%nat -> exists l u, lower_bound (nth j lower' None) (column rows j) l /\ upper_bound (nth j upper' None) (column rows j) u /\
      forall i, (i < length rows)%nat -> rescaled lo hi (nth j mx false) l u (nth j (nth i rows []) 0) (nth j (nth i out []) 0).
Proof.
  intros x d rows lo hi lower lower' upper upper' maximise mx H Ne Hd Fl Fu Fm. pose proof (for_each_length _ _ _ Fm) as Lm.
  destruct (r_normalise_ok x d rows lo hi lower lower' upper upper' maximise mx H Ne Hd Fl Fu Fm) as (z & lb & ub & E & Hz & Llb & Lub & B).
  exists z, (agree_normalise d mx lo hi lb ub rows). split; auto. split; auto. split; [apply normalise_length|].
  intros j Hj. exists (nth j lb 0), (nth j ub 0). destruct (B j Hj) as [B1 B2]. split; auto. split; auto.
  intros i Hi. pose proof (agree_normalise_nth d mx lo hi lb ub rows i j Hi Hj Lm) as K. cbv zeta in K. unfold rescaled. cbv zeta. rewrite K.
  destruct (Qeq_bool (nth j lb 0) (nth j ub 0)) eqn:Eq.
  - apply Qeq_bool_eq in Eq. rewrite diff_zero by auto. destruct (nth j mx false); field.
  - apply Qeq_bool_neq in Eq. rewrite diff_regular by auto. destruct (nth j mx false); field; intros F; apply Eq; lra.
Qed.

(** by default the values fill the range *)
Theorem C70_normalise_range : forall x d rows lo hi maximise mx,
  has_rows x d rows -> rows <> [] -> (2 <= d)%nat -> for_each d maximise mx -> lo < hi ->
  exists z out, r_normalise x [lo; hi] [None] [None] maximise = Ret z /\ has_rows z d out /\ length out = length rows /\
    (forall i j, (i < length rows)%nat -> (j < d)%nat -> lo <= nth j (nth i out []) 0 <= hi) /\
    (forall j, (j < d)%nat -> (exists a b, (a < length rows)%nat /\ (b < length rows)%nat /\ ~ nth j (nth a rows []) 0 == nth j (nth b rows []) 0) ->
       exists a b, (a < length rows)%nat /\ (b < length rows)%nat /\ nth j (nth a out []) 0 == lo /\ nth j (nth b out []) 0 == hi).
Proof.
  intros x d rows lo hi maximise mx H Ne Hd Fm Hr.
  destruct (C70_normalise x d rows lo hi [None] (repeat None d) [None] (repeat None d) maximise mx H Ne Hd) as (z & out & E & Hz & Lo & K); auto.
  { right. eauto. } { right. eauto. }
  exists z, out. split; auto. split; auto. split; auto.
  assert (N0 : forall j, nth j (repeat (@None Q) d) None = None). { intros j. destruct (Nat.lt_ge_cases j d); [now apply nth_repeat|]. apply nth_overflow. now rewrite repeat_length. }
  assert (Ci : forall i j, (i < length rows)%nat -> In (nth j (nth i rows []) 0) (column rows j)). { intros i j Hi. unfold column. apply in_map_iff. eexists. split; [reflexivity|]. now apply nth_In. }
  assert (Ic : forall j v, In v (column rows j) -> exists i, (i < length rows)%nat /\ nth j (nth i rows []) 0 = v).
  { intros j v Hv. unfold column in Hv. apply in_map_iff in Hv. destruct Hv as (r & <- & Hin). destruct (In_nth rows r [] Hin) as (i & Hi & <-). eauto. }
  assert (P : forall a c, 0 < c -> 0 <= a -> a <= c -> 0 <= a / c <= 1).
  { intros a c Hc A0 A1. split. apply Qle_shift_div_l; lra. apply Qle_shift_div_r; lra. }
  split.
  - intros i j Hi Hj. destruct (K j Hj) as (l & u & Bl & Bu & R). rewrite N0 in Bl, Bu. destruct Bl as [_ Bl], Bu as [_ Bu].
    specialize (R i Hi). unfold rescaled in R. cbv zeta in R. rewrite R. set (v := nth j (nth i rows []) 0) in *.
    pose proof (Bl v (Ci i j Hi)) as Q1. pose proof (Bu v (Ci i j Hi)) as Q2.
    destruct (Qeq_bool l u) eqn:Eq.
    + apply Qeq_bool_eq in Eq. assert (Ev : u - v == 0) by lra. assert (Ew : v - l == 0) by lra. destruct (nth j mx false); [rewrite Ev|rewrite Ew]; setoid_replace (0 / 1) with 0 by reflexivity; lra.
    + apply Qeq_bool_neq in Eq. assert (Hw : 0 < u - l). { destruct (Qlt_le_dec 0 (u - l)); auto. exfalso. apply Eq. lra. }
      destruct (P (u - v) (u - l) Hw ltac:(lra) ltac:(lra)) as [P1 P2]. destruct (P (v - l) (u - l) Hw ltac:(lra) ltac:(lra)) as [P3 P4].
      set (t := (u - v) / (u - l)) in *. set (t' := (v - l) / (u - l)) in *.
      destruct (nth j mx false); split; nra.
  - intros j Hj (a & b & Ha & Hb & Hab). destruct (K j Hj) as (l & u & Bl & Bu & R). rewrite N0 in Bl, Bu. destruct Bl as [Il Bl], Bu as [Iu Bu].
    destruct (Ic j l Il) as (il & Hil & El). destruct (Ic j u Iu) as (iu & Hiu & Eu).
    assert (Eq : Qeq_bool l u = false).
    { destruct (Qeq_bool l u) eqn:Eq; auto. exfalso. apply Qeq_bool_eq in Eq. apply Hab. pose proof (Bl _ (Ci a j Ha)). pose proof (Bl _ (Ci b j Hb)). pose proof (Bu _ (Ci a j Ha)). pose proof (Bu _ (Ci b j Hb)). lra. }
    pose proof (R il Hil) as R1. pose proof (R iu Hiu) as R2. unfold rescaled in R1, R2. cbv zeta in R1, R2. rewrite Eq in R1, R2. rewrite El in R1. rewrite Eu in R2.
    apply Qeq_bool_neq in Eq. destruct (nth j mx false).
    + exists iu, il. split; auto. split; auto. rewrite R1, R2. split; field; intros F; apply Eq; lra.
    + exists il, iu. split; auto. split; auto. rewrite R1, R2. split; field; intros F; apply Eq; lra.
Qed.

(** dominance between the rows is kept; objectives are minimised afterwards *)
Theorem C70_normalise_dominance : forall x d rows lo hi lower lower' upper upper' maximise mx,
  has_rows x d rows -> rows <> [] -> (2 <= d)%nat ->
  for_each d lower lower' -> for_each d upper upper' -> for_each d maximise mx -> lo < hi ->
  (forall j l u, (j < d)%nat -> lower_bound (nth j lower' None) (column rows j) l -> upper_bound (nth j upper' None) (column rows j) u -> l < u) ->
  exists z out, r_normalise x [lo; hi] lower upper maximise = Ret z /\ has_rows z d out /\ length out = length rows /\
    forall i k, (i < length rows)%nat -> (k < length rows)%nat ->
      (q_dom d (repeat false d) (nth i out []) (nth k out []) <-> q_dom d mx (nth i rows []) (nth k rows [])).
Proof.
  intros x d rows lo hi lower lower' upper upper' maximise mx H Ne Hd Fl Fu Fm Hr Hb. pose proof (for_each_length _ _ _ Fm) as Lm.
  destruct (r_normalise_ok x d rows lo hi lower lower' upper upper' maximise mx H Ne Hd Fl Fu Fm) as (z & lb & ub & E & Hz & Llb & Lub & B).
  exists z, (agree_normalise d mx lo hi lb ub rows). split; auto. split; auto. split; [apply normalise_length|].
  intros i k Hi Hk. apply (C33_dominance_preserved d mx lo hi lb ub rows i k Hi Hk Lm Hr).
  intros j Hj. destruct (B j Hj). eapply Hb; eauto.
Qed.

Theorem C70_normalise_refused : forall x d rows to_range lower upper maximise, has_rows x d rows ->
  rows = [] \/ (d <= 1)%nat \/ length to_range <> 2%nat -> r_normalise x to_range lower upper maximise = AssertFailed.
Proof.
  intros x d rows to_range lower upper maximise H R. unfold r_normalise.
  assert (D : (rows = [] \/ (d <= 1)%nat) \/ (rows <> [] /\ (2 <= d)%nat)).
  { destruct rows; [left; now left|]. destruct (Nat.le_gt_cases d 1); [left; now right|]. right. split; [discriminate|lia]. }
  destruct D as [D|[D1 D2]]. { now rewrite (as_matrix_refused x d rows). }
  rewrite (as_matrix_ok x d rows) by auto. cbn [bind]. destruct R as [R|[R|R]]; [congruence|lia|].
  apply Nat.eqb_neq in R. rewrite R. reflexivity.
Qed.

Example C70_normalise_meets : exists z, r_normalise (mkMat 3 2 [1; 3; 2; 10; 30; 20]) [1; 2] [None] [Some 5; None] [false; true] = Ret z /\
  map (fun v => Qred v) (values z) = [1; (3 # 2)%Q; (5 # 4)%Q; 2; 1; (3 # 2)%Q] /\ has_rows (mkMat 3 2 [1; 3; 2; 10; 30; 20]) 2 [[1; 10]; [3; 30]; [2; 20]].
Proof.
  eexists. split; [reflexivity|]. split; [vm_compute; reflexivity|]. do 3 (split; [reflexivity|]). split. { repeat constructor. }
  intros na [|[|[|i]]] [|[|j]] Hi Hj; cbn in Hi, Hj; try lia; reflexivity.
Qed.

(** ** whv_rect *)
Open Scope Z_scope.
Lemma rects_of_ok : forall rs, rects_of (map rect_row rs) = Ret rs.
Proof. induction rs as [|[lx ly ux uy c] rs IH]; [reflexivity|]. cbn [map rects_of rect_row rect_of r_lx r_ly r_ux r_uy r_col bind]. rewrite IH. reflexivity. Qed.

Section C70.
Variable sort2d : list point -> list nat.
Variable sortd : (nat -> Z) -> list nat -> list nat.
Variable dbl_max : Z.
Variable g : hvst.
Variable sortp : list point -> list point.
Variable sortr : list crect -> list crect.
Variable junk : nat -> crect.
Local Notation r_whv_rect := (r_whv_rect sortp sortr junk).
Local Notation py_whv_rect := (py_whv_rect sortp sortr junk).

Definition no_maximise (maximise : list bool) : Prop := forall b, In b maximise -> b = false.
Lemma no_maximise_any : forall maximise, no_maximise maximise <-> any maximise = false.
Proof.
  intros maximise. unfold no_maximise, any. split.
  - intros H. destruct (existsb (fun b => b) maximise) eqn:E; auto. apply existsb_exists in E. destruct E as (b & Hb & Eb). rewrite (H b Hb) in Eb. discriminate.
  - intros H b Hb. destruct b; auto. rewrite <- H. symmetry. apply existsb_exists. exists true. auto.
Qed.

Lemma whv_rect_C : forall x rows rectangles rs reference ref maximise,
  data_matrix x 2 rows -> has_rows rectangles 5 (map rect_row rs) -> for_each 2 reference ref -> no_maximise maximise ->
  r_whv_rect x rectangles reference maximise = (r <- rect_weighted_hv2d sortp sortr junk rows rs ref ;; Ret (fst r)).
Proof.
  intros x rows rectangles rs reference ref maximise D Hr Fr M. pose proof D as (H & Ne & Hd).
  unfold RWhvModel.r_whv_rect. rewrite (as_matrix_ok x 2 rows) by auto. cbn [bind]. rewrite (proj1 (proj2 H)), (proj1 (proj2 Hr)), !Nat.eqb_refl. cbn [assert_ bind].
  rewrite (full_reference_ok 2 _ ref) by auto. apply no_maximise_any in M. rewrite M. cbn [negb assert_ bind].
  unfold rect_weighted_hv2d_C. rewrite (proj1 (t_rows Infty rectangles 5 _ Hr)), (for_each_length _ _ _ Fr). cbn [Nat.eqb assert_ bind].
  rewrite (c_rows_t x 2 rows) by (auto; lia). cbn [bind]. rewrite (read_rows_t Infty rectangles 5 _ Hr). cbn [bind]. rewrite rects_of_ok. reflexivity.
Qed.

(** the locations that count: none below the height of the lowest upper side, if a row is exactly at that height *)
Definition not_below_lowest_top (rows : list point) (rs : list (rect Z)) (ref z : point) : Prop :=
  forall p y, In p rows -> lowest_top ref rs y -> coord p 1 = y -> y <= coord z 1.
(** the value, for rows that do not dominate each other *)
Theorem C70_whv_rect : forall x rows rectangles rs reference ref maximise,
  valid_sortd sortp -> valid_sortr sortr ->
  data_matrix x 2 rows -> has_rows rectangles 5 (map rect_row rs) -> for_each 2 reference ref -> no_maximise maximise ->
  antichain rows -> (forall r, In r rs -> valid_rect r) ->
  exists v, r_whv_rect x rectangles reference maximise = Ret v /\
    weighted_area_where (not_below_lowest_top rows rs ref) rows ref rs v /\
    (forall w, weighted_area rows ref rs w -> 0 <= v <= w) /\
    ((forall p y, In p rows -> lowest_top ref rs y -> coord p 1 <> y) -> weighted_area rows ref rs v).
Proof.
  intros x rows rectangles rs reference ref maximise Sp Sr D Hr Fr M An V. rewrite (whv_rect_C x rows rectangles rs reference ref) by auto.
  pose proof (data_wf _ _ _ D) as W. pose proof (for_each_length _ _ _ Fr) as Lr.
  destruct (C25_value_exactly sortp sortr junk rows rs ref Sp Sr Lr W An V) as (v & data' & E & _ & A). rewrite E. cbn [bind fst].
  exists v. split; auto. split; [exact A|]. split.
  - intros w Hw. exact (C25_never_overestimates sortp sortr junk rows rs ref v data' w Sp Sr Lr W An V E Hw).
  - intros N. destruct (C25_weighted_area_partial sortp sortr junk rows rs ref Sp Sr Lr W An V N) as (v' & d' & E' & _ & A'). rewrite E in E'. injection E' as <- _. exact A'.
Qed.

Theorem C70_whv_rect_refused : forall x d rows rectangles w rrows reference maximise,
  has_rows x d rows -> has_rows rectangles w rrows ->
  rows = [] \/ d <> 2%nat \/ w <> 5%nat \/ ~ no_maximise maximise \/ (length reference <> 1 /\ length reference <> 2)%nat ->
  r_whv_rect x rectangles reference maximise = AssertFailed.
Proof.
  intros x d rows rectangles w rrows reference maximise H Hr R. unfold RWhvModel.r_whv_rect.
  assert (D : (rows = [] \/ (d <= 1)%nat) \/ (rows <> [] /\ (2 <= d)%nat)).
  { destruct rows; [left; now left|]. destruct (Nat.le_gt_cases d 1); [left; now right|]. right. split; [discriminate|lia]. }
  destruct D as [D|[D1 D2]]. { now rewrite (as_matrix_refused x d rows). }
  rewrite (as_matrix_ok x d rows) by auto. cbn [bind]. rewrite (proj1 (proj2 H)), (proj1 (proj2 Hr)).
  destruct (Nat.eqb_spec d 2) as [->|Nd]; [|reflexivity]. destruct (Nat.eqb_spec w 5) as [->|Nw]; [|reflexivity]. cbn [assert_ bind].
  destruct (any maximise) eqn:Ea; [reflexivity|]. cbn [negb assert_ bind]. apply no_maximise_any in Ea.
  destruct R as [R|[R|[R|[R|[R1 R2]]]]]; try congruence; try contradiction.
  unfold rect_weighted_hv2d_C. rewrite (proj1 (t_rows Infty rectangles 5 _ Hr)). change (5 =? 5)%nat with true. cbn [assert_ bind].
  unfold full_reference. apply Nat.eqb_neq in R1. rewrite R1. apply Nat.eqb_neq in R2. rewrite R2. reflexivity.
Qed.

(** ** total_whv_rect *)
Variables u wu : Q.
Local Notation r_total_whv_rect := (r_total_whv_rect sort2d sortd dbl_max g sortp sortr junk u wu).
Local Notation py_total_whv_rect := (py_total_whv_rect sort2d sortd dbl_max g sortp sortr junk u wu).

Lemma total_ok : forall hv whv ref ideal scale, (total u wu hv whv ref ideal scale == total_value u wu hv whv ref ideal scale)%Q.
Proof.
  intros. unfold total, total_value, coord. cbn [seq map fold_left]. cbv zeta.
  assert (E : (1 * (u * inject_Z (nth 0 ref 0 - nth 0 ideal 0)%Z) * (u * inject_Z (nth 1 ref 0 - nth 1 ideal 0)%Z) == u * inject_Z (nth 0 ref 0 - nth 0 ideal 0)%Z * (u * inject_Z (nth 1 ref 0 - nth 1 ideal 0)%Z))%Q) by ring.
  rewrite E. ring.
Qed.
Lemma rep_false : forall maximise d, maximise <> [] -> no_maximise maximise -> rep_len true maximise d = repeat false d.
Proof.
  intros maximise d Ne M. unfold rep_len. assert (E : forall s, map (fun k => nth (k mod length maximise) maximise true) (seq s d) = repeat false d).
  { induction d as [|d IH]; intros s; [reflexivity|]. cbn [seq map repeat]. rewrite IH. f_equal. apply M, nth_In, Nat.mod_upper_bound. destruct maximise; [congruence|discriminate]. }
  apply E.
Qed.
Definition scale_ok (scale : Q) : Prop := (0 < scale /\ scale <= 1)%Q.
Lemma scale_ok_b : forall scale, scale_ok scale <-> negb (Qle_bool scale 0 || negb (Qle_bool scale 1)) = true.
Proof.
  intros s. unfold scale_ok. destruct (Qle_bool s 0) eqn:E0, (Qle_bool s 1) eqn:E1; cbn [orb negb]; rewrite ?Qle_bool_iff in *; split; intros K; try discriminate; auto.
  - destruct K. lra.
  - destruct K. lra.
  - split; auto. destruct (Qlt_le_dec 0 s) as [?|L]; auto. apply Qle_bool_iff in L. congruence.
  - destruct K as [_ K]. apply Qle_bool_iff in K. congruence.
Qed.

(** the ideal point in use: the one given or the best value of each column *)
Definition ideal_used (rows : list point) (given : option (list Z)) (i : point) : Prop :=
  match given with Some l => for_each 2 l i | None => ideal_of rows i end.
Definition ideal_used_R (rows : list point) (given : option (list Z)) (i : point) : Prop :=
  match given with Some l => length l = 2%nat /\ i = l | None => ideal_of rows i end.

Theorem C70_total_whv_rect : forall x rows rectangles rs reference ref maximise ideal scale,
  sorting sort2d sortd 2 -> valid_sortd sortp -> valid_sortr sortr ->
  data_matrix x 2 rows -> has_rows rectangles 5 (map rect_row rs) -> for_each 2 reference ref -> maximise <> [] -> no_maximise maximise ->
  (forall p i, In p rows -> (i < 2)%nat -> - dbl_max <= coord p i <= dbl_max) ->
  antichain rows -> (forall r, In r rs -> valid_rect r) -> scale_ok scale ->
  (forall l, ideal = Some l -> length l = 2%nat) ->
  exists v hv whv i, r_total_whv_rect x rectangles reference maximise ideal scale = Ret v /\
    hypervolume_mx [false; false] rows ref hv /\ r_whv_rect x rectangles reference maximise = Ret whv /\
    ideal_used_R rows ideal i /\ (v == total_value u wu hv whv ref i scale)%Q.
Proof.
  intros x rows rectangles rs reference ref maximise ideal scale S2 Sp Sr D Hr Fr Nm M B An V Sc Hi. pose proof D as (H & Ne & Hd).
  unfold RWhvModel.r_total_whv_rect. rewrite (proj1 (proj2 H)), (proj1 (proj2 Hr)), !Nat.eqb_refl. cbn [assert_ bind].
  apply scale_ok_b in Sc. rewrite Sc. cbn [assert_ bind]. rewrite (rep_false maximise 2 Nm M). change (repeat false 2) with [false; false].
  destruct (C66_hypervolume sort2d sortd dbl_max g x 2 rows reference ref [false; false] [false; false]) as (hv & Eh & Hh); auto. { left. auto. }
  rewrite Eh. cbn [bind].
  assert (M2 : no_maximise [false; false]) by (intros b [<-|[<-|[]]]; reflexivity).
  destruct (C70_whv_rect x rows rectangles rs reference ref [false; false] Sp Sr D Hr Fr M2 An V) as (whv & Ew & _).
  assert (Ew' : r_whv_rect x rectangles reference maximise = Ret whv). { rewrite <- Ew. rewrite !(whv_rect_C x rows rectangles rs reference ref) by auto. reflexivity. }
  rewrite Ew. cbn [bind].
  assert (I : exists i, match ideal with Some i => i | None => get_ideal x [false; false] end = i /\ length i = 2%nat /\ ideal_used_R rows ideal i).
  { destruct ideal as [l|]. { exists l. cbn. auto. } eexists. split; [reflexivity|]. unfold get_ideal. rewrite (proj1 (proj2 H)). split; [reflexivity|]. split; [reflexivity|].
    intros j Hj. unfold coord. rewrite (nth_map_seq (fun j => match (if nth j [false; false] false then r_max (r_col 0 x j) else r_min (r_col 0 x j)) with Some v => v | None => 0 end)) by auto.
    assert (Ej : nth j [false; false] false = false) by (destruct j as [|[|j]]; auto; destruct j; auto). rewrite Ej.
    rewrite (col_rows 0 x 2 rows j H Hj). pose proof (rmin_ok (map (fun r => nth j r 0) rows)) as K. destruct (r_min _) as [m|].
    - destruct K as [K1 K2]. split. { apply in_map_iff in K1. destruct K1 as (p & <- & Hp). eauto. } intros p Hp. apply K2, in_map_iff. eauto.
    - apply map_eq_nil in K. now destruct (Ne K). }
  destruct I as (i & -> & Li & Iu). rewrite Li, Nat.eqb_refl. cbn [assert_ bind]. rewrite (full_reference_ok 2 _ ref) by auto.
  exists (total u wu hv whv ref i scale), hv, whv, i. split; auto. split; auto. split; auto. split; auto. apply total_ok.
Qed.

Theorem C70_total_refused : forall x d rows rectangles w rrows reference maximise ideal scale v,
  has_rows x d rows -> has_rows rectangles w rrows ->
  rows = [] \/ d <> 2%nat \/ w <> 5%nat \/ (exists mx, for_each 2 maximise mx /\ In true mx) \/ maximise = [] \/ ~ scale_ok scale \/
    (length reference <> 1 /\ length reference <> 2)%nat \/ (exists l, ideal = Some l /\ length l <> 2%nat) ->
  r_total_whv_rect x rectangles reference maximise ideal scale <> Ret v.
Proof.
  intros x d rows rectangles w rrows reference maximise ideal scale v H Hr R E. unfold RWhvModel.r_total_whv_rect in E.
  rewrite (proj1 (proj2 H)), (proj1 (proj2 Hr)) in E.
  destruct (Nat.eqb_spec d 2) as [->|Nd]; [|discriminate]. destruct (Nat.eqb_spec w 5) as [->|Nw]; [|discriminate]. cbn [assert_ bind] in E.
  destruct (negb (Qle_bool scale 0 || negb (Qle_bool scale 1))) eqn:Es; [|discriminate]. apply scale_ok_b in Es. cbn [assert_ bind] in E.
  destruct (RIndModel.r_hypervolume sort2d sortd dbl_max g x reference (rep_len true maximise 2)) as [hv| | |] eqn:Eh; try discriminate. cbn [bind] in E.
  destruct (r_whv_rect x rectangles reference (rep_len true maximise 2)) as [whv| | |] eqn:Ew; try discriminate. cbn [bind] in E.
  destruct R as [R|[R|[R|[(mx & Fm & T)|[R|[R|[R|(l & -> & Ll)]]]]]]]; try congruence; try contradiction.
  - rewrite (C70_whv_rect_refused x 2 rows rectangles 5 rrows) in Ew; auto. discriminate.
  - rewrite (rep_len_for_each _ _ _ _ Fm) in Ew. rewrite (C70_whv_rect_refused x 2 rows rectangles 5 rrows) in Ew; [discriminate|auto|auto|]. right. right. right. left. intros C. specialize (C true T). discriminate.
  - subst maximise. rewrite (C70_whv_rect_refused x 2 rows rectangles 5 rrows) in Ew; [discriminate|auto|auto|]. right. right. right. left. intros C. specialize (C true ltac:(now left)). discriminate.
  - rewrite (C70_whv_rect_refused x 2 rows rectangles 5 rrows) in Ew; [discriminate|auto|auto|tauto].
  - apply Nat.eqb_neq in Ll. rewrite Ll in E. discriminate.
Qed.

(** ** Python *)
Lemma of_length_ok : forall l l' n, for_each n l l' -> of_length_n l n = Ret l'.
Proof.
  intros l l' n [[-> L]|(a & -> & ->)]; unfold of_length_n.
  - rewrite L, Nat.eqb_refl. destruct (Nat.eqb_spec n 1) as [->|]; auto. destruct l as [|a [|]]; try discriminate. reflexivity.
  - reflexivity.
Qed.
Lemma of_length_refused : forall l n, length l <> 1%nat -> length l <> n -> of_length_n l n = AssertFailed.
Proof. intros l n H1 H2. unfold of_length_n. apply Nat.eqb_neq in H1, H2. now rewrite H1, H2. Qed.

Theorem C70_py_whv_rect : forall rows rs reference ref,
  valid_sortd sortp -> valid_sortr sortr -> wf_points 2 rows -> for_each 2 reference ref -> antichain rows -> (forall r, In r rs -> valid_rect r) ->
  exists v rows', py_whv_rect rows 2 (map rect_row rs) 5 reference (Flag false) = Ret (v, rows') /\ Permutation rows rows' /\
    weighted_area_where (not_below_lowest_top rows rs ref) rows ref rs v /\
    (forall w, weighted_area rows ref rs w -> 0 <= v <= w) /\
    ((forall p y, In p rows -> lowest_top ref rs y -> coord p 1 <> y) -> weighted_area rows ref rs v).
Proof.
  intros rows rs reference ref Sp Sr W Fr An V. pose proof (for_each_length _ _ _ Fr) as Lr. unfold RWhvModel.py_whv_rect. cbn [Nat.eqb assert_ bind].
  rewrite (of_length_ok _ _ _ Fr). cbn [bind truth negb assert_]. rewrite rects_of_ok. cbn [bind].
  destruct (C25_value_exactly sortp sortr junk rows rs ref Sp Sr Lr W An V) as (v & data' & E & P & A). exists v, data'. split; auto. split; auto. split; [exact A|]. split.
  - intros w Hw. exact (C25_never_overestimates sortp sortr junk rows rs ref v data' w Sp Sr Lr W An V E Hw).
  - intros N. destruct (C25_weighted_area_partial sortp sortr junk rows rs ref Sp Sr Lr W An V N) as (v' & d' & E' & _ & A'). rewrite E in E'. injection E' as <- _. exact A'.
Qed.

Lemma hypervolume_same : forall (A B : list point) ref v, (forall p, In p A <-> In p B) -> hypervolume A ref v -> hypervolume B ref v.
Proof.
  intros A B ref v H (L & N & I & E). exists L. split; auto. split; auto. intros z. rewrite I. unfold dominated_cell.
  split; intros (Q1 & (p & Hp & Q2) & Q3); (split; [auto|split; [exists p; split; [now apply H|auto]|auto]]).
Qed.
Lemma hypervolume_plain : forall rows ref v, hypervolume rows ref v -> hypervolume_mx [false; false] rows ref v.
Proof.
  intros rows ref v H. apply hypervolume_negate. rewrite (negate_cols_none _ ref) by reflexivity.
  rewrite (map_ext _ (fun p => p)), map_id; auto. intros p. now apply negate_cols_none.
Qed.

Theorem C70_py_total_whv_rect : forall shared rows rs reference ref ideal scale,
  sorting sort2d sortd 2 -> valid_sortd sortp -> valid_sortr sortr ->
  wf_points 2 rows -> rows <> [] -> for_each 2 reference ref ->
  (forall p i, In p rows -> (i < 2)%nat -> - dbl_max <= coord p i <= dbl_max) ->
  antichain rows -> (forall r, In r rs -> valid_rect r) -> scale_ok scale ->
  (forall l, ideal = Some l -> exists i, for_each 2 l i) ->
  exists v hv whv rows' i, py_total_whv_rect shared rows 2 (map rect_row rs) 5 reference (Flag false) ideal scale = Ret v /\
    hypervolume_mx [false; false] rows ref hv /\ py_whv_rect rows 2 (map rect_row rs) 5 reference (Flag false) = Ret (whv, rows') /\
    ideal_used rows ideal i /\ (v == total_value u wu hv whv ref i scale)%Q.
Proof.
  intros shared rows rs reference ref ideal scale (S1 & S2 & S3) Sp Sr W Ne Fr B An V Sc Hi. pose proof (for_each_length _ _ _ Fr) as Lr.
  destruct (C70_py_whv_rect rows rs reference ref Sp Sr W Fr An V) as (whv & rows' & Ew & P & _).
  assert (Ew2 : py_whv_rect rows 2 (map rect_row rs) 5 ref (Flag false) = Ret (whv, rows')).
  { rewrite <- Ew. unfold RWhvModel.py_whv_rect. cbn [Nat.eqb assert_ bind]. rewrite (of_length_ok _ _ _ Fr). rewrite (of_length_ok ref ref 2); auto. left. auto. }
  unfold RWhvModel.py_total_whv_rect. cbn [Nat.eqb assert_ bind]. apply scale_ok_b in Sc. rewrite Sc. cbn [assert_ bind].
  rewrite (of_length_ok _ _ _ Fr). cbn [bind]. rewrite Ew2. cbn [bind fst snd].
  set (xs := if shared then rows' else rows).
  assert (Ix : forall p, In p xs <-> In p rows). { intros p. unfold xs. destruct shared; [|tauto]. split; apply Permutation_in; auto. now apply Permutation_sym. }
  assert (Nx : xs <> []). { destruct rows as [|p rows0]; [congruence|]. intros E. destruct (Ix p) as [_ K]. rewrite E in K. apply K. now left. }
  assert (Wx : wf_points 2 xs). { unfold wf_points in *. rewrite Forall_forall in *. intros p Hp. apply W. now apply Ix. }
  destruct (fpli_hv_ok_gen sort2d sortd dbl_max g xs 2 ref S1 S2) as (hv & Eh & Hh); auto. { intros p j Hp Hj. apply B; auto. now apply Ix. }
  rewrite Eh. cbn [bind].
  assert (I : exists i, match ideal with Some i => of_length_n i 2 | None => Ret (py_get_ideal xs 2 (Flag false)) end = Ret i /\ ideal_used rows ideal i).
  { destruct ideal as [l|]. { destruct (Hi l eq_refl) as (i & Fi). exists i. split; auto. now apply of_length_ok. }
    eexists. split; [reflexivity|]. unfold py_get_ideal. split; [reflexivity|]. intros j Hj. cbv zeta.
    assert (EI : coord (map (fun j => match r_min (map (fun p => coord p j) xs) with Some v => v | None => 0 end) (seq 0 2)) j = match r_min (map (fun p => coord p j) xs) with Some v => v | None => 0 end).
    { unfold coord at 1. now rewrite (nth_map_seq (fun j => match r_min (map (fun p => coord p j) xs) with Some v => v | None => 0 end)). }
    rewrite EI.
    pose proof (rmin_ok (map (fun p => coord p j) xs)) as K. destruct (r_min _) as [m|].
    - destruct K as [K1 K2]. split. { apply in_map_iff in K1. destruct K1 as (p & <- & Hp). exists p. split; auto. now apply Ix. } intros p Hp. apply K2, in_map_iff. exists p. split; auto. now apply Ix.
    - apply map_eq_nil in K. now destruct (Nx K). }
  destruct I as (i & -> & Iu). cbn [bind]. exists (total u wu hv whv ref i scale), hv, whv, rows', i. split; auto. split.
  - apply hypervolume_plain. now apply (hypervolume_same xs).
  - split; auto. split; auto. apply total_ok.
Qed.
(** wrong numbers of columns and lengths *)
Theorem C70_py_refused : forall rows nobj rectangles width reference maximise,
  nobj <> 2%nat \/ width <> 5%nat \/ (length reference <> 1%nat /\ length reference <> 2%nat) \/ maximise = Flag true ->
  py_whv_rect rows nobj rectangles width reference maximise = AssertFailed.
Proof.
  intros rows nobj rectangles width reference maximise R. unfold RWhvModel.py_whv_rect.
  destruct (Nat.eqb_spec nobj 2) as [->|]; [|reflexivity]. destruct (Nat.eqb_spec width 5) as [->|]; [|reflexivity]. cbn [assert_ bind].
  unfold of_length_n. destruct (Nat.eqb_spec (length reference) 1) as [E|E]; [|destruct (Nat.eqb_spec (length reference) 2) as [F|F]; [|reflexivity]]; cbn [bind].
  - destruct R as [R|[R|[R| ->]]]; [lia|lia|lia|reflexivity].
  - destruct R as [R|[R|[R| ->]]]; [lia|lia|lia|reflexivity].
Qed.
(** a list of flags is refused even if no objective is maximised *)
Theorem C70_py_maximise_list_refuted : exists rows rs ref flags,
  no_maximise flags /\ length flags = 2%nat /\ antichain rows /\ wf_points 2 rows /\ (forall r, In r rs -> valid_rect r) /\
  py_whv_rect rows 2 (map rect_row rs) 5 ref (Flags flags) = AssertFailed /\
  py_whv_rect rows 2 (map rect_row rs) 5 ref (Flag false) <> AssertFailed.
Proof.
  exists [[1; 1]], [], [4; 4], [false; false]. split. { intros b [<-|[<-|[]]]; reflexivity. } split; [reflexivity|]. split.
  { intros i j Hi Hj Hn. cbn in Hi, Hj. lia. } split. { repeat constructor. } split. { intros r []. } split; [reflexivity|discriminate].
Qed.
End C70.

(** ** whv_hype *)
Open Scope Q_scope.
Lemma flip_max : forall mx p, length p = 2%nat -> flip 0 Qopp mx p = negate_max mx p.
Proof. intros mx p L. unfold flip, negate_max. rewrite L. reflexivity. Qed.
Lemma full_vector_ok : forall l l', for_each 2 l l' -> full_vector l 2 = l'.
Proof. intros l l' F. unfold full_vector. destruct F as [[-> L]|(a & -> & ->)]. now rewrite L. reflexivity. Qed.
Lemma negate_some_ok : forall l mx, length l = 2%nat -> length mx = 2%nat -> negate_some l mx = Ret (negate_max mx l).
Proof.
  intros [|a [|b [|]]] [|m0 [|m1 [|]]] L M; try discriminate. reflexivity.
Qed.
Lemma hype_args_ok : forall x rows reference ref ideal idl maximise mx, has_rows x 2 rows -> rows <> [] ->
  for_each 2 reference ref -> for_each 2 ideal idl -> for_each 2 maximise mx ->
  exists x' idl' ref', hype_args x reference ideal maximise = Ret (x', idl', ref') /\ has_rows x' 2 (map (negate_max mx) rows) /\
    idl' = negate_max mx idl /\ ref' = negate_max mx ref.
Proof.
  intros x rows reference ref ideal idl maximise mx H Ne Fr Fi Fm.
  pose proof (for_each_length _ _ _ Fr) as Lr. pose proof (for_each_length _ _ _ Fi) as Li. pose proof (for_each_length _ _ _ Fm) as Lm.
  destruct (transform_ok 0 Qopp x 2 rows maximise mx ltac:(lia) H Fm) as (x' & E & H').
  assert (EM : map (flip 0 Qopp mx) rows = map (negate_max mx) rows).
  { apply map_ext_in. intros p Hp. apply flip_max. destruct H as (_ & _ & _ & W & _). rewrite Forall_forall in W. now apply W. }
  rewrite EM in H'.
  unfold hype_args. rewrite (as_matrix_ok x 2 rows) by auto. cbn [bind]. rewrite (proj1 (proj2 H)), (full_vector_ok _ _ Fr), (full_vector_ok _ _ Fi), Nat.eqb_refl. cbn [assert_ bind].
  destruct (any maximise) eqn:Ea.
  - rewrite E. cbn [bind]. exists x', (negate_max mx idl), (negate_max mx ref). split; auto.
    assert (EA : all maximise = all mx) by (now apply (for_each_all 2); [lia|]). rewrite EA.
    destruct (all mx) eqn:Eall; cbn [bind].
    + rewrite <- !(flip_all 0 Qopp mx) by (auto; lia). rewrite !flip_max by auto. reflexivity.
    + assert (Em : maximise = mx). { destruct Fm as [[-> _]|(b & -> & ->)]; auto. destruct b; cbn in Ea, Eall; discriminate. }
      rewrite Em, !negate_some_ok by auto. reflexivity.
  - exists x, idl, ref. split; auto. assert (Em : any mx = false) by (rewrite <- (for_each_any 2 maximise mx); auto).
    rewrite <- !(flip_max mx) by auto. rewrite !flip_none by auto. split; auto.
    rewrite <- EM. rewrite (map_ext _ (fun p => p)), map_id; auto. intros p. now apply flip_none.
Qed.
Lemma hype_value_eq : forall x rows reference ref ideal idl maximise mx samples, has_rows x 2 rows -> rows <> [] ->
  for_each 2 reference ref -> for_each 2 ideal idl -> for_each 2 maximise mx ->
  r_whv_hype_value x reference ideal maximise samples = py_whv_hype_value rows ref idl mx samples.
Proof.
  intros x rows reference ref ideal idl maximise mx samples H Ne Fr Fi Fm.
  destruct (hype_args_ok x rows reference ref ideal idl maximise mx H Ne Fr Fi Fm) as (x' & i' & r' & E & H' & -> & ->).
  unfold r_whv_hype_value. rewrite E. cbn [bind]. unfold whv_hype_C. rewrite (read_rows_t 0 x' 2 _ H'). reflexivity.
Qed.

(** the number of samples that the data attain, scaled to the area of the box *)
Theorem C70_whv_hype : forall x rows reference ref ideal idl maximise mx samples, has_rows x 2 rows -> rows <> [] ->
  for_each 2 reference ref -> for_each 2 ideal idl -> for_each 2 maximise mx -> proper_box mx idl ref -> samples <> [] ->
  exists v k, r_whv_hype_value x reference ideal maximise samples = Ret v /\ holds_for (attained mx rows idl ref) samples k /\
    v == Qabs (box_area idl ref) * (inject_Z (Z.of_nat k) / inject_Z (Z.of_nat (length samples))).
Proof.
  intros x rows reference ref ideal idl maximise mx samples H Ne Fr Fi Fm B Ns.
  rewrite (hype_value_eq x rows reference ref ideal idl maximise mx) by auto. now apply C26_counts_dominated_samples.
Qed.
Theorem C70_whv_hype_uniform : forall key0 x rows reference ref ideal idl maximise mx nsamples seed, has_rows x 2 rows -> rows <> [] ->
  for_each 2 reference ref -> for_each 2 ideal idl -> for_each 2 maximise mx -> proper_box mx idl ref ->
  length key0 = Z.to_nat 624 -> (0 < nsamples)%nat ->
  exists samples v k, r_whv_hype_unif key0 x reference ideal maximise nsamples seed = Ret v /\
    length samples = nsamples /\ Forall in_unit_square samples /\ holds_for (attained mx rows idl ref) samples k /\
    v == Qabs (box_area idl ref) * (inject_Z (Z.of_nat k) / inject_Z (Z.of_nat nsamples)) /\ 0 <= v <= Qabs (box_area idl ref).
Proof.
  intros key0 x rows reference ref ideal idl maximise mx n seed H Ne Fr Fi Fm B Lk Hn.
  destruct (hype_args_ok x rows reference ref ideal idl maximise mx H Ne Fr Fi Fm) as (x' & i' & r' & E & H' & -> & ->).
  unfold r_whv_hype_unif. rewrite E. cbn [bind]. unfold whv_hype_C. rewrite (read_rows_t 0 x' 2 _ H'). cbn [negate_max seq map length Nat.eqb assert_ bind].
  exact (C26_uniform_every_seed key0 rows ref idl mx n seed Lk B Hn).
Qed.
(** wrong numbers of columns and lengths *)
Theorem C70_whv_hype_refused : forall x d rows reference ideal maximise samples, has_rows x d rows ->
  rows = [] \/ d <> 2%nat \/ (no_maximise maximise /\ (length reference <> 1%nat /\ length reference <> 2%nat \/ length ideal <> 1%nat /\ length ideal <> 2%nat)) ->
  r_whv_hype_value x reference ideal maximise samples = AssertFailed.
Proof.
  intros x d rows reference ideal maximise samples H R. unfold r_whv_hype_value, hype_args.
  assert (D : (rows = [] \/ (d <= 1)%nat) \/ rows <> [] /\ (2 <= d)%nat). { destruct rows; [now left; left|]. destruct (le_lt_dec d 1); [left; now right|right; split; [discriminate|lia]]. }
  destruct D as [D|[D1 D2]]. { now rewrite (as_matrix_refused x d rows). }
  rewrite (as_matrix_ok x d rows) by auto. cbn [bind]. rewrite (proj1 (proj2 H)). destruct (Nat.eqb_spec d 2) as [->|]; [|reflexivity]. cbn [assert_ bind].
  destruct R as [R|[R|[R1 R2]]]; [congruence|lia|]. apply no_maximise_any in R1. rewrite R1. cbn [bind]. unfold whv_hype_C.
  assert (L : forall l, (length l = 1%nat -> length (full_vector l 2) = 2%nat) /\ (length l <> 1%nat -> full_vector l 2 = l)).
  { intros l. unfold full_vector. split; intros Hl.
    - rewrite Hl. destruct l as [|? [|? ?]]; try discriminate. reflexivity.
    - apply Nat.eqb_neq in Hl. now rewrite Hl. }
  destruct (L reference) as [La Lb], (L ideal) as [Lc Ld].
  destruct (Nat.eqb_spec (length (full_vector reference 2)) (length (full_vector ideal 2))) as [E|]; [|reflexivity]. cbn [assert_ bind].
  destruct (Nat.eqb_spec (length (full_vector reference 2)) 2) as [E2|]; [|reflexivity]. exfalso. rewrite E2 in E.
  destruct R2 as [[R2 R3]|[R2 R3]]; [rewrite (Lb R2) in E2|rewrite (Ld R2) in E]; lia.
Qed.
(** dist = "point" with one number in mu: C reads after the end of the array *)
Theorem C70_whv_hype_mu_refuted : exists x rows mu, has_rows x 2 rows /\ length mu = 1%nat /\
  r_gauss_centre x (Some mu) [4] [0] [false] = OutOfBounds /\ exists c, r_gauss_centre x (Some (mu ++ mu)) [4] [0] [false] = Ret c.
Proof.
  exists (mkMat 1 2 [2; 2]), [[2; 2]], [1]. split.
  { do 3 (split; [reflexivity|]). split. { repeat constructor. } intros na [|i] [|[|j]] Hi Hj; cbn in Hi, Hj; try lia; reflexivity. }
  split; [reflexivity|]. split; [reflexivity|]. eexists. reflexivity.
Qed.
(** the goal of dist = "point" is where it should be if both objectives are minimised,
    but elsewhere if one is maximised *)
Theorem C70_whv_hype_goal : forall x rows reference ref ideal idl m0 m1, has_rows x 2 rows -> rows <> [] ->
  for_each 2 reference ref -> for_each 2 ideal idl -> proper_box [false; false] idl ref ->
  exists c, r_gauss_centre x (Some [m0; m1]) reference ideal [false] = Ret c /\
    forall d, (d < 2)%nat -> nth d (location idl ref c) 0 == nth d [m0; m1] 0.
Proof.
  intros x rows reference ref ideal idl m0 m1 H Ne Fr Fi B.
  destruct (hype_args_ok x rows reference ref ideal idl [false] [false; false] H Ne Fr Fi) as (x' & i' & r' & E & H' & -> & ->). { right. exists false. auto. }
  unfold r_gauss_centre. rewrite E. cbn [bind]. unfold whv_hype_C. rewrite (read_rows_t 0 x' 2 _ H'). eexists. split; [reflexivity|].
  intros d Hd. exact (C26_goal_centre_minimise [m0; m1] ref idl d Hd B).
Qed.
Theorem C70_whv_hype_goal_refuted : exists x rows ref idl mu c, has_rows x 2 rows /\ proper_box [true; false] idl ref /\
  r_gauss_centre x (Some mu) ref idl [true; false] = Ret c /\ ~ nth 0 (location idl ref c) 0 == nth 0 mu 0.
Proof.
  exists (mkMat 1 2 [2; 2]), [[2; 2]], [0; 4], [4; 0], [3; 3]. eexists. split.
  { do 3 (split; [reflexivity|]). split. { repeat constructor. } intros na [|i] [|[|j]] Hi Hj; cbn in Hi, Hj; try lia; reflexivity. }
  split. { intros [|[|d]] Hd; [reflexivity|reflexivity|lia]. } split; [reflexivity|]. vm_compute. discriminate.
Qed.

(** ** The examples of the documentation (coordinates doubled): they meet the hypotheses *)
Open Scope Z_scope.
Definition doc_matrix : rmat bound := matrix_of 3 5 (fun i j => nth j (nth i (map rect_row doc_rects) []) Infty).
Example C70_doc_matrix : has_rows doc_matrix 5 (map rect_row doc_rects).
Proof. apply (matrix_of_rows Infty); auto. repeat constructor. Qed.
Example C70_doc_data : data_matrix (mkMat 1 2 [4; 4]) 2 [[4; 4]] /\ for_each 2 [12] [12; 12] /\ no_maximise [false] /\ scale_ok (1 # 10).
Proof.
  split. { split; [|split; [discriminate|lia]]. do 3 (split; [reflexivity|]). split. { repeat constructor. } intros na [|i] [|[|j]] Hi Hj; cbn in Hi, Hj; try lia; reflexivity. }
  split. { right. exists 12. auto. } split. { intros b [<-|[]]. reflexivity. } split; [reflexivity|discriminate].
Qed.
Example C70_doc_value : r_whv_rect PropWhv.sortd_exec PropWhv.sortr_exec (fun _ => c_zero) (mkMat 1 2 [4; 4]) doc_matrix [12] [false] = Ret (4 * 4).
Proof. reflexivity. Qed.
Example C70_doc_total : exists v, r_total_whv_rect sort2d_exec sortd_rev 1000 st0 PropWhv.sortd_exec PropWhv.sortr_exec (fun _ => c_zero) (1 # 2) 1
  (mkMat 1 2 [4; 4]) doc_matrix [12] [false] (Some [2; 2]) (1 # 10) = Ret v /\ (v == 26)%Q.
Proof. eexists. split; [vm_compute; reflexivity|]. reflexivity. Qed.
Example C70_doc_python : exists v, py_total_whv_rect sort2d_exec sortd_rev 1000 st0 PropWhv.sortd_exec PropWhv.sortr_exec (fun _ => c_zero) (1 # 2) 1 true
  [[2; 4]] 2 (map rect_row doc_rects) 5 [12] (Flag false) (Some [2]) (1 # 10) = Ret v /\ (v == 75 # 2)%Q.
Proof. eexists. split; [vm_compute; reflexivity|]. reflexivity. Qed.

Print Assumptions C70_normalise.
Print Assumptions C70_normalise_range.
Print Assumptions C70_normalise_dominance.
Print Assumptions C70_normalise_refused.
Print Assumptions C70_whv_rect.
Print Assumptions C70_whv_rect_refused.
Print Assumptions C70_py_refused.
Print Assumptions C70_whv_hype_refused.
Print Assumptions C70_total_whv_rect.
Print Assumptions C70_total_refused.
Print Assumptions C70_py_whv_rect.
Print Assumptions C70_py_total_whv_rect.
Print Assumptions C70_py_maximise_list_refuted.
Print Assumptions C70_whv_hype.
Print Assumptions C70_whv_hype_uniform.
Print Assumptions C70_whv_hype_mu_refuted.
Print Assumptions C70_whv_hype_goal.
Print Assumptions C70_whv_hype_goal_refuted.

