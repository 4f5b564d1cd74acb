(** Lemmas about the matrices of rectangles returned by R. *)
From Coq Require Import List ZArith QArith Qround Lia Lqa Bool Arith Permutation Sorted.
From Verif Require Import Base Spec EafSpec EafModel EafProofs EafMain EafStoreModel EafStoreProofs EafTop EafMainModel EafMainProofs RectSpec RectModel PropRect
  NondomModel GroupModel GroupSpec GroupProofs PyEafModel PyEafSpec PyEafProofs CmdModel HvShiftModel RMatModel RMatSpec RMatProofs REafModel REafSpec REafProofs PropREaf
  RRectSpec RRectModel.
Import ListNotations.
Open Scope Z_scope.
Local Notation x0 := (Fin 0).

Definition qrow (r : rect Q) : list xnum := [Fin (inject_Z (r_lx r)); Fin (inject_Z (r_ly r)); xbound (r_ux r); xbound (r_uy r); Fin (RectSpec.r_col r)].
Definition fliprow (mx : list bool) (r : list xnum) : list xnum := flip x0 xopp (mx ++ mx) (firstn 4 r) ++ skipn 4 r.

Lemma rect_matrix : forall sortx sorty sortz junk grow lo hi m pts cs iv rs, nrow m = 2%nat -> c_rows m = Ret pts ->
  eafdiff_compute_rectangles sortx sorty junk grow pts cs (length cs) iv = Ret rs ->
  exists M, compute_eafdiff_rectangles_C sortx sorty sortz junk grow lo hi m cs iv = Ret M /\ has_rows M 5 (map qrow rs).
Proof.
  intros sortx sorty sortz junk grow lo hi m pts cs iv rs N C E. unfold eafdiff_compute_rectangles in E.
  unfold compute_eafdiff_rectangles_C, compute_eaf_helper. rewrite C, N. change (negb (2 =? 2)%nat) with false. cbv iota. change (2 * 2)%nat with 4%nat.
  destruct (levels_from_percentiles None (length cs) (length cs)) as [lv| | |]; cbn [bind] in *; try discriminate. cbn [attsurf].
  destruct (eaf2d sortx sorty pts cs (length cs) lv) as [ss| | |]; cbn [bind] in *; try discriminate.
  destruct (store_surfaces junk grow 2 (length cs) (length pts) ss) as [es| | |]; cbn [bind] in *; try discriminate.
  destruct (eaf_compute_rectangles es) as [rz| | |]; cbn [bind] in *; try discriminate. cbv zeta in E. injection E as <-.
  eexists. split; [reflexivity|]. rewrite map_map. apply (matrix_of_rows x0).
  { now rewrite map_length. } { apply Forall_forall. intros r Hr. apply in_map_iff in Hr. destruct Hr as (q & <- & _). reflexivity. }
  intros i j Hi Hj. rewrite (nth_map_in _ rz i [] (mkRect 0 0 Infty Infty 0)) by auto. unfold qrow. cbn [r_lx r_ly r_ux r_uy RectSpec.r_col].
  assert (Xy : forall (l : list (rect Z)) i j, (i < length l)%nat -> (j < 4)%nat ->
    nth (i * 4 + j) (rect_xy l) x0 = nth j (let r := nth i l (mkRect 0 0 Infty Infty 0) in [Fin (inject_Z (r_lx r)); Fin (inject_Z (r_ly r)); xbound (r_ux r); xbound (r_uy r)]) x0).
  { clear. induction l as [|r l IH]; intros i j Hi Hj; cbn [length] in Hi. lia. unfold rect_xy. cbn [map concat]. destruct i as [|i].
    - cbn [Nat.mul Nat.add]. rewrite app_nth1 by (cbn; lia). reflexivity.
    - replace (S i * 4 + j)%nat with (4 + (i * 4 + j))%nat by lia. rewrite app_nth2 by (cbn [length]; lia). cbn [length]. replace (4 + (i * 4 + j) - 4)%nat with (i * 4 + j)%nat by lia.
      fold (rect_xy l). rewrite IH by lia. reflexivity. }
  destruct (Nat.ltb_spec j 4).
  - rewrite Xy by auto. do 4 (destruct j as [|j]; [reflexivity|]). lia.
  - replace j with 4%nat by lia. cbn [nth]. rewrite (nth_map_in RectSpec.r_col rz i 0 (mkRect 0 0 Infty Infty 0)) by auto. reflexivity.
Qed.

Lemma xs_eqb_refl : forall l, xs_eqb l l = true.
Proof. induction l as [|a l IH]; auto. cbn [xs_eqb]. rewrite IH. destruct a; cbn [xeqb]; auto. now rewrite (proj2 (Qeq_bool_iff q q) (Qeq_refl q)). Qed.
Lemma xnum_inj : forall x y, xeqb (Fin (inject_Z x)) (Fin (inject_Z y)) = true -> x = y.
Proof. intros x y H. cbn [xeqb] in H. apply Qeq_bool_iff in H. now apply (proj1 (inject_Z_injective x y)). Qed.
Lemma xbound_inj : forall x y, xeqb (xbound x) (xbound y) = true -> x = y.
Proof. intros [x|] [y|] H; try discriminate; auto. apply xnum_inj in H. congruence. Qed.
Lemma qrow_eqb : forall r s, xs_eqb (qrow r) (qrow s) = true -> forall z, in_rect r z <-> in_rect s z.
Proof.
  intros [a b c d e] [a' b' c' d' e'] H z. unfold qrow in H. cbn [xs_eqb r_lx r_ly r_ux r_uy] in H. repeat (apply andb_prop in H; destruct H as [?H H]).
  apply xnum_inj in H0, H1. apply xbound_inj in H2, H3. subst. unfold in_rect. cbn. tauto.
Qed.
Lemma nondegenerate_in : forall r : rect Q, nondegenerate r -> in_rect r [r_lx r; r_ly r].
Proof. intros r [H1 H2]. unfold in_rect, coord. cbn [nth]. repeat split; auto; lia. Qed.

Lemma has_row_is : forall x d rows i, has_rows x d rows -> (i < length rows)%nat -> xrow x i = nth i rows [].
Proof.
  intros x d rows i H Hi. pose proof (has_rows_eq x0 x d rows H) as E. unfold rows_of in E. rewrite (proj1 H) in E.
  apply (f_equal (fun l => nth i l [])) in E. rewrite nth_map_seq in E by auto. exact E.
Qed.
Lemma which_all : forall l, Forall (fun b => b = true) l -> which l = seq 0 (length l).
Proof.
  intros l F. unfold which. rewrite Forall_forall in F. assert (G : forall i, In i (seq 0 (length l)) -> nth i l false = true).
  { intros i Hi. apply in_seq in Hi. apply F, nth_In. lia. }
  induction (seq 0 (length l)) as [|a s IH]; auto. cbn [filter]. rewrite G by now left. f_equal. apply IH. intros i Hi. apply G. now right.
Qed.
Lemma seq_rows : forall (x : rmat xnum) d rows, has_rows x d rows -> has_rows (r_rows x0 x (seq 0 (length rows))) d rows.
Proof.
  intros x d rows H. pose proof (rows_rows x0 x d rows (seq 0 (length rows)) H) as R. rewrite <- (list_by_nth rows []) in R. apply R.
  intros i Hi. apply in_seq in Hi. lia.
Qed.
Lemma unique_rects : forall M rs, has_rows M 5 (map qrow rs) -> (forall r, In r rs -> nondegenerate r) -> pairwise_disjoint rs ->
  has_rows (r_rows x0 M (which (x_not_duplicated M))) 5 (map qrow rs).
Proof.
  intros M rs H Nd Pd. rewrite which_all.
  - assert (L : length (x_not_duplicated M) = length (map qrow rs)) by (unfold x_not_duplicated; now rewrite map_length, seq_length, (proj1 H)).
    rewrite L. now apply seq_rows.
  - apply Forall_forall. intros b Hb. unfold x_not_duplicated in Hb. apply in_map_iff in Hb. destruct Hb as (i & <- & Hi). apply in_seq in Hi. rewrite (proj1 H), map_length in Hi.
    apply negb_true_iff. destruct (existsb _ _) eqn:E; auto. exfalso. apply existsb_exists in E. destruct E as (k & Hk & E). apply in_seq in Hk.
    rewrite (has_row_is M 5 _ k H), (has_row_is M 5 _ i H) in E by (rewrite map_length; lia).
    set (r0 := mkRect 0 0 Infty Infty 0%Q). rewrite (nth_map_in qrow rs k [] r0), (nth_map_in qrow rs i [] r0) in E by lia.
    assert (Hi2 : (i < length rs)%nat) by lia. pose proof (nondegenerate_in (nth i rs r0) (Nd _ (nth_In rs r0 Hi2))) as I.
    apply (Pd k i (nth k rs r0) (nth i rs r0) ltac:(lia)) with (z := [r_lx (nth i rs r0); r_ly (nth i rs r0)]); auto.
    + apply nth_error_nth'. lia. + apply nth_error_nth'. lia. + now apply (qrow_eqb _ _ E).
Qed.

Lemma set_init_rows_x : forall (x y : rmat xnum) d rows rows', has_rows x (S d) rows -> has_rows y d rows' -> length rows' = length rows ->
  has_rows (x_set_init x y) (S d) (map (fun k => nth k rows' [] ++ skipn d (nth k rows [])) (seq 0 (length rows))).
Proof.
  intros x y d rows rows' (N & C & L & W & H) (N' & C' & L' & W' & H') E. rewrite E in *. rewrite Forall_forall in W, W'.
  assert (Ls : length (map (fun k => nth k rows' [] ++ skipn d (nth k rows [])) (seq 0 (length rows))) = length rows) by now rewrite map_length, seq_length.
  unfold has_rows. rewrite Ls. unfold x_set_init. cbn [nrow ncol values]. rewrite N, C. split; auto. split; auto.
  replace (S d - 1)%nat with d by lia. split; [|split].
  - rewrite app_length, skipn_length, L, L'. lia.
  - apply Forall_forall. intros r Hr. apply in_map_iff in Hr. destruct Hr as (k & <- & Hk). apply in_seq in Hk.
    rewrite app_length, skipn_length, (W' (nth k rows' [])), (W (nth k rows [])) by (apply nth_In; lia). lia.
  - intros na i j Hi Hj. rewrite nth_map_seq by auto. destruct (Nat.ltb_spec j d) as [Hj'|Hj'].
    + rewrite !app_nth1. apply H'; auto. rewrite (W' (nth i rows' [])) by (apply nth_In; lia). auto. rewrite L'. nia.
    + replace j with d by lia. rewrite !app_nth2. 2:{ rewrite (W' (nth i rows' [])) by (apply nth_In; lia). lia. } 2:{ rewrite L'. lia. }
      rewrite L', (W' (nth i rows' [])) by (apply nth_In; lia). rewrite Nat.sub_diag. rewrite !nth_skipn_.
      rewrite Nat.add_0_r. rewrite <- H by lia. f_equal. lia.
Qed.

Lemma undo_rows : forall m rows maximise mx, has_rows m 5 rows -> for_each 2 maximise mx ->
  exists m', x_undo_maximise m maximise = Ret m' /\ has_rows m' 5 (map (fliprow mx) rows).
Proof.
  intros m rows maximise mx H F. unfold x_undo_maximise. pose proof (for_each_any 2 _ _ ltac:(lia) F) as Ea. destruct (any maximise) eqn:E.
  - pose proof (init_rows x0 m 4 rows H) as I. set (mm := if negb (length maximise =? 1)%nat then maximise ++ maximise else maximise).
    assert (F4 : for_each 4 mm (mx ++ mx)).
    { unfold mm. destruct F as [[-> L]|(a & -> & ->)].
      - rewrite L. cbn [Nat.eqb negb]. left. split; auto. rewrite app_length. lia.
      - cbn [length Nat.eqb negb]. right. now exists a. }
    destruct (transform_ok x0 xopp (r_init x0 m) 4 _ mm (mx ++ mx) ltac:(lia) I F4) as (y & Ey & Hy).
    rewrite Ey. cbn [bind]. exists (x_set_init m y). split; auto.
    pose proof (set_init_rows_x m y 4 rows _ H Hy ltac:(now rewrite !map_length)) as S5.
    assert (Er : map (fun k => nth k (map (flip x0 xopp (mx ++ mx)) (map (firstn 4) rows)) [] ++ skipn 4 (nth k rows [])) (seq 0 (length rows)) = map (fliprow mx) rows).
    { transitivity (map (fliprow mx) (map (fun k => nth k rows []) (seq 0 (length rows)))); [|now rewrite <- (list_by_nth rows [])].
      rewrite map_map with (l := seq 0 (length rows)). apply map_ext_in. intros k Hk. apply in_seq in Hk. rewrite map_map.
      rewrite (nth_map_in _ rows k [] []) by lia. reflexivity. }
    rewrite Er in S5. exact S5.
  - exists m. split; auto. assert (Er : map (fliprow mx) rows = rows); [|now rewrite Er].
    rewrite <- (map_id rows) at 2. apply map_ext_in. intros r Hr. unfold fliprow. rewrite flip_none. apply firstn_skipn.
    unfold any in *. rewrite existsb_app, <- Ea. reflexivity.
Qed.

Lemma in_row_flip : forall mx r z, length mx = 2%nat -> length z = 2%nat -> (in_row mx (fliprow mx (qrow r)) z <-> in_rect r (neg_cols mx z)).
Proof.
  intros mx [lx ly ux uy c] z Lm Lz. destruct mx as [|a [|b [|]]]; try discriminate. destruct z as [|p [|q [|]]]; try discriminate.
  unfold in_row, in_rect, fliprow, qrow, coord. cbn.
  assert (B : forall (g : bool) l u v, between g (if g then xopp (Fin (inject_Z l)) else Fin (inject_Z l)) (if g then xopp (xbound u) else xbound u) v <->
     l <= (if g then - v else v) /\ below (if g then - v else v) u).
  { clear. intros g l u v. unfold between. destruct g, u as [u|]; cbn [xopp xbound at_most at_least below]; change (- inject_Z l)%Q with (inject_Z (- l)); try change (- inject_Z u)%Q with (inject_Z (- u)); rewrite <- ?Zle_Qle; intuition lia. }
  rewrite <- !and_assoc. rewrite and_assoc.
  pose proof (B a lx ux p) as B1. pose proof (B b ly uy q) as B2. cbn [xopp] in B1, B2. rewrite B1, B2. tauto.
Qed.

Lemma neg_cols_back : forall mx z, neg_cols mx (neg_cols mx z) = z.
Proof. intros. apply neg_cols_invol. Qed.

Lemma rows_nth_error : forall A (l : list A) i d, (i < length l)%nat -> nth_error l i = Some (nth i l d).
Proof. intros. now apply nth_error_nth'. Qed.

(** from the rectangles of the C code to the rows of R *)
Lemma rects_rows : forall mx xs ys runx runy iv rs, length mx = 2%nat -> matched mx xs runx -> matched mx ys runy ->
  wf_points 2 (concat xs) -> wf_points 2 (concat ys) ->
  (forall r, In r rs -> nondegenerate r) -> pairwise_disjoint rs ->
  (forall z, length z = 2%nat -> ((exists r, In r rs /\ in_rect r z) <->
     attained_by_at_least 2 1 (runx ++ runy) z /\ ~ attained_by_at_least 2 (length runx + length runy) (runx ++ runy) z)) ->
  (forall r z, In r rs -> in_rect r z -> length z = 2%nat -> diff_between runx runy iv z (RectSpec.r_col r)) ->
  diff_rectangles mx xs ys iv (map (fliprow mx) (map qrow rs)).
Proof.
  intros mx xs ys runx runy iv rs Lm Mx My Wx Wy Nd Pd Cov Df. rewrite map_map.
  assert (Lx : length xs = length runx) by apply Mx. assert (Ly : length ys = length runy) by apply My.
  split; [|split].
  - intros r Hr. apply in_map_iff in Hr. destruct Hr as (q & <- & Hq). split; [|split].
    + unfold fliprow, qrow. cbn. reflexivity.
    + exists (neg_cols mx [r_lx q; r_ly q]). split; [now rewrite neg_cols_length|]. apply in_row_flip; auto; [now rewrite neg_cols_length|].
      rewrite neg_cols_back. apply nondegenerate_in. auto.
    + exists (RectSpec.r_col q). split; [reflexivity|]. intros z Lz Hz. apply in_row_flip in Hz; auto.
      destruct (Df q (neg_cols mx z) Hq Hz) as (L & R & A & B & V); [now rewrite neg_cols_length|].
      exists L, R. rewrite Lx, Ly. split; [|split; auto].
      * now apply (matched_exactly_gen 2 mx xs runx). * now apply (matched_exactly_gen 2 mx ys runy).
  - intros i j z Hij. rewrite map_length in Hij. set (r0 := mkRect 0 0 Infty Infty 0%Q).
    rewrite !(nth_map_in (fun x => fliprow mx (qrow x)) rs _ [] r0) by lia. intros A B.
    destruct z as [|p z]; [|destruct z as [|q z]].
    + assert (T : forall r, in_row mx r [] -> in_row mx r [0; 0]) by (intros r; auto). apply T in A, B. apply in_row_flip in A, B; auto.
      apply (Pd i j (nth i rs r0) (nth j rs r0) ltac:(lia)) with (z := neg_cols mx [0; 0]); auto; apply rows_nth_error; lia.
    + assert (T : forall r, in_row mx r [p] -> in_row mx r [p; 0]) by (intros r; auto). apply T in A, B. apply in_row_flip in A, B; auto.
      apply (Pd i j (nth i rs r0) (nth j rs r0) ltac:(lia)) with (z := neg_cols mx [p; 0]); auto; apply rows_nth_error; lia.
    + assert (T : forall r, in_row mx r (p :: q :: z) -> in_row mx r [p; q]) by (intros r; auto). apply T in A, B. apply in_row_flip in A, B; auto.
      apply (Pd i j (nth i rs r0) (nth j rs r0) ltac:(lia)) with (z := neg_cols mx [p; q]); auto; apply rows_nth_error; lia.
  - intros z Lz. assert (M : matched mx (xs ++ ys) (runx ++ runy)) by now apply matched_app.
    assert (W : wf_points 2 (concat (xs ++ ys))) by (rewrite concat_app; apply Forall_app; auto).
    rewrite <- !(matched_atleast_gen 2 mx (xs ++ ys) (runx ++ runy)) by auto. rewrite Lx, Ly, <- Cov by now rewrite neg_cols_length. split.
    + intros (r & Hr & Hz). apply in_map_iff in Hr. destruct Hr as (q & <- & Hq). exists q. split; auto. now apply in_row_flip in Hz.
    + intros (q & Hq & Hz). exists (fliprow mx (qrow q)). split. now apply (in_map (fun x => fliprow mx (qrow x))). now apply in_row_flip.
Qed.

(** ** Selections *)
Lemma which_filter : forall A (l : list A) (p : A -> bool) d, map (fun i => nth i l d) (which (map p l)) = filter p l.
Proof.
  intros A l p d. unfold which. rewrite map_length.
  assert (G : forall s, map (fun i => nth (i - s) l d) (filter (fun i => nth (i - s) (map p l) false) (seq s (length l))) = filter p l).
  { induction l as [|a l IH]; intros s; auto. cbn [length seq filter map]. rewrite Nat.sub_diag. cbn [nth].
    assert (R : map (fun i => nth (i - s) (a :: l) d) (filter (fun i => nth (i - s) (p a :: map p l) false) (seq (S s) (length l))) = filter p l).
    { rewrite <- (IH (S s)). rewrite (filter_ext_in _ (fun i => nth (i - S s) (map p l) false)).
      - apply map_ext_in. intros i Hi. apply filter_In in Hi. destruct Hi as [Hi _]. apply in_seq in Hi. replace (i - s)%nat with (S (i - S s)) by lia. reflexivity.
      - intros i Hi. apply in_seq in Hi. replace (i - s)%nat with (S (i - S s)) by lia. reflexivity. }
    destruct (p a); cbn [map]; [rewrite Nat.sub_diag; cbn [nth]; f_equal|]; exact R. }
  specialize (G 0%nat). erewrite map_ext, filter_ext in G; [exact G| |]; intros i; now rewrite Nat.sub_0_r.
Qed.
Lemma which_lt : forall l i, In i (which l) -> (i < length l)%nat.
Proof. intros l i H. unfold which in H. apply filter_In in H. destruct H as [H _]. apply in_seq in H. lia. Qed.
Lemma select_rows : forall x d rows j p, has_rows x d rows -> (j < d)%nat -> has_rows (x_select x j p) d (filter (fun r => p (nth j r x0)) rows).
Proof.
  intros x d rows j p H Hj. unfold x_select. rewrite (col_rows x0 x d rows j H Hj), map_map.
  rewrite <- (which_filter _ rows (fun r => p (nth j r x0)) []). apply rows_rows; auto.
  intros i Hi. apply which_lt in Hi. now rewrite map_length in Hi.
Qed.
Lemma set_last_rows : forall x d rows f, has_rows x (S d) rows -> has_rows (x_set_last x f) (S d) (map (fun r => firstn d r ++ [f (nth d r x0)]) rows).
Proof.
  intros x d rows f H. pose proof H as (N & C & L & W & E). rewrite Forall_forall in W. unfold x_set_last. rewrite N, C. replace (S d - 1)%nat with d by lia.
  rewrite (col_rows x0 x (S d) rows d H) by lia. split; [cbn [nrow]; now rewrite map_length|]. split; [reflexivity|]. cbn [values]. rewrite map_length.
  assert (Lf : length (firstn (length rows * d) (values x)) = (length rows * d)%nat) by (rewrite firstn_length, L; nia).
  split; [rewrite app_length, Lf, !map_length; nia|]. split.
  { apply Forall_forall. intros r Hr. apply in_map_iff in Hr. destruct Hr as (q & <- & Hq). rewrite app_length, firstn_length, (W q Hq). cbn [length]. lia. }
  intros na i j Hi Hj. rewrite (nth_map_in _ rows i [] []) by auto.
  assert (Li : length (nth i rows []) = S d) by (apply W, nth_In; auto).
  destruct (Nat.ltb_spec j d) as [Hd|Hd].
  - rewrite app_nth1 by (rewrite Lf; nia). rewrite nth_firstn_lt by nia. rewrite E by lia. rewrite app_nth1 by (rewrite firstn_length, Li; lia). now rewrite nth_firstn_lt.
  - replace j with d by lia. rewrite app_nth2 by (rewrite Lf; nia). rewrite Lf. replace (d * length rows + i - length rows * d)%nat with i by nia.
    rewrite app_nth2 by (rewrite firstn_length, Li; lia). rewrite firstn_length, Li, Nat.min_l, Nat.sub_diag by lia. cbn [nth].
    rewrite map_map. rewrite (nth_map_in _ rows i na []) by auto. reflexivity.
Qed.
Lemma firstn4 : forall (r : list xnum), length r = 5%nat -> forall mx z f, in_row mx (firstn 4 r ++ [f]) z <-> in_row mx r z.
Proof. intros r L. do 6 (destruct r as [|? r]; try discriminate). intros. unfold in_row. cbn. tauto. Qed.

(** ** Where the difference is not 0 *)
Lemma exactly_all : forall mx L xs z, exactly_attain mx L xs z -> (L <= length xs)%nat /\
  (L = 0%nat -> forall k, (k < length xs)%nat -> ~ attains_mx mx (nth k xs []) z) /\ (0 < L -> exists k, (k < length xs)%nat /\ attains_mx mx (nth k xs []) z)%nat /\
  ((forall k, (k < length xs)%nat -> attains_mx mx (nth k xs []) z) -> L = length xs).
Proof.
  intros mx L xs z (ks & N & Lk & H). rewrite <- Lk.
  assert (Le : (length ks <= length xs)%nat). { rewrite <- (seq_length (length xs) 0). apply NoDup_incl_length; auto. intros k Hk. apply H in Hk. apply in_seq. lia. }
  split; auto. split; [|split].
  - intros E k Hk A. destruct ks; [|discriminate]. now apply (proj2 (H k)).
  - intros P. destruct ks as [|k ks]; [cbn in P; lia|]. exists k. apply H. now left.
  - intros A. apply Nat.le_antisymm; auto. rewrite <- (seq_length (length xs) 0) at 1. apply NoDup_incl_length; [apply seq_NoDup|]. intros k Hk. apply in_seq in Hk. apply H. split; [lia|]. apply A. lia.
Qed.
Lemma diff_nonzero : forall mx xs ys iv z c, (1 <= length xs)%nat -> length xs = length ys -> diff_at mx xs ys iv z c -> ~ (c == 0)%Q ->
  at_least_attain mx 1 (xs ++ ys) z /\ ~ at_least_attain mx (length xs + length ys) (xs ++ ys) z.
Proof.
  intros mx xs ys iv z c Hn Eq (L & R & A & B & V) Nz.
  assert (Ne : L <> R). { intros ->. apply Nz. rewrite V, Eq. ring. }
  destruct (exactly_all _ _ _ _ A) as (La & _ & Pa & Fa). destruct (exactly_all _ _ _ _ B) as (Lb & _ & Pb & Fb). split.
  - assert (O : (0 < L \/ 0 < R)%nat) by lia. destruct O as [O|O].
    + destruct (Pa O) as (k & Hk & Ak). exists [k]. split; [repeat constructor; auto|]. split; auto. intros j [<-|[]]. rewrite app_length, app_nth1 by auto. split; [lia|auto].
    + destruct (Pb O) as (k & Hk & Ak). exists [(length xs + k)%nat]. split; [repeat constructor; auto|]. split; auto. intros j [<-|[]].
      rewrite app_length, app_nth2 by lia. replace (length xs + k - length xs)%nat with k by lia. split; [lia|auto].
  - intros (ks & N & Lk & H). rewrite <- app_length in Lk.
    assert (All : forall k, (k < length (xs ++ ys))%nat -> attains_mx mx (nth k (xs ++ ys) []) z).
    { intros k Hk. apply H. apply (NoDup_length_incl N (l' := seq 0 (length (xs ++ ys)))). rewrite seq_length. lia.
      intros j Hj. apply H in Hj. apply in_seq. lia. apply in_seq. lia. }
    rewrite app_length in All. apply Ne. rewrite Fa, Fb; auto.
    + intros k Hk. specialize (All (length xs + k)%nat ltac:(lia)). rewrite app_nth2 in All by lia. now replace (length xs + k - length xs)%nat with k in All by lia.
    + intros k Hk. specialize (All k ltac:(lia)). now rewrite app_nth1 in All by lia.
Qed.
Lemma exactly_unique_mx : forall mx xs z L R, exactly_attain mx L xs z -> exactly_attain mx R xs z -> L = R.
Proof.
  intros mx xs z L R (k1 & N1 & <- & H1) (k2 & N2 & <- & H2). apply Permutation_length. apply NoDup_Permutation; auto. intros k. now rewrite H1, H2.
Qed.
Lemma diff_unique : forall mx xs ys iv z c c', diff_at mx xs ys iv z c -> diff_at mx xs ys iv z c' -> (c == c')%Q.
Proof.
  intros mx xs ys iv z c c' (L & R & A & B & V) (L' & R' & A' & B' & V'). rewrite V, V'. rewrite (exactly_unique_mx _ _ _ _ _ A A'), (exactly_unique_mx _ _ _ _ _ B B'). reflexivity.
Qed.
Lemma diff_swap : forall mx xs ys iv z c, diff_at mx xs ys iv z c -> diff_at mx ys xs iv z (- c).
Proof. intros mx xs ys iv z c (L & R & A & B & V). exists R, L. split; auto. split; auto. rewrite V. ring. Qed.
Lemma diff_eq : forall mx xs ys iv z c c', (c == c')%Q -> diff_at mx xs ys iv z c -> diff_at mx xs ys iv z c'.
Proof. intros mx xs ys iv z c c' E (L & R & A & B & V). exists L, R. split; auto. split; auto. now rewrite <- E. Qed.

(** a difference that holds on some rectangles: the locations of the rectangles with a value
    that satisfies [p], a predicate that 0 does not satisfy *)
Lemma selected : forall mx xs ys iv rows (p : Q -> Prop), (1 <= length xs)%nat -> length xs = length ys -> diff_rectangles mx xs ys iv rows ->
  (forall c c', (c == c')%Q -> p c -> p c') -> ~ p 0%Q ->
  forall z, length z = 2%nat -> ((exists r c, In r rows /\ nth 4 r PosInf = Fin c /\ p c /\ in_row mx r z) <-> exists c, diff_at mx xs ys iv z c /\ p c).
Proof.
  intros mx xs ys iv rows p Hn Eq (D1 & _ & D3) Pc P0 z Lz. split.
  - intros (r & c & Hr & E & Hp & Hz). destruct (D1 r Hr) as (_ & _ & c' & E' & Hc). rewrite E in E'. injection E' as <-. exists c. split; auto.
  - intros (c & Hc & Hp). destruct (diff_nonzero mx xs ys iv z c Hn Eq Hc) as (A & B). { intros E. apply P0. now apply (Pc c). }
    destruct (proj2 (D3 z Lz) (conj A B)) as (r & Hr & Hz). destruct (D1 r Hr) as (_ & _ & c' & E' & Hc'). exists r, c'. split; auto. split; auto. split; auto.
    apply (Pc c); auto. apply (diff_unique mx xs ys iv z); auto.
Qed.

(** disjointness of a selection *)
Definition disjoint_rows (mx : list bool) (rows : list (list xnum)) : Prop :=
  forall i j z, (i < j < length rows)%nat -> in_row mx (nth i rows []) z -> in_row mx (nth j rows []) z -> False.
Lemma disjoint_cons : forall mx r rows, disjoint_rows mx (r :: rows) <-> (forall s z, In s rows -> in_row mx r z -> in_row mx s z -> False) /\ disjoint_rows mx rows.
Proof.
  intros mx r rows. split.
  - intros H. split.
    + intros s z Hs A B. apply (In_nth _ _ []) in Hs. destruct Hs as (j & Hj & <-). apply (H 0%nat (S j) z); cbn [length nth]; auto. lia.
    + intros i j z Hij A B. apply (H (S i) (S j) z); cbn [length nth]; auto. lia.
  - intros [H1 H2] i j z Hij A B. cbn [length] in Hij. destruct j as [|j]; [lia|]. destruct i as [|i]; cbn [nth] in *.
    + apply (H1 (nth j rows []) z); auto. apply nth_In. lia.
    + apply (H2 i j z); auto. lia.
Qed.
Lemma disjoint_filter : forall mx (p : list xnum -> bool) rows, disjoint_rows mx rows -> disjoint_rows mx (filter p rows).
Proof.
  intros mx p rows. induction rows as [|r rows IH]; auto. intros H. apply disjoint_cons in H. destruct H as [H1 H2]. cbn [filter]. destruct (p r); auto.
  apply disjoint_cons. split; auto. intros s z Hs. apply filter_In in Hs. apply H1. apply Hs.
Qed.
Lemma disjoint_map : forall mx (f : list xnum -> list xnum) rows, (forall r z, In r rows -> in_row mx (f r) z -> in_row mx r z) ->
  disjoint_rows mx rows -> disjoint_rows mx (map f rows).
Proof.
  intros mx f rows. induction rows as [|r rows IH]; intros Hf H. { intros i j z Hij. cbn in Hij. lia. } apply disjoint_cons in H. destruct H as [H1 H2]. cbn [map].
  apply disjoint_cons. split; [|apply IH; auto; intros; apply Hf; auto; now right].
  intros s z Hs A B. apply in_map_iff in Hs. destruct Hs as (q & <- & Hq). apply (H1 q z); auto; apply Hf; auto; [now left|now right].
Qed.
