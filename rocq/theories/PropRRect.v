(** C71: rectangles with differences of EAFs in R: eafdiff (rectangles = TRUE),
    choose_eafdiff and largest_eafdiff.
    Specification: RMatSpec.v, REafSpec.v, PyEafSpec.v, WhvSpec.v, RRectSpec.v.  Model: RRectModel.v. *)
From Coq Require Import List ZArith QArith Qabs Qround Lia Lqa Bool Arith Permutation Sorted.
From Verif Require Import Base Spec EafSpec EafModel EafProofs EafMain EafStoreModel EafStoreProofs EafTop EafMainModel EafMainProofs HvSpec RectSpec RectModel PropRect
  NondomModel GroupModel GroupSpec GroupProofs PyEafModel PyEafSpec PyEafProofs CmdModel HvShiftModel RMatModel RMatSpec RMatProofs REafModel REafSpec REafProofs PropREaf
  WhvSpec WhvModel PropWhv RIndModel PropRInd RFileModel PropRFile RWhvModel RWhvSpec PropRWhv RRectSpec RRectModel RRectProofs.
Import ListNotations.
Open Scope Z_scope.
Local Notation x0 := (Fin 0).

Section C71.
Variables (sortx sorty sortz : list point -> list nat) (junk : nat -> Z) (grow : nat -> nat -> nat) (dbl_max : Z).
Variable order : list Z -> list nat.
Local Notation machine_ok := (machine_ok sortx sorty sortz junk grow dbl_max order).
Local Notation r_eafdiff_rect := (r_eafdiff_rect sortx sorty sortz junk grow (- dbl_max) dbl_max order).

(** the number of intervals that is used for [n] sets on each side *)
Definition intervals_for (intervals : option Q) (n iv : nat) : Prop :=
  match intervals with None => iv = n | Some q => (0 <= q)%Q /\ Z.of_nat iv = Z.min (Qfloor q) (Z.of_nat n) end.
(** the number of points is an int, also if it is doubled *)
Definition few (rows : list point) : Prop := Z.of_nat (length rows) <= (2 ^ 31 - 1) / 2.

Lemma eafdiff_rects : forall x y rx lx ry ly intervals maximise mx iv, machine_ok ->
  labelled x None 2 rx lx -> labelled y None 2 ry ly -> few (rx ++ ry) -> for_each 2 maximise mx ->
  length (sets_of rx lx) = length (sets_of ry ly) -> intervals_for intervals (length (sets_of rx lx)) iv ->
  exists rs, let rows := map (fliprow mx) (map qrow rs) in diff_rectangles mx (sets_of rx lx) (sets_of ry ly) iv rows /\
    (forall r, In r rs -> nondegenerate r) /\ pairwise_disjoint rs /\
    match rows with
    | [r] => r_eafdiff_rect x y intervals maximise = if any mx then AssertFailed else Ret (XVector r)
    | _ => exists m, r_eafdiff_rect x y intervals maximise = Ret (XMatrix m) /\ has_rows m 5 rows
    end.
Proof.
  intros x y rx lx ry ly intervals maximise mx iv MO Lx Ly F Fm Eq Hi. pose proof (for_each_length _ _ _ Fm) as Lm.
  destruct (side_ok sortx sorty sortz junk grow dbl_max order x 2 rx lx maximise mx MO ltac:(lia) Lx Fm) as (Cx & x1 & x2 & Tx & Ax & Mx & Hx).
  destruct (side_ok sortx sorty sortz junk grow dbl_max order y 2 ry ly maximise mx MO ltac:(lia) Ly Fm) as (Cy & y1 & y2 & Ty & Ay & My & Hy).
  assert (Ncx : ncol x = 3%nat) by apply Lx. assert (Ncy : ncol y = 3%nat) by apply Ly.
  destruct Lx as (L1 & N1 & _ & W1). destruct Ly as (L2 & N2 & _ & W2).
  destruct (c_runs_ok sortx sorty sortz junk grow dbl_max order mx 2 rx lx MO L1 N1 W1) as (_ & Lox & Crx & _ & Ecx & Mtx & Nrx & Nnx & Wrx & Inx & Wsx).
  destruct (c_runs_ok sortx sorty sortz junk grow dbl_max order mx 2 ry ly MO L2 N2 W2) as (_ & Loy & Cry & _ & Ecy & Mty & Nry & Nny & Wry & Iny & Wsy).
  set (runx := c_runs order mx rx lx) in *. set (runy := c_runs order mx ry ly) in *. set (n := length (sets_of rx lx)) in *.
  assert (Lrx : length runx = n) by (symmetry; apply Mtx). assert (Lry : length runy = n) by (rewrite Eq; symmetry; apply Mty).
  set (runs := runx ++ runy). assert (Lr : length runs = (2 * n)%nat) by (unfold runs; rewrite app_length; lia).
  assert (Hn : (1 <= n)%nat) by (rewrite <- Lrx; destruct runx; [congruence|cbn; lia]).
  assert (Cr : concat runs = concat runx ++ concat runy) by (unfold runs; apply concat_app).
  assert (Wr : wf_points 2 (concat runs)) by (rewrite Cr; apply Forall_app; auto).
  assert (Lcx : length (concat runx) = length rx) by (rewrite Crx; unfold sorted_rows; now rewrite !map_length).
  assert (Lcy : length (concat runy) = length ry) by (rewrite Cry; unfold sorted_rows; now rewrite !map_length).
  assert (Lz : forall r, length (cumsizes r) = length r) by (intros r; apply cumsizes_length).
  destruct MO as (M1 & M2 & M3 & M4 & M5 & M6 & M7).
  destruct (C24_rectangles_exact runs sortx sorty junk grow iv) as (rs & E & Nd & Pd & Cov & Df); auto.
  { lia. } { exists n. lia. } { intros r Hr. apply in_app_or in Hr. destruct Hr; auto. }
  { unfold few in F. rewrite Cr, app_length, Lcx, Lcy, <- app_length. exact F. }
  rewrite <- (Lz runs) in E at 1.
  destruct (rect_matrix sortx sorty sortz junk grow (- dbl_max) dbl_max (r_cbind (r_t 0 x2) (r_t 0 y2)) (concat runs) (cumsizes runs) iv rs) as (M & EM & HM); auto.
  { apply (t_rows 0 x2 2 _ Hx). } { rewrite Cr. apply (c_rows_cbind x2 y2 2); auto. }
  assert (Hdiv : (length runs / 2 = n)%nat) by (rewrite Lr, Nat.mul_comm; apply Nat.div_mul; lia).
  exists rs. cbv zeta. split; [|split; [exact Nd|split; [exact Pd|]]].
  { apply (rects_rows mx _ _ runx runy); auto.
    - intros z Hz. rewrite (Cov z Hz). unfold runs at 2. now rewrite app_length.
    - intros r z Hr Ir Hz. destruct (Df r z Hr Ir Hz) as (L & R & A & B & V). rewrite Hdiv in A, B, V. exists L, R. rewrite Lrx, Lry.
      assert (F1 : firstn n runs = runx). { unfold runs. rewrite <- Lrx, firstn_app, Nat.sub_diag, firstn_all. cbn. apply app_nil_r. }
      assert (F2 : skipn n runs = runy). { unfold runs. rewrite <- Lrx, skipn_app, Nat.sub_diag, skipn_all. reflexivity. }
      rewrite F1 in A. rewrite F2 in B. split; auto. split; auto. replace (length runs - n)%nat with n in V by lia. exact V. }
  pose proof (unique_rects M rs HM Nd Pd) as HU.
  assert (ER : r_eafdiff_rect x y intervals maximise = match x_unique_rows M with
     | XMatrix m => m <- x_undo_maximise m maximise ;; Ret (XMatrix m)
     | XVector v => if any maximise then AssertFailed else Ret (XVector v) end).
  { unfold RRectModel.r_eafdiff_rect. rewrite Ncx, Ncy, Nat.eqb_refl. cbn [assert_ bind]. rewrite Ncx in Cx. rewrite Ncy in Cy. rewrite Cx, Tx. cbn [bind]. rewrite Ax. cbn [bind].
    rewrite Cy, Ty. cbn [bind]. rewrite Ay. cbn [bind]. rewrite Mx. cbn [bind]. rewrite My. cbn [bind]. rewrite Ecx, Ecy.
    cbv zeta. rewrite !Lz.
    assert (Rd : rd (cumsizes runx) (length runx - 1) = Ret (length (concat runx))).
    { rewrite (rd_ok _ _ _ 0%nat) by (rewrite Lz; lia). unfold cumsizes. now rewrite (PropREaf.cumsizes_last runx 0 Nrx). }
    rewrite Rd. cbn [bind]. rewrite Lrx, Lry, (intervals_ok intervals n iv) by exact Hi.
    rewrite cumsizes_both. fold runs. rewrite EM. reflexivity. }
  rewrite ER. unfold x_unique_rows. rewrite (proj1 HU), map_length.
  assert (Any : any maximise = any mx) by (apply (for_each_any 2); auto; lia).
  destruct (undo_rows _ _ maximise mx HU Fm) as (m & Em & Hm).
  destruct rs as [|r [|r' rs']]; cbn [map length Nat.eqb].
  - rewrite Em. cbn [bind]. exists m. split; auto.
  - rewrite Any. destruct (any mx) eqn:Ea; auto. do 2 f_equal.
    assert (En : fliprow mx (qrow r) = qrow r). { unfold fliprow. rewrite flip_none. apply firstn_skipn. unfold any in *. rewrite existsb_app, Ea. reflexivity. }
    rewrite En. destruct HU as (_ & _ & LU & WU & HU). cbn [map length] in *. apply nth_ext with (d := x0) (d' := x0). rewrite LU. reflexivity.
    intros j Hj. rewrite LU in Hj. specialize (HU x0 0%nat j ltac:(lia) ltac:(lia)). rewrite Nat.mul_1_r, Nat.add_0_r in HU. exact HU.
  - rewrite Em. cbn [bind]. exists m. split; auto.
Qed.
(** eafdiff (x, y, intervals, maximise, rectangles = TRUE), for as many sets in x as in y *)
Theorem C71_eafdiff : forall x y rx lx ry ly intervals maximise mx iv, machine_ok ->
  labelled x None 2 rx lx -> labelled y None 2 ry ly -> few (rx ++ ry) -> for_each 2 maximise mx ->
  length (sets_of rx lx) = length (sets_of ry ly) -> intervals_for intervals (length (sets_of rx lx)) iv ->
  exists rows, diff_rectangles mx (sets_of rx lx) (sets_of ry ly) iv rows /\
    match rows with
    | [r] => r_eafdiff_rect x y intervals maximise = if any mx then AssertFailed else Ret (XVector r)
    | _ => exists m, r_eafdiff_rect x y intervals maximise = Ret (XMatrix m) /\ has_rows m 5 rows
    end.
Proof.
  intros x y rx lx ry ly intervals maximise mx iv MO Lx Ly F Fm Eq Hi.
  destruct (eafdiff_rects x y rx lx ry ly intervals maximise mx iv MO Lx Ly F Fm Eq Hi) as (rs & D & _ & _ & E). eauto.
Qed.

(** ** Refusals of eafdiff *)
Theorem C71_eafdiff_columns : forall x y intervals maximise, ncol x <> ncol y -> r_eafdiff_rect x y intervals maximise = AssertFailed.
Proof. intros x y intervals maximise H. unfold RRectModel.r_eafdiff_rect. apply Nat.eqb_neq in H. rewrite H. reflexivity. Qed.
(** an odd number of sets in x and y together *)
Theorem C71_eafdiff_odd : forall x y rx lx ry ly intervals maximise mx, machine_ok ->
  labelled x None 2 rx lx -> labelled y None 2 ry ly -> few (rx ++ ry) -> for_each 2 maximise mx ->
  Nat.Odd (length (sets_of rx lx) + length (sets_of ry ly)) -> r_eafdiff_rect x y intervals maximise = AssertFailed.
Proof.
  intros x y rx lx ry ly intervals maximise mx MO Lx Ly F Fm Od. pose proof (for_each_length _ _ _ Fm) as Lm.
  destruct (side_ok sortx sorty sortz junk grow dbl_max order x 2 rx lx maximise mx MO ltac:(lia) Lx Fm) as (Cx & x1 & x2 & Tx & Ax & Mx & Hx).
  destruct (side_ok sortx sorty sortz junk grow dbl_max order y 2 ry ly maximise mx MO ltac:(lia) Ly Fm) as (Cy & y1 & y2 & Ty & Ay & My & Hy).
  assert (Ncx : ncol x = 3%nat) by apply Lx. assert (Ncy : ncol y = 3%nat) by apply Ly.
  destruct Lx as (L1 & N1 & _ & W1). destruct Ly as (L2 & N2 & _ & W2).
  destruct (c_runs_ok sortx sorty sortz junk grow dbl_max order mx 2 rx lx MO L1 N1 W1) as (_ & Lox & Crx & _ & Ecx & Mtx & Nrx & Nnx & Wrx & Inx & Wsx).
  destruct (c_runs_ok sortx sorty sortz junk grow dbl_max order mx 2 ry ly MO L2 N2 W2) as (_ & Loy & Cry & _ & Ecy & Mty & Nry & Nny & Wry & Iny & Wsy).
  set (runx := c_runs order mx rx lx) in *. set (runy := c_runs order mx ry ly) in *.
  assert (Lrx : length runx = length (sets_of rx lx)) by (symmetry; apply Mtx). assert (Lry : length runy = length (sets_of ry ly)) by (symmetry; apply Mty).
  set (runs := runx ++ runy). assert (Lr : length runs = (length (sets_of rx lx) + length (sets_of ry ly))%nat) by (unfold runs; rewrite app_length; lia).
  assert (Hn : (1 <= length runx)%nat) by (destruct runx; [congruence|cbn; lia]).
  assert (Cr : concat runs = concat runx ++ concat runy) by (unfold runs; apply concat_app).
  assert (Wr : wf_points 2 (concat runs)) by (rewrite Cr; apply Forall_app; auto).
  assert (Lcx : length (concat runx) = length rx) by (rewrite Crx; unfold sorted_rows; now rewrite !map_length).
  assert (Lcy : length (concat runy) = length ry) by (rewrite Cry; unfold sorted_rows; now rewrite !map_length).
  assert (Lz : forall r, length (cumsizes r) = length r) by (intros r; apply cumsizes_length).
  unfold RRectModel.r_eafdiff_rect. rewrite Ncx, Ncy, Nat.eqb_refl. cbn [assert_ bind]. rewrite Ncx in Cx. rewrite Ncy in Cy. rewrite Cx, Tx. cbn [bind]. rewrite Ax. cbn [bind].
  rewrite Cy, Ty. cbn [bind]. rewrite Ay. cbn [bind]. rewrite Mx. cbn [bind]. rewrite My. cbn [bind]. rewrite Ecx, Ecy. cbv zeta. rewrite !Lz.
  assert (Rd : rd (cumsizes runx) (length runx - 1) = Ret (length (concat runx))).
  { rewrite (rd_ok _ _ _ 0%nat) by (rewrite Lz; lia). unfold cumsizes. now rewrite (PropREaf.cumsizes_last runx 0 Nrx). }
  rewrite Rd. cbn [bind]. rewrite cumsizes_both. fold runs.
  assert (CC : c_rows (r_cbind (r_t 0 x2) (r_t 0 y2)) = Ret (concat runs)) by (rewrite Cr; apply (c_rows_cbind x2 y2 2); auto).
  unfold compute_eafdiff_rectangles_C, compute_eaf_helper. rewrite CC.
  change (nrow (r_cbind (r_t 0 x2) (r_t 0 y2))) with (nrow (r_t 0 x2)). rewrite (proj1 (t_rows 0 x2 2 _ Hx)), Lz.
  cbn [levels_from_percentiles]. rewrite Nat.eqb_refl. cbn [assert_ bind]. change (2 =? 2)%nat with true. cbn [negb].
  destruct (attsurf_ok sortx sorty sortz junk grow dbl_max order 2 runs (seq 1 (length runs)) MO) as (es & ss & E & Hh & _ & Sf); auto.
  { left. split; auto. rewrite Cr, app_length, Lcx, Lcy, <- app_length. exact F. }
  { unfold runs. intro Q. apply app_eq_nil in Q. now destruct Q. } { intros r Hr. apply in_app_or in Hr. destruct Hr; auto. }
  { apply Forall_forall. intros l Hl. apply in_seq in Hl. lia. }
  assert (Es : map (fun k => Z.of_nat (k + 1)) (seq 0 (length runs)) = map Z.of_nat (seq 1 (length runs))).
  { rewrite <- seq_shift, map_map. apply map_ext. intros k. f_equal. lia. }
  rewrite Es, E. cbn [bind].
  assert (Ls : length ss = length runs) by (rewrite <- (seq_length (length runs) 1); symmetry; eapply forall2_l; exact Sf).
  destruct Hh as [|e s es ss He Hes]; [cbn in Ls; lia|].
  rewrite (C24_odd_aborts (e :: es) e es eq_refl); auto. destruct He as (-> & _). rewrite Lr. exact Od.
Qed.

(** ** choose_eafdiff *)
Theorem C71_choose : forall m rows mx xs ys iv left, diff_rectangles mx xs ys iv rows -> has_rows m 5 rows -> (1 <= length xs)%nat -> length xs = length ys ->
  exists m' rows', r_choose_eafdiff (XMatrix m) left = Ret m' /\ has_rows m' 5 rows' /\
    if left then ahead_rectangles mx xs ys iv rows' else ahead_rectangles mx ys xs iv rows'.
Proof.
  intros m rows mx xs ys iv left D H Hn Eq. pose proof D as (D1 & D2 & D3). cbn [r_choose_eafdiff]. rewrite (proj1 (proj2 H)). change (5 - 1)%nat with 4%nat.
  assert (Nth : forall r, In r rows -> nth 4 r x0 = nth 4 r PosInf). { intros r Hr. apply nth_indep. destruct (D1 r Hr) as [L _]. rewrite L. lia. }
  destruct left.
  - eexists. exists (filter (fun r => xgt (nth 4 r x0) 0) rows). split; [reflexivity|]. split; [apply select_rows; [auto|lia]|].
    split; [|split; [now apply (disjoint_filter mx)|]].
    + intros r Hr. apply filter_In in Hr. destruct Hr as [Hr P]. destruct (D1 r Hr) as (L & Z & c & E & V). split; auto. split; auto. exists c. split; auto. split; auto.
      rewrite (Nth r Hr), E in P. unfold xgt, xle in P. apply negb_true_iff in P. destruct (Qlt_le_dec 0 c); auto. apply Qle_bool_iff in q. congruence.
    + intros z Lz. rewrite <- (selected mx xs ys iv rows (fun c => 0 < c)%Q Hn Eq D) with (z := z); auto.
      2:{ intros c c' Ec Hc. now rewrite <- Ec. } 2:{ apply Qlt_irrefl. }
      split.
      * intros (r & Hr & Hz). apply filter_In in Hr. destruct Hr as [Hr P]. destruct (D1 r Hr) as (L & Z & c & E & V). exists r, c. split; auto. split; auto. split; auto.
        rewrite (Nth r Hr), E in P. unfold xgt, xle in P. apply negb_true_iff in P. destruct (Qlt_le_dec 0 c); auto. apply Qle_bool_iff in q. congruence.
      * intros (r & c & Hr & E & P & Hz). exists r. split; auto. apply filter_In. split; auto. rewrite (Nth r Hr), E. unfold xgt, xle. apply negb_true_iff.
        destruct (Qle_bool c 0) eqn:Q; auto. apply Qle_bool_iff in Q. lra.
  - set (f := fun r : list xnum => firstn 4 r ++ [xabs (nth 4 r x0)]). set (sel := filter (fun r => xlt (nth 4 r x0) 0) rows).
    eexists. exists (map f sel). split; [reflexivity|]. split. { apply set_last_rows. apply select_rows; [auto|lia]. }
    assert (S1 : forall r, In r sel -> In r rows /\ exists c, nth 4 r PosInf = Fin c /\ (c < 0)%Q).
    { intros r Hr. apply filter_In in Hr. destruct Hr as [Hr P]. destruct (D1 r Hr) as (L & Z & c & E & V). split; auto. exists c. split; auto.
      rewrite (Nth r Hr), E in P. unfold xlt, xge in P. apply negb_true_iff in P. destruct (Qlt_le_dec c 0); auto. apply Qle_bool_iff in q. congruence. }
    assert (If : forall r z, In r sel -> (in_row mx (f r) z <-> in_row mx r z)). { intros r z Hr. apply firstn4. destruct (S1 r Hr) as [Hr' _]. now destruct (D1 r Hr'). }
    split; [|split].
    + intros r Hr. apply in_map_iff in Hr. destruct Hr as (q & <- & Hq). destruct (S1 q Hq) as (Hr & c & E & Lc). destruct (D1 q Hr) as (L & (z & Lz & Hz) & c' & E' & V).
      rewrite E in E'. injection E' as <-. split; [unfold f; rewrite app_length, firstn_length, L; reflexivity|]. split; [exists z; split; auto; now apply If|].
      exists (Qabs c). split; [|split].
      * unfold f. rewrite app_nth2 by (rewrite firstn_length, L; cbn; lia). rewrite firstn_length, L. change (4 - Nat.min 4 5)%nat with 0%nat. cbn [nth]. rewrite (Nth q Hr), E. reflexivity.
      * rewrite Qabs_neg by lra. lra.
      * intros w Lw Hw. apply (If q w Hq) in Hw. apply (diff_eq _ _ _ _ _ (- c)). rewrite Qabs_neg by lra. reflexivity. apply diff_swap. apply V; assumption.
    + apply (disjoint_map mx). intros r z Hr. apply (If r z Hr). now apply (disjoint_filter mx).
    + intros z Lz. transitivity (exists c, diff_at mx xs ys iv z c /\ (c < 0)%Q).
      2:{ split; intros (c & V & Lc); exists (- c)%Q; (split; [now apply diff_swap|lra]). }
      rewrite <- (selected mx xs ys iv rows (fun c => c < 0)%Q Hn Eq D) with (z := z); auto.
      2:{ intros c c' Ec Hc. now rewrite <- Ec. } 2:{ apply Qlt_irrefl. }
      split.
      * intros (r & Hr & Hz). apply in_map_iff in Hr. destruct Hr as (q & <- & Hq). destruct (S1 q Hq) as (Hr & c & E & Lc). apply (If q z Hq) in Hz. exists q, c. auto.
      * intros (r & c & Hr & E & P & Hz). assert (Hs : In r sel). { apply filter_In. split; auto. rewrite (Nth r Hr), E. unfold xlt, xge. apply negb_true_iff.
        destruct (Qle_bool 0 c) eqn:Q; auto. apply Qle_bool_iff in Q. lra. }
        exists (f r). split; [now apply in_map|]. now apply (If r z Hs).
Qed.
Theorem C71_choose_vector : forall v left, r_choose_eafdiff (XVector v) left = AssertFailed.
Proof. reflexivity. Qed.

(** ** largest_eafdiff *)
Variable sortp : list point -> list point.
Variable sortr : list crect -> list crect.
Variable junkr : nat -> crect.
Local Notation r_largest_eafdiff := (r_largest_eafdiff sortx sorty sortz junk grow (- dbl_max) dbl_max order sortp sortr junkr).
Local Notation pair_value := (pair_value sortx sorty sortz junk grow (- dbl_max) dbl_max order sortp sortr junkr).
Local Notation best_of := (best_of sortx sorty sortz junk grow (- dbl_max) dbl_max order sortp sortr junkr).
Local Notation side_value := (side_value sortp sortr junkr).

Definition unit_rect (r : rect Q) : rect Z := mkRect (r_lx r) (r_ly r) (r_ux r) (r_uy r) 1.
Definition tb (a : xnum) : bound := match a with Fin (n # 1) => At n | _ => Infty end.
Lemma to_bounds_ok : forall l, Forall (fun a => to_bound a = Ret (tb a)) l -> to_bounds l = Ret (map tb l).
Proof. induction l as [|a l IH]; intros F; auto. inversion F; subst. cbn [to_bounds map]. rewrite H1. cbn [bind]. rewrite IH by auto. reflexivity. Qed.
Lemma values_in : forall (x : rmat xnum) d rows v, has_rows x d rows -> In v (values x) -> exists r, In r rows /\ In v r.
Proof.
  intros x d rows v (N & C & L & W & H) Hv. apply (In_nth _ _ x0) in Hv. destruct Hv as (k & Hk & <-). rewrite L in Hk. rewrite Forall_forall in W.
  assert (Hn : (0 < length rows)%nat) by (destruct rows; cbn in *; lia). set (n := length rows) in *.
  assert (Hm : (k mod n < n)%nat) by (apply Nat.mod_upper_bound; lia). assert (Hd : (k / n < d)%nat) by (apply Nat.div_lt_upper_bound; lia).
  pose proof (Nat.div_mod k n ltac:(lia)) as E. specialize (H x0 (k mod n)%nat (k / n)%nat Hm Hd). replace (k / n * n + k mod n)%nat with k in H by lia.
  rewrite H. exists (nth (k mod n) rows []). split. now apply nth_In. apply nth_In. rewrite W; auto. now apply nth_In.
Qed.
Lemma has_rows_map : forall (f : xnum -> bound) (x : rmat xnum) d rows, has_rows x d rows -> has_rows (mkMat (nrow x) (ncol x) (map f (values x))) d (map (map f) rows).
Proof.
  intros f x d rows (N & C & L & W & H). unfold has_rows. cbn [nrow ncol values]. rewrite !map_length. split; auto. split; auto. split; auto. rewrite Forall_forall in W. split.
  { apply Forall_forall. intros r Hr. apply in_map_iff in Hr. destruct Hr as (q & <- & Hq). rewrite map_length. auto. }
  intros na i j Hi Hj. rewrite (nth_map_in (map f) rows i [] []) by auto. assert (Li : length (nth i rows []) = d) by (apply W, nth_In; auto).
  rewrite (nth_map_in f (values x) _ na x0) by (rewrite L; nia). rewrite (nth_map_in f (nth i rows []) j na x0) by lia. f_equal. apply H; auto.
Qed.

Lemma filter_map_ : forall A B (f : A -> B) p l, filter p (map f l) = map f (filter (fun a => p (f a)) l).
Proof. induction l as [|a l IH]; auto. cbn [map filter]. destruct (p (f a)); cbn [map]; now rewrite IH. Qed.

Lemma region_ext : forall P Q v, (forall z, P z <-> Q z) -> region_area P v -> region_area Q v.
Proof. intros P Q v E (L & N & H & V). exists L. split; auto. split; auto. intros z. now rewrite H. Qed.

(** the area of disjoint rectangles with weight 1 *)
Lemma unit_area : forall data ref (rs : list (rect Z)) areas, length areas = length rs -> pairwise_disjoint rs -> (forall r, In r rs -> RectSpec.r_col r = 1) ->
  (forall i r, nth_error rs i = Some r -> region_area (fun z => dominated_cell data ref z /\ in_rect r z /\ True) (nth i areas 0)) ->
  region_area (fun z => dominated_cell data ref z /\ exists r, In r rs /\ in_rect r z) (zsum (map (fun ra => RectSpec.r_col (fst ra) * snd ra) (combine rs areas))).
Proof.
  intros data ref rs. induction rs as [|r rs IH]; intros areas La Pd Co Ar.
  - exists []. split; [constructor|]. split; [|reflexivity]. intros z. split; [intros []|]. intros (_ & r & [] & _).
  - destruct areas as [|a areas]; [discriminate|]. cbn [length] in La.
    destruct (IH areas) as (L & N & H & V). { lia. } { intros i j x y Hij X Y. apply (Pd (S i) (S j)); auto. lia. } { intros q Hq. apply Co. now right. }
    { intros i q Hq. apply (Ar (S i)). exact Hq. }
    destruct (Ar 0%nat r eq_refl) as (L0 & N0 & H0 & V0). cbn [nth] in V0. exists (L0 ++ L). split; [|split].
    + apply Eaf3dProofs.NoDup_app_intro; auto. intros z A B. apply H0 in A. apply H in B. destruct A as (_ & A & _). destruct B as (_ & q & Hq & B).
      apply In_nth_error in Hq. destruct Hq as (j & Hj). apply (Pd 0%nat (S j) r q ltac:(lia) eq_refl Hj z); auto.
    + intros z. rewrite in_app_iff, H0, H. split.
      * intros [(D & A & _)|(D & q & Hq & A)]; (split; auto); [exists r|exists q]; split; auto; [now left|now right].
      * intros (D & q & [<-|Hq] & A); [left|right]; split; auto. exists q. auto.
    + cbn [combine map]. rewrite app_length, Nat2Z.inj_add, <- V0, <- V. cbn [fst snd]. rewrite (Co r (or_introl eq_refl)), Z.mul_1_l. reflexivity.
Qed.

Lemma disjoint_sub : forall (p : rect Q -> bool) rs, pairwise_disjoint rs -> pairwise_disjoint (map unit_rect (filter p rs)).
Proof.
  intros p rs Pd i j r r' Hij E E' z A B.
  assert (G : forall l, pairwise_disjoint l -> pairwise_disjoint (filter p l)).
  { clear. induction l as [|a l IH]; intros H; auto. assert (Hl : pairwise_disjoint l) by (intros i j x y Hij X Y; apply (H (S i) (S j)); auto; lia).
    cbn [filter]. destruct (p a); auto. specialize (IH Hl). intros i j x y Hij X Y. destruct i as [|i].
    - destruct j as [|j]; [lia|]. cbn in X, Y. injection X as <-. apply nth_error_In, filter_In in Y. destruct Y as [Y _]. apply In_nth_error in Y. destruct Y as (m & Hm).
      apply (H 0%nat (S m) a y); auto. lia.
    - destruct j as [|j]; [lia|]. apply (IH i j); auto. lia. }
  rewrite nth_error_map in E, E'. destruct (nth_error (filter p rs) i) as [q|] eqn:Q; [|discriminate]. destruct (nth_error (filter p rs) j) as [q'|] eqn:Q'; [|discriminate].
  injection E as <-. injection E' as <-. apply (G rs Pd i j q q' Hij Q Q' z); auto.
Qed.

(** one side of a pair *)
Lemma side_ok71 : forall DIFF rs (p : xnum -> bool) ideal reference ref maximise, valid_sortd sortp -> valid_sortr sortr ->
  has_rows DIFF 5 (map qrow rs) -> (forall r, In r rs -> nondegenerate r) -> pairwise_disjoint rs -> length ideal = 2%nat -> for_each 2 reference ref -> no_maximise maximise ->
  (forall r, In r rs -> coord ideal 1 <= r_ly r) ->
  exists v, side_value DIFF p (mkMat 1 2 ideal) reference maximise = Ret v /\
    region_area (fun z => dominated_cell [ideal] ref z /\ exists r, In r rs /\ p (Fin (RectSpec.r_col r)) = true /\ in_rect r z) v.
Proof.
  intros DIFF rs p ideal reference ref maximise Sp Sr H Nd Pd Li Fr Nm Ly.
  set (sel := filter (fun r => p (Fin (RectSpec.r_col r))) rs). set (us := map unit_rect sel).
  pose proof (select_rows DIFF 5 _ 4 p H ltac:(lia)) as H1. rewrite filter_map_ in H1. change (filter (fun a => p (nth 4 (qrow a) x0)) rs) with sel in H1.
  pose proof (set_last_rows _ 4 _ (fun _ => Fin 1) H1) as H2. rewrite map_map in H2.
  unfold RRectModel.side_value. cbv zeta. pose proof (proj1 (no_maximise_any maximise) Nm) as En. rewrite En. cbn [negb assert_ bind].
  set (M := x_set_last (x_select DIFF 4 p) (fun _ => Fin 1)) in *.
  rewrite to_bounds_ok.
  2:{ apply Forall_forall. intros v Hv. destruct (values_in M 5 _ v H2 Hv) as (r & Hr & Iv). apply in_map_iff in Hr. destruct Hr as (q & <- & Hq). cbn in Iv.
      destruct Iv as [<-|[<-|[<-|[<-|[<-|[]]]]]]; try reflexivity. now destruct (r_ux q). now destruct (r_uy q). }
  cbn [bind]. pose proof (has_rows_map tb M 5 _ H2) as H3. rewrite map_map in H3.
  assert (E3 : map (fun x => map tb (firstn 4 (qrow x) ++ [Fin 1])) sel = map rect_row us).
  { unfold us. rewrite map_map. apply map_ext. intros [a b c d e]. unfold qrow, rect_row, unit_rect. cbn. destruct c, d; reflexivity. }
  rewrite E3 in H3.
  assert (Di : data_matrix (mkMat 1 2 ideal) 2 [ideal]).
  { split; [|split; [discriminate|lia]]. split; [reflexivity|]. split; [reflexivity|]. split; [exact Li|]. split; [repeat constructor; auto|].
    intros na i j Hi Hj. cbn in Hi. destruct i; [|lia]. cbn. now rewrite Nat.mul_1_r, Nat.add_0_r. }
  assert (Vr : forall r, In r us -> valid_rect r).
  { intros r Hr. apply in_map_iff in Hr. destruct Hr as (q & <- & Hq). apply filter_In in Hq. destruct (Nd q (proj1 Hq)) as [N1 N2]. unfold valid_rect, unit_rect. cbn. repeat split; auto; lia. }
  assert (An : antichain [ideal]). { intros i j Hi Hj Nij. cbn in Hi, Hj. lia. }
  destruct (C70_whv_rect sortp sortr junkr (mkMat 1 2 ideal) [ideal] _ us reference ref maximise Sp Sr Di H3 Fr Nm An Vr) as (v & Ev & _ & _ & Ex).
  exists v. split; [exact Ev|].
  destruct Ex as (areas & La & Ar & Vv).
  { intros q y [<-|[]] ((r & Hr & (_ & Rm) & Hy) & _). apply in_map_iff in Hr. destruct Hr as (w & <- & Hw). apply filter_In in Hw. specialize (Ly w (proj1 Hw)).
    unfold unit_rect in *. cbn [r_ly r_uy] in *. rewrite Hy in Rm. assert (y <= coord ref 1) by (rewrite <- Hy; destruct (r_uy w); cbn; lia). lia. }
  rewrite Vv. eapply region_ext; [|apply (unit_area [ideal] ref us areas La)].
  - intros z. cbv beta. split.
    + intros (D & r & Hr & Iz). split; auto. apply in_map_iff in Hr. destruct Hr as (w & <- & Hw). apply filter_In in Hw. exists w. split; [apply Hw|]. split; [apply Hw|exact Iz].
    + intros (D & w & Hw & P & Iz). split; auto. exists (unit_rect w). split; [apply in_map; apply filter_In; auto|exact Iz].
  - apply disjoint_sub; auto.
  - intros r Hr. apply in_map_iff in Hr. destruct Hr as (w & <- & _). reflexivity.
  - exact Ar.
Qed.

(** data sets: each a matrix of points with the set numbers in the last column; they have the
    same number [k] of sets *)
Definition sets_in (dt : list point * list Z) : list (list point) := sets_of (fst dt) (snd dt).
Definition all_points (data : list (list point * list Z)) : list point := concat (map fst data).
Definition data_sets (k : nat) (x : list (rmat Z)) (data : list (list point * list Z)) : Prop :=
  Forall2 (fun m dt => labelled m None 2 (fst dt) (snd dt)) x data /\
  (forall dt, In dt data -> length (sets_in dt) = k) /\
  (forall dt dt', In dt data -> In dt' data -> few (fst dt ++ fst dt')).
(** the corner of the area: the one given, if no point is better in an objective; or the best value of each objective *)
Definition corner (ideal : option (list Z)) (data : list (list point * list Z)) (i : point) : Prop :=
  match ideal with
  | Some l => l = i /\ length i = 2%nat /\ forall p j, In p (all_points data) -> (j < 2)%nat -> coord i j <= coord p j
  | None => ideal_of (all_points data) i
  end.
Definition no_data : list point * list Z := ([], []).

Lemma pairs_in : forall n a b, In (a, b) (pairs n) <-> (a < b < n)%nat.
Proof.
  intros n a b. unfold pairs. rewrite in_concat. split.
  - intros (l & Hl & Hp). apply in_map_iff in Hl. destruct Hl as (c & <- & Hc). apply in_seq in Hc. apply in_map_iff in Hp. destruct Hp as (e & E & He). injection E as -> ->. apply in_seq in He. lia.
  - intros H. exists (map (fun b => (a, b)) (seq (S a) (n - S a))). split.
    + apply (in_map (fun a => map (fun b => (a, b)) (seq (S a) (n - S a)))). apply in_seq. lia.
    + apply in_map. apply in_seq. lia.
Qed.
Lemma pairs_sorted : forall n, StronglySorted earlier (pairs n).
Proof.
  intros n. unfold pairs. set (m := (n - 1)%nat). clearbody m. generalize 0%nat. induction m as [|m IH]; intros s; cbn [seq map concat]; [constructor|].
  assert (G : forall l w, (forall q, In q w -> (s < fst q)%nat) -> StronglySorted earlier w -> forall t, StronglySorted earlier (map (fun b => (s, b)) (seq t l) ++ w)).
  { clear. intros l w Hw Sw. induction l as [|l IH]; intros t; cbn [seq map app]; auto. constructor; auto. apply Forall_forall. intros q Hq. apply in_app_or in Hq. destruct Hq as [Hq|Hq].
    - apply in_map_iff in Hq. destruct Hq as (b & <- & Hb). apply in_seq in Hb. right. cbn. lia.
    - left. cbn. auto. }
  apply G; auto. intros q Hq. apply in_concat in Hq. destruct Hq as (l & Hl & Hq). apply in_map_iff in Hl. destruct Hl as (a & <- & Ha). apply in_seq in Ha.
  apply in_map_iff in Hq. destruct Hq as (b & <- & _). cbn. lia.
Qed.

Lemma best_of_ok : forall x intervals ideal reference maximise val,
  (forall a b, (a < b < length x)%nat -> exists xa xb v, rd x a = Ret xa /\ rd x b = Ret xb /\ pair_value xa xb intervals ideal reference maximise = Ret v /\ val a b v /\ forall w, val a b w -> w = v) ->
  forall ps seen bp bv, (forall q, In q (seen ++ ps) -> (fst q < snd q < length x)%nat) -> StronglySorted earlier (seen ++ ps) ->
    (forall a b v, In (a, b) seen -> val a b v -> v <= bv) ->
    match bp with None => bv = 0 | Some (a, b) => 0 < bv /\ In (a, b) seen /\ val a b bv /\ forall a' b' v, In (a', b') seen -> earlier (a', b') (a, b) -> val a' b' v -> v < bv end ->
    exists bp' bv', best_of x intervals ideal reference maximise ps bp bv = Ret (bp', bv') /\
      (forall a b v, In (a, b) (seen ++ ps) -> val a b v -> v <= bv') /\
      match bp' with None => bv' = 0 | Some (a, b) => 0 < bv' /\ In (a, b) (seen ++ ps) /\ val a b bv' /\ forall a' b' v, In (a', b') (seen ++ ps) -> earlier (a', b') (a, b) -> val a' b' v -> v < bv' end.
Proof.
  intros x intervals ideal reference maximise val HP. induction ps as [|[a b] ps IH]; intros seen bp bv Hin Hs Hle Hb.
  { cbn [RRectModel.best_of]. exists bp, bv. rewrite app_nil_r. auto. }
  destruct (HP a b) as (xa & xb & v & Ea & Eb & Ev & Vv & Uv). { apply (Hin (a, b)). apply in_or_app. right. now left. }
  cbn [RRectModel.best_of]. rewrite Ea. cbn [bind]. rewrite Eb. cbn [bind]. rewrite Ev. cbn [bind].
  assert (As : seen ++ (a, b) :: ps = (seen ++ [(a, b)]) ++ ps) by now rewrite <- app_assoc. rewrite As in *.
  assert (Lt : forall q, In q seen -> earlier q (a, b)).
  { intros q Hq. clear - Hs Hq. rewrite <- app_assoc in Hs. induction seen as [|s seen IH]; [easy|]. cbn [app] in Hs. inversion Hs as [|? ? Hs' Hf]; subst. destruct Hq as [<-|Hq]; [|auto].
    rewrite Forall_forall in Hf. apply Hf. apply in_or_app. right. now left. }
  assert (Irr : ~ earlier (a, b) (a, b)) by (unfold earlier; cbn; lia).
  assert (Pos : match bp with None => bv = 0 | Some _ => 0 < bv end) by (destruct bp as [[? ?]|]; [apply Hb|exact Hb]).
  destruct (Z.ltb_spec bv v) as [L|L].
  - apply IH; auto.
    + intros a' b' w Hq Hw. apply in_app_or in Hq. destruct Hq as [Hq|[E|[]]]. { specialize (Hle a' b' w Hq Hw). lia. } injection E as <- <-. rewrite (Uv w Hw). lia.
    + split; [destruct bp; lia|]. split; [apply in_or_app; right; now left|]. split; auto.
      intros a' b' w Hq He Hw. apply in_app_or in Hq. destruct Hq as [Hq|[E|[]]]. { specialize (Hle a' b' w Hq Hw). lia. } injection E as <- <-. contradiction.
  - apply IH; auto.
    + intros a' b' w Hq Hw. apply in_app_or in Hq. destruct Hq as [Hq|[E|[]]]. { exact (Hle a' b' w Hq Hw). } injection E as <- <-. rewrite (Uv w Hw). lia.
    + destruct bp as [[c e]|]; auto. destruct Hb as (B1 & B2 & B3 & B4). split; auto. split; [apply in_or_app; now left|]. split; auto.
      intros a' b' w Hq He Hw. apply in_app_or in Hq. destruct Hq as [Hq|[E|[]]]. { apply (B4 a' b' w); auto. } injection E as <- <-.
      specialize (Lt _ B2). unfold earlier in Lt, He. cbn in Lt, He. lia.
Qed.

Lemma region_unique : forall P v w, region_area P v -> region_area P w -> v = w.
Proof. intros P v w (L & N & H & ->) (L' & N' & H' & ->). f_equal. apply Permutation_length. apply NoDup_Permutation; auto. intros z. now rewrite H, H'. Qed.
Lemma difference_unique : forall xs ys iv i ref v w, difference xs ys iv i ref v -> difference xs ys iv i ref w -> w = v.
Proof. intros xs ys iv i ref v w (a & b & A & B & ->) (a' & b' & A' & B' & ->). now rewrite (region_unique _ _ _ A A'), (region_unique _ _ _ B B'). Qed.

Lemma rows_with_sub : forall A (x : list A) labels v p, In p (rows_with x labels v) -> In p x.
Proof. induction x as [|a x IH]; intros [|l labels] v p H; cbn [rows_with] in H; try contradiction. destruct (l =? v); [destruct H as [<-|H]|]; [now left|right; eauto|right; eauto]. Qed.
(** one pair *)
Lemma pair_ok : forall x y rx lx ry ly intervals iv i reference ref, machine_ok -> valid_sortd sortp -> valid_sortr sortr ->
  labelled x None 2 rx lx -> labelled y None 2 ry ly -> few (rx ++ ry) -> length (sets_of rx lx) = length (sets_of ry ly) ->
  intervals_for intervals (length (sets_of rx lx)) iv -> for_each 2 reference ref -> length i = 2%nat ->
  (forall p, In p (rx ++ ry) -> coord i 1 <= coord p 1) -> (forall r, ~ diff_rectangles [false; false] (sets_of rx lx) (sets_of ry ly) iv [r]) ->
  exists v, pair_value x y intervals (mkMat 1 2 i) reference [false; false] = Ret v /\ difference (sets_of rx lx) (sets_of ry ly) iv i ref v.
Proof.
  intros x y rx lx ry ly intervals iv i reference ref MO Sp Sr Lx Ly F Eq Hi Fr Li Lo Ns.
  assert (Fm : for_each 2 [false; false] [false; false]) by (left; auto).
  assert (Nm : no_maximise [false; false]) by (intros b [<-|[<-|[]]]; auto).
  destruct (eafdiff_rects x y rx lx ry ly intervals [false; false] [false; false] iv MO Lx Ly F Fm Eq Hi) as (rs & D & Nd & Pd & E).
  assert (Fl : map (fliprow [false; false]) (map qrow rs) = map qrow rs).
  { rewrite map_map. apply map_ext. intros r. unfold fliprow. rewrite flip_none by reflexivity. apply firstn_skipn. }
  rewrite Fl in D, E.
  assert (Em : exists m, r_eafdiff_rect x y intervals [false; false] = Ret (XMatrix m) /\ has_rows m 5 (map qrow rs)).
  { destruct rs as [|r [|r' rs]]; [exact E| |exact E]. exfalso. exact (Ns _ D). }
  clear E. destruct Em as (m & E & Hm). unfold RRectModel.pair_value. rewrite E. cbn [bind].
  assert (Wx : wf_points 2 rx) by apply Lx. assert (Wy : wf_points 2 ry) by apply Ly.
  assert (Hn : (1 <= length (sets_of rx lx))%nat).
  { destruct Lx as (L1 & N1 & _ & _). pose proof (c_runs_ok sortx sorty sortz junk grow dbl_max order [false; false] 2 rx lx MO L1 N1 Wx) as (_ & _ & _ & _ & _ & (Lm & _) & Nr & _).
    rewrite Lm. destruct (c_runs order [false; false] rx lx); [congruence|cbn; lia]. }
  assert (Ri : forall r z, length z = 2%nat -> (in_row [false; false] (qrow r) z <-> in_rect r z)).
  { intros r z Lz. pose proof (in_row_flip [false; false] r z eq_refl Lz) as G. unfold fliprow in G. rewrite flip_none in G by reflexivity. rewrite firstn_skipn in G.
    destruct z as [|p [|q [|]]]; try discriminate. exact G. }
  assert (Ina : forall p, In p (concat (sets_of rx lx ++ sets_of ry ly)) -> In p (rx ++ ry)).
  { assert (S1 : forall r l p, In p (concat (sets_of r l)) -> In p r).
    { intros r l p Hp. unfold sets_of in Hp. apply in_concat in Hp. destruct Hp as (s & Hs & Hp). apply in_map_iff in Hs. destruct Hs as (b & <- & _).
      apply rows_with_sub in Hp. exact Hp. }
    intros p Hp. rewrite concat_app in Hp. apply in_app_or in Hp. apply in_or_app. destruct Hp as [Hp|Hp]; apply S1 in Hp; auto. }
  assert (Lr : forall r, In r rs -> coord i 1 <= r_ly r).
  { intros r Hr. destruct D as (_ & _ & D3). destruct (proj1 (D3 [r_lx r; r_ly r] eq_refl)) as ((ks & _ & Lk & Hk) & _).
    { exists (qrow r). split; [now apply in_map|]. apply Ri; auto. apply nondegenerate_in. auto. }
    destruct ks as [|k [|]]; try discriminate. destruct (Hk k (or_introl eq_refl)) as (Hk1 & p & Hp & Wp). specialize (Wp 1%nat ltac:(cbn; lia)). unfold as_good, coord in Wp. cbn in Wp.
    assert (Ip : In p (rx ++ ry)) by (apply Ina, in_concat; exists (nth k (sets_of rx lx ++ sets_of ry ly) []); split; auto; now apply nth_In).
    specialize (Lo p Ip). unfold coord in *. lia. }
  destruct (side_ok71 m rs (fun v => xge v 1) i reference ref [false; false] Sp Sr Hm Nd Pd Li Fr Nm Lr) as (va & Ea & Aa).
  destruct (side_ok71 m rs (fun v => xle v (-1)) i reference ref [false; false] Sp Sr Hm Nd Pd Li Fr Nm Lr) as (vb & Eb & Ab).
  rewrite Ea. cbn [bind]. rewrite Eb. cbn [bind]. exists (Z.min va vb). split; auto. exists va, vb. pose proof (for_each_length _ _ _ Fr) as Lf.
  assert (Dc : forall z, dominated_cell [i] ref z <-> length z = 2%nat /\ forall j, (j < 2)%nat -> coord i j <= coord z j < coord ref j).
  { intros z. unfold dominated_cell. rewrite Lf. split.
    - intros (Lz & (p & [<-|[]] & Hp) & Hr). split; auto.
    - intros (Lz & H). split; auto. split; [exists i; split; [now left|]|]; intros j Hj; apply (H j Hj). }
  assert (Eqv : forall z (p : Q -> Prop) pb, length z = 2%nat -> (forall c, pb (Fin c) = true <-> p c) -> (forall c c', (c == c')%Q -> p c -> p c') -> ~ p 0%Q ->
    ((exists r, In r rs /\ pb (Fin (RectSpec.r_col r)) = true /\ in_rect r z) <-> exists c, diff_at [false; false] (sets_of rx lx) (sets_of ry ly) iv z c /\ p c)).
  { intros z p pb Lz Pb Pc P0. rewrite <- (selected [false; false] _ _ iv _ p Hn Eq D Pc P0 z Lz). split.
    - intros (r & Hr & P & Iz). exists (qrow r), (RectSpec.r_col r). split; [now apply in_map|]. split; [reflexivity|]. split; [now apply Pb|]. now apply Ri.
    - intros (w & c & Hw & Ec & P & Iz). apply in_map_iff in Hw. destruct Hw as (r & <- & Hr). exists r. split; auto. cbn in Ec. injection Ec as <-. split; [now apply Pb|]. now apply Ri in Iz. }
  split; [|split; auto].
  - eapply region_ext; [|exact Aa]. intros z. cbv beta. rewrite Dc. unfold ahead. split.
    + intros ((Lz & B) & H). split; auto. split; auto. apply (Eqv z (fun c => 1 <= c)%Q (fun v => xge v 1)) in H; auto. 1: { intros c. apply Qle_bool_iff. } all: intros c c' Ec Hc; now rewrite <- Ec.
    + intros (Lz & B & H). split; auto. apply (Eqv z (fun c => 1 <= c)%Q (fun v => xge v 1)); auto. 1: { intros c. apply Qle_bool_iff. } all: intros c c' Ec Hc; now rewrite <- Ec.
  - eapply region_ext; [|exact Ab]. intros z. cbv beta. rewrite Dc. unfold ahead. split.
    + intros ((Lz & B) & H). split; auto. split; auto. apply (Eqv z (fun c => c <= -1)%Q (fun v => xle v (-1))) in H; auto. 2:{ intros c. apply Qle_bool_iff. } 2:{ intros c c' Ec Hc. now rewrite <- Ec. }
      destruct H as (c & V & Hc). exists (- c)%Q. split; [now apply diff_swap|lra].
    + intros (Lz & B & c & V & Hc). split; auto. apply (Eqv z (fun c => c <= -1)%Q (fun v => xle v (-1))); auto. { intros e. apply Qle_bool_iff. } { intros e e' Ec He. now rewrite <- Ec. }
      exists (- c)%Q. split; [now apply diff_swap|lra].
Qed.

Lemma data_nth : forall kk x data a, data_sets kk x data -> (a < length x)%nat -> exists m, rd x a = Ret m /\ labelled m None 2 (fst (nth a data no_data)) (snd (nth a data no_data)) /\ In (nth a data no_data) data.
Proof.
  intros kk x data a (F & _) Ha. revert a Ha. induction F as [|m dt x data H F IH]; intros a Ha; cbn [length] in Ha; [lia|]. destruct a as [|a].
  - exists m. split; [reflexivity|]. split; [exact H|now left].
  - destruct (IH a ltac:(lia)) as (m' & E & L & I). exists m'. split; [exact E|]. split; [exact L|]. now right.
Qed.
Lemma range_cols : forall kk x data j, data_sets kk x data -> (j < 2)%nat -> concat (map (fun m => r_col 0 m j) x) = map (fun p => coord p j) (all_points data).
Proof.
  intros kk x data j (F & _) Hj. unfold all_points. induction F as [|m dt x data H F IH]; auto. cbn [map concat]. rewrite map_app, <- IH. f_equal.
  destruct H as (L & _ & H & W). rewrite (col_rows 0 m 3 _ j H) by lia. unfold attach. rewrite map_map.
  clear H. revert L W. generalize (snd dt). induction (fst dt) as [|p l IHl]; intros [|v w] L W; try discriminate; auto. cbn [combine map fst snd]. inversion W as [|? ? W1 W2]; subst. f_equal.
  - unfold coord. apply app_nth1. rewrite W1. lia.
  - apply IHl; auto.
Qed.
Lemma corner_ok : forall kk x data maximise ideal i, data_sets kk x data -> x <> [] -> any maximise = false -> corner ideal data i ->
  length i = 2%nat /\ (forall p, In p (all_points data) -> coord i 1 <= coord p 1) /\
  match ideal with Some l => l | None => map (fun j => or0 (if nth j maximise false then snd (range_df_list x j) else fst (range_df_list x j))) (seq 0 2) end = i.
Proof.
  intros kk x data maximise ideal i Ds Nx Na C. destruct ideal as [l|]; cbn [corner] in C.
  { destruct C as (-> & L & H). split; auto. }
  destruct C as (L & H). split; auto. split. { intros p Hp. apply (proj2 (H 1%nat ltac:(lia)) p Hp). }
  assert (Nf : forall j, nth j maximise false = false).
  { intros j. destruct (nth j maximise false) eqn:E; auto. rewrite <- Na. symmetry. apply existsb_exists. exists true. split; auto. rewrite <- E. apply nth_In.
    destruct (Nat.lt_ge_cases j (length maximise)); auto. rewrite nth_overflow in E by auto. discriminate. }
  assert (G : forall j, (j < 2)%nat -> or0 (fst (range_df_list x j)) = coord i j).
  { intros j Hj. unfold range_df_list. cbn [fst]. rewrite (range_cols kk x data j Ds Hj). destruct (H j Hj) as ((p & Hp & Ep) & Lo).
    pose proof (rmin_ok (map (fun p => coord p j) (all_points data))) as R. destruct (r_min _) as [v|].
    - destruct R as [R1 R2]. cbn [or0]. apply in_map_iff in R1. destruct R1 as (q & <- & Hq). specialize (Lo q Hq). specialize (R2 (coord p j) (in_map (fun p => coord p j) _ p Hp)). lia.
    - apply map_eq_nil in R. rewrite R in Hp. contradiction. }
  cbn [seq map]. rewrite !Nf, !G by lia. destruct i as [|a [|b [|]]]; try discriminate. reflexivity.
Qed.

(** largest_eafdiff (x, reference = reference): the first pair with the largest difference,
    for data sets such that the differences of no pair form a single rectangle *)
Theorem C71_largest : forall x data k maximise intervals iv reference ref ideal i, machine_ok -> valid_sortd sortp -> valid_sortr sortr ->
  data_sets k x data -> (2 <= length x)%nat -> for_each 2 maximise [false; false] -> for_each 2 reference ref -> corner ideal data i -> intervals_for intervals k iv ->
  let sets a := sets_in (nth a data no_data) in
  (forall a b r, (a < b < length x)%nat -> ~ diff_rectangles [false; false] (sets a) (sets b) iv [r]) ->
  exists pair value, r_largest_eafdiff x maximise intervals reference ideal = Ret (pair, value) /\
    largest (length x) (fun a b v => difference (sets a) (sets b) iv i ref v) pair value.
Proof.
  intros x data k maximise intervals iv reference ref ideal i MO Sp Sr Ds Hn Fm Fr C Hi sets Ns.
  unfold RRectModel.r_largest_eafdiff. rewrite (rep_len_for_each true maximise [false; false] 2 Fm). cbv zeta.
  assert (Hb : (1 <? length x)%nat = true) by (apply Nat.ltb_lt; lia). rewrite Hb. cbn [assert_ bind].
  destruct (corner_ok k x data [false; false] ideal i Ds) as (Li & Lo & Ei); auto. { intros ->. cbn in Hn. lia. } rewrite Ei, Li. cbn [Nat.eqb assert_ bind].
  assert (HP : forall a b, (a < b < length x)%nat -> exists xa xb v, rd x a = Ret xa /\ rd x b = Ret xb /\ pair_value xa xb intervals (mkMat 1 2 i) reference [false; false] = Ret v /\
     difference (sets a) (sets b) iv i ref v /\ forall w, difference (sets a) (sets b) iv i ref w -> w = v).
  { intros a b Hab. destruct (data_nth k x data a Ds ltac:(lia)) as (xa & Ea & La & Ia). destruct (data_nth k x data b Ds ltac:(lia)) as (xb & Eb & Lb & Ib).
    pose proof Ds as (_ & Dk & Df).
    assert (Pts : forall dt p, In dt data -> In p (fst dt) -> In p (all_points data)).
    { intros dt p Hd Hp. unfold all_points. apply in_concat. exists (fst dt). split; auto. now apply in_map. }
    destruct (pair_ok xa xb _ _ _ _ intervals iv i reference ref MO Sp Sr La Lb (Df _ _ Ia Ib)) as (v & Ev & Dv); auto.
    - etransitivity; [apply (Dk _ Ia)|symmetry; apply (Dk _ Ib)].
    - pose proof (Dk _ Ia) as E. unfold sets_in in E. rewrite E. exact Hi.
    - intros p Hp. apply Lo. apply in_app_or in Hp. destruct Hp as [Hp|Hp]; [apply (Pts _ p Ia Hp)|apply (Pts _ p Ib Hp)].
    - intros r. apply (Ns a b r Hab).
    - exists xa, xb, v. repeat split; auto. intros w Hw. exact (difference_unique _ _ _ _ _ _ _ Dv Hw). }
  destruct (best_of_ok x intervals (mkMat 1 2 i) reference [false; false] _ HP (pairs (length x)) [] None 0) as (bp & bv & E & A & B); cbn [app].
  - intros [a b] Hq. apply pairs_in in Hq. exact Hq.
  - apply pairs_sorted.
  - intros a b v [].
  - reflexivity.
  - cbn [app] in A, B. exists bp, bv. split; auto. split; [|split].
    + intros a b Hab. destruct (HP a b Hab) as (_ & _ & v & _ & _ & _ & Dv & _). eauto.
    + intros a b v Hab Hv. apply (A a b v); auto. now apply pairs_in.
    + destruct bp as [[a b]|]; auto. destruct B as (B1 & B2 & B3 & B4). apply pairs_in in B2. split; auto. split; auto. split; auto.
      intros a' b' v Hab He Hv. apply (B4 a' b' v); auto. now apply pairs_in.
Qed.

(** refused: less than two data sets, a corner without two coordinates, any objective maximised *)
Theorem C71_largest_few : forall x maximise intervals reference ideal, (length x <= 1)%nat -> r_largest_eafdiff x maximise intervals reference ideal = AssertFailed.
Proof.
  intros x maximise intervals reference ideal H. unfold RRectModel.r_largest_eafdiff. cbv zeta.
  assert (Hb : (1 <? length x)%nat = false) by (apply Nat.ltb_ge; lia). rewrite Hb. reflexivity.
Qed.
Theorem C71_largest_corner : forall x maximise intervals reference i, length i <> 2%nat -> r_largest_eafdiff x maximise intervals reference (Some i) = AssertFailed.
Proof.
  intros x maximise intervals reference i H. unfold RRectModel.r_largest_eafdiff. cbv zeta.
  destruct (1 <? length x)%nat; auto. cbn [assert_ bind]. apply Nat.eqb_neq in H. rewrite H. reflexivity.
Qed.
Theorem C71_largest_maximise : forall x data k maximise mx intervals iv reference ideal, machine_ok -> data_sets k x data -> (2 <= length x)%nat ->
  for_each 2 maximise mx -> any mx = true -> intervals_for intervals k iv -> r_largest_eafdiff x maximise intervals reference ideal = AssertFailed.
Proof.
  intros x data k maximise mx intervals iv reference ideal MO Ds Hn Fm Am Hi. unfold RRectModel.r_largest_eafdiff. rewrite (rep_len_for_each true maximise mx 2 Fm). cbv zeta.
  assert (Hb : (1 <? length x)%nat = true) by (apply Nat.ltb_lt; lia). rewrite Hb. cbn [assert_ bind].
  set (i := match ideal with Some i => i | None => _ end). destruct (length i =? 2)%nat; auto. cbn [assert_ bind].
  assert (Ep : exists ps, pairs (length x) = (0%nat, 1%nat) :: ps).
  { unfold pairs. destruct (length x) as [|[|n]]; try lia. cbn [Nat.sub seq map concat]. eexists. reflexivity. }
  destruct Ep as (ps & ->). cbn [RRectModel.best_of].
  destruct (data_nth k x data 0 Ds ltac:(lia)) as (xa & Ea & La & Ia). destruct (data_nth k x data 1 Ds ltac:(lia)) as (xb & Eb & Lb & Ib).
  rewrite Ea. cbn [bind]. rewrite Eb. cbn [bind]. pose proof Ds as (_ & Dk & Df).
  assert (Fx : for_each 2 mx mx) by (left; split; auto; apply (for_each_length _ _ _ Fm)).
  destruct (C71_eafdiff xa xb _ _ _ _ intervals mx mx iv MO La Lb (Df _ _ Ia Ib) Fx) as (rows & D & E).
  { etransitivity; [apply (Dk _ Ia)|symmetry; apply (Dk _ Ib)]. } { pose proof (Dk _ Ia) as Ek. unfold sets_in in Ek. rewrite Ek. exact Hi. }
  assert (Es : forall m p, side_value m p (mkMat 1 2 i) reference mx = AssertFailed) by (intros m p; unfold RRectModel.side_value; cbv zeta; rewrite Am; reflexivity).
  unfold RRectModel.pair_value.
  destruct rows as [|r [|r' rows]]; [destruct E as (m & -> & _); cbn [bind]; now rewrite Es| |destruct E as (m & -> & _); cbn [bind]; now rewrite Es].
  rewrite E, Am. reflexivity.
Qed.
End C71.

(** ** Examples *)
Local Notation rect_exec := (r_eafdiff_rect sortx_exec sorty_exec Eaf3dModel.sortz_exec junk67 grow_exec (-1000) 1000 order_exec).
Local Notation largest_exec := (r_largest_eafdiff sortx_exec sorty_exec Eaf3dModel.sortz_exec junk67 grow_exec (-1000) 1000 order_exec PropWhv.sortd_exec PropWhv.sortr_exec (fun _ => c_zero)).
(** the example in the documentation of eafdiff, in the unit 1/2 *)
Definition doc_x : rmat Z := mkMat 5 3 [6;4;5;2;2; 4;6;2;4;4; 1;1;2;2;3].
Definition doc_y : rmat Z := mkMat 6 3 [8;6;5;6;5;4; 5;6;7;6;7;2; 1;1;1;2;2;3].
Definition doc_rx : list point := [[6;4];[4;6];[5;2];[2;4];[2;4]].
Definition doc_ry : list point := [[8;5];[6;6];[5;7];[6;6];[5;7];[4;2]].
Lemma doc_x_labelled : labelled doc_x None 2 doc_rx [1;1;2;2;3].
Proof.
  split; [reflexivity|]. split; [discriminate|]. split; [|repeat constructor]. do 3 (split; [reflexivity|]). split; [repeat constructor|].
  intros na i j Hi Hj. cbn in Hi. do 5 (destruct i as [|i]; [do 3 (destruct j as [|j]; [reflexivity|]); lia|]). lia.
Qed.
Lemma doc_y_labelled : labelled doc_y None 2 doc_ry [1;1;1;2;2;3].
Proof.
  split; [reflexivity|]. split; [discriminate|]. split; [|repeat constructor]. do 3 (split; [reflexivity|]). split; [repeat constructor|].
  intros na i j Hi Hj. cbn in Hi. do 6 (destruct i as [|i]; [do 3 (destruct j as [|j]; [reflexivity|]); lia|]). lia.
Qed.
(** the rectangles printed in the documentation *)
Example C71_doc : machine_ok sortx_exec sorty_exec Eaf3dModel.sortz_exec junk67 grow_exec 1000 order_exec /\ few (doc_rx ++ doc_ry) /\
  for_each 2 [false] [false; false] /\ length (sets_of doc_rx [1;1;2;2;3]) = length (sets_of doc_ry [1;1;1;2;2;3]) /\ intervals_for None (length (sets_of doc_rx [1;1;2;2;3])) 3 /\
  rect_exec doc_x doc_y None [false] = Ret (XMatrix (mkMat 9 5
    ([Fin 4; Fin 2; Fin 5; Fin 4; Fin 4; Fin 4; Fin 6; Fin 6; Fin 8] ++ [Fin 2; Fin 4; Fin 2; Fin 4; Fin 7; Fin 6; Fin 5; Fin 4; Fin 5] ++
     [Fin 5; Fin 4; PosInf; Fin 6; Fin 5; Fin 6; Fin 8; PosInf; PosInf] ++ [Fin 4; PosInf; Fin 4; Fin 6; PosInf; Fin 7; Fin 6; Fin 5; Fin 6] ++
     map (fun n => Fin (n # 3)) [-3; 6; 0; 3; 6; 6; 6; 6; 3]))).
Proof.
  split; [apply machine_exec|]. split; [unfold few; cbn; lia|]. split; [right; now exists false|]. split; [reflexivity|]. split; [reflexivity|]. vm_compute. reflexivity.
Qed.
(** choose_eafdiff of these *)
Example C71_doc_choose : exists m, rect_exec doc_x doc_y None [false] = Ret (XMatrix m) /\
  r_choose_eafdiff (XMatrix m) false = Ret (mkMat 1 5 [Fin 4; Fin 2; Fin 5; Fin 4; Fin (3 # 3)]) /\
  exists m', r_choose_eafdiff (XMatrix m) true = Ret m' /\ nrow m' = 7%nat.
Proof. eexists. split; [vm_compute; reflexivity|]. split; [vm_compute; reflexivity|]. eexists. split; [vm_compute; reflexivity|reflexivity]. Qed.

(** a rectangle contains with two points the corner of both *)
Lemma not_single : forall xs ys iv a b c d,
  (at_least_attain [false; false] 1 (xs ++ ys) [a; b] /\ ~ at_least_attain [false; false] (length xs + length ys) (xs ++ ys) [a; b]) ->
  (at_least_attain [false; false] 1 (xs ++ ys) [c; d] /\ ~ at_least_attain [false; false] (length xs + length ys) (xs ++ ys) [c; d]) ->
  ~ at_least_attain [false; false] 1 (xs ++ ys) [a; d] -> forall r, ~ diff_rectangles [false; false] xs ys iv [r].
Proof.
  intros xs ys iv a b c d A B N r (_ & _ & D). apply N. apply (D [a; b] eq_refl) in A. apply (D [c; d] eq_refl) in B.
  destruct A as (r1 & [<-|[]] & A). destruct B as (r2 & [<-|[]] & B). apply (D [a; d] eq_refl). exists r. split; [now left|].
  unfold in_row, coord in *. cbn in *. tauto.
Qed.
Lemma attains_by : forall mx runs z k p, (k < length runs)%nat -> In p (nth k runs []) -> wdom mx p z -> at_least_attain mx 1 runs z.
Proof. intros mx runs z k p Hk Hp W. exists [k]. split; [repeat constructor; auto|]. split; auto. intros j [<-|[]]. split; auto. exists p. auto. Qed.
Lemma not_by_all : forall mx runs z k, (k < length runs)%nat -> (forall p, In p (nth k runs []) -> ~ wdom mx p z) -> ~ at_least_attain mx (length runs) runs z.
Proof.
  intros mx runs z k Hk H (ks & N & L & A).
  assert (Ik : In k ks). { apply (NoDup_length_incl N (l' := seq 0 (length runs))). rewrite seq_length. lia. intros j Hj. apply in_seq. specialize (A j Hj). lia. apply in_seq. lia. }
  destruct (A k Ik) as (_ & p & Hp & W). exact (H p Hp W).
Qed.
Lemma not_attained : forall mx runs z, (forall p, In p (concat runs) -> ~ wdom mx p z) -> ~ at_least_attain mx 1 runs z.
Proof.
  intros mx runs z H (ks & _ & L & A). destruct ks as [|k [|]]; try discriminate. destruct (A k (or_introl eq_refl)) as (Hk & p & Hp & W).
  apply (H p); auto. apply in_concat. exists (nth k runs []). split; auto. now apply nth_In.
Qed.
Lemma wdom2 : forall a b c d, wdom [false; false] [a; b] [c; d] <-> a <= c /\ b <= d.
Proof.
  intros a b c d. split.
  - intros W. pose proof (W 0%nat ltac:(cbn; lia)) as W0. pose proof (W 1%nat ltac:(cbn; lia)) as W1. unfold as_good, coord in *. cbn in *. lia.
  - intros [H1 H2] i Hi. cbn in Hi. unfold as_good, coord. destruct i as [|[|i]]; cbn; lia.
Qed.
Definition doc_data : list (list point * list Z) := [(doc_rx, [1;1;2;2;3]); (doc_ry, [1;1;1;2;2;3])].
Example C71_largest_doc :
  valid_sortd PropWhv.sortd_exec /\ valid_sortr PropWhv.sortr_exec /\ data_sets 3 [doc_x; doc_y] doc_data /\ corner None doc_data [2; 2] /\ intervals_for (Some 5)%Q 3 3 /\
  (forall a b r, (a < b < 2)%nat -> ~ diff_rectangles [false; false] (sets_in (nth a doc_data no_data)) (sets_in (nth b doc_data no_data)) 3 [r]) /\
  largest_exec [doc_x; doc_y] [false] (Some 5)%Q [12] None = Ret (Some (0%nat, 1%nat), 2).
Proof.
  split; [apply PropWhv.sortd_exec_ok|]. split; [apply PropWhv.sortr_exec_ok|]. split; [|split; [|split; [|split]]].
  - split; [|split].
    + constructor; [apply doc_x_labelled|]. constructor; [apply doc_y_labelled|constructor].
    + intros dt [<-|[<-|[]]]; reflexivity.
    + intros dt dt' [<-|[<-|[]]] [<-|[<-|[]]]; unfold few; cbn; lia.
  - split; auto. intros j Hj. split.
    + destruct j as [|[|j]]; [exists [2; 4]|exists [5; 2]|lia]; (split; [cbn; tauto|reflexivity]).
    + intros p Hp. cbn in Hp. repeat (destruct Hp as [<-|Hp]; [destruct j as [|[|j]]; cbn; lia|]). contradiction.
  - cbn. split; [lra|reflexivity].
  - intros a b r Hab. assert (a = 0%nat) as -> by lia. assert (b = 1%nat) as -> by lia.
    assert (E : sets_in (nth 0 doc_data no_data) ++ sets_in (nth 1 doc_data no_data) = [[[6;4];[4;6]]; [[5;2];[2;4]]; [[2;4]]; [[8;5];[6;6];[5;7]]; [[6;6];[5;7]]; [[4;2]]]) by reflexivity.
    apply (not_single _ _ 3 2 4 4 2); rewrite E; change (length (sets_in (nth 0 doc_data no_data)) + length (sets_in (nth 1 doc_data no_data)))%nat with 6%nat.
    + split. { apply (attains_by _ _ _ 2 [2; 4]). cbn; lia. now left. apply wdom2. lia. }
      apply (not_by_all _ [[[6;4];[4;6]]; [[5;2];[2;4]]; [[2;4]]; [[8;5];[6;6];[5;7]]; [[6;6];[5;7]]; [[4;2]]] _ 0); [cbn; lia|]. intros p [<-|[<-|[]]] W; apply wdom2 in W; lia.
    + split. { apply (attains_by _ _ _ 5 [4; 2]). cbn; lia. now left. apply wdom2. lia. }
      apply (not_by_all _ [[[6;4];[4;6]]; [[5;2];[2;4]]; [[2;4]]; [[8;5];[6;6];[5;7]]; [[6;6];[5;7]]; [[4;2]]] _ 0); [cbn; lia|]. intros p [<-|[<-|[]]] W; apply wdom2 in W; lia.
    + apply not_attained. intros p Hp W. cbn in Hp. repeat (destruct Hp as [<-|Hp]; [apply wdom2 in W; lia|]). contradiction.
  - vm_compute. reflexivity.
Qed.

(** Refuted: "eafdiff returns a matrix, and choose_eafdiff and largest_eafdiff accept every pair of
    data sets."  If the difference is a single rectangle, it is returned as a vector. *)
Theorem C71_one_rectangle_refuted :
  let x := mkMat 1 3 [1; 1; 1] in let y := mkMat 1 3 [1; 2; 1] in
  labelled x None 2 [[1; 1]] [1] /\ labelled y None 2 [[1; 2]] [1] /\
  rect_exec x y None [false] = Ret (XVector [Fin 1; Fin 1; PosInf; Fin 2; Fin (1 # 1)]) /\
  rect_exec x y None [true] = AssertFailed /\
  r_choose_eafdiff (XVector [Fin 1; Fin 1; PosInf; Fin 2; Fin (1 # 1)]) true = AssertFailed /\
  largest_exec [x; y] [false] (Some 5)%Q [12] None = AssertFailed.
Proof.
  cbv zeta. split; [|split].
  1, 2: split; [reflexivity|]; split; [discriminate|]; split; [|repeat constructor]; do 3 (split; [reflexivity|]); split; [repeat constructor|];
    intros na i j Hi Hj; cbn in Hi; destruct i as [|i]; [|lia]; do 3 (destruct j as [|j]; [reflexivity|]); lia.
  repeat split; vm_compute; reflexivity.
Qed.
(** Refuted: "the columns are named xmin, ymin, xmax, ymax": if the first objective is maximised, xmin
    is greater than xmax, or xmax is -Inf *)
Theorem C71_maximise_columns_refuted : exists m, rect_exec doc_x doc_y None [true; false] = Ret (XMatrix m) /\
  cell (Fin 0) m 0 0 = Fin 8 /\ cell (Fin 0) m 0 2 = Fin 6 /\ cell (Fin 0) m 5 2 = NegInf.
Proof. eexists. split; [vm_compute; reflexivity|]. repeat split; reflexivity. Qed.
(** Refuted: "the value is the difference of the fractions of the sets of x and of y": with one set in
    x and three in y, the rectangle from (1, 2) to (2, Inf) is attained by the set of x and by no set of
    y, a difference of 2 of 2 intervals; the result says 1 *)
Theorem C71_unequal_refuted :
  let x := mkMat 1 3 [1;2;1] in let y := mkMat 3 3 [2;2;2; 1;1;1; 1;2;3] in
  exists m, rect_exec x y None [false] = Ret (XMatrix m) /\ has_rows m 5 [[Fin 1; Fin 2; Fin 2; PosInf; Fin (2 # 2)]; [Fin 2; Fin 1; PosInf; Fin 2; Fin (-2 # 2)]] /\
  exactly_attain [false;false] 1 (sets_of [[1;2]] [1]) [1;2] /\ exactly_attain [false;false] 0 (sets_of [[2;1];[2;1];[2;1]] [1;2;3]) [1;2].
Proof.
  cbv zeta. eexists. split; [vm_compute; reflexivity|]. split.
  { do 3 (split; [reflexivity|]). split; [repeat constructor|]. intros na i j Hi Hj. cbn in Hi. do 2 (destruct i as [|i]; [do 5 (destruct j as [|j]; [reflexivity|]); lia|]). lia. }
  exact (proj2 C67_eafdiff_unequal_refuted).
Qed.

Print Assumptions C71_eafdiff.
Print Assumptions C71_eafdiff_columns.
Print Assumptions C71_eafdiff_odd.
Print Assumptions C71_choose.
Print Assumptions C71_choose_vector.
Print Assumptions C71_largest.
Print Assumptions C71_largest_few.
Print Assumptions C71_largest_corner.
Print Assumptions C71_largest_maximise.
Print Assumptions C71_one_rectangle_refuted.
Print Assumptions C71_maximise_columns_refuted.
Print Assumptions C71_unequal_refuted.
