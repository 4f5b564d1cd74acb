(** Property C74: Hypervolume_MEX, the MATLAB function.

    Specification: [RMatSpec.has_rows] (the rows of a matrix stored by columns),
    [HvSpec.hypervolume], and [greatest] below. *)
From Coq Require Import List ZArith Lia Bool Arith.
From Verif Require Import Base NondomModel Hv2dModel HvModel HvMain HvFacts CmdModel CmdProofs RMatModel RMatSpec MexModel.
From Verif Require HvSpec.
Import ListNotations.
Open Scope Z_scope.

(** the greatest value of every objective *)
Definition greatest (rows : list point) (d : nat) (m : point) : Prop :=
  length m = d /\ forall j, (j < d)%nat ->
    (exists p, In p rows /\ coord p j = coord m j) /\ forall p, In p rows -> coord p j <= coord m j.

(** ** Copying the matrix *)
Lemma skipn_twice : forall A (l : list A) a b, skipn a (skipn b l) = skipn (b + a) l.
Proof. induction l; intros a0 b; destruct b; cbn; auto. now rewrite !skipn_nil. Qed.
Lemma copy_row_ok : forall pr m i row js pre post,
  length js = length row -> (forall t, (t < length js)%nat -> rd pr (i + nth t js 0%nat * m) = Ret (nth t row 0)) ->
  (length row <= length post)%nat ->
  copy_row pr m i js (length pre) (pre ++ post) =
  Ret ((length pre + length row)%nat, pre ++ row ++ skipn (length row) post).
Proof.
  intros pr m i row js. revert row. induction js as [|j js IH]; intros row pre post L H P; destruct row as [|v row]; try discriminate; cbn [copy_row].
  - cbn. now rewrite Nat.add_0_r.
  - pose proof (H 0%nat ltac:(cbn; lia)) as H0. cbn [nth] in H0. rewrite H0. cbn [bind]. destruct post as [|x post]; [cbn in P; lia|].
    rewrite wr_ok by (rewrite app_length; cbn; lia). cbn [bind]. rewrite upd_app_middle.
    replace (S (length pre)) with (length (pre ++ [v])) by (rewrite app_length; cbn; lia).
    change (pre ++ v :: post) with (pre ++ [v] ++ post). rewrite app_assoc.
    rewrite (IH row (pre ++ [v]) post); [|cbn in L; lia| |cbn in P; lia].
    + f_equal. f_equal. rewrite app_length. cbn. lia. now rewrite <- app_assoc.
    + intros t Ht. specialize (H (S t) ltac:(cbn; lia)). exact H.
Qed.
Lemma copy_rows_ok : forall pr m d rows is pre post,
  length is = length rows -> wide d rows ->
  (forall t j, (t < length is)%nat -> (j < d)%nat -> rd pr (nth t is 0%nat + j * m) = Ret (nth j (nth t rows []) 0)) ->
  (length (concat rows) <= length post)%nat ->
  copy_rows pr m d is (length pre) (pre ++ post) =
  Ret ((length pre + length (concat rows))%nat, pre ++ concat rows ++ skipn (length (concat rows)) post).
Proof.
  intros pr m d rows is. revert rows. induction is as [|i is IH]; intros rows pre post L W H P; destruct rows as [|row rows]; try discriminate;
  cbn [copy_rows].
  - cbn. now rewrite Nat.add_0_r.
  - assert (Wr : length row = d) by (apply W; simpl; auto). assert (W' : wide d rows) by (intros r Hr; apply W; simpl; auto). subst d. cbn [concat] in *. rewrite app_length in P.
    rewrite (copy_row_ok pr m i row (seq 0 (length row)) pre post).
    + cbn [bind fst snd]. replace (length pre + length row)%nat with (length (pre ++ row)) by (rewrite app_length; lia).
      rewrite app_assoc. rewrite (IH rows (pre ++ row) (skipn (length row) post)); auto.
      * rewrite !app_length. f_equal. f_equal. lia. rewrite <- !app_assoc. do 3 f_equal. apply skipn_twice.
      * intros t j Ht Hj. apply (H (S t) j); cbn; lia.
      * rewrite skipn_length. lia.
    + now rewrite seq_length.
    + intros t Ht. rewrite seq_length in Ht. rewrite seq_nth by auto. apply (H 0%nat t); cbn; lia.
    + lia.
Qed.

(** ** The greatest values *)
Lemma first_row_ok : forall data row pre post tail, data = (pre ++ row) ++ tail -> (length row = length post)%nat ->
  first_row data (seq (length pre) (length row)) (pre ++ post) = Ret (pre ++ row).
Proof.
  intros data row. induction row as [|v row IH]; intros pre post tail E L; destruct post as [|x post]; try discriminate; cbn [length seq first_row].
  - reflexivity.
  - rewrite (rd_ok _ data _ 0) by (rewrite E, !app_length; cbn; lia). cbn [bind].
    rewrite wr_ok by (rewrite app_length; cbn; lia). cbn [bind]. rewrite upd_app_middle.
    replace (nth (length pre) data 0) with v.
    2:{ rewrite E, <- app_assoc, app_nth2 by lia. now rewrite Nat.sub_diag. }
    replace (S (length pre)) with (length (pre ++ [v])) by (rewrite app_length; cbn; lia).
    change (pre ++ v :: post) with (pre ++ [v] ++ post). rewrite app_assoc.
    rewrite (IH (pre ++ [v]) post tail). now rewrite <- app_assoc. now rewrite E, <- !app_assoc. cbn in L; lia.
Qed.
Fixpoint larger (v w : list Z) : list Z :=
  match v, w with x :: v', y :: w' => Z.max x y :: larger v' w' | _, _ => [] end.
Lemma max_row_ok : forall data v row pre before after, data = before ++ row ++ after -> length v = length row ->
  max_row data (seq (length pre) (length v)) (length before) (pre ++ v) = Ret ((length before + length row)%nat, pre ++ larger v row).
Proof.
  intros data v. induction v as [|x v IH]; intros row pre before after E L; destruct row as [|y row]; try discriminate; cbn [length seq max_row].
  - cbn. now rewrite Nat.add_0_r.
  - rewrite (rd_ok _ (pre ++ x :: v) _ 0) by (rewrite app_length; cbn; lia). cbn [bind].
    rewrite (rd_ok _ data _ 0) by (rewrite E, !app_length; cbn; lia). cbn [bind].
    rewrite app_nth2, Nat.sub_diag by lia. cbn [nth].
    replace (nth (length before) data 0) with y.
    2:{ rewrite E, app_nth2 by lia. now rewrite Nat.sub_diag. }
    assert (EW : (if x <? y then wr (pre ++ x :: v) (length pre) y else Ret (pre ++ x :: v)) = Ret ((pre ++ [Z.max x y]) ++ v)).
    { rewrite <- app_assoc. cbn [app]. destruct (Z.ltb_spec x y).
      - rewrite wr_ok by (rewrite app_length; cbn; lia). rewrite upd_app_middle. now rewrite Z.max_r by lia.
      - now rewrite Z.max_l by lia. }
    rewrite EW. cbn [bind].
    replace (S (length pre)) with (length (pre ++ [Z.max x y])) by (rewrite app_length; cbn; lia).
    replace (S (length before)) with (length (before ++ [y])) by (rewrite app_length; cbn; lia).
    rewrite (IH row (pre ++ [Z.max x y]) (before ++ [y]) after).
    + rewrite app_length. cbn [larger length]. rewrite <- app_assoc. f_equal. f_equal. lia.
    + rewrite E, <- app_assoc. reflexivity.
    + cbn in L. lia.
Qed.
Lemma larger_length : forall v w, length v = length w -> length (larger v w) = length w.
Proof. induction v; destruct w; cbn; intros; try lia. rewrite IHv; lia. Qed.
Lemma larger_coord : forall v w j, length v = length w -> (j < length v)%nat -> coord (larger v w) j = Z.max (coord v j) (coord w j).
Proof. unfold coord. induction v; destruct w; cbn; intros j L H; try lia. destruct j; auto. apply IHv; lia. Qed.

Lemma max_rows_ok : forall data d rows rs v seen before, wide d rows -> length rs = length rows ->
  data = before ++ concat rows -> greatest seen d v ->
  exists m, max_rows data d rs (length before) v = Ret m /\ greatest (seen ++ rows) d m.
Proof.
  intros data d rows. induction rows as [|row rows IH]; intros rs v seen before W L E G; destruct rs as [|r rs]; try discriminate; cbn [max_rows].
  - exists v. now rewrite app_nil_r.
  - assert (Wr : length row = d) by (apply W; simpl; auto). assert (W' : wide d rows) by (intros q Hq; apply W; simpl; auto). subst d. destruct G as [Lv G].
    pose proof (max_row_ok data v row [] before (concat rows) ltac:(rewrite E; reflexivity) Lv) as M.
    cbn [length app] in M. rewrite <- Lv. rewrite M. cbn [bind fst snd].
    replace (length before + length row)%nat with (length (before ++ row)) by (rewrite app_length; lia).
    destruct (IH rs (larger v row) (seen ++ [row]) (before ++ row)) as (m & Em & Gm); auto.
    + rewrite E. cbn [concat]. now rewrite app_assoc.
    + split. now rewrite larger_length. intros j Hj. rewrite larger_coord by lia. destruct (G j Hj) as [(p & Hp & Ep) U]. split.
      * destruct (Z.max_spec (coord v j) (coord row j)) as [[_ ->]|[_ ->]].
        exists row. split; auto. apply in_or_app. right. simpl; auto.
        exists p. split; auto. apply in_or_app. auto.
      * intros q Hq. apply in_app_or in Hq. destruct Hq as [Hq|[<-|[]]]; [specialize (U q Hq)|]; lia.
    + exists m. rewrite Lv. rewrite <- app_assoc in Gm. cbn [app] in Gm. auto.
Qed.
Lemma data_maximum_ok : forall fresh d rows, (forall n, length (fresh n) = n) -> wide d rows -> rows <> [] ->
  exists m, data_maximum fresh (concat rows) d (length rows) = Ret m /\ greatest rows d m.
Proof.
  intros fresh d rows F W N. destruct rows as [|row rows]; [congruence|]. assert (Wr : length row = d) by (apply W; simpl; auto). assert (W' : wide d rows) by (intros q Hq; apply W; simpl; auto). subst d.
  unfold data_maximum. cbn [concat].
  pose proof (first_row_ok (row ++ concat rows) row [] (fresh (length row)) (concat rows) eq_refl ltac:(now rewrite F)) as E.
  cbn [length app] in E. rewrite E. cbn [bind].
  destruct (max_rows_ok (row ++ concat rows) (length row) rows (seq 1 (length (row :: rows) - 1)) row [row] row) as (m & Em & G); auto.
  - rewrite seq_length. cbn. lia.
  - split; auto. intros j Hj. split. exists row. simpl; auto. intros p [<-|[]]. lia.
  - exists m. auto.
Qed.

Section Mex.
Variable sort2d : list point -> list nat.
Variable sortd : (nat -> Z) -> list nat -> list nat.
Variable dbl_max : Z.
Variable g : hvst.
Variable fresh : nat -> list Z.
Hypothesis Hfresh : forall n, length (fresh n) = n.
Notation mex := (mexFunction sort2d sortd dbl_max g fresh).
Definition full (a : mxarray) (d : nat) (rows : list point) : Prop := mxclassof a = Double /\ has_rows (matrix a) d rows.

Lemma copied : forall a d rows, full a d rows ->
  copy_rows (mxGetPr a) (nrow (matrix a)) (ncol (matrix a)) (seq 0 (nrow (matrix a))) 0
    (fresh (ncol (matrix a) * nrow (matrix a))) = Ret (length (concat rows), concat rows).
Proof.
  intros a d rows [HC (HN & HD & HL & HW & HV)]. unfold mxGetPr. rewrite HC, HN, HD. cbv iota. rewrite Forall_forall in HW.
  pose proof (concat_wide_length d rows HW) as CL.
  pose proof (copy_rows_ok (values (matrix a)) (length rows) d rows (seq 0 (length rows)) [] (fresh (d * length rows))) as K.
  cbn [length app] in K. change point with (list Z) in *. rewrite K.
  - rewrite skipn_all2 by (rewrite Hfresh, CL; lia). now rewrite app_nil_r.
  - now rewrite seq_length.
  - exact HW.
  - intros t j Ht Hj. rewrite seq_length in Ht. rewrite seq_nth by auto. cbn [Nat.add].
    rewrite (rd_ok _ _ _ 0) by (rewrite HL; nia). f_equal. rewrite Nat.add_comm. now apply HV.
  - rewrite Hfresh, CL. lia.
Qed.

Lemma volume_ok : forall rows d ref, hv_input sort2d sortd dbl_max rows d ref ->
  exists v, (pts <- rows_at (concat rows) d 0 (length rows) ;; w <- fpli_hv sort2d sortd dbl_max g pts d ref ;; Ret (Volume w)) = Ret (Volume v) /\
    HvSpec.hypervolume rows ref v.
Proof.
  intros rows d ref I. destruct (fpli_hv_exact sort2d sortd dbl_max g rows d ref I) as (v & E & H).
  exists v. split; auto. rewrite (rows_at_ok d rows 0 (length rows)).
  - cbn [skipn bind]. rewrite firstn_all, E. reflexivity.
  - destruct I as (_ & _ & _ & W & _). unfold wf_points in W. rewrite Forall_forall in W. exact W.
  - cbn. lia.
Qed.

(** ** C74: with a reference point, a row or a column of numbers *)
Theorem C74_reference : forall a b more d rows ref,
  full a d rows -> mxclassof b = Double -> values (matrix b) = ref -> (nrow (matrix b) * ncol (matrix b))%nat = length ref ->
  hv_input sort2d sortd dbl_max rows d ref ->
  exists v, mex (a :: b :: more) = Ret (Volume v) /\ HvSpec.hypervolume rows ref v.
Proof.
  intros a b more d rows ref A B V S I. destruct (volume_ok rows d ref I) as (v & E & H). exists v. split; auto.
  assert (LR : length ref = d) by apply I.
  pose proof (copied a d rows A) as C. destruct A as [CA (HN & HD & HL & HW & HV)].
  unfold mexFunction, mxIsChar, mxIsNumeric. rewrite CA, B. cbn [negb]. rewrite C. cbn [bind snd].
  rewrite HN, HD, S, LR, Nat.eqb_refl. cbn [negb]. unfold mxGetPr. rewrite B, V. unfold first_doubles.
  rewrite LR, Nat.leb_refl, <- LR, firstn_all, LR.
  change point with (list Z) in *. destruct (Nat.eqb_spec (length rows) 0) as [Z|_]; cbn [bind]; [|exact E].
  destruct rows; [|discriminate]. cbn [concat length] in E |- *.
  assert (R0 : rows_at [] d 0 0 = Ret []) by (unfold rows_at; cbn [Nat.add]; now rewrite Nat.mul_0_r).
  rewrite R0 in E |- *. exact E.
Qed.

(** ** C74: without a reference point *)
Theorem C74_maximum : forall a d rows,
  full a d rows -> rows <> [] ->
  (forall ref, greatest rows d ref -> hv_input sort2d sortd dbl_max rows d ref) ->
  exists ref v, greatest rows d ref /\ mex [a] = Ret (Volume v) /\ HvSpec.hypervolume rows ref v.
Proof.
  intros a d rows A N I.
  pose proof (copied a d rows A) as C. destruct A as [CA (HN & HD & HL & HW & HV)].
  rewrite Forall_forall in HW.
  destruct (data_maximum_ok fresh d rows Hfresh HW N) as (m & EM & G).
  destruct (volume_ok rows d m (I m G)) as (v & E & H). exists m, v. split; auto. split; auto.
  unfold mexFunction, mxIsChar, mxIsNumeric. rewrite CA. cbn [negb]. rewrite C. cbn [bind snd].
  rewrite HN, HD. change point with (list Z) in *. rewrite EM. cbn [bind]. exact E.
Qed.

(** ** C74: what is not computed *)
Theorem C74_refused : forall a b more,
  mex [] = Ret Help /\
  (mxclassof a = Char -> mex (a :: more) = Ret Help) /\
  (mxclassof a = NotNumeric -> mex (a :: more) = Ret (Error 1)) /\
  forall d rows, full a d rows ->
    ((mxclassof b = Char \/ mxclassof b = NotNumeric) -> mex (a :: b :: more) = Ret (Error 2)) /\
    (mxclassof b = Double -> d <> (nrow (matrix b) * ncol (matrix b))%nat -> mex (a :: b :: more) = Ret (Error 3)).
Proof.
  intros a b more. split; [reflexivity|]. split; [|split].
  - intros E. unfold mexFunction, mxIsChar. now rewrite E.
  - intros E. unfold mexFunction, mxIsChar, mxIsNumeric. now rewrite E.
  - intros d rows A. pose proof (copied a d rows A) as C. destruct A as [CA (HN & HD & HL & HW & HV)].
    unfold mexFunction, mxIsChar, mxIsNumeric. rewrite CA. cbn [negb]. rewrite C. cbn [bind snd]. split.
    + intros [E|E]; rewrite E; reflexivity.
    + intros E NE. rewrite E. cbn [negb]. rewrite HD. destruct (Nat.eqb_spec d (nrow (matrix b) * ncol (matrix b))); [congruence|reflexivity].
Qed.

(** ** C74: one column, no rows, and elements that are not doubles *)
Theorem C74_one_column_refuted : forall rows ref, length ref = 1%nat -> rows <> [] -> Forall (fun r => length r = 1%nat) rows ->
  mex [mkMx Double (mkMat (length rows) 1 (map (fun r => nth 0 r 0) rows)); mkMx Double (mkMat 1 1 ref)] = AssertFailed.
Proof.
  intros rows ref LR N W.
  assert (A : full (mkMx Double (mkMat (length rows) 1 (map (fun r => nth 0 r 0) rows))) 1 rows).
  { split; auto. repeat split; cbn; auto. now rewrite map_length, Nat.mul_1_r.
    intros na i j Hi Hj. replace j with 0%nat by lia. cbn [Nat.mul Nat.add].
    rewrite nth_indep with (d' := nth 0 (@nil Z) 0) by (rewrite map_length; auto).
    rewrite (map_nth (fun r => nth 0 r 0)). rewrite Forall_forall in W. specialize (W (nth i rows []) ltac:(now apply nth_In)).
    destruct (nth i rows []) as [|x [|]]; try discriminate. reflexivity. }
  pose proof (copied _ 1 rows A) as C. destruct A as [CA (HN & HD & HL & HW & HV)].
  unfold mexFunction. cbn [mxIsChar mxIsNumeric mxclassof negb]. rewrite C. cbn [bind snd matrix ncol nrow Nat.mul Nat.add Nat.eqb negb].
  destruct ref as [|r [|]]; try discriminate. destruct rows as [|p rows]; [congruence|]. cbn [length Nat.eqb].
  unfold mxGetPr. cbn [mxclassof matrix values first_doubles length Nat.leb firstn bind].
  assert (R : rows_at (concat (p :: rows)) 1 0 (length (p :: rows)) = Ret (p :: rows)).
  { rewrite (rows_at_ok 1) by (rewrite Forall_forall in W; auto). cbn [skipn]. now rewrite firstn_all. }
  cbn [length] in R. rewrite R. reflexivity.
Qed.
Theorem C74_no_rows_refuted : forall d, (0 < d)%nat -> mex [mkMx Double (mkMat 0 d [])] = OutOfBounds.
Proof.
  intros d Hd. unfold mexFunction. cbn [mxIsChar mxIsNumeric mxclassof negb matrix ncol nrow seq copy_rows bind snd].
  unfold data_maximum. destruct d as [|d]; [lia|]. cbn [seq first_row].
  replace (S d * 0)%nat with 0%nat by lia. pose proof (Hfresh 0). destruct (fresh 0); [reflexivity|discriminate].
Qed.
(** a matrix of integers, or a sparse matrix with a zero at the end, is read as if it were a full matrix of
    doubles *)
Theorem C74_not_doubles_refuted : forall m d vals more, (0 < m)%nat -> (0 < d)%nat ->
  mex (mkMx OtherNumeric (mkMat m d vals) :: more) = OutOfBounds.
Proof.
  intros m d vals more Hm Hd. unfold mexFunction. cbn [mxIsChar mxIsNumeric mxclassof negb matrix ncol nrow].
  destruct m as [|m]; [lia|]. destruct d as [|d]; [lia|]. cbn [seq copy_rows copy_row]. unfold mxGetPr. cbn [mxclassof].
  reflexivity.
Qed.
Lemma copy_row_any : forall pr m i js k data, (k + length js <= length data)%nat ->
  ((exists j, In j js /\ (length pr <= i + j * m)%nat) /\ copy_row pr m i js k data = OutOfBounds) \/
  exists data', copy_row pr m i js k data = Ret ((k + length js)%nat, data') /\ length data' = length data /\
    forall j, In j js -> (i + j * m < length pr)%nat.
Proof.
  intros pr m i js. induction js as [|j js IH]; intros k data H; cbn [copy_row length] in *.
  - right. exists data. rewrite Nat.add_0_r. repeat split; auto. intros j [].
  - destruct (Nat.lt_ge_cases (i + j * m) (length pr)) as [L|L].
    + rewrite (rd_ok _ _ _ 0) by auto. cbn [bind]. rewrite wr_ok by lia. cbn [bind].
      destruct (IH (S k) (upd data k (nth (i + j * m) pr 0))) as [[(j' & Hj & Lj) E]|(data' & E & Ld & F)].
      * rewrite upd_length. lia.
      * left. split; auto. exists j'. split; auto. now right.
      * right. exists data'. rewrite E. split. f_equal. f_equal. lia. split. now rewrite Ld, upd_length.
        intros q [<-|Hq]; auto.
    + left. split. exists j. split; auto. now left.
      unfold rd. rewrite (proj2 (nth_error_None pr (i + j * m)) L). reflexivity.
Qed.
Lemma copy_rows_short : forall pr m d is k data, (k + length is * d <= length data)%nat ->
  (exists i j, In i is /\ (j < d)%nat /\ (length pr <= i + j * m)%nat) -> copy_rows pr m d is k data = OutOfBounds.
Proof.
  intros pr m d is. induction is as [|i is IH]; intros k data H (i' & j & Hi & Hj & L). destruct Hi.
  cbn [copy_rows length] in *.
  destruct (copy_row_any pr m i (seq 0 d) k data) as [[_ E]|(data' & E & Ld & F)].
  - rewrite seq_length. nia.
  - now rewrite E.
  - rewrite E, seq_length. cbn [bind fst snd]. apply IH. rewrite Ld. nia.
    exists i', j. split; auto. destruct Hi as [<-|Hi]; auto. specialize (F j ltac:(apply in_seq; lia)). lia.
Qed.
(** a sparse matrix: fewer doubles are stored than it has elements *)
Theorem C74_sparse_refuted : forall m d vals more, (length vals < m * d)%nat ->
  mex (mkMx Double (mkMat m d vals) :: more) = OutOfBounds.
Proof.
  intros m d vals more H. unfold mexFunction, mxGetPr. cbn [mxIsChar mxIsNumeric mxclassof negb matrix ncol nrow values].
  rewrite copy_rows_short; auto.
  - rewrite seq_length, Hfresh. lia.
  - exists (m - 1)%nat, (d - 1)%nat. split. apply in_seq. nia. split; nia.
Qed.
End Mex.
Print Assumptions C74_reference.
Print Assumptions C74_maximum.
Print Assumptions C74_refused.
Print Assumptions C74_one_column_refuted.
Print Assumptions C74_no_rows_refuted.
Print Assumptions C74_not_doubles_refuted.
Print Assumptions C74_sparse_refuted.

(** ** A case: three points of three objectives, stored by columns, with the reference
    (4, 4, 4) and without *)
Definition demo : mxarray := mkMx Double (mkMat 3 3 [1; 2; 3;  3; 2; 1;  2; 2; 3]).
Definition demo_rows : list point := [[1; 3; 2]; [2; 2; 2]; [3; 1; 3]].
Definition zeros : hvst := mkst (fun _ _ => 0%nat) (fun _ _ => 0%nat) (fun _ => 0%nat) (fun _ _ => 0) (fun _ _ => 0) (fun _ => 0).
Notation run := (mexFunction sort2d_exec sortd_exec 1000 zeros (repeat 7)).
Example C74_demo :
  full demo 3 demo_rows /\ greatest demo_rows 3 [3; 3; 3] /\
  run [demo; mkMx Double (mkMat 1 3 [4; 4; 4])] = Ret (Volume 11) /\
  run [demo; mkMx Double (mkMat 3 1 [4; 4; 4])] = Ret (Volume 11) /\
  run [demo] = Ret (Volume 1) /\
  run [demo; mkMx Double (mkMat 1 2 [4; 4])] = Ret (Error 3).
Proof.
  split; [|split]; [| |repeat split; vm_compute; reflexivity].
  - split; auto. repeat split. repeat constructor.
    intros na i j Hi Hj. cbn in Hi. destruct i as [|[|[|]]]; try lia; destruct j as [|[|[|]]]; try lia; reflexivity.
  - split; auto. intros j Hj. destruct j as [|[|[|]]]; try lia; split; cbn;
    try (intros p [<-|[<-|[<-|[]]]]; cbn; lia).
    + exists [3; 1; 3]. auto.
    + exists [1; 3; 2]. auto.
    + exists [3; 1; 3]. auto.
Qed.
