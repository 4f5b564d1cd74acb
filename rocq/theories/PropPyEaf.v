(** Property C39: the Python functions eaf and eafdiff split a data set into the
    sets given by its label column.

    Specification: PyEafSpec.v, EafSpec.v.  Model: PyEafModel.v (on top of the C
    model of PropEaf.v). *)
From Coq Require Import List ZArith Lia Bool Arith Permutation Sorted QArith Lqa.
From Verif Require Import Base Spec EafSpec EafModel EafProofs EafMain EafStoreModel EafStoreProofs EafTop PropEaf
  NondomModel GroupModel GroupSpec GroupProofs PyEafModel PyEafSpec PyEafProofs.
Import ListNotations.
Open Scope Z_scope.

(** np.unique of the percentiles: increasing, no repetition, same values. *)
Theorem C39_percentiles_unique : forall ps,
  StronglySorted Qlt (np_unique_q ps) /\
  (forall q, In q (np_unique_q ps) -> In q ps) /\
  (forall q, In q ps -> exists q', In q' (np_unique_q ps) /\ (q == q')%Q).
Proof.
  intros ps. pose proof (sort_by_perm Q Qle_bool (qnodup ps)) as P. fold (np_unique_q ps) in P.
  assert (S : StronglySorted Qle (np_unique_q ps)).
  { apply sort_by_sorted; intros.
    - now apply Qle_bool_iff.
    - destruct (Qlt_le_dec b a). lra. apply Qle_bool_iff in q. congruence.
    - lra. }
  assert (I1 : forall q, In q (qnodup ps) -> In q ps).
  { clear. induction ps; simpl; intros; auto. destruct (existsb (Qeq_bool a) ps); auto.
    destruct H; auto. }
  assert (D : forall i j, (i < length (np_unique_q ps))%nat -> (j < length (np_unique_q ps))%nat -> i <> j ->
     ~ (nth i (np_unique_q ps) 0 == nth j (np_unique_q ps) 0)%Q).
  { assert (FD : ForallOrdPairs (fun a b => ~ (a == b)%Q) (qnodup ps)).
    { clear - I1. clear I1. induction ps; simpl. constructor.
      destruct (existsb (Qeq_bool a) ps) eqn:E; auto. constructor; auto.
      apply Forall_forall. intros x Hx Hq.
      assert (existsb (Qeq_bool a) ps = true); [|congruence]. apply existsb_exists. exists x. split.
      2: now apply Qeq_bool_iff.
      clear - Hx. induction ps; simpl in *; auto. destruct (existsb (Qeq_bool a) ps); auto. destruct Hx; auto. }
    assert (FD' : ForallOrdPairs (fun a b => ~ (a == b)%Q) (np_unique_q ps)).
    { clear - FD P. revert FD. induction P; intros; auto.
      - inversion FD; subst. constructor; auto. rewrite Forall_forall in *. intros.
        apply H1. eapply Permutation_in. symmetry; eauto. auto.
      - inversion FD; subst. inversion H2; subst. inversion H1; subst.
        constructor. constructor; auto. intro. apply H5. now symmetry. constructor; auto. }
    clear - FD'. generalize (np_unique_q ps) FD'. clear. induction 1; simpl; intros; try lia.
    rewrite Forall_forall in H. destruct i, j; try lia.
    - apply H. apply nth_In. lia.
    - intro E. apply (H (nth i l 0%Q)). apply nth_In. lia. now symmetry.
    - apply IHFD'; lia. }
  split; [|split].
  - assert (forall l, StronglySorted Qle l ->
      (forall i j, (i < length l)%nat -> (j < length l)%nat -> i <> j -> ~ (nth i l 0 == nth j l 0)%Q) ->
      StronglySorted Qlt l).
    { clear. induction 1; intros; constructor.
      - apply IHStronglySorted. intros. apply (H1 (S i) (S j)); simpl; lia.
      - rewrite Forall_forall in *. intros x Hx. specialize (H0 x Hx).
        destruct (In_nth _ _ 0%Q Hx) as (j & Hj & E). specialize (H1 0%nat (S j) ltac:(simpl; lia) ltac:(simpl; lia) ltac:(lia)).
        simpl in H1. rewrite E in H1. destruct (Qlt_le_dec a x); auto. exfalso. apply H1. lra. }
    auto.
  - intros q Hq. apply I1. eapply Permutation_in. symmetry. exact P. exact Hq.
  - assert (G : forall y q, In y ps -> (q == y)%Q -> exists q', In q' (qnodup ps) /\ (q == q')%Q).
    { clear. induction ps; simpl; intros. contradiction.
      destruct (existsb (Qeq_bool a) ps) eqn:E.
      - destruct H; eauto. subst. apply existsb_exists in E. destruct E as (w & Hw & E).
        apply Qeq_bool_iff in E. apply (IHps w); auto. now rewrite H0.
      - destruct H. subst. exists y. split; auto. now left.
        destruct (IHps y q H H0) as (q' & A & B). exists q'. split; auto. now right. }
    intros q Hq. destruct (G q q Hq (Qeq_refl q)) as (q' & A & B). exists q'. split; auto.
    eapply Permutation_in. exact P. exact A.
Qed.
Print Assumptions C39_percentiles_unique.

(** ** eaf with the rows sorted by label: the surfaces of the sets given by the
    labels.  Full claim: also for unsorted rows -- refuted below. *)
Theorem C39_eaf_sorted_labels_partial :
  forall sortx sorty junk grow (data : list point) (labels : list Z) (percentiles : list Q),
  data <> [] -> length labels = length data -> wf_points 2 data ->
  StronglySorted Z.le labels ->
  is_datax data (sortx data) -> is_datay data (sorty data) ->
  (forall i, 0 <= junk i < 2 ^ 64) -> (forall m r, (m <= grow m r)%nat) ->
  Z.of_nat (length data) <= (2 ^ 31 - 1) / 2 ->
  percentiles <> [] -> Forall (fun p => (0 <= p <= 100)%Q) percentiles ->
  let n := length (sets_of data labels) in
  exists ls ss, let ps := np_unique_q percentiles in
    py_eaf sortx sorty junk grow data labels percentiles =
      Ret (concat (map (fun sp => map (fun x => (x, snd sp)) (fst sp)) (combine ss ps))) /\
    Forall2 (fun p (l : nat) => (1 <= l <= n)%nat /\
       forall m : nat, ((l <= m)%nat <->
         (1 <= m)%nat /\ (inject_Z (Z.of_nat n) * p / 100 - tolerance <= inject_Z (Z.of_nat m))%Q)) ps ls /\
    Forall2 (is_surface2d (sets_of data labels)) ls ss.
Proof.
  intros sortx sorty junk grow data labels ps Hne HL HW HS Hx Hy Hj Hg Hn Hp HF n.
  destruct (sorted_labels_runs data labels (eq_sym HL) HS) as (C & E & L & N).
  destruct (C20_eaf_matrix_exact (sets_of data labels) sortx sorty junk grow (np_unique_q ps)) as (ls & ss & E1 & E2 & E3);
    rewrite ?C; auto.
  - intros Hs. apply Hne. rewrite <- C, Hs. reflexivity.
  - destruct (C39_percentiles_unique ps) as (_ & I & _). rewrite Forall_forall in *. intros q Hq. apply HF. auto.
  - exists ls, ss. cbv zeta. split; [|split; auto]. unfold py_eaf. rewrite L.
    destruct ps as [|q ps]; [contradiction|]. rewrite E. rewrite C in E1. exact E1.
Qed.
Print Assumptions C39_eaf_sorted_labels_partial.

(** Without percentiles: one surface per level 1, ..., n. *)
Theorem C39_eaf_all_levels :
  forall sortx sorty junk grow (data : list point) (labels : list Z),
  data <> [] -> length labels = length data -> wf_points 2 data ->
  StronglySorted Z.le labels ->
  is_datax data (sortx data) -> is_datay data (sorty data) ->
  (forall i, 0 <= junk i < 2 ^ 64) -> (forall m r, (m <= grow m r)%nat) ->
  Z.of_nat (length data) <= (2 ^ 31 - 1) / 2 ->
  let n := length (sets_of data labels) in
  exists ss,
    py_eaf sortx sorty junk grow data labels [] =
      Ret (concat (map (fun sp => map (fun x => (x, snd sp)) (fst sp))
             (combine ss (map (fun i => inject_Z (Z.of_nat i) * (100 / inject_Z (Z.of_nat n)))%Q (seq 1 n))))) /\
    Forall2 (is_surface2d (sets_of data labels)) (seq 1 n) ss.
Proof.
  intros sortx sorty junk grow data labels Hne HL HW HS Hx Hy Hj Hg Hn n.
  destruct (sorted_labels_runs data labels (eq_sym HL) HS) as (C & E & L & N).
  assert (Hs : sets_of data labels <> []) by (intros Hs; apply Hne; rewrite <- C, Hs; reflexivity).
  assert (Hn1 : (1 <= n)%nat) by (unfold n; destruct (sets_of data labels); [contradiction|simpl; lia]).
  assert (HnQ : (0 < inject_Z (Z.of_nat n))%Q) by (change 0%Q with (inject_Z 0); rewrite <- Zlt_Qlt; lia).
  assert (X : forall i, (1 <= i <= n)%nat ->
     (inject_Z (Z.of_nat n) * (inject_Z (Z.of_nat i) * (100 / inject_Z (Z.of_nat n))) / 100 == inject_Z (Z.of_nat i))%Q).
  { intros. field. lra. }
  destruct (C20_eaf_matrix_exact (sets_of data labels) sortx sorty junk grow (all_percentiles n)) as (ls & ss & E1 & E2 & E3);
    rewrite ?C; auto.
  - apply Forall_forall. intros q Hq. apply in_map_iff in Hq. destruct Hq as (i & <- & Hi). apply in_seq in Hi.
    specialize (X i ltac:(lia)). change (inject_Z 100) with 100%Q.
    set (q := (inject_Z (Z.of_nat i) * (100 / inject_Z (Z.of_nat n)))%Q) in *.
    assert (Hi0 : (0 <= inject_Z (Z.of_nat i))%Q) by (change 0%Q with (inject_Z 0); rewrite <- Zle_Qle; lia).
    assert (Hin : (inject_Z (Z.of_nat i) <= inject_Z (Z.of_nat n))%Q) by (rewrite <- Zle_Qle; lia).
    assert (Eq : (q == inject_Z (Z.of_nat i) * 100 / inject_Z (Z.of_nat n))%Q) by (unfold q; field; lra).
    rewrite Eq. split.
    + apply Qle_shift_div_l; auto. lra.
    + apply Qle_shift_div_r; auto. lra.
  - exists ss.
    assert (Els : ls = seq 1 n).
    { apply (list_ext _ 0%nat).
      - rewrite seq_length. clear - E2. apply Forall2_length' in E2 || idtac.
        assert (length ls = length (all_percentiles n)) as ->.
        { clear - E2. induction E2; simpl; auto. }
        unfold all_percentiles. now rewrite map_length, seq_length.
      - intros i Hi.
        assert (Li : length ls = n).
        { assert (length ls = length (all_percentiles n)) as ->.
          { clear - E2. induction E2; simpl; auto. }
          unfold all_percentiles. now rewrite map_length, seq_length. }
        rewrite seq_nth by lia.
        assert (G : forall (R : Q -> nat -> Prop) ps (l : list nat) i, Forall2 R ps l -> (i < length l)%nat -> R (nth i ps 0%Q) (nth i l 0%nat)).
        { clear. intros R ps l i F. revert i. induction F; simpl; intros. lia. destruct i; auto. apply IHF. lia. }
        specialize (G _ _ _ i E2 Hi). cbv beta in G. destruct G as [[G1 G1'] G2].
        unfold all_percentiles in G2. rewrite (nth_map_lt _ _ _ _ i _ 0%nat) in G2 by (rewrite seq_length; lia).
        rewrite seq_nth in G2 by lia. fold n in G2.
        assert (T0 : (0 < tolerance)%Q) by reflexivity. assert (T1 : (tolerance < 1)%Q) by reflexivity.
        assert (G3 : forall m, (nth i ls 0 <= m <-> 1 <= m /\ 1 + i <= m)%nat).
        { intros m. rewrite G2. change (inject_Z 100) with 100%Q. rewrite X by lia.
          split; intros [A B]; split; auto.
          - destruct (le_lt_dec (1 + i) m); auto. exfalso.
            assert (inject_Z (Z.of_nat m) + 1 <= inject_Z (Z.of_nat (1 + i)))%Q.
            { change 1%Q with (inject_Z 1). rewrite <- inject_Z_plus, <- Zle_Qle. lia. } lra.
          - assert (inject_Z (Z.of_nat (1 + i)) <= inject_Z (Z.of_nat m))%Q by (rewrite <- Zle_Qle; lia). lra. }
        pose proof (proj1 (G3 (nth i ls 0%nat)) ltac:(lia)).
        pose proof (proj2 (G3 (1 + i)%nat) ltac:(lia)). lia. }
    split.
    + unfold py_eaf. rewrite L. rewrite E. rewrite C in E1. exact E1.
    + rewrite <- Els. exact E3.
Qed.
Print Assumptions C39_eaf_all_levels.

(** ** With rows not sorted by label the rows are given to the wrong sets:
    two rows of set 2 followed by one row of set 1.  Both sets attain (2,2),
    but the surface of level 2 that is returned does not contain it. *)
Definition junk0 (i : nat) : Z := 17 * (Z.of_nat i mod 1000).
Theorem C39_eaf_unsorted_labels_refuted :
  let data := [[2; 1]; [1; 2]; [1; 1]] in let labels := [2; 2; 1] in
  sets_of data labels = [[[2; 1]; [1; 2]]; [[1; 1]]] /\
  py_eaf sortx_exec sorty_exec junk0 grow_exec data labels [100 # 1]%Q = Ret [([2; 1], 100 # 1)] /\
  attained_by_at_least 2 2 (sets_of data labels) [1; 2].
Proof.
  cbv zeta. split. reflexivity. split. vm_compute. reflexivity.
  exists [0; 1]%nat. split. repeat constructor; simpl; intuition lia. split; auto.
  intros k Hk. simpl in Hk. destruct Hk as [<-|[<-|[]]]; (split; [simpl; lia|]).
  - exists [1; 2]. split. right; left; reflexivity. apply wdom2_iff; unfold coord; simpl; lia.
  - exists [1; 1]. split. left; reflexivity. apply wdom2_iff; unfold coord; simpl; lia.
Qed.
Print Assumptions C39_eaf_unsorted_labels_refuted.

(** ** eafdiff sorts the rows first, so any order of the rows is fine.  The two
    data sets must have the same number of sets (otherwise see C21). *)
Theorem C39_eafdiff_exact :
  forall (argsort : list Z -> list nat) sortx sorty junk grow x lx y ly intervals (maximise : list bool),
  valid_argsort Z.le argsort ->
  (forall d, is_datax d (sortx d)) -> (forall d, is_datay d (sorty d)) ->
  (forall i, 0 <= junk i < 2 ^ 64) -> (forall m r, (m <= grow m r)%nat) ->
  x <> [] -> y <> [] -> length lx = length x -> length ly = length y ->
  wf_points 2 x -> wf_points 2 y -> length maximise = 2%nat ->
  length (sets_of x lx) = length (sets_of y ly) ->
  Z.of_nat (length x + length y) <= (2 ^ 31 - 1) / 2 ->
  let n := length (sets_of x lx) in
  let iv := match intervals with None => n | Some i => Nat.min i n end in
  exists out ss,
    py_eafdiff argsort sortx sorty junk grow x lx y ly intervals maximise = Ret out /\
    (* the points are those of all attainment surfaces of the 2n sets, once each *)
    Forall2 (is_surface_mx maximise (sets_of x lx ++ sets_of y ly)) (seq 1 (2 * n)) ss /\
    (forall p, In p (map fst out) <-> exists s, In s ss /\ In p s) /\
    NoDup (map fst out) /\
    (* the value is the difference of the two EAFs *)
    (forall p c, In (p, c) out -> exists L R,
       exactly_attain maximise L (sets_of x lx) p /\ exactly_attain maximise R (sets_of y ly) p /\
       (c == inject_Z (Z.of_nat iv) *
          (inject_Z (Z.of_nat L) / inject_Z (Z.of_nat n) - inject_Z (Z.of_nat R) / inject_Z (Z.of_nat n)))%Q).
Proof.
  intros argsort sortx sorty junk grow x lx y ly intervals mx HA Hsx Hsy Hj Hg Hx Hy HLx HLy HWx HWy Hm Hneq Hsz n iv.
  destruct (HA lx) as [Px Sx]. destruct (HA ly) as [Py Sy]. specialize (Sx 0). specialize (Sy 0).
  set (ix := argsort lx) in *. set (iy := argsort ly) in *.
  set (x' := map (fun i => nth i x []) ix). set (lx' := map (fun i => nth i lx 0) ix) in *.
  set (y' := map (fun i => nth i y []) iy). set (ly' := map (fun i => nth i ly 0) iy) in *.
  assert (Ix : forall i, In i ix -> (i < length lx)%nat).
  { intros i Hi. apply (Permutation_in _ (Permutation_sym Px)), in_seq in Hi. lia. }
  assert (Iy : forall i, In i iy -> (i < length ly)%nat).
  { intros i Hi. apply (Permutation_in _ (Permutation_sym Py)), in_seq in Hi. lia. }
  assert (Lix : length ix = length lx) by (rewrite <- (Permutation_length Px); apply seq_length).
  assert (Liy : length iy = length ly) by (rewrite <- (Permutation_length Py); apply seq_length).
  assert (Lx' : length x' = length lx') by (unfold x', lx'; now rewrite !map_length).
  assert (Ly' : length y' = length ly') by (unfold y', ly'; now rewrite !map_length).
  destruct (sorted_labels_runs x' lx' Lx' Sx) as (Cx & Ex & LLx & Nx).
  destruct (sorted_labels_runs y' ly' Ly' Sy) as (Cy & Ey & LLy & Ny).
  pose proof (matched_argsorted mx x lx ix [] (eq_sym HLx) Px Sx) as Mx. fold x' lx' in Mx.
  pose proof (matched_argsorted mx y ly iy [] (eq_sym HLy) Py Sy) as My. fold y' ly' in My.
  set (rx := map (map (neg_cols mx)) (sets_of x' lx')) in *.
  set (ry := map (map (neg_cols mx)) (sets_of y' ly')) in *.
  assert (Lrx : length rx = n) by (symmetry; apply Mx).
  assert (Lry : length ry = n) by (unfold n; rewrite Hneq; symmetry; apply My).
  set (runs := rx ++ ry).
  assert (Lr : length runs = (2 * n)%nat) by (unfold runs; rewrite app_length; lia).
  assert (Cr : concat runs = map (neg_cols mx) (x' ++ y')).
  { unfold runs, rx, ry. now rewrite concat_app, !concat_map_map, Cx, Cy, map_app. }
  assert (Hsxne : sets_of x lx <> []).
  { destruct x; [contradiction|]. destruct lx; [discriminate|]. discriminate. }
  assert (Hn1 : (1 <= n)%nat) by (unfold n; destruct (sets_of x lx); [contradiction|simpl; lia]).
  assert (Hwf' : forall p, In p (x' ++ y') -> length p = 2%nat).
  { unfold wf_points in *. rewrite Forall_forall in HWx, HWy. intros p Hp. apply in_app_iff in Hp.
    destruct Hp as [Hp|Hp]; apply in_map_iff in Hp; destruct Hp as (i & <- & Hi).
    apply HWx, nth_In. rewrite <- HLx. auto. apply HWy, nth_In. rewrite <- HLy. auto. }
  assert (Mr : matched mx (sets_of x lx ++ sets_of y ly) runs) by now apply matched_app.
  assert (Hs1 : forall z l, length l = length z -> wf_points 2 z -> wf_points 2 (concat (sets_of z l))).
  { intros z l Hl W. unfold wf_points in *. rewrite Forall_forall in *. intros p Hp. apply in_concat in Hp.
    destruct Hp as (r & Hr & Hp). apply in_map_iff in Hr. destruct Hr as (v & <- & _). apply W.
    clear - Hp. revert l Hp. induction z; destruct l; simpl; intros; try contradiction.
    destruct (z0 =? v); simpl in *; eauto. destruct Hp; eauto. }
  assert (HWr : wf_points 2 (concat (sets_of x lx ++ sets_of y ly))).
  { rewrite concat_app. apply Forall_app. split; apply Hs1; auto. }
  assert (Hsz' : length (x' ++ y') = (length x + length y)%nat).
  { rewrite app_length. unfold x', y'. rewrite !map_length. lia. }
  destruct (C21_eafdiff_exact runs sortx sorty junk grow iv) as (rs & E & Sf & Dv); auto.
  - lia.
  - intros r Hr. unfold runs, rx, ry in Hr. rewrite in_app_iff, !in_map_iff in Hr.
    destruct Hr as [(r0 & <- & Hr0)|(r0 & <- & Hr0)].
    intro M. apply map_eq_nil in M. apply (Nx r0); auto. intro M. apply map_eq_nil in M. apply (Ny r0); auto.
  - rewrite Cr. unfold wf_points. rewrite Forall_forall. intros p Hp. apply in_map_iff in Hp.
    destruct Hp as (q & <- & Hq). rewrite neg_cols_length. now apply Hwf'.
  - rewrite Cr, map_length, Hsz'. exact Hsz.
  - set (nc := fun r : point * Q => (neg_cols mx (fst r), snd r)).
    exists (map nc (unique_rows (concat rs))), (map (fun s => map (fun r => neg_cols mx (fst r)) s) rs).
    assert (Wrs : forall s p c, In s rs -> In (p, c) s -> length p = 2%nat).
    { intros s p c Hs Hp. assert (In (map fst s) (map (map fst) rs)) by now apply in_map.
      assert (W2 : exists l, is_surface2d runs l (map fst s)).
      { clear - Sf H. induction Sf; simpl in *. contradiction. destruct H; subst; eauto. }
      destruct W2 as (l & W & _). unfold wf_points in W. rewrite Forall_forall in W. apply W.
      apply in_map_iff. exists (p, c). auto. }
    assert (DvIn : forall p c, In (p, c) (concat rs) -> diff_value runs iv p c).
    { intros p c Hp. apply in_concat in Hp. destruct Hp as (s & Hs & Hp). rewrite Forall_forall in Dv.
      specialize (Dv s Hs). rewrite Forall_forall in Dv. apply (Dv (p, c) Hp). }
    split; [|split; [|split; [|split]]].
    + (* the computation *)
      unfold py_eafdiff. fold ix iy. rewrite (take_ok _ x [] ix) by (intros; rewrite <- HLx; auto).
      rewrite (take_ok _ lx 0 ix) by auto. rewrite (take_ok _ y [] iy) by (intros; rewrite <- HLy; auto).
      rewrite (take_ok _ ly 0 iy) by auto. cbn [bind]. fold x' y' lx' ly'. rewrite Ex, Ey.
      assert (Lcs : forall (rr : list (list point)) acc, length (cumsizes_from acc rr) = length rr).
      { induction rr; simpl; auto. }
      assert (Lastc : forall (rr : list (list point)) acc, rr <> [] ->
         nth (length (cumsizes_from acc rr) - 1) (cumsizes_from acc rr) 0%nat = (acc + length (concat rr))%nat).
      { induction rr as [|r rr IH]; intros acc H; [contradiction|]. cbn [cumsizes_from length].
        replace (S (length (cumsizes_from (acc + length r) rr)) - 1)%nat with (length (cumsizes_from (acc + length r) rr)) by lia.
        rewrite Lcs. destruct rr as [|r' rr].
        - cbn [length concat]. rewrite app_nil_r. reflexivity.
        - specialize (IH (acc + length r)%nat ltac:(discriminate)). rewrite Lcs in IH. cbn [length] in IH |- *.
          cbn [nth]. replace (S (length rr)) with (S (length rr) - 0)%nat by lia.
          replace (S (length rr) - 0 )%nat with (S (length rr)) by lia.
          cbn [nth]. replace (S (length rr) - 1)%nat with (length rr) in IH by lia.
          rewrite IH. cbn [concat]. rewrite !app_length. lia. }
      assert (Appc : forall (r1 r2 : list (list point)) acc, cumsizes_from acc (r1 ++ r2) =
         cumsizes_from acc r1 ++ cumsizes_from (acc + length (concat r1)) r2).
      { induction r1; intros; cbn [app concat cumsizes_from]. now rewrite Nat.add_0_r.
        rewrite IHr1, app_length, Nat.add_assoc. reflexivity. }
      assert (Shc : forall (rr : list (list point)) acc k, cumsizes_from (k + acc) rr = map (fun c => (k + c)%nat) (cumsizes_from acc rr)).
      { induction rr; intros; cbn [cumsizes_from map]; auto. rewrite <- IHrr. now rewrite Nat.add_assoc. }
      assert (Mapc : forall (rr : list (list point)) acc, cumsizes_from acc (map (map (neg_cols mx)) rr) = cumsizes_from acc rr).
      { induction rr; intros; cbn [cumsizes_from map]; auto. now rewrite map_length, IHrr. }
      assert (Sne : sets_of x' lx' <> []).
      { intros S0. apply (f_equal (@length _)) in S0. unfold rx in Lrx. rewrite map_length in Lrx. rewrite S0 in Lrx. simpl in Lrx. lia. }
      rewrite (rd_ok _ _ _ 0%nat).
      2:{ unfold cumsizes. rewrite Lcs. destruct (sets_of x' lx'); [contradiction|simpl; lia]. }
      pose proof (Lastc (sets_of x' lx') 0%nat Sne) as LC. fold (cumsizes (sets_of x' lx')) in LC.
      rewrite LC. cbn [bind Nat.add].
      assert (Ecs : cumsizes (sets_of x' lx') ++ map (fun c => (length (concat (sets_of x' lx')) + c)%nat) (cumsizes (sets_of y' ly'))
               = cumsizes runs).
      { unfold cumsizes, runs, rx, ry. rewrite Appc, !Mapc. rewrite concat_map_map, map_length. cbn [Nat.add]. f_equal.
        rewrite <- Shc. f_equal. lia. }
      rewrite Ecs.
      assert (Lcr : length (cumsizes runs) = (2 * n)%nat) by (unfold cumsizes; rewrite Lcs; exact Lr).
      rewrite Lcr. assert (Hdiv : (2 * n / 2 = n)%nat) by (rewrite Nat.mul_comm; apply Nat.div_mul; lia).
      rewrite Hdiv. fold iv. rewrite <- Cr. rewrite <- Lr at 1. rewrite E. reflexivity.
    + (* surfaces *)
      rewrite Lr in Sf. clear - Sf Hm HWr Mr.
      remember (seq 1 (2 * n)) as lv. assert (Hlv : forall l, In l lv -> (1 <= l)%nat).
      { subst. intros. apply in_seq in H. lia. } clear Heqlv.
      revert lv Sf Hlv. induction rs as [|s rs IH]; intros lv Sf Hlv; inversion Sf; subst; constructor.
      2: { apply IH; auto. intros; apply Hlv; now right. }
      destruct H2 as (W & St & Ex). unfold wf_points in W. rewrite Forall_forall in W.
      assert (W' : forall r, In r s -> length (fst r) = 2%nat) by (intros; apply W, in_map; auto).
      split; [|split].
      * unfold wf_points. apply Forall_forall. intros p Hp. apply in_map_iff in Hp. destruct Hp as (r & <- & Hr).
        rewrite neg_cols_length. auto.
      * intros p q Hp Hq Wd. apply in_map_iff in Hp, Hq. destruct Hp as (r & <- & Hr). destruct Hq as (r' & <- & Hr').
        f_equal. apply (staircase_incomparable (map fst s)); auto using in_map.
        apply (neg_cols_wdom mx) in Wd; rewrite ?neg_cols_length; auto. rewrite !neg_cols_invol in Wd. exact Wd.
      * intros z Hz. rewrite <- (matched_atleast mx _ runs); auto. rewrite <- Ex by now rewrite neg_cols_length.
        split; intros (p & Hp & Wd); apply in_map_iff in Hp; destruct Hp as (r & <- & Hr).
        -- exists (fst r). split. now apply in_map. apply (neg_cols_wdom mx) in Wd; rewrite ?neg_cols_length; auto.
           now rewrite neg_cols_invol in Wd.
        -- exists (neg_cols mx (fst r)). split. apply in_map_iff; eauto.
           apply neg_cols_wdom; rewrite ?neg_cols_length; auto. now rewrite neg_cols_invol.
    + intros p. rewrite map_map. unfold nc. cbn [fst]. split.
      * intros Hp. apply in_map_iff in Hp. destruct Hp as (r & <- & Hr). apply unique_rows_In, in_concat in Hr.
        destruct Hr as (s & Hs & Hr). exists (map (fun r => neg_cols mx (fst r)) s). split.
        now apply (in_map (fun s => map (fun r => neg_cols mx (fst r)) s)).
        now apply (in_map (fun r => neg_cols mx (fst r))).
      * intros (s' & Hs' & Hp). apply in_map_iff in Hs'. destruct Hs' as (s & <- & Hs).
        apply in_map_iff in Hp. destruct Hp as ((q & c) & <- & Hr).
        destruct (unique_rows_fst (concat rs) q c) as (c' & Hc & _). apply in_concat; eauto.
        apply in_map_iff. exists (q, c'). auto.
    + rewrite map_map. unfold nc. cbn [fst]. rewrite <- (map_map fst (neg_cols mx)).
      apply NoDup_map_in.
      * intros a b _ _ Eab. rewrite <- (neg_cols_invol mx a), <- (neg_cols_invol mx b). now rewrite Eab.
      * apply unique_rows_NoDup. intros p c c' H1 H2. apply DvIn in H1, H2.
        destruct H1 as (L1 & R1 & A1 & B1 & V1). destruct H2 as (L2 & R2 & A2 & B2 & V2).
        rewrite (exactly_unique _ _ _ _ _ A1 A2) in V1. rewrite (exactly_unique _ _ _ _ _ B1 B2) in V1.
        rewrite V1, V2. reflexivity.
    + intros p c Hp. unfold nc in Hp. apply in_map_iff in Hp. destruct Hp as ((q & c0) & Eq & Hq).
      cbn [fst snd] in Eq. inversion Eq; subst; clear Eq. apply unique_rows_In in Hq.
      assert (Lq : length q = 2%nat). { apply in_concat in Hq. destruct Hq as (s & Hs & Hq). eauto. }
      destruct (DvIn _ _ Hq) as (L & R & A & B & V). rewrite Lr in A, B, V.
      assert (Hdiv : (2 * n / 2 = n)%nat) by (rewrite Nat.mul_comm; apply Nat.div_mul; lia).
      rewrite Hdiv in A, B, V. replace (2 * n - n)%nat with n in V by lia.
      assert (F1 : firstn n runs = rx). { unfold runs. rewrite <- Lrx, firstn_app, Nat.sub_diag, firstn_all. simpl. apply app_nil_r. }
      assert (F2 : skipn n runs = ry). { unfold runs. rewrite <- Lrx, skipn_app, Nat.sub_diag, skipn_all. reflexivity. }
      rewrite F1 in A. rewrite F2 in B. exists L, R. split; [|split; auto].
      * apply (matched_exactly mx _ rx); auto. now rewrite neg_cols_length. now rewrite neg_cols_invol.
      * apply (matched_exactly mx _ ry); auto. now rewrite neg_cols_length. now rewrite neg_cols_invol.
Qed.
Print Assumptions C39_eafdiff_exact.

(** ** Non-vacuity *)
Definition argsort_z (l : list Z) : list nat :=
  sort_by (fun i j => nth i l 0 <=? nth j l 0) (seq 0 (length l)).
Example C39_nonvacuous :
  py_eaf sortx_exec sorty_exec junk0 grow_exec [[1;1];[2;1];[1;2]] [1;2;2] [100 # 1; 50 # 1; 200 # 2]%Q
    = Ret [([1;1], 50 # 1); ([1;2], 200 # 2); ([2;1], 200 # 2)] /\
  sets_of [[1;1];[2;1];[1;2]] [1;2;2] = [[[1;1]];[[2;1];[1;2]]] /\
  py_eafdiff argsort_z sortx_exec sorty_exec junk0 grow_exec
     [[3;3];[1;5];[2;4]] [2;1;2] [[2;4];[4;1]] [5;9] None [false;true]
    = Ret [([1;5], 4 # 4); ([2;4], 4 # 4); ([4;1], 0 # 4)] /\
  sets_of [[3;3];[1;5];[2;4]] [2;1;2] = [[[3;3];[2;4]];[[1;5]]].
Proof.
  split. vm_compute. reflexivity. split. reflexivity. split. vm_compute. reflexivity. reflexivity.
Qed.
