(** C67: the R functions eaf and eafdiff.
    Specification: RMatSpec.v, REafSpec.v, PyEafSpec.v.  Model: REafModel.v. *)
From Coq Require Import List ZArith QArith Qround Lia Lqa Bool Arith Permutation Sorted.
From Verif Require Import Base Spec EafSpec EafModel EafProofs EafMain EafStoreModel EafStoreProofs EafTop Eaf3dSpec Eaf3dModel Eaf3dTop EafMainModel EafMainProofs
  NondomModel GroupModel GroupSpec GroupProofs PyEafModel PyEafSpec PyEafProofs CmdModel HvShiftModel RMatModel RMatSpec RMatProofs REafModel REafSpec REafProofs.
Import ListNotations.
Open Scope Z_scope.

Section C67.
Variables (sortx sorty sortz : list point -> list nat) (junk : nat -> Z) (grow : nat -> nat -> nat) (dbl_max : Z).
Variable fresh : nat -> Q.
Variable order : list Z -> list nat.
Local Notation compute_eaf_C := (compute_eaf_C sortx sorty sortz junk grow (- dbl_max) dbl_max fresh).
Local Notation compute_eafdiff_C := (compute_eafdiff_C sortx sorty sortz junk grow (- dbl_max) dbl_max fresh).
Local Notation compute_1_eaf := (compute_1_eaf sortx sorty sortz junk grow (- dbl_max) dbl_max fresh order).
Local Notation r_eaf := (r_eaf sortx sorty sortz junk grow (- dbl_max) dbl_max fresh order).
Local Notation r_eaf_groups := (r_eaf_groups sortx sorty sortz junk grow (- dbl_max) dbl_max fresh order).
Local Notation eaf_groups := (eaf_groups sortx sorty sortz junk grow (- dbl_max) dbl_max fresh order).
Local Notation r_eafdiff := (r_eafdiff sortx sorty sortz junk grow (- dbl_max) dbl_max fresh order).

(** the sorting functions of C and R sort, and memory can grow *)
Definition machine_ok : Prop :=
  (forall l, is_datax l (sortx l)) /\ (forall l, is_datay l (sorty l)) /\ (forall l, is_dataz l (sortz l)) /\
  (forall i, 0 <= junk i < 2 ^ 64) /\ (forall m r, (m <= grow m r)%nat) /\ valid_argsort Z.le order /\ 0 < dbl_max.
(** two objectives, or three objectives with the coordinates in the range of the
    sentinels; the number of points of a surface is an int *)
Definition fits (d : nat) (pts : list point) : Prop :=
  d = 2%nat /\ Z.of_nat (length pts) <= (2 ^ 31 - 1) / 2 \/
  d = 3%nat /\ (forall p i, In p pts -> (i < 2)%nat -> Z.abs (coord p i) < dbl_max) /\
    Z.of_nat (length pts) * Z.of_nat (length pts) <= (2 ^ 31 - 1) / 2.

Lemma attsurf_ok : forall d runs levels, machine_ok -> fits d (concat runs) -> runs <> [] -> (forall r, In r runs -> r <> []) ->
  wf_points d (concat runs) -> Forall (fun l => (1 <= l <= length runs)%nat) levels ->
  exists es ss, attsurf sortx sorty sortz junk grow (- dbl_max) dbl_max (concat runs) d (cumsizes runs) (length runs) (map Z.of_nat levels) = Ret (Some es) /\
    Forall2 (holds d (length runs)) es ss /\
    Forall (Forall (fun o : point * list bool => length (fst o) = d /\ length (snd o) = length runs)) ss /\
    Forall2 (fun l s => is_surface d runs l (map fst s) /\ forall p flags, In (p, flags) s -> length flags = length runs /\
       forall k, (k < length runs)%nat -> (nth k flags false = true <-> attains d (nth k runs []) p)) levels ss.
Proof.
  intros d runs levels (M1 & M2 & M3 & M4 & M5 & M6 & M7) F Hr Hne W Hl. destruct F as [[-> F]|(-> & F1 & F2)].
  - now apply attsurf2_ok.
  - apply attsurf3_ok; auto. lia. intros p Hp. pose proof (F1 p 0%nat Hp ltac:(lia)). pose proof (F1 p 1%nat Hp ltac:(lia)). lia.
Qed.
Lemma fits_dim : forall d pts, fits d pts -> (2 <= d)%nat.
Proof. intros d pts [[-> _]|[-> _]]; lia. Qed.
Lemma level2percentile_ok : forall l n, 1 <= n -> (level2percentile l n * inject_Z n == inject_Z l * 100)%Q.
Proof.
  intros l n Hn. unfold level2percentile. destruct (Z.eqb_spec l n) as [->|N]. { change (inject_Z 100) with 100%Q. lra. }
  change (inject_Z 100) with 100%Q. field. change 0%Q with (inject_Z 0). rewrite inject_Z_injective. lia.
Qed.
Lemma forall2_l : forall A B (R : A -> B -> Prop) l l', Forall2 R l l' -> length l = length l'.
Proof. intros A B R l l' F. induction F; cbn; congruence. Qed.

(** compute_eaf_C *)
Lemma compute_eaf_ok : forall d runs m percentile, machine_ok -> fits d (concat runs) -> runs <> [] -> (forall r, In r runs -> r <> []) ->
  wf_points d (concat runs) -> nrow m = d -> c_rows m = Ret (concat runs) ->
  match percentile with Some ps => Forall (fun p => (0 <= p <= 100)%Q) ps | None => True end ->
  exists qs ls ss M, compute_eaf_C m (cumsizes runs) percentile = Ret M /\ has_rows M (S d) (map out_row (flat ss qs)) /\
    Forall2 (is_surface d runs) ls ss /\ length qs = length ss /\
    match percentile with
    | Some ps => qs = ps /\ Forall2 (fun p (l : nat) => (1 <= l <= length runs)%nat /\
       forall m : nat, ((l <= m)%nat <-> (1 <= m)%nat /\ (inject_Z (Z.of_nat (length runs)) * p / 100 - tolerance <= inject_Z (Z.of_nat m))%Q)) ps ls
    | None => ls = seq 1 (length runs) /\ Forall2 (fun q (l : nat) => (q * inject_Z (Z.of_nat (length runs)) == inject_Z (Z.of_nat l) * 100)%Q) qs ls
    end.
Proof.
  intros d runs m percentile MO F Hr Hne W Nm Cm Hp.
  assert (Lc : length (cumsizes runs) = length runs). { unfold cumsizes. generalize 0%nat. clear. induction runs; intros; cbn; auto. }
  assert (Hn : (1 <= length runs)%nat) by (destruct runs; [congruence|cbn; lia]).
  assert (X : exists qs ls, levels_from_percentiles percentile (match percentile with Some ps => length ps | None => length runs end) (length runs) = Ret (map Z.of_nat ls) /\
     Forall (fun l => (1 <= l <= length runs)%nat) ls /\ length qs = length ls /\
     (forall i, (i < length ls)%nat -> match percentile with Some l => (0 + i < length l)%nat /\ nth (0 + i) l 0%Q = nth i qs 0%Q
        | None => level2percentile (Z.of_nat (0 + i + 1)) (Z.of_nat (length runs)) = nth i qs 0%Q end) /\
     match percentile with
    | Some ps => qs = ps /\ Forall2 (fun p (l : nat) => (1 <= l <= length runs)%nat /\
       forall m : nat, ((l <= m)%nat <-> (1 <= m)%nat /\ (inject_Z (Z.of_nat (length runs)) * p / 100 - tolerance <= inject_Z (Z.of_nat m))%Q)) ps ls
    | None => ls = seq 1 (length runs) /\ Forall2 (fun q (l : nat) => (q * inject_Z (Z.of_nat (length runs)) == inject_Z (Z.of_nat l) * 100)%Q) qs ls
    end).
  { destruct percentile as [ps|].
    - destruct (percentiles_levels (length runs) ps Hn Hp) as (ls & E & G). exists ps, ls. pose proof (forall2_l _ _ _ _ _ G) as L.
      split; [unfold levels_from_percentiles; now rewrite firstn_all|]. split. { clear - G. induction G as [|? ? ? ? [A _] G]; constructor; auto. }
      split; auto. split; auto. intros i Hi. split; auto. cbn. lia.
    - exists (map (fun l => level2percentile (Z.of_nat l) (Z.of_nat (length runs))) (seq 1 (length runs))), (seq 1 (length runs)).
      split. { unfold levels_from_percentiles. rewrite Nat.eqb_refl. cbn [assert_ bind]. f_equal. rewrite <- seq_shift, map_map. apply map_ext. intros k. f_equal. lia. }
      split. { apply Forall_forall. intros l Hl. apply in_seq in Hl. lia. }
      split; [now rewrite map_length|]. split. { rewrite seq_length. intros i Hi. rewrite (nth_map_in _ _ i 0%Q 0%nat) by (now rewrite seq_length). rewrite seq_nth by auto. do 2 f_equal. lia. }
      split; auto. generalize (seq 1 (length runs)). intros l. induction l; cbn [map]; constructor; auto. apply level2percentile_ok. lia. }
  destruct X as (qs & ls & El & Fl & Lq & Hq & Hc).
  destruct (attsurf_ok d runs ls MO F Hr Hne W Fl) as (es & ss & E & Hh & Wf & Sf).
  pose proof (forall2_l _ _ _ _ _ Sf) as Lss.
  assert (Sf' : Forall2 (is_surface d runs) ls (map (map fst) ss)). { clear - Sf. induction Sf as [|l s ls ss [A _] Sf]; cbn; constructor; auto. }
  unfold REafModel.compute_eaf_C, compute_eaf_helper. rewrite Nm, Lc, El. cbn [bind]. rewrite Cm. cbn [bind]. rewrite E. cbn [bind].
  rewrite (eaf2matrix_gen d (length runs) es ss Hh Wf percentile _ 0 qs); [|exact (eq_trans Lq Lss)|].
  2:{ intros i Hi. specialize (Hq i ltac:(lia)). destruct percentile; auto. }
  cbn [bind]. rewrite (totalpoints_ok d (length runs) es ss Hh).
  destruct (result_matrix_ok fresh (length (concat (map (map fst) ss))) d (flat (map (map fst) ss) qs)) as (M & EM & HM).
  - symmetry. apply flat_length. rewrite map_length. exact (eq_trans Lq Lss).
  - apply Forall_forall. intros r Hr'. destruct (flat_In (map (map fst) ss) qs r (eq_trans (eq_trans Lq Lss) (eq_sym (map_length _ _))) Hr') as (s & Hs & Hf).
    apply in_map_iff in Hs. destruct Hs as (s0 & <- & Hs0). apply in_map_iff in Hf. destruct Hf as (o & <- & Ho). rewrite Forall_forall in Wf. specialize (Wf s0 Hs0).
    rewrite Forall_forall in Wf. now apply Wf.
  - exists qs, ls, (map (map fst) ss), M. split; auto. split; auto. split; auto. split; [rewrite map_length; exact (eq_trans Lq Lss)|]. exact Hc.
Qed.

(** the sets as C sees them *)
Definition sorted_rows (rows : list point) (labels : list Z) : list point := map (fun i => nth i rows []) (order labels).
Definition sorted_labels (labels : list Z) : list Z := map (fun i => nth i labels 0) (order labels).
Definition c_runs (mx : list bool) (rows : list point) (labels : list Z) : list (list point) :=
  map (map (neg_cols mx)) (sets_of (sorted_rows rows labels) (sorted_labels labels)).
Lemma map_cumsizes : forall mx runs, cumsizes (map (map (neg_cols mx)) runs) = cumsizes runs.
Proof. intros mx runs. unfold cumsizes. generalize 0%nat. induction runs; intros; cbn [cumsizes_from map]; auto. now rewrite map_length, IHruns. Qed.
Lemma c_runs_ok : forall mx d rows labels, machine_ok -> length labels = length rows -> rows <> [] -> wf_points d rows ->
  let runs := c_runs mx rows labels in
  (forall i, In i (order labels) -> (i < length rows)%nat) /\ length (order labels) = length rows /\
  concat runs = map (neg_cols mx) (sorted_rows rows labels) /\ np_cumsum (unique_counts (sorted_labels labels)) = cumsizes runs /\
  np_cumsum (unique_counts labels) = cumsizes runs /\
  matched mx (sets_of rows labels) runs /\ runs <> [] /\ (forall r, In r runs -> r <> []) /\ wf_points d (concat runs) /\
  (forall p, In p (concat runs) -> exists q, In q rows /\ p = neg_cols mx q) /\ wf_points d (concat (sets_of rows labels)).
Proof.
  intros mx d rows labels (_ & _ & _ & _ & _ & HA & _) HL Ne W runs. destruct (HA labels) as [P S]. specialize (S 0).
  assert (I : forall i, In i (order labels) -> (i < length rows)%nat). { intros i Hi. apply (Permutation_in _ (Permutation_sym P)), in_seq in Hi. lia. }
  assert (Lo : length (order labels) = length rows) by (rewrite <- (Permutation_length P), seq_length; auto).
  destruct (sorted_labels_runs (sorted_rows rows labels) (sorted_labels labels)) as (C & E & L & N). { unfold sorted_rows, sorted_labels. now rewrite !map_length. } { exact S. }
  pose proof (matched_argsorted mx rows labels (order labels) [] (eq_sym HL) P S) as M.
  fold (sorted_rows rows labels) in M. fold (sorted_labels labels) in M. fold (c_runs mx rows labels) in M. fold runs in M.
  assert (Cr : concat runs = map (neg_cols mx) (sorted_rows rows labels)) by (unfold runs, c_runs; now rewrite concat_map_map, C).
  unfold wf_points in W. rewrite Forall_forall in W.
  assert (In' : forall p, In p (concat runs) -> exists q, In q rows /\ p = neg_cols mx q).
  { intros p Hp. rewrite Cr in Hp. apply in_map_iff in Hp. destruct Hp as (q & <- & Hq). exists q. split; auto. apply in_map_iff in Hq. destruct Hq as (i & <- & Hi). now apply nth_In, I. }
  split; auto. split; auto. split; auto. split. { rewrite E. unfold runs, c_runs. now rewrite map_cumsizes. }
  split. { transitivity (np_cumsum (unique_counts (sorted_labels labels))); [|rewrite E; unfold runs, c_runs; now rewrite map_cumsizes].
    assert (Pl : Permutation labels (sorted_labels labels)). { unfold sorted_labels. rewrite <- (PyEafProofs.map_nth_seq _ labels 0) at 1. now apply Permutation_map. }
    f_equal. unfold unique_counts. rewrite (unique_perm labels (sorted_labels labels)).
    2:{ intros v. split; apply Permutation_in; auto. now apply Permutation_sym. }
    apply map_ext. intros v. rewrite !countb_filter. apply Permutation_length. now apply filter_perm. }
  split; auto. split. { intros Q. apply Ne. destruct rows as [|a rows]; auto. rewrite Q in Cr. cbn in Cr. symmetry in Cr. apply map_eq_nil in Cr. unfold sorted_rows in Cr. apply map_eq_nil in Cr.
    rewrite Cr in Lo. discriminate. }
  split. { intros r Hr. unfold runs, c_runs in Hr. apply in_map_iff in Hr. destruct Hr as (r0 & <- & Hr0). intro Q. apply map_eq_nil in Q. apply (N r0); auto. }
  split. { apply Forall_forall. intros p Hp. destruct (In' p Hp) as (q & Hq & ->). rewrite neg_cols_length. auto. }
  split; auto.
  apply Forall_forall. intros p Hp. apply in_concat in Hp. destruct Hp as (r & Hr & Hp). apply in_map_iff in Hr. destruct Hr as (v & <- & _). apply W.
  clear - Hp. revert labels Hp. induction rows as [|a rows IH]; intros [|l labels] Hp; cbn [rows_with] in Hp; try contradiction.
  destruct (l =? v); [destruct Hp as [->|Hp]; [now left|]|]; right; eauto.
Qed.
Lemma fits_neg : forall d mx rows pts, fits d rows -> wf_points d rows -> length pts = length rows -> (forall p, In p pts -> exists q, In q rows /\ p = neg_cols mx q) -> length mx = d -> fits d pts.
Proof.
  intros d mx rows pts F W L H Lm. unfold fits in *. rewrite L. destruct F as [F|(-> & F & G)]; [now left|right]. split; auto. split; auto.
  intros p i Hp Hi. destruct (H p Hp) as (q & Hq & ->). unfold wf_points in W. rewrite Forall_forall in W. rewrite neg_cols_coord by (rewrite ?(W q Hq); lia).
  specialize (F q i Hq Hi). destruct (nth i mx false); lia.
Qed.
Lemma take_rows_ok : forall x d rows idx, has_rows x d rows -> (forall i, In i idx -> (i < length rows)%nat) ->
  exists y, r_take x idx = Ret y /\ has_rows y d (map (fun i => nth i rows []) idx).
Proof.
  intros x d rows idx H I. unfold r_take. rewrite (proj1 H).
  assert (forallb (fun i => (i <? length rows)%nat) idx = true) as -> by (apply forallb_forall; intros i Hi; apply Nat.ltb_lt; auto).
  cbn [assert_ bind]. eexists. split; [reflexivity|]. now apply rows_rows.
Qed.

(** one call: the surfaces of the labelled rows *)
Definition in_range (percentiles : option (list Q)) : Prop := match percentiles with Some ps => Forall (fun p => (0 <= p <= 100)%Q) ps | None => True end.
Lemma one_eaf_ok : forall x d rows labels percentiles maximise mx, machine_ok -> fits d rows -> length labels = length rows -> rows <> [] -> wf_points d rows ->
  for_each d maximise mx -> has_rows x d (map (neg_cols mx) rows) -> in_range percentiles ->
  exists m out, compute_1_eaf x labels (option_map sort_percentiles percentiles) maximise = Ret m /\
    eaf_rows d mx rows labels percentiles out /\ has_rows m (S d) out.
Proof.
  intros x d rows labels percentiles maximise mx MO F HL Ne W Fm H Hp. pose proof (for_each_length _ _ _ Fm) as Lm. pose proof (fits_dim _ _ F) as Hd.
  destruct (c_runs_ok mx d rows labels MO HL Ne W) as (I & Lo & Cr & E & _ & M & Nr & Nn & Wr & In' & Ws).
  destruct (take_rows_ok x d (map (neg_cols mx) rows) (order labels) H) as (y & Ey & Hy). { intros i Hi. rewrite map_length. auto. }
  assert (Er : map (fun i => nth i (map (neg_cols mx) rows) []) (order labels) = concat (c_runs mx rows labels)).
  { rewrite Cr. unfold sorted_rows. rewrite map_map. apply map_ext_in. intros i Hi. now rewrite (nth_map_in (neg_cols mx) rows i [] []) by auto. }
  assert (Hy' : has_rows y d (concat (c_runs mx rows labels))) by (rewrite <- Er; exact Hy). clear Hy. rename Hy' into Hy.
  destruct (compute_eaf_ok d (c_runs mx rows labels) (r_t 0 y) (option_map sort_percentiles percentiles)) as (qs & ls & ss & Mx & EM & HM & Sf & Lq & Ch); auto.
  { apply (fits_neg d mx rows); auto. rewrite Cr. unfold sorted_rows. now rewrite !map_length. }
  { apply (t_rows 0 y d _ Hy). } { apply (c_rows_t y d); auto. lia. }
  { destruct percentiles as [ps|]; cbn [option_map]; auto. destruct (sort_percentiles_ok ps) as (_ & S2 & _). rewrite Forall_forall. intros q Hq. cbn in Hp. rewrite Forall_forall in Hp. auto. }
  destruct (undo_ok Mx d (flat ss qs) maximise mx ltac:(lia) HM) as (m & Em & Hm); auto.
  { apply Forall_forall. intros r Hr. destruct (flat_In ss qs r Lq Hr) as (s & Hs & Hf). clear - Sf Hs Hf. induction Sf as [|l s' ls ss (Wf & _) Sf IH]; [contradiction|].
    destruct Hs as [->|Hs]; auto. unfold wf_points in Wf. rewrite Forall_forall in Wf. auto. }
  exists m, (map (fun r => out_row (neg_cols mx (fst r), snd r)) (flat ss qs)). split.
  { unfold REafModel.compute_1_eaf. rewrite Ey. cbn [bind]. fold (sorted_labels labels). rewrite E, EM. cbn [bind]. exact Em. }
  split; auto. exists qs, ls, (map (map (neg_cols mx)) ss). split; [|split].
  - assert (Ls : length (c_runs mx rows labels) = length (sets_of rows labels)) by (symmetry; apply M).
    rewrite Ls in Ch. destruct percentiles as [ps|]; cbn [option_map chosen] in *; auto.
    destruct Ch as [-> Ch]. destruct (sort_percentiles_ok ps) as (S1 & S2 & S3). auto.
  - clear - Sf Lm Ws M. induction Sf; cbn [map]; constructor; auto. now apply (surface_back d mx _ (c_runs mx rows labels)).
  - clear. unfold flat. rewrite concat_map. f_equal. rewrite map_map. revert qs. induction ss as [|s ss IH]; intros [|q qs]; cbn [map combine]; auto. f_equal; auto.
    cbn [fst snd]. rewrite !map_map. reflexivity.
Qed.

(** the rows and set numbers given to eaf *)
Lemma r_sets_ok : forall x sets d rows labels, (2 <= d)%nat -> labelled x sets d rows labels ->
  has_rows (fst (r_sets x sets)) d rows /\ snd (r_sets x sets) = labels.
Proof.
  intros x sets d rows labels Hd (L & Ne & H & W). destruct sets as [s|]; cbn [r_sets fst snd]; [exact H|]. pose proof (proj1 (proj2 H)) as C. unfold wf_points in W. rewrite Forall_forall in W.
  assert (Wc : forall p l, In (p, l) (combine rows labels) -> length p = d) by (intros p l Hp; apply W; now apply in_combine_l in Hp). split.
  - pose proof (init_rows 0 x d _ H) as I. unfold attach in I. rewrite map_map in I. cbn [fst snd] in I.
    assert (E : map (fun pl : point * Z => firstn d (fst pl ++ [snd pl])) (combine rows labels) = rows).
    { transitivity (map fst (combine rows labels)).
      - apply map_ext_in. intros [p l] Hp. cbn [fst snd]. rewrite firstn_app, (Wc p l Hp), Nat.sub_diag. cbn [firstn]. rewrite app_nil_r. apply firstn_all2. now rewrite (Wc p l Hp).
      - clear - L. revert labels L. induction rows as [|a rows IH]; intros [|l labels] L; cbn in *; try discriminate; auto. f_equal. apply IH. lia. }
    rewrite <- E. exact I.
  - rewrite C. replace (S d - 1)%nat with d by lia. rewrite (col_rows 0 x (S d) _ d H) by lia. unfold attach. rewrite map_map. cbn [fst snd].
    transitivity (map snd (combine rows labels)).
    + apply map_ext_in. intros [p l] Hp. cbn [fst snd]. specialize (Wc p l Hp). rewrite app_nth2 by (rewrite Wc; apply Nat.le_refl). rewrite Wc, Nat.sub_diag. reflexivity.
    + clear - L. revert labels L. induction rows as [|a rows IH]; intros [|l labels] L; cbn in *; try discriminate; auto. f_equal. apply IH. lia.
Qed.

(** eaf (x, sets, percentiles, maximise): the attainment surfaces, in two or three objectives *)
Theorem C67_eaf : forall x sets d rows labels percentiles maximise mx, machine_ok -> labelled x sets d rows labels -> fits d rows ->
  for_each d maximise mx -> in_range percentiles ->
  exists m out, r_eaf x sets percentiles maximise = Ret m /\ has_rows m (S d) out /\ eaf_rows d mx rows labels percentiles out.
Proof.
  intros x sets d rows labels percentiles maximise mx MO Lb F Fm Hp. pose proof (fits_dim _ _ F) as Hd.
  destruct (r_sets_ok x sets d rows labels Hd Lb) as [Hx Hs]. destruct Lb as (L & Ne & _ & W).
  unfold REafModel.r_eaf. rewrite (as_matrix_ok _ d rows) by auto. cbn [bind].
  destruct (transform_ok 0 Z.opp _ d rows maximise mx ltac:(lia) Hx Fm) as (x' & Ex & Hx'). rewrite Ex. cbn [bind]. rewrite Hs.
  destruct (one_eaf_ok x' d rows labels percentiles maximise mx) as (m & out & E & O & Hm); auto.
  { erewrite map_ext; [exact Hx'|]. intros p. apply neg_negate. }
  exists m, out. auto.
Qed.

(** with groups: the surfaces of every group, in increasing order of the groups *)
Lemma which_rows : forall A (l : list A) dflt groups g, length l = length groups ->
  map (fun i => nth i l dflt) (which (map (Z.eqb g) groups)) = rows_with l groups g.
Proof.
  intros A l dflt groups g L. unfold which. rewrite map_length. revert groups L. induction l as [|a l IH]; intros [|b groups] L; cbn [length] in L; try discriminate; auto.
  cbn [length seq filter map nth rows_with]. rewrite <- seq_shift.
  assert (G : forall (f : nat -> bool) s, map (fun i => nth i (a :: l) dflt) (filter f (map S s)) = map (fun i => nth i l dflt) (filter (fun i => f (S i)) s)).
  { intros f s. induction s as [|i s IHs]; cbn; auto. destruct (f (S i)); cbn [map]; [f_equal|]; exact IHs. }
  rewrite Z.eqb_sym. destruct (b =? g).
  - cbn [map nth]. f_equal. rewrite G. cbn [nth]. apply IH. lia.
  - rewrite G. cbn [nth]. apply IH. lia.
Qed.
Theorem C67_eaf_groups : forall x sets d rows labels percentiles maximise mx groups, machine_ok -> labelled x sets d rows labels -> fits d rows ->
  for_each d maximise mx -> in_range percentiles -> length groups = length rows ->
  exists gs parts m column, r_eaf_groups x sets percentiles maximise groups = Ret (m, column) /\
    StronglySorted Z.lt gs /\ (forall g, In g gs <-> In g groups) /\
    Forall2 (fun g out => eaf_rows d mx (rows_with rows groups g) (rows_with labels groups g) percentiles out) gs parts /\
    has_rows m (S d) (concat parts) /\ column = concat (map (fun gp => repeat (fst gp) (length (snd gp))) (combine gs parts)).
Proof.
  intros x sets d rows labels percentiles maximise mx groups MO Lb F Fm Hp Lg. pose proof (fits_dim _ _ F) as Hd.
  destruct (r_sets_ok x sets d rows labels Hd Lb) as [Hx Hs]. destruct Lb as (L & Ne & _ & W).
  unfold REafModel.r_eaf_groups. rewrite (as_matrix_ok _ d rows) by auto. cbn [bind].
  destruct (transform_ok 0 Z.opp _ d rows maximise mx ltac:(lia) Hx Fm) as (x' & Ex & Hx'). rewrite Ex. cbn [bind]. rewrite Hs.
  assert (Hx2 : has_rows x' d (map (neg_cols mx) rows)) by (erewrite map_ext; [exact Hx'|]; intros p; apply neg_negate).
  exists (np_unique groups).
  assert (K : forall gs, (forall g, In g gs -> In g groups) -> exists parts m column,
    eaf_groups x' labels (option_map sort_percentiles percentiles) maximise groups gs = Ret (m, column) /\
    Forall2 (fun g out => eaf_rows d mx (rows_with rows groups g) (rows_with labels groups g) percentiles out) gs parts /\
    has_rows m (S d) (concat parts) /\ column = concat (map (fun gp => repeat (fst gp) (length (snd gp))) (combine gs parts))).
  { induction gs as [|g gs IH]; intros Hg; cbn [REafModel.eaf_groups].
    - exists [], (mkMat 0 (ncol x' + 1) []), []. split; auto. split; [constructor|]. split; auto. rewrite (proj1 (proj2 Hx2)), Nat.add_1_r.
      split; auto. split; auto. split; auto. split; [constructor|]. cbn. intros na i j Hi. lia.
    - destruct (IH ltac:(intros g' Hg'; apply Hg; now right)) as (parts & m & column & E & Fp & Hm & Hc). clear IH.
      destruct (take_rows_ok x' d (map (neg_cols mx) rows) (which (map (Z.eqb g) groups)) Hx2) as (y & Ey & Hy).
      { intros i Hi. apply which_spec in Hi. rewrite !map_length in *. lia. }
      rewrite Ey. cbn [bind]. 
      assert (Hy' : has_rows y d (map (neg_cols mx) (rows_with rows groups g))).
      { rewrite <- rows_with_map, <- (which_rows _ (map (neg_cols mx) rows) [] groups g) by (rewrite map_length; auto). exact Hy. }
      clear Hy. rename Hy' into Hy.
      rewrite (which_rows _ labels 0 groups g) by congruence.
      assert (Sub : forall p, In p (rows_with rows groups g) -> In p rows).
      { clear. revert groups. induction rows as [|a rows IH]; intros [|l groups] p Hp; cbn [rows_with] in Hp; try contradiction. destruct (l =? g); [destruct Hp as [->|Hp]; [now left|]|]; right; eauto. }
      assert (Lr : (length (rows_with rows groups g) <= length rows)%nat).
      { clear. revert groups. induction rows as [|a rows IH]; intros [|l groups]; cbn [rows_with length]; try lia. specialize (IH groups). destruct (l =? g); cbn [length]; lia. }
      destruct (one_eaf_ok y d (rows_with rows groups g) (rows_with labels groups g) percentiles maximise mx) as (m1 & out & E1 & O & Hm1); auto.
      { destruct F as [[-> F]|(-> & F1 & F2)]; [left|right]; split; auto; [lia|]. split; [|nia]. intros p i Hi. apply F1. auto. }
      { rewrite !rows_with_length by congruence. reflexivity. }
      { apply rows_with_nonempty; auto. apply Hg. now left. }
      { unfold wf_points in *. rewrite Forall_forall in *. auto. }
      rewrite E1. cbn [bind]. rewrite E. cbn [bind fst snd]. exists (out :: parts), (r_rbind 0%Q m1 m), (repeat g (nrow m1) ++ column).
      split; auto. split; [constructor; auto|]. split; [cbn [concat]; now apply rbind_rows|]. cbn [combine map concat fst snd]. f_equal; auto. f_equal. apply Hm1. }
  destruct (K (np_unique groups)) as (parts & m & column & E & Fp & Hm & Hc). { intros g Hg. now apply np_unique_In. }
  exists parts, m, column. split; auto. split. { apply sorted_NoDup_lt. apply np_unique_sorted. apply np_unique_NoDup. }
  split; auto. intros g. apply np_unique_In.
Qed.

(** ** eafdiff *)
Lemma cumsizes_length : forall (rr : list (list point)) acc, length (cumsizes_from acc rr) = length rr.
Proof. induction rr; cbn; auto. Qed.
Lemma cumsizes_last : forall (rr : list (list point)) acc, rr <> [] ->
  nth (length rr - 1) (cumsizes_from acc rr) 0%nat = (acc + length (concat rr))%nat.
Proof.
  induction rr as [|r rr IH]; intros acc H; [contradiction|]. cbn [cumsizes_from length]. destruct rr as [|r' rr].
  - cbn. rewrite app_nil_r. reflexivity.
  - specialize (IH (acc + length r)%nat ltac:(discriminate)). replace (S (length (r' :: rr)) - 1)%nat with (S (length (r' :: rr) - 1)) by (cbn; lia).
    cbn [nth]. rewrite IH. cbn [concat]. rewrite !app_length. lia.
Qed.
Lemma cumsizes_app : forall (r1 r2 : list (list point)) acc, cumsizes_from acc (r1 ++ r2) = cumsizes_from acc r1 ++ cumsizes_from (acc + length (concat r1)) r2.
Proof. induction r1; intros; cbn [app concat cumsizes_from]. now rewrite Nat.add_0_r. rewrite IHr1, app_length, Nat.add_assoc. reflexivity. Qed.
Lemma cumsizes_shift : forall (rr : list (list point)) acc k, cumsizes_from (k + acc) rr = map (fun c => (k + c)%nat) (cumsizes_from acc rr).
Proof. induction rr; intros; cbn [cumsizes_from map]; auto. rewrite <- IHrr. now rewrite Nat.add_assoc. Qed.
Lemma cumsizes_both : forall r1 r2 : list (list point), cumsizes r1 ++ map (fun c => (length (concat r1) + c)%nat) (cumsizes r2) = cumsizes (r1 ++ r2).
Proof. intros r1 r2. unfold cumsizes. rewrite cumsizes_app, <- cumsizes_shift, Nat.add_0_r, Nat.add_0_l. reflexivity. Qed.

Lemma c_rows_cbind : forall (x y : rmat Z) d rx ry, (0 < d)%nat -> has_rows x d rx -> has_rows y d ry -> c_rows (r_cbind (r_t 0 x) (r_t 0 y)) = Ret (rx ++ ry).
Proof.
  intros x y d rx ry Hd H K. pose proof (cbind_t_values 0 x y d rx ry H K) as V. unfold c_rows. rewrite V.
  destruct (t_rows 0 x d rx H) as (N & C & _). destruct (t_rows 0 y d ry K) as (_ & C' & _).
  change (nrow (r_cbind (r_t 0 x) (r_t 0 y))) with (nrow (r_t 0 x)). change (ncol (r_cbind (r_t 0 x) (r_t 0 y))) with (ncol (r_t 0%Z x) + ncol (r_t 0%Z y))%nat.
  rewrite N, C, C', <- app_length. destruct H as (_ & _ & _ & W & _). destruct K as (_ & _ & _ & W' & _).
  rewrite (CmdProofs.rows_at_ok d (rx ++ ry) 0 (length (rx ++ ry))).
  - cbn [skipn]. now rewrite firstn_all.
  - intros p Hp. rewrite Forall_forall in W, W'. apply in_app_or in Hp. destruct Hp; auto.
  - apply Nat.le_refl.
Qed.

(** compute_eafdiff_C *)
Lemma compute_eafdiff_ok : forall d runs m iv, machine_ok -> fits d (concat runs) -> runs <> [] -> (forall r, In r runs -> r <> []) ->
  wf_points d (concat runs) -> nrow m = d -> c_rows m = Ret (concat runs) ->
  exists rs M, compute_eafdiff_C m (cumsizes runs) iv = Ret M /\ has_rows M (S d) (map out_row (concat rs)) /\
    Forall2 (is_surface d runs) (seq 1 (length runs)) (map (map fst) rs) /\
    Forall (Forall (fun r : point * Q => length (fst r) = d /\ diff_val d runs iv (fst r) (snd r))) rs.
Proof.
  intros d runs m iv MO F Hr Hne W Nm Cm. assert (Lc : length (cumsizes runs) = length runs) by apply cumsizes_length.
  assert (Hn : (1 <= length runs)%nat) by (destruct runs; [congruence|cbn; lia]).
  assert (Fl : Forall (fun l => (1 <= l <= length runs)%nat) (seq 1 (length runs))) by (apply Forall_forall; intros l Hl; apply in_seq in Hl; lia).
  destruct (attsurf_ok d runs (seq 1 (length runs)) MO F Hr Hne W Fl) as (es & ss & E & Hh & Wf & Sf).
  destruct (eafdiff_rows_gen d runs iv ss es Hn Hh Wf) as (rs & Er & Mr & Dr).
  { intros s p flags Hs Hp. clear - Sf Hs Hp. induction Sf as [|l s' ls ss [_ A] Sf IH]; [contradiction|]. destruct Hs as [->|Hs]; auto. apply (A p flags Hp). }
  assert (Sf' : Forall2 (is_surface d runs) (seq 1 (length runs)) (map (map fst) rs)).
  { rewrite Mr. clear - Sf. induction Sf as [|l s ls ss [A _] Sf]; cbn; constructor; auto. }
  assert (Wr : forall s r, In s rs -> In r s -> length (fst r) = d).
  { intros s r Hs Hr'. assert (Hm : In (map fst s) (map (map fst) rs)) by now apply in_map. clear - Sf' Hm Hr'.
    induction Sf' as [|l s' ls ss (A & _) Sf' IH]; [contradiction|]. destruct Hm as [->|Hm]; auto. unfold wf_points in A. rewrite Forall_forall in A. apply A. now apply in_map. }
  destruct (result_matrix_ok fresh (length (concat (map (map fst) ss))) d (concat rs)) as (M & EM & HM).
  - rewrite <- Mr. clear. induction rs as [|s rs IH]; cbn [map concat]; auto. rewrite !app_length, map_length, IH. reflexivity.
  - apply Forall_forall. intros r Hr'. apply in_concat in Hr'. destruct Hr' as (s & Hs & Hr'). eapply Wr; eauto.
  - exists rs, M. split; [|split; auto; split; auto].
    + unfold REafModel.compute_eafdiff_C, compute_eaf_helper. rewrite Nm, Lc. cbn [levels_from_percentiles]. rewrite Nat.eqb_refl. cbn [assert_ bind].
      assert (Es : map (fun k => Z.of_nat (k + 1)) (seq 0 (length runs)) = map Z.of_nat (seq 1 (length runs))).
      { rewrite <- seq_shift, map_map. apply map_ext. intros k. f_equal. lia. }
      rewrite Es, Cm. cbn [bind]. rewrite E. cbn [bind]. rewrite Er. cbn [bind]. rewrite (totalpoints_ok d (length runs) es ss Hh). exact EM.
    + apply Forall_forall. intros s Hs. rewrite Forall_forall in Dr. specialize (Dr s Hs). rewrite Forall_forall in *. intros r Hr'. split; auto. eapply Wr; eauto.
Qed.

(** removing repeated rows *)
Lemma qs_eqb_rows : forall p q c c', length p = length q -> qs_eqb (map inject_Z p ++ [c]) (map inject_Z q ++ [c']) = row_eqb (q, c') (p, c).
Proof.
  intros p q c c'. unfold row_eqb. cbn [fst snd]. revert q. induction p as [|a p IH]; intros [|b q] L; cbn [length] in L; try discriminate.
  - cbn. destruct (Qeq_bool c c') eqn:E; symmetry; cbn.
    + apply Qeq_bool_iff. apply Qeq_bool_iff in E. now rewrite E.
    + destruct (Qeq_bool c' c) eqn:E'; auto. apply Qeq_bool_iff in E'. assert (Qeq_bool c c' = true) by (apply Qeq_bool_iff; now rewrite E'). congruence.
  - cbn [map app qs_eqb]. rewrite IH by lia. destruct (Z.eq_dec a b) as [->|N].
    + assert (Qeq_bool (inject_Z b) (inject_Z b) = true) as -> by (apply Qeq_bool_iff; reflexivity). cbn [andb].
      destruct (list_eq_dec Z.eq_dec q p), (list_eq_dec Z.eq_dec (b :: q) (b :: p)); auto; congruence.
    + destruct (Qeq_bool (inject_Z a) (inject_Z b)) eqn:E. { apply Qeq_bool_iff in E. rewrite inject_Z_injective in E. contradiction. }
      destruct (list_eq_dec Z.eq_dec (b :: q) (a :: p)) as [X|]; auto. congruence.
Qed.
Lemma kept_rows : forall (L : list (point * Q)) dflt,
  map (fun i => nth i L dflt) (filter (fun i => negb (existsb (fun k => row_eqb (nth i L dflt) (nth k L dflt)) (seq 0 i))) (seq 0 (length L))) = unique_rows L.
Proof.
  intros L dflt. induction L as [|r L IH]; [reflexivity|]. cbn [length seq filter existsb negb map unique_rows]. change (nth 0 (r :: L) dflt) with r. f_equal. rewrite <- IH. clear IH.
  rewrite <- seq_shift.
  assert (G : forall (f : nat -> bool) s, map (fun i => nth i (r :: L) dflt) (filter f (map S s)) = map (fun i => nth i L dflt) (filter (fun i => f (S i)) s)).
  { intros f s. induction s as [|i s IHs]; cbn; auto. destruct (f (S i)); cbn [map]; [f_equal|]; exact IHs. }
  rewrite G. generalize (seq 0 (length L)). intros s. induction s as [|i s IHs]; cbn [filter map]; auto.
  cbn [seq existsb]. rewrite <- seq_shift. change (nth (S i) (r :: L) dflt) with (nth i L dflt). change (nth 0 (r :: L) dflt) with r.
  assert (X : existsb (fun k => row_eqb (nth i L dflt) (nth k (r :: L) dflt)) (map S (seq 0 i)) = existsb (fun k => row_eqb (nth i L dflt) (nth k L dflt)) (seq 0 i)).
  { generalize (seq 0 i). intros t. induction t as [|k t IHt]; cbn [map existsb]; auto. now rewrite IHt. }
  rewrite X. destruct (row_eqb (nth i L dflt) r) eqn:E; cbn [orb negb].
  - destruct (negb _); cbn [map filter]; auto. rewrite E. cbn [negb]. exact IHs.
  - destruct (negb _); cbn [map filter]; auto. rewrite E. cbn [negb]. f_equal. exact IHs.
Qed.
Lemma unique_matrix : forall x d L, has_rows x (S d) (map out_row L) -> Forall (fun r : point * Q => length (fst r) = d) L ->
  has_rows (r_rows 0%Q x (which (not_duplicated x))) (S d) (map out_row (unique_rows L)).
Proof.
  intros x d L H W. pose proof (proj1 H) as N. rewrite map_length in N. rewrite Forall_forall in W.
  assert (Ro : forall i, (i < length L)%nat -> row_of x i = out_row (nth i L ([], 0%Q))).
  { intros i Hi. pose proof (has_rows_eq 0%Q x (S d) _ H) as E. unfold rows_of in E. rewrite N in E. unfold row_of.
    apply (f_equal (fun l => nth i l [])) in E. rewrite nth_map_seq in E by auto. etransitivity; [exact E|]. now apply nth_map_in. }
  assert (Ew : which (not_duplicated x) = filter (fun i => negb (existsb (fun k => row_eqb (nth i L ([], 0%Q)) (nth k L ([], 0%Q))) (seq 0 i))) (seq 0 (length L))).
  { unfold which, not_duplicated. rewrite map_length, seq_length, N. apply filter_ext_in. intros i Hi. apply in_seq in Hi. rewrite nth_map_seq by lia. f_equal.
    assert (G : forall (f g : nat -> bool) l, (forall k, In k l -> f k = g k) -> existsb f l = existsb g l).
    { clear. intros f g l. induction l as [|a l IH]; cbn; auto. intros Q. rewrite (Q a) by auto. rewrite IH; auto. }
    apply G. intros k Hk. apply in_seq in Hk. rewrite !Ro by lia. unfold out_row. rewrite qs_eqb_rows.
    - destruct (nth i L ([], 0%Q)), (nth k L ([], 0%Q)); reflexivity.
    - rewrite !W; auto; apply nth_In; lia. }
  assert (Ei : forall i, In i (which (not_duplicated x)) -> (i < length L)%nat). { intros i Hi. rewrite Ew in Hi. apply filter_In in Hi. destruct Hi as [Hi _]. apply in_seq in Hi. lia. }
  assert (E : map out_row (unique_rows L) = map (fun i => nth i (map out_row L) []) (which (not_duplicated x))).
  { rewrite <- (kept_rows L ([], 0%Q)), <- Ew, map_map. apply map_ext_in. intros i Hi. symmetry. now apply nth_map_in; apply Ei. }
  rewrite E. apply rows_rows; auto. intros i Hi. rewrite map_length. auto.
Qed.

Lemma intervals_ok : forall intervals n iv, match intervals with None => iv = n | Some q => (0 <= q)%Q /\ Z.of_nat iv = Z.min (Qfloor q) (Z.of_nat n) end ->
  r_intervals intervals (n + n) = iv.
Proof.
  intros intervals n iv H. unfold r_intervals.
  assert (Eh : (inject_Z (Z.of_nat (n + n)) / 2 == inject_Z (Z.of_nat n))%Q). { rewrite Nat2Z.inj_add, inject_Z_plus. field. }
  assert (Fh : Qfloor (inject_Z (Z.of_nat (n + n)) / 2)%Q = Z.of_nat n) by (rewrite (Qfloor_comp _ _ Eh); apply Qfloor_Z).
  destruct intervals as [q|]; [|rewrite Fh; lia]. destruct H as [Hq H]. destruct (Qle_bool q _) eqn:E.
  - apply Qle_bool_iff in E. rewrite Eh in E. apply Qfloor_resp_le in E. rewrite Qfloor_Z in E. lia.
  - rewrite Fh. assert (K : (inject_Z (Z.of_nat n) <= q)%Q).
    { destruct (Qlt_le_dec q (inject_Z (Z.of_nat n))) as [K|K]; auto. assert (Qle_bool q (inject_Z (Z.of_nat (n + n)) / 2) = true); [|congruence].
      apply Qle_bool_iff. rewrite Eh. lra. }
    apply Qfloor_resp_le in K. rewrite Qfloor_Z in K. lia.
Qed.
Lemma side_ok : forall x d rows labels maximise mx, machine_ok -> (2 <= d)%nat -> labelled x None d rows labels -> for_each d maximise mx ->
  r_col 0 x (ncol x - 1) = labels /\
  exists x1 x2, r_take x (order labels) = Ret x1 /\ as_double_matrix (r_init 0 x1) = Ret (r_init 0 x1) /\
    transform_maximise 0 Z.opp (r_init 0 x1) maximise = Ret x2 /\ has_rows x2 d (concat (c_runs mx rows labels)).
Proof.
  intros x d rows labels maximise mx MO Hd Lb Fm. destruct (r_sets_ok x None d rows labels Hd Lb) as [Hx Hs]. cbn [r_sets fst snd] in Hs. split; auto.
  destruct Lb as (L & Ne & H & W). destruct (c_runs_ok mx d rows labels MO L Ne W) as (I & Lo & Cr & _).
  assert (La : length (attach rows labels) = length rows) by (unfold attach; rewrite map_length, combine_length; lia).
  destruct (take_rows_ok x (S d) (attach rows labels) (order labels) H) as (x1 & E1 & H1). { intros i Hi. rewrite La. auto. }
  pose proof (init_rows 0 x1 d _ H1) as H2. rewrite map_map in H2.
  assert (E : map (fun i => firstn d (nth i (attach rows labels) [])) (order labels) = sorted_rows rows labels).
  { unfold sorted_rows. apply map_ext_in. intros i Hi. unfold attach. rewrite (nth_map_in _ _ i [] ([], 0)) by (rewrite combine_length; specialize (I i Hi); lia).
    rewrite combine_nth by auto. cbn [fst snd]. assert (Li : length (nth i rows []) = d) by (unfold wf_points in W; rewrite Forall_forall in W; apply W, nth_In; auto).
    change point with (list Z) in *. rewrite firstn_app, Li, Nat.sub_diag. cbn [firstn]. rewrite app_nil_r. apply firstn_all2. now rewrite Li. }
  assert (H3 : has_rows (r_init 0 x1) d (sorted_rows rows labels)) by (rewrite <- E; exact H2).
  destruct (transform_ok 0 Z.opp _ d _ maximise mx ltac:(lia) H3 Fm) as (x2 & E2 & H4). exists x1, x2. split; auto. split.
  { apply (as_matrix_ok _ d (sorted_rows rows labels)); auto. unfold sorted_rows. intro Q. apply map_eq_nil in Q. rewrite Q in Lo. destruct rows; [congruence|discriminate]. }
  split; auto. rewrite Cr. erewrite map_ext; [exact H4|]. intros p. apply neg_negate.
Qed.

Lemma one_row_values : forall (y : rmat Q) c r, has_rows y c [r] -> values y = r.
Proof.
  intros y c r (_ & _ & L & W & H). cbn [length] in *. rewrite Forall_forall in W. specialize (W r (or_introl eq_refl)).
  apply nth_ext with (d := 0%Q) (d' := 0%Q). lia. intros j Hj. specialize (H 0%Q 0%nat j ltac:(lia) ltac:(lia)). rewrite Nat.mul_1_r, Nat.add_0_r in H. exact H.
Qed.

(** eafdiff (x, y, intervals, maximise): the points of the attainment surfaces of the sets
    of [x] and [y] together, without repetition, with the difference of the two EAFs.  If
    only one point is left the result is a vector, and it is an error if something is maximised. *)
Theorem C67_eafdiff : forall x y d rx lx ry ly intervals maximise mx iv, machine_ok ->
  labelled x None d rx lx -> labelled y None d ry ly -> fits d (rx ++ ry) -> for_each d maximise mx ->
  length (sets_of rx lx) = length (sets_of ry ly) ->
  match intervals with None => iv = length (sets_of rx lx) | Some q => (0 <= q)%Q /\ Z.of_nat iv = Z.min (Qfloor q) (Z.of_nat (length (sets_of rx lx))) end ->
  exists out, eafdiff_points d mx rx lx ry ly iv out /\
    match out with
    | [r] => r_eafdiff x y intervals maximise = if any mx then AssertFailed else Ret (RVector (out_row r))
    | _ => exists m, r_eafdiff x y intervals maximise = Ret (RMatrix m) /\ has_rows m (S d) (map out_row out)
    end.
Proof.
  intros x y d rx lx ry ly intervals maximise mx iv MO Lx Ly F Fm Eq Hi. pose proof (fits_dim _ _ F) as Hd. pose proof (for_each_length _ _ _ Fm) as Lm.
  destruct (side_ok x d rx lx maximise mx MO Hd Lx Fm) as (Cx & x1 & x2 & Tx & Ax & Mx & Hx).
  destruct (side_ok y d ry ly maximise mx MO Hd Ly Fm) as (Cy & y1 & y2 & Ty & Ay & My & Hy).
  assert (Ncx : ncol x = S d) by apply Lx. assert (Ncy : ncol y = S d) by apply Ly.
  destruct Lx as (L1 & N1 & _ & W1). destruct Ly as (L2 & N2 & _ & W2).
  destruct (c_runs_ok mx d rx lx MO L1 N1 W1) as (_ & Lox & Crx & _ & Ecx & Mtx & Nrx & Nnx & Wrx & Inx & Wsx).
  destruct (c_runs_ok mx d ry ly MO L2 N2 W2) as (_ & Loy & Cry & _ & Ecy & Mty & Nry & Nny & Wry & Iny & Wsy).
  set (runx := c_runs mx rx lx) in *. set (runy := c_runs mx ry ly) in *. set (n := length (sets_of rx lx)) in *.
  assert (Lrx : length runx = n) by (symmetry; apply Mtx). assert (Lry : length runy = n) by (rewrite Eq; symmetry; apply Mty).
  set (runs := runx ++ runy). assert (Lr : length runs = (2 * n)%nat) by (unfold runs; rewrite app_length; lia).
  assert (Hn : (1 <= n)%nat) by (rewrite <- Lrx; destruct runx; [congruence|cbn; lia]).
  assert (Cr : concat runs = concat runx ++ concat runy) by (unfold runs; apply concat_app).
  assert (Wr : wf_points d (concat runs)) by (rewrite Cr; apply Forall_app; auto).
  assert (Lcx : length (concat runx) = length rx) by (rewrite Crx; unfold sorted_rows; now rewrite !map_length).
  assert (Lcy : length (concat runy) = length ry) by (rewrite Cry; unfold sorted_rows; now rewrite !map_length).
  assert (Mr : matched mx (sets_of rx lx ++ sets_of ry ly) runs) by now apply matched_app.
  assert (HWr : wf_points d (concat (sets_of rx lx ++ sets_of ry ly))) by (rewrite concat_app; apply Forall_app; auto).
  destruct (compute_eafdiff_ok d runs (r_cbind (r_t 0 x2) (r_t 0 y2)) iv) as (rs & M & EM & HM & Sf & Dr); auto.
  { apply (fits_neg d mx (rx ++ ry)); auto. { apply Forall_app; auto. } { rewrite Cr, !app_length. lia. }
    intros p Hp. rewrite Cr in Hp. apply in_app_or in Hp. destruct Hp as [Hp|Hp]; [destruct (Inx p Hp) as (q & Hq & ->)|destruct (Iny p Hp) as (q & Hq & ->)]; exists q; split; auto; apply in_or_app; auto. }
  { unfold runs. intro Q. apply app_eq_nil in Q. now destruct Q. }
  { intros r Hr. apply in_app_or in Hr. destruct Hr; auto. }
  { apply (t_rows 0 x2 d _ Hx). } { rewrite Cr. apply (c_rows_cbind x2 y2 d); auto. lia. }
  rewrite Forall_forall in Dr.
  assert (Wrs : forall r, In r (concat rs) -> length (fst r) = d /\ diff_val d runs iv (fst r) (snd r)).
  { intros r Hr. apply in_concat in Hr. destruct Hr as (s & Hs & Hr). specialize (Dr s Hs). rewrite Forall_forall in Dr. auto. }
  set (nc := fun r : point * Q => (neg_cols mx (fst r), snd r)).
  exists (map nc (unique_rows (concat rs))). split.
  - exists (map (fun s => map (fun r => neg_cols mx (fst r)) s) rs). fold n. split; [|split; [|split]].
    + rewrite Lr in Sf.
      assert (Em : map (fun s => map (fun r : point * Q => neg_cols mx (fst r)) s) rs = map (map (neg_cols mx)) (map (map fst) rs)) by (rewrite map_map; apply map_ext; intros s; now rewrite map_map).
      rewrite Em. clear - Sf Lm HWr Mr. induction Sf; cbn [map]; constructor; auto. now apply (surface_back d mx _ runs).
    + intros p. rewrite map_map. unfold nc. cbn [fst]. split.
      * intros Hp. apply in_map_iff in Hp. destruct Hp as (r & <- & Hr). apply unique_rows_In, in_concat in Hr.
        destruct Hr as (s & Hs & Hr). exists (map (fun r => neg_cols mx (fst r)) s). split.
        now apply (in_map (fun s => map (fun r => neg_cols mx (fst r)) s)). now apply (in_map (fun r => neg_cols mx (fst r))).
      * intros (s' & Hs' & Hp). apply in_map_iff in Hs'. destruct Hs' as (s & <- & Hs). apply in_map_iff in Hp. destruct Hp as ((q & c) & <- & Hr).
        destruct (unique_rows_fst (concat rs) q c) as (c' & Hc & _). apply in_concat; eauto. apply in_map_iff. exists (q, c'). auto.
    + rewrite map_map. unfold nc. cbn [fst]. rewrite <- (map_map fst (neg_cols mx)). apply NoDup_map_in.
      * intros a b _ _ Eab. rewrite <- (neg_cols_invol mx a), <- (neg_cols_invol mx b). now rewrite Eab.
      * apply unique_rows_NoDup. intros p c c' G1 G2. apply Wrs in G1, G2. destruct G1 as (_ & P1 & R1 & A1 & B1 & V1). destruct G2 as (_ & P2 & R2 & A2 & B2 & V2). cbn [fst snd] in *.
        rewrite (exactly_unique _ _ _ _ _ A1 A2) in V1. rewrite (exactly_unique _ _ _ _ _ B1 B2) in V1. rewrite V1, V2. reflexivity.
    + intros p c Hp. unfold nc in Hp. apply in_map_iff in Hp. destruct Hp as ((q & c0) & Eqq & Hq). cbn [fst snd] in Eqq. inversion Eqq; subst; clear Eqq. apply unique_rows_In in Hq.
      destruct (Wrs _ Hq) as (Lq & Pl & R & A & B & V). cbn [fst snd] in *. rewrite Lr in A, B, V.
      assert (Hdiv : (2 * n / 2 = n)%nat) by (rewrite Nat.mul_comm; apply Nat.div_mul; lia). rewrite Hdiv in A, B, V. replace (2 * n - n)%nat with n in V by lia.
      assert (F1 : firstn n runs = runx). { unfold runs. rewrite <- Lrx, firstn_app, Nat.sub_diag, firstn_all. cbn. apply app_nil_r. }
      assert (F2 : skipn n runs = runy). { unfold runs. rewrite <- Lrx, skipn_app, Nat.sub_diag, skipn_all. reflexivity. }
      rewrite F1 in A. rewrite F2 in B. exists Pl, R. split; [|split; auto].
      * apply (matched_exactly_gen (length mx) mx _ runx); auto. now rewrite neg_cols_length. now rewrite neg_cols_invol.
      * apply (matched_exactly_gen (length mx) mx _ runy); auto. now rewrite neg_cols_length. now rewrite neg_cols_invol.
  - set (U := unique_rows (concat rs)) in *.
    assert (WU : Forall (fun r : point * Q => length (fst r) = d) U). { apply Forall_forall. intros r Hr. apply unique_rows_In in Hr. now apply Wrs. }
    pose proof (unique_matrix M d (concat rs)) as HU. fold U in HU. specialize (HU HM ltac:(apply Forall_forall; intros r Hr; now apply Wrs)).
    assert (ER : r_eafdiff x y intervals maximise = match r_unique_rows M with
       | RMatrix m => m <- undo_maximise m maximise ;; Ret (RMatrix m)
       | RVector v => if any maximise then AssertFailed else Ret (RVector v) end).
    { unfold REafModel.r_eafdiff. rewrite Ncx, Ncy, Nat.eqb_refl. cbn [assert_ bind]. rewrite Ncx in Cx. rewrite Ncy in Cy. rewrite Cx, Tx. cbn [bind]. rewrite Ax. cbn [bind].
      rewrite Cy, Ty. cbn [bind]. rewrite Ay. cbn [bind]. rewrite Mx. cbn [bind]. rewrite My. cbn [bind]. rewrite Ecx, Ecy.
      assert (Lz : forall r, length (cumsizes r) = length r) by (intros r; apply cumsizes_length). cbv zeta. rewrite !Lz.
      assert (Rd : rd (cumsizes runx) (length runx - 1) = Ret (length (concat runx))).
      { rewrite (rd_ok _ _ _ 0%nat) by (rewrite Lz; lia). unfold cumsizes. now rewrite (cumsizes_last runx 0 Nrx). }
      rewrite Rd. cbn [bind]. rewrite Lrx, Lry, (intervals_ok intervals n iv) by exact Hi.
      rewrite cumsizes_both. fold runs. rewrite EM. reflexivity. }
    rewrite ER. unfold r_unique_rows. rewrite (proj1 HU), map_length.
    assert (Any : any maximise = any mx) by (apply (for_each_any d); auto; lia).
    destruct (undo_ok _ d U maximise mx ltac:(lia) HU WU Fm) as (m & Em & Hm).
    assert (Hm' : has_rows m (S d) (map out_row (map nc U))) by (rewrite map_map; exact Hm).
    destruct U as [|r [|r' U']] eqn:EU; cbn [map length Nat.eqb].
    + rewrite Em. cbn [bind]. exists m. split; auto.
    + rewrite Any. destruct (any mx) eqn:Ea; auto. do 2 f_equal.
      assert (En : nc r = r). { unfold nc. rewrite neg_negate. change (negate_cols mx (fst r)) with (flip 0 Z.opp mx (fst r)). rewrite flip_none by auto. now destruct r. }
      rewrite En. apply (one_row_values _ (S d)). exact HU.
    + rewrite Em. cbn [bind]. exists m. split; auto.
Qed.

(** ** Refusals *)
(** no rows, or fewer than two objectives *)
Theorem C67_eaf_too_small : forall x labels d rows percentiles maximise, has_rows x d rows -> rows = [] \/ (d <= 1)%nat ->
  r_eaf x (Some labels) percentiles maximise = AssertFailed.
Proof.
  intros x labels d rows percentiles maximise H Hs. unfold REafModel.r_eaf. cbn [r_sets fst snd]. now rewrite (as_matrix_refused x d rows H Hs).
Qed.
(** more than three objectives *)
Theorem C67_eaf_objectives : forall x sets d rows labels percentiles maximise mx, machine_ok -> labelled x sets d rows labels -> (3 < d)%nat ->
  for_each d maximise mx -> in_range percentiles -> r_eaf x sets percentiles maximise = AssertFailed.
Proof.
  intros x sets d rows labels percentiles maximise mx MO Lb H3 Fm Hp. destruct (r_sets_ok x sets d rows labels ltac:(lia) Lb) as [Hx Hs]. destruct Lb as (L & Ne & _ & W).
  unfold REafModel.r_eaf. rewrite (as_matrix_ok _ d rows) by (auto; lia). cbn [bind].
  destruct (transform_ok 0 Z.opp _ d rows maximise mx ltac:(lia) Hx Fm) as (x' & Ex & Hx'). rewrite Ex. cbn [bind]. rewrite Hs.
  destruct (c_runs_ok mx d rows labels MO L Ne W) as (I & Lo & Cr & E & _ & M & Nr & Nn & Wr & In' & Ws).
  destruct (take_rows_ok x' d _ (order labels) Hx') as (y & Ey & Hy). { intros i Hi. rewrite map_length. auto. }
  unfold REafModel.compute_1_eaf. rewrite Ey. cbn [bind]. fold (sorted_labels labels). rewrite E. unfold REafModel.compute_eaf_C, compute_eaf_helper.
  assert (Lc : length (cumsizes (c_runs mx rows labels)) = length (c_runs mx rows labels)) by apply cumsizes_length. rewrite Lc.
  assert (Hn : (1 <= length (c_runs mx rows labels))%nat) by (destruct (c_runs mx rows labels); [congruence|cbn; lia]).
  rewrite (c_rows_t y d _ ltac:(lia) Hy), (proj1 (t_rows 0 y d _ Hy)).
  assert (X : exists ls, levels_from_percentiles (option_map sort_percentiles percentiles)
    (match option_map sort_percentiles percentiles with Some ps => length ps | None => length (c_runs mx rows labels) end) (length (c_runs mx rows labels)) = Ret ls).
  { destruct percentiles as [ps|]; cbn [option_map levels_from_percentiles].
    - rewrite firstn_all. destruct (percentiles_levels (length (c_runs mx rows labels)) (sort_percentiles ps) Hn) as (ls & El & _); [|eauto].
      destruct (sort_percentiles_ok ps) as (_ & S2 & _). rewrite Forall_forall. intros q Hq. cbn in Hp. rewrite Forall_forall in Hp. auto.
    - rewrite Nat.eqb_refl. cbn. eauto. }
  destruct X as (ls & El). rewrite El. cbn [bind]. destruct d as [|[|[|[|d]]]]; try lia. reflexivity.
Qed.
(** a wrong number of flags *)
Theorem C67_maximise_length : forall x sets d rows labels percentiles maximise, (2 <= d)%nat -> labelled x sets d rows labels ->
  any maximise = true -> all maximise = false -> length maximise <> d -> r_eaf x sets percentiles maximise = AssertFailed.
Proof.
  intros x sets d rows labels percentiles maximise Hd Lb Ha Hl N. destruct (r_sets_ok x sets d rows labels Hd Lb) as [Hx Hs]. destruct Lb as (L & Ne & _ & W).
  unfold REafModel.r_eaf. rewrite (as_matrix_ok _ d rows) by auto. cbn [bind].
  unfold transform_maximise. rewrite Ha, Hl, (proj1 (proj2 Hx)), (proj2 (Nat.eqb_neq (length maximise) d)) by auto. reflexivity.
Qed.
(** eafdiff of matrices with different numbers of columns *)
Theorem C67_eafdiff_columns : forall x y intervals maximise, ncol x <> ncol y -> r_eafdiff x y intervals maximise = AssertFailed.
Proof. intros x y intervals maximise N. unfold REafModel.r_eafdiff. now rewrite (proj2 (Nat.eqb_neq _ _) N). Qed.
End C67.

(** ** Examples *)
Definition order_exec (l : list Z) : list nat := sort_by (fun i j => nth i l 0 <=? nth j l 0) (seq 0 (length l)).
Definition junk67 (i : nat) : Z := 17.
Definition fresh67 (i : nat) : Q := (-1)%Q.
Lemma order_exec_ok : valid_argsort Z.le order_exec.
Proof.
  intros l. split; [apply sort_by_perm|]. intros d. unfold order_exec.
  assert (S : StronglySorted (fun i j => nth i l 0 <= nth j l 0) (sort_by (fun i j => nth i l 0 <=? nth j l 0) (seq 0 (length l)))).
  { apply sort_by_sorted; intros; lia. }
  assert (B : forall i, In i (sort_by (fun i j => nth i l 0 <=? nth j l 0) (seq 0 (length l))) -> (i < length l)%nat).
  { intros i Hi. apply (Permutation_in _ (Permutation_sym (sort_by_perm _ _ _))), in_seq in Hi. lia. }
  induction S as [|i s S IH F]; cbn [map]; constructor. { apply IH. intros j Hj. apply B. now right. }
  rewrite Forall_forall in *. intros v Hv. apply in_map_iff in Hv. destruct Hv as (j & <- & Hj). rewrite (nth_indep l d 0), (nth_indep l d 0) by (apply B; (now left) || now right). auto.
Qed.
Lemma machine_exec : machine_ok sortx_exec sorty_exec sortz_exec junk67 grow_exec 1000 order_exec.
Proof.
  split; [apply sortx_exec_ok|]. split; [apply sorty_exec_ok|]. split.
  { intros l. unfold is_dataz, sortz_exec. apply sort_by_is_qsort.
    - intros x y. apply Z.leb_le. - intros x y z. unfold le_z. lia. - intros x y. unfold le_z. lia. }
  split; [intros; unfold junk67; lia|]. split; [intros; unfold grow_exec; lia|]. split; [apply order_exec_ok|lia].
Qed.
Local Notation eaf_exec := (r_eaf sortx_exec sorty_exec sortz_exec junk67 grow_exec (-1000) 1000 fresh67 order_exec).
Local Notation groups_exec := (r_eaf_groups sortx_exec sorty_exec sortz_exec junk67 grow_exec (-1000) 1000 fresh67 order_exec).
Local Notation eafdiff_exec := (r_eafdiff sortx_exec sorty_exec sortz_exec junk67 grow_exec (-1000) 1000 fresh67 order_exec).

(** three points of two sets, not sorted by set *)
Definition x67 : rmat Z := mkMat 3 3 [2;1;1; 1;2;1; 2;2;1].
Lemma x67_labelled : labelled x67 None 2 [[2;1];[1;2];[1;1]] [2;2;1].
Proof.
  split; [reflexivity|]. split; [discriminate|]. split; [|repeat constructor]. do 3 (split; [reflexivity|]). split; [repeat constructor|].
  intros na i j Hi Hj. cbn in Hi. do 3 (destruct i as [|i]; [do 3 (destruct j as [|j]; [reflexivity|]); lia|]). lia.
Qed.
Example C67_nonvacuous :
  machine_ok sortx_exec sorty_exec sortz_exec junk67 grow_exec 1000 order_exec /\
  labelled x67 None 2 [[2;1];[1;2];[1;1]] [2;2;1] /\ fits 1000 2 [[2;1];[1;2];[1;1]] /\ for_each 2 [false] [false;false] /\
  in_range (Some [(100#1);(50#1);(100#1)]%Q) /\
  eaf_exec x67 None (Some [(100#1);(50#1);(100#1)]%Q) [false] = Ret (mkMat 3 3 [1;1;2; 1;2;1; 50;100;100]%Q) /\
  eaf_exec x67 None None [true] = Ret (mkMat 3 3 [2;1;1; 1;2;1; (100#2);(100#2);100]%Q) /\
  eaf_exec (mkMat 2 3 [1;2;1;3;1;1]) (Some [1;2]) None [false] = Ret (mkMat 2 4 [1;2;1;3;1;1; (100#2);100]%Q) /\
  groups_exec x67 None None [false] [4;3;3] = Ret (mkMat 3 3 [1;1;2; 1;2;1; (100#2);100;100]%Q, [3;3;4]) /\
  eaf_exec (mkMat 1 4 [1;2;3;4]) (Some [1]) None [false] = AssertFailed /\
  eafdiff_exec x67 (mkMat 2 3 [2;0;0;2;7;9]) None [false] =
    Ret (RMatrix (mkMat 6 3 [0;1;2;1;2;2; 2;1;0;2;1;2; (-4#4);(4#4);(-4#4);(4#4);(4#4);(0#4)]%Q)).
Proof.
  split; [apply machine_exec|]. split; [apply x67_labelled|]. split; [left; split; [reflexivity|cbn; lia]|]. split; [right; now exists false|].
  split; [repeat constructor; cbn; lra|]. repeat split; vm_compute; reflexivity.
Qed.

(** Refuted: "eafdiff returns a matrix."  With a single point left, the result is a vector;
    with maximise it is an error ("incorrect number of dimensions"). *)
Theorem C67_eafdiff_one_point_refuted :
  let x := mkMat 1 3 [4;5;1] in
  labelled x None 2 [[4;5]] [1] /\ fits 1000 2 ([[4;5]] ++ [[4;5]]) /\
  eafdiff_exec x x None [false] = Ret (RVector [4;5;(0#1)]%Q) /\
  eafdiff_exec x x None [true] = AssertFailed /\ eafdiff_exec x x None [false;true] = AssertFailed.
Proof.
  cbv zeta. split.
  { split; [reflexivity|]. split; [discriminate|]. split; [|repeat constructor]. do 3 (split; [reflexivity|]). split; [repeat constructor|].
    intros na i j Hi Hj. cbn in Hi. destruct i as [|i]; [|lia]. do 3 (destruct j as [|j]; [reflexivity|]). lia. }
  split; [left; split; [reflexivity|cbn; lia]|]. repeat split; vm_compute; reflexivity.
Qed.
(** Refuted: "the value is the difference of the fractions of the sets of x and of y that
    attain the point."  With one set in x and three in y, (1, 2) is attained by the set of x and
    by no set of y, a difference of 1, that is 2 of 2 intervals; the result says 1: the C code
    splits the sets in the middle. *)
Theorem C67_eafdiff_unequal_refuted :
  let x := mkMat 1 3 [1;2;1] in let y := mkMat 3 3 [2;2;2; 1;1;1; 1;2;3] in
  eafdiff_exec x y None [false] = Ret (RMatrix (mkMat 3 3 [1;2;2; 2;1;2; (4#4);(-4#4);(0#4)]%Q)) /\
  exactly_attain [false;false] 1 (sets_of [[1;2]] [1]) [1;2] /\
  exactly_attain [false;false] 0 (sets_of [[2;1];[2;1];[2;1]] [1;2;3]) [1;2].
Proof.
  cbv zeta. split; [vm_compute; reflexivity|]. split.
  - exists [0%nat]. split; [repeat constructor; cbn; auto|]. split; auto. intros k. cbn. split.
    + intros [<-|[]]. split; [lia|]. exists [1;2]. split; [now left|]. intros i Hi. cbn in Hi. unfold as_good. destruct i as [|[|i]]; cbn; lia.
    + intros [H _]. left. lia.
  - exists []. split; [constructor|]. split; auto. intros k. split; [contradiction|]. intros [Hk (p & Hp & W)]. cbn in Hk.
    assert (p = [2;1]) as ->. { destruct k as [|[|[|k]]]; cbn in Hp; [| | |lia]; destruct Hp as [<-|[]]; auto. }
    specialize (W 0%nat ltac:(cbn; lia)). unfold as_good, coord in W. cbn in W. lia.
Qed.
Print Assumptions C67_eaf.
Print Assumptions C67_eaf_groups.
Print Assumptions C67_eafdiff.
Print Assumptions C67_eaf_too_small.
Print Assumptions C67_eaf_objectives.
Print Assumptions C67_maximise_length.
Print Assumptions C67_eafdiff_columns.
Print Assumptions C67_eafdiff_one_point_refuted.
Print Assumptions C67_eafdiff_unequal_refuted.
