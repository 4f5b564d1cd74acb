(** The whole pipeline: percentiles -> levels -> sweep -> storage -> matrix. *)
From Coq Require Import List ZArith Lia Bool Arith QArith Qround Permutation Sorting.Sorted Lqa.
From Verif Require Import Base Spec EafSpec EafModel EafProofs EafMain BitArrayModel BitArrayProofs
  EafStoreModel EafStoreProofs.
Import ListNotations.
Open Scope Z_scope.

(** ** Facts that follow from being a surface *)

Lemma attains_mono : forall dim r z z', attains dim r z -> wdom (minimise dim) z z' -> attains dim r z'.
Proof.
  intros dim r z z' (p & Hp & W) W'. exists p. split; auto. apply (wdom_trans (minimise dim) p z z'); auto.
Qed.

Lemma attained_mono : forall dim l runs z z', attained_by_at_least dim l runs z ->
  wdom (minimise dim) z z' -> attained_by_at_least dim l runs z'.
Proof.
  intros dim l runs z z' (ks & N & L & H) W. exists ks. split; auto. split; auto.
  intros k Hk. destruct (H k Hk). split; auto. eapply attains_mono; eauto.
Qed.

Lemma attained_le : forall dim l l' runs z, (l <= l')%nat ->
  attained_by_at_least dim l' runs z -> attained_by_at_least dim l runs z.
Proof.
  intros dim l l' runs z Hl (ks & N & L & H). exists (firstn l ks). split; [|split].
  - rewrite <- (firstn_skipn l ks) in N. eapply NoDup_app_l; eauto.
  - rewrite firstn_length. lia.
  - intros k Hk. apply H. rewrite <- (firstn_skipn l ks). apply in_or_app; auto.
Qed.

(** the points of a surface are attained *)
Lemma surface_points_attained : forall runs l s p, is_surface2d runs l s -> In p s ->
  attained_by_at_least 2 l runs p.
Proof.
  intros runs l s p (W & _ & H) Hp. unfold wf_points in W. rewrite Forall_forall in W.
  apply H. auto. exists p. split; auto. apply wdom_refl.
Qed.

(** a strict staircase has no two comparable points *)
Lemma staircase_incomparable : forall s p q, staircase s -> In p s -> In q s ->
  wdom (minimise 2) p q -> p = q.
Proof.
  intros s p q St Hp Hq W. apply wdom2_iff in W.
  destruct (In_nth s p [] Hp) as (i & Hi & Ei). destruct (In_nth s q [] Hq) as (j & Hj & Ej).
  destruct (lt_eq_lt_dec i j) as [[L|L]|L].
  - pose proof (St i j ltac:(lia)) as [A B]. unfold row in *. rewrite Ei, Ej in *. lia.
  - subst. auto.
  - pose proof (St j i ltac:(lia)) as [A B]. unfold row in *. rewrite Ei, Ej in *. lia.
Qed.

(** coordinates of a surface are coordinates of the data *)
Lemma surface_coord : forall runs l s p c, (1 <= l)%nat -> is_surface2d runs l s -> In p s -> (c < 2)%nat ->
  exists q, In q (concat runs) /\ coord q c = coord p c.
Proof.
  intros runs l s p c Hl Sf Hp Hc.
  destruct (in_dec Z.eq_dec (coord p c) (map (fun q => coord q c) (concat runs))) as [I|NI].
  { apply in_map_iff in I. destruct I as (q & E & Hq). eauto. }
  exfalso.
  pose proof (surface_points_attained runs l s p Sf Hp) as (ks & N & L & H).
  set (p' := if (c =? 0)%nat then [coord p 0 - 1; coord p 1] else [coord p 0; coord p 1 - 1]).
  assert (P0 : coord p' 0 = coord p 0 - (if (c =? 0)%nat then 1 else 0)).
  { unfold p'. destruct (c =? 0)%nat; cbn; unfold coord; simpl; lia. }
  assert (P1 : coord p' 1 = coord p 1 - (if (c =? 0)%nat then 0 else 1)).
  { unfold p'. destruct (c =? 0)%nat; cbn; unfold coord; simpl; lia. }
  assert (A : attained_by_at_least 2 l runs p').
  { exists ks. split; auto. split; auto. intros k Hk. destruct (H k Hk) as [Hk1 (q & Hq & Wq)].
    split; auto. exists q. split; auto. apply wdom2_iff in Wq. apply wdom2_iff.
    assert (coord q c <> coord p c).
    { intro E. apply NI. apply in_map_iff. exists q. split; auto.
      apply in_concat. exists (nth k runs []). split; auto. apply nth_In; auto. }
    rewrite P0, P1. destruct c as [|[|c]]; cbn [Nat.eqb]; lia. }
  pose proof Sf as (Wf & St & Ex).
  assert (Lp : length p' = 2%nat) by (unfold p'; destruct (c =? 0)%nat; reflexivity).
  destruct (proj2 (Ex p' Lp) A) as (o & Ho & Wo).
  apply wdom2_iff in Wo.
  assert (W : wdom (minimise 2) o p).
  { apply wdom2_iff. rewrite P0, P1 in Wo. destruct (c =? 0)%nat; lia. }
  pose proof (staircase_incomparable s o p St Ho Hp W). subst o.
  rewrite P0, P1 in Wo. destruct (c =? 0)%nat; lia.
Qed.

Lemma surface_length : forall runs l s, (1 <= l)%nat -> is_surface2d runs l s ->
  (length s <= length (concat runs))%nat.
Proof.
  intros runs l s Hl Sf. pose proof Sf as (Wf & St & Ex).
  rewrite <- (map_length (fun p => coord p 0) s).
  rewrite <- (map_length (fun p => coord p 0) (concat runs)).
  apply NoDup_incl_length.
  - apply (NoDup_nth _ 0). rewrite map_length. intros i j Hi Hj E.
    rewrite !(nth_map_lt _ _ (fun p => coord p 0) s _ 0 []) in E by auto.
    destruct (lt_eq_lt_dec i j) as [[Lt|Lt]|Lt]; auto.
    + destruct (St i j ltac:(lia)) as [F _]. unfold row in F. lia.
    + destruct (St j i ltac:(lia)) as [F _]. unfold row in F. lia.
  - intros x Hx. apply in_map_iff in Hx. destruct Hx as (p & <- & Hp).
    destruct (surface_coord runs l s p 0 Hl Sf Hp ltac:(lia)) as (q & Hq & E).
    apply in_map_iff. eauto.
Qed.

(** an upper bound of all coordinates is attained by every set *)
Lemma exists_bound : forall (S : list point) c, exists b, forall q, In q S -> coord q c <= b.
Proof.
  induction S; intros. exists 0. intros q [].
  destruct (IHS c) as (b & H). exists (Z.max b (coord a c)). intros q [->|Hq]. lia.
  specialize (H q Hq). lia.
Qed.

Lemma surface_nonempty : forall runs l s, (forall r, In r runs -> r <> []) -> (l <= length runs)%nat ->
  is_surface2d runs l s -> s <> [].
Proof.
  intros runs l s Hne Hl (_ & _ & Ex) ->.
  destruct (exists_bound (concat runs) 0) as (b0 & B0). destruct (exists_bound (concat runs) 1) as (b1 & B1).
  destruct (proj2 (Ex [b0; b1] eq_refl)) as (p & [] & _).
  exists (seq 0 l). split. apply seq_NoDup. split. apply seq_length.
  intros k Hk. apply in_seq in Hk. split. lia.
  assert (Hk' : (k < length runs)%nat) by lia.
  pose proof (nth_In runs [] Hk') as I. specialize (Hne _ I).
  destruct (nth k runs []) as [|q r] eqn:E; try congruence.
  exists q. split. now left. apply wdom2_iff.
  assert (In q (concat runs)) by (apply in_concat; exists (q :: r); split; [auto|now left]).
  split; [apply B0|apply B1]; auto.
Qed.

Lemma surface_ok_surface : forall runs l s, surface_ok runs l s -> is_surface2d runs l (map fst s).
Proof.
  intros runs l s (St & Fl & Ex). split; [|split; auto].
  - unfold wf_points. apply Forall_forall. intros p Hp. apply in_map_iff in Hp.
    destruct Hp as (o & <- & Ho). now apply Fl.
  - intros z Hz. rewrite <- Ex by auto. split.
    + intros (p & Hp & W). apply in_map_iff in Hp. destruct Hp as (o & <- & Ho). eauto.
    + intros (o & Ho & W). exists (fst o). split; auto. now apply in_map.
Qed.

(** ** Percentiles *)
Lemma tol_pos : (0 < tolerance)%Q. Proof. reflexivity. Qed.
Lemma tol_lt1 : (tolerance < 1)%Q. Proof. reflexivity. Qed.

(** the level before the adjustment to 1: the least integer >= x - tolerance *)
Definition round_level (x : Q) : Z :=
  if Qle_bool (x - inject_Z (Qfloor x)) tolerance then Qfloor x else Qceiling x.

Lemma round_level_spec : forall x, (x - tolerance <= inject_Z (round_level x))%Q /\
  (inject_Z (round_level x) < x - tolerance + 1)%Q.
Proof.
  intros. pose proof (Qfloor_le x) as F1. pose proof (Qlt_floor x) as F2.
  pose proof (Qle_ceiling x) as C1. pose proof (Qceiling_lt x) as C2.
  unfold Zminus in C2. rewrite inject_Z_plus in C2, F2.
  change (inject_Z 1) with 1%Q in *. change (inject_Z (-(1))) with (-(1))%Q in *.
  pose proof tol_pos. pose proof tol_lt1.
  unfold round_level. destruct (Qle_bool (x - inject_Z (Qfloor x)) tolerance) eqn:E.
  - apply Qle_bool_iff in E. split; lra.
  - assert (tolerance < x - inject_Z (Qfloor x))%Q.
    { apply Qnot_le_lt. intro. apply Qle_bool_iff in H1. congruence. }
    assert (Qceiling x = Qfloor x + 1)%Z.
    { apply Z.le_antisymm.
      - destruct (Z_le_gt_dec (Qceiling x) (Qfloor x + 1)) as [|G]; auto. exfalso.
        assert (Q1 : (inject_Z (Qfloor x + 2) <= inject_Z (Qceiling x))%Q) by (rewrite <- Zle_Qle; lia).
        rewrite inject_Z_plus in Q1. change (inject_Z 2) with 2%Q in Q1. lra.
      - destruct (Z_le_gt_dec (Qfloor x + 1) (Qceiling x)) as [|G]; auto. exfalso.
        assert (Q1 : (inject_Z (Qceiling x) <= inject_Z (Qfloor x))%Q) by (rewrite <- Zle_Qle; lia). lra. }
    rewrite H2, inject_Z_plus in *. change (inject_Z 1) with 1%Q in *. split; lra.
Qed.

Lemma round_level_iff : forall x l, (round_level x <= l <-> (x - tolerance <= inject_Z l)%Q).
Proof.
  intros. destruct (round_level_spec x) as [A B]. split; intros.
  - apply Qle_trans with (inject_Z (round_level x)); auto. now rewrite <- Zle_Qle.
  - destruct (Z_le_gt_dec (round_level x) l) as [|G]; auto. exfalso.
    assert (Q1 : (inject_Z (l + 1) <= inject_Z (round_level x))%Q) by (rewrite <- Zle_Qle; lia).
    rewrite inject_Z_plus in Q1. change (inject_Z 1) with 1%Q in Q1. lra.
Qed.

Lemma round_level_mono : forall x y, (x <= y)%Q -> round_level x <= round_level y.
Proof. intros. apply round_level_iff. destruct (round_level_spec y). lra. Qed.

Lemma round_level_comp : forall x y, (x == y)%Q -> round_level x = round_level y.
Proof. intros. apply Z.le_antisymm; apply round_level_mono; rewrite H; apply Qle_refl. Qed.

Definition pct_x (p : Q) (n : Z) : Q := (inject_Z n * p / inject_Z 100)%Q.
Lemma pct_x_bounds : forall p n, 1 <= n -> (0 <= p <= 100)%Q -> (0 <= pct_x p n <= inject_Z n)%Q.
Proof.
  intros p n Hn [P0 P1]. unfold pct_x.
  assert (N : (0 < inject_Z n)%Q) by (change 0%Q with (inject_Z 0); rewrite <- Zlt_Qlt; lia).
  change (inject_Z 100) with 100%Q. split.
  - apply Qle_shift_div_l; try reflexivity. setoid_replace (0 * 100)%Q with 0%Q by ring.
    apply Qmult_le_0_compat; auto. lra.
  - apply Qle_shift_div_r; try reflexivity. rewrite Qmult_comm, (Qmult_comm _ 100).
    apply Qmult_le_compat_r; lra.
Qed.

Lemma percentile2level_ok : forall p n, 1 <= n -> (0 <= p <= 100)%Q ->
  percentile2level p n = Ret (Z.max 1 (round_level (pct_x p n))) /\
  1 <= Z.max 1 (round_level (pct_x p n)) <= n.
Proof.
  intros p n Hn Hp. pose proof (pct_x_bounds p n Hn Hp) as [X0 X1]. pose proof tol_pos. pose proof tol_lt1.
  assert (L : round_level (pct_x p n) <= n) by (apply round_level_iff; lra).
  assert (G : 0 <= round_level (pct_x p n)).
  { destruct (Z_le_gt_dec 0 (round_level (pct_x p n))) as [|G]; auto. exfalso.
    destruct (round_level_spec (pct_x p n)) as [A B].
    assert (inject_Z (round_level (pct_x p n)) <= inject_Z (-1))%Q by (rewrite <- Zle_Qle; lia).
    change (inject_Z (-1)) with (-1)%Q in H1. lra. }
  split; [|lia].
  unfold percentile2level. fold (pct_x p n). fold (round_level (pct_x p n)).
  rewrite (proj2 (Z.leb_le _ _) L), (proj2 (Z.leb_le _ _) G). cbn [assert_ bind].
  f_equal. destruct (Z.ltb_spec (round_level (pct_x p n)) 1); lia.
Qed.

(** ** The pipeline *)

Definition zlevels (ls : list nat) := map Z.of_nat ls.

Lemma nth_firstn_lt : forall A (l : list A) m k d, (k < m)%nat -> nth k (firstn m l) d = nth k l d.
Proof. induction l; destruct m; destruct k; simpl; intros; auto; try lia. apply IHl; lia. Qed.
Lemma nth_skipn_ : forall A (l : list A) m k d, nth k (skipn m l) d = nth (m + k) l d.
Proof. induction l; destruct m; simpl; intros; auto. destruct k; auto. Qed.

Section Pipeline.
Variables (runs : list (list point)) (sortx sorty : list point -> list nat)
  (junk : nat -> Z) (grow : nat -> nat -> nat).
Hypothesis Hr : runs <> [].
Hypothesis Hne : forall r, In r runs -> r <> [].
Hypothesis Hwf : wf_points 2 (concat runs).
Hypothesis Hsx : is_datax (concat runs) (sortx (concat runs)).
Hypothesis Hsy : is_datay (concat runs) (sorty (concat runs)).
Hypothesis Hjunk : forall i, is_word (junk i).
Hypothesis Hgrow : forall m r, (m <= grow m r)%nat.
Hypothesis Hsize : Z.of_nat (length (concat runs)) <= (2 ^ 31 - 1) / 2.
Let n := length runs.

Lemma stored_ok : forall levels, Forall (fun l => 1 <= l <= n)%nat levels ->
  exists ss es,
    eaf2d sortx sorty (concat runs) (cumsizes runs) n (map Z.of_nat levels) = Ret ss /\
    store_surfaces junk grow 2 n (length (concat runs)) ss = Ret es /\
    Forall2 (surface_ok runs) levels ss /\ Forall2 (holds 2 n) es ss.
Proof.
  intros levels Hl.
  destruct (eaf2d_levels_ok runs sortx sorty Hr Hne Hwf Hsx Hsy levels) as (ss & E & F).
  { eapply Forall_impl; [|exact Hl]. simpl. intros; lia. }
  destruct (store_surfaces_ok junk grow Hjunk Hgrow 2 n (length (concat runs)) ss) as (es & Es & Fs).
  { clear E. revert Hl. induction F; intros; constructor; inversion Hl; subst; auto.
    pose proof (surface_ok_surface _ _ _ H) as Sf. split; [|split].
    - intro Z. subst. apply (surface_nonempty runs x [] Hne); auto. lia.
    - apply Forall_forall. intros o Ho. destruct H as (_ & Fl & _). destruct (Fl o Ho) as (A & B & _). auto.
    - rewrite <- (map_length fst y). pose proof (surface_length runs x _ ltac:(lia) Sf). lia. }
  exists ss, es. auto.
Qed.

Lemma eaf2matrix_ok : forall ss es, Forall2 (holds 2 n) es ss ->
  Forall (Forall (fun o : point * list bool => length (fst o) = 2%nat)) ss ->
  forall pre ps, length ps = length ss ->
  eaf2matrix es 2 (length pre) (Some (pre ++ ps)) (length (pre ++ ps)) =
  Ret (concat (map (fun sp => map (fun x => (x, snd sp)) (fst sp)) (combine (map (map fst) ss) ps))).
Proof.
  induction 1 as [|e s es ss H F IH]; intros W pre ps Hl; cbn [eaf2matrix]; auto.
  destruct ps as [|p ps]; try discriminate. inversion W as [|? ? W1 W2]; subst.
  rewrite (rd_ok _ _ _ p) by (rewrite app_length; simpl; lia).
  rewrite app_nth2, Nat.sub_diag by lia. cbn [nth bind].
  pose proof H as (_ & Hs & _). rewrite Hs.
  rewrite (collect_ok _ _ (fun i => (fst (nth i s ([], [])), p))).
  2:{ intros j Hj. rewrite (read_point_ok 2 n e s j) ; auto; try lia.
      rewrite Forall_forall in W1. apply W1. apply nth_In. lia. }
  cbn [bind]. specialize (IH W2 (pre ++ [p]) ps ltac:(simpl in Hl; lia)).
  rewrite <- app_assoc in IH. cbn [app] in IH. rewrite app_length in IH. cbn [length] in IH.
  replace (S (length pre)) with (length pre + 1)%nat by lia. rewrite IH. cbn [bind].
  cbn [map combine concat fst snd]. do 2 f_equal.
  rewrite map_map. exact (map_nth_seq _ _ (fun o : point * list bool => (fst o, p)) ([], []) s).
Qed.

Lemma percentiles_ok : forall ps, Forall (fun p => (0 <= p <= 100)%Q) ps ->
  exists ls, percentiles2levels ps (Z.of_nat n) = Ret (map Z.of_nat ls) /\
    Forall2 (fun p (l : nat) => (1 <= l <= n)%nat /\
       forall m : nat, ((l <= m)%nat <-> (1 <= m)%nat /\ (inject_Z (Z.of_nat n) * p / 100 - tolerance <= inject_Z (Z.of_nat m))%Q)) ps ls.
Proof.
  assert (Hn : (1 <= n)%nat) by (unfold n; destruct runs; [congruence|simpl; lia]).
  induction 1 as [|p ps Hp Hps IH]; cbn [percentiles2levels].
  - exists []. auto.
  - destruct IH as (ls & E & F).
    destruct (percentile2level_ok p (Z.of_nat n) ltac:(lia) Hp) as [E1 R].
    rewrite E1. cbn [bind]. rewrite E. cbn [bind].
    exists (Z.to_nat (Z.max 1 (round_level (pct_x p (Z.of_nat n)))) :: ls).
    split. { cbn [map]. rewrite Z2Nat.id by lia. reflexivity. }
    constructor; auto. split; [lia|]. intros m.
    change (inject_Z (Z.of_nat n) * p / 100)%Q with (pct_x p (Z.of_nat n)).
    rewrite <- round_level_iff. lia.
Qed.

(** eaf_compute_matrix *)
Lemma eaf_matrix_ok : forall ps, Forall (fun p => (0 <= p <= 100)%Q) ps ->
  exists ls ss,
    eaf_compute_matrix_2d sortx sorty junk grow (concat runs) (cumsizes runs) n (Some ps) (length ps) =
      Ret (concat (map (fun sp => map (fun x => (x, snd sp)) (fst sp)) (combine ss ps))) /\
    Forall2 (fun p (l : nat) => (1 <= l <= n)%nat /\
       forall m : nat, ((l <= m)%nat <-> (1 <= m)%nat /\ (inject_Z (Z.of_nat n) * p / 100 - tolerance <= inject_Z (Z.of_nat m))%Q)) ps ls /\
    Forall2 (is_surface2d runs) ls ss.
Proof.
  intros ps Hps. destruct (percentiles_ok ps Hps) as (ls & E & F).
  assert (Fl : Forall (fun l => 1 <= l <= n)%nat ls).
  { clear E Hps. induction F as [|? ? ? ? [A _] F]; constructor; auto. }
  destruct (stored_ok ls Fl) as (ss & es & E1 & E2 & F1 & F2).
  assert (L1 : length ls = length ps) by (clear - F; induction F; simpl; congruence).
  assert (L2 : length ss = length ls) by (clear - F1; induction F1; simpl; congruence).
  exists ls, (map (map fst) ss). split; [|split; auto].
  - unfold eaf_compute_matrix_2d, levels_from_percentiles. rewrite firstn_all, E. cbn [bind].
    rewrite E1. cbn [bind]. rewrite E2. cbn [bind].
    apply (eaf2matrix_ok ss es F2) with (pre := []).
    + clear - F1. induction F1; constructor; auto. apply Forall_forall. intros o Ho.
      destruct H as (_ & Fl & _). now apply Fl.
    + congruence.
  - clear - F1. induction F1; constructor; auto. now apply surface_ok_surface.
Qed.

(** eafdiff_compute_matrix *)
Lemma count_left_exactly : forall (f : nat -> bool) z off m,
  (forall k, (k < n)%nat -> (f k = true <-> attains 2 (nth k runs []) z)) -> (off + m <= n)%nat ->
  attained_by_exactly 2 (countb f (seq off m)) (firstn m (skipn off runs)) z.
Proof.
  intros f z off m H L. exists (map (fun k => k - off)%nat (filter f (seq off m))). split; [|split].
  - apply NoDup_map_inv with (f := fun k => (k + off)%nat). rewrite map_map.
    rewrite (map_ext_in _ (fun k => k)).
    + rewrite map_id. apply NoDup_filter, seq_NoDup.
    + intros k Hk. apply filter_In in Hk. destruct Hk as [Hk _]. apply in_seq in Hk. lia.
  - now rewrite map_length, countb_filter.
  - assert (Ln : length (firstn m (skipn off runs)) = m).
    { rewrite firstn_length, skipn_length. fold n. lia. }
    assert (Nt : forall k, (k < m)%nat -> nth k (firstn m (skipn off runs)) [] = nth (off + k) runs []).
    { intros k Hk. rewrite nth_firstn_lt by auto. apply nth_skipn_. }
    intros k. rewrite in_map_iff, Ln. split.
    + intros (j & E & Hj). apply filter_In in Hj. destruct Hj as [Hj F]. apply in_seq in Hj.
      subst k. split. lia. rewrite Nt by lia. replace (off + (j - off))%nat with j by lia.
      apply H; auto. lia.
    + intros [Hk A]. rewrite Nt in A by auto. exists (off + k)%nat. split. lia.
      apply filter_In. split. apply in_seq; lia. apply H; auto. lia.
Qed.

Lemma eafdiff_rows_ok : forall intervals levels ss es, (1 <= n)%nat ->
  Forall2 (surface_ok runs) levels ss -> Forall2 (holds 2 n) es ss ->
  exists rs, eafdiff_rows es 2 (n / 2) n intervals = Ret (concat rs) /\
    map (map fst) rs = map (map fst) ss /\
    Forall (Forall (fun r => diff_value runs intervals (fst r) (snd r))) rs.
Proof.
  intros intervals levels ss es Hn F1. revert es.
  induction F1 as [|l s levels ss S1 F1 IH]; intros es F2; inversion F2 as [|e ? es' ? H F3]; subst; cbn [eafdiff_rows].
  { exists []. auto. }
  destruct (IH es' F3) as (rs & E & M & D).
  pose proof H as (_ & Hs & _). rewrite Hs.
  assert (Hd : (n / 2 < n)%nat) by (apply Nat.div_lt; lia).
  set (fl := fun i => snd (nth i s ([], []))).
  set (g := fun i => (fst (nth i s ([], [])),
     (inject_Z (Z.of_nat intervals) *
       (inject_Z (Z.of_nat (countb (fun k => nth k (fl i) false) (seq 0 (n / 2)))) / inject_Z (Z.of_nat (n / 2)) -
        inject_Z (Z.of_nat (countb (fun k => nth k (fl i) false) (seq (n / 2) (n - n / 2)))) / inject_Z (Z.of_nat (n - n / 2))))%Q)).
  destruct S1 as (St & Fl & Ex).
  rewrite (collect_ok _ _ g).
  2:{ intros j Hj. assert (Ij : In (nth j s ([], [])) s) by (apply nth_In; lia).
      rewrite (read_point_ok 2 n e s j); auto; try lia; [|now apply Fl].
      cbn [bind]. unfold eafdiff_percentile.
      rewrite (attained_left_right_ok 2 n e s j (n / 2)) by (auto; lia). cbn [bind fst snd].
      reflexivity. }
  cbn [bind]. rewrite E. cbn [bind].
  exists (map g (seq 0 (length s)) :: rs). split; auto. split.
  - cbn [map]. f_equal; auto. rewrite map_map. unfold g. cbn [fst].
    exact (map_nth_seq _ _ (fun o : point * list bool => fst o) ([], []) s).
  - constructor; auto. apply Forall_forall. intros r Hr'. apply in_map_iff in Hr'.
    destruct Hr' as (i & <- & Hi). apply in_seq in Hi.
    assert (Ii : In (nth i s ([], [])) s) by (apply nth_In; lia).
    destruct (Fl _ Ii) as (_ & _ & Fk).
    unfold g. cbn [fst snd].
    exists (countb (fun k => nth k (fl i) false) (seq 0 (n / 2))),
           (countb (fun k => nth k (fl i) false) (seq (n / 2) (n - n / 2))).
    split; [|split].
    + apply (count_left_exactly (fun k => nth k (fl i) false) _ 0 (n / 2)); auto. lia.
    + pose proof (count_left_exactly (fun k => nth k (fl i) false) (fst (nth i s ([], []))) (n / 2) (n - n / 2) Fk ltac:(lia)) as C.
      rewrite (firstn_all2 (n := n - n / 2)) in C; auto. rewrite skipn_length. fold n. lia.
    + apply Qeq_refl.
Qed.

Lemma eafdiff_matrix_ok : forall intervals,
  exists rs,
    eafdiff_compute_matrix_2d sortx sorty junk grow (concat runs) (cumsizes runs) n intervals = Ret (concat rs) /\
    Forall2 (is_surface2d runs) (seq 1 n) (map (map fst) rs) /\
    Forall (Forall (fun r => diff_value runs intervals (fst r) (snd r))) rs.
Proof.
  intros intervals.
  assert (Hn : (1 <= n)%nat) by (unfold n; destruct runs; [congruence|simpl; lia]).
  destruct (stored_ok (seq 1 n)) as (ss & es & E1 & E2 & F1 & F2).
  { apply Forall_forall. intros l Hl. apply in_seq in Hl. lia. }
  destruct (eafdiff_rows_ok intervals (seq 1 n) ss es Hn F1 F2) as (rs & E & M & D).
  exists rs. split; [|split; auto].
  - unfold eafdiff_compute_matrix_2d, levels_from_percentiles. rewrite Nat.eqb_refl. cbn [assert_ bind].
    replace (map (fun k => Z.of_nat (k + 1)) (seq 0 n)) with (map Z.of_nat (seq 1 n)).
    2:{ rewrite <- seq_shift, map_map. apply map_ext. intros. f_equal. lia. }
    rewrite E1. cbn [bind]. rewrite E2. cbn [bind]. exact E.
  - rewrite M. clear - F1. induction F1; cbn [map]; constructor; auto. now apply surface_ok_surface.
Qed.
End Pipeline.
