(** The rectangles of all levels. *)
From Coq Require Import List ZArith Lia Bool Arith QArith Lqa.
From Verif Require Import Base Spec EafSpec RectSpec BitArrayModel BitArrayProofs EafModel EafProofs EafMain
  EafStoreModel EafStoreProofs EafTop RectModel RectProofs.
Import ListNotations.
Open Scope Z_scope.

Section Top.
Variables (runs : list (list point)).
Hypothesis Hne : forall r, In r runs -> r <> [].
Let n := length runs.

Lemma attained_dec : forall l z, attained_by_at_least 2 l runs z \/ ~ attained_by_at_least 2 l runs z.
Proof.
  intros l z.
  set (f := fun k => existsb (fun p => (coord p 0 <=? coord z 0) && (coord p 1 <=? coord z 1)) (nth k runs [])).
  assert (Hf : forall k, f k = true <-> attains 2 (nth k runs []) z).
  { intros k. unfold f, attains. rewrite existsb_exists. split; intros (p & Hp & X); exists p; split; auto.
    - apply andb_prop in X. destruct X as [X Y]. apply Z.leb_le in X. apply Z.leb_le in Y. apply wdom2_iff; auto.
    - apply wdom2_iff in X. destruct X as [X Y]. apply Z.leb_le in X. apply Z.leb_le in Y. now rewrite X, Y. }
  assert (E : (l <= countb f (seq 0 n))%nat <-> attained_by_at_least 2 l runs z).
  { rewrite countb_ge_iff. unfold attained_by_at_least.
    split; intros (ks & N & L & H); exists ks; (split; [exact N|split; [exact L|]]); intros k Hk;
      destruct (H k Hk) as [H1 H2]; (split; [assumption|]); now apply Hf. }
  rewrite <- E. lia.
Qed.

(** sets attaining a location strictly between two consecutive surfaces are those
    that attain the point of the lower surface dominating it *)
Lemma same_attaining : forall l p z, attained_by_at_least 2 l runs p -> wdom (minimise 2) p z ->
  ~ attained_by_at_least 2 (S l) runs z ->
  forall k, (k < length runs)%nat -> (attains 2 (nth k runs []) p <-> attains 2 (nth k runs []) z).
Proof.
  intros l p z (ks & N & L & H) W No k Hk. split.
  - intros X. eapply attains_mono; eauto.
  - intros X. destruct (in_dec Nat.eq_dec k ks) as [I|NI]. now apply H.
    exfalso. apply No. exists (k :: ks). split; [constructor; auto|]. split; [simpl; congruence|].
    intros j [<-|Hj]; auto. destruct (H j Hj). split; auto. eapply attains_mono; eauto.
Qed.

Definition colour_ok (r : rect Z) (z : point) : Prop :=
  exists L R, attained_by_exactly 2 L (firstn (n / 2) runs) z /\
              attained_by_exactly 2 R (skipn (n / 2) runs) z /\
              r_col r = Z.of_nat L - Z.of_nat R.

(** what the rectangles of levels l..m-1 satisfy *)
Definition covers (l m : nat) (new : list (rect Z)) : Prop :=
  (forall r, In r new -> nondegenerate r) /\ pairwise_disjoint new /\
  (forall z, length z = 2%nat ->
     ((exists r, In r new /\ in_rect r z) <->
      attained_by_at_least 2 l runs z /\ ~ attained_by_at_least 2 m runs z)) /\
  (forall r z, In r new -> in_rect r z -> length z = 2%nat -> colour_ok r z).

Lemma in_rect_ext : forall C (r : rect C) z z', coord z 0 = coord z' 0 -> coord z 1 = coord z' 1 ->
  in_rect r z -> in_rect r z'.
Proof. unfold in_rect. intros C r z z' -> ->. auto. Qed.

Lemma pair_ok : forall l sa sb ea eb rs0, (1 <= l)%nat -> (S l <= n)%nat ->
  surface_ok runs l sa -> surface_ok runs (S l) sb -> holds 2 n ea sa -> holds 2 n eb sb ->
  exists new, rect_pair ea eb n rs0 = Ret (rs0 ++ new) /\ covers l (S l) new.
Proof.
  intros l sa sb ea eb rs0 Hl Hl' Sa Sb Ha Hb.
  pose proof Ha as (_ & Za & _). pose proof Hb as (_ & Zb & _).
  assert (Na : (0 < length sa)%nat).
  { destruct sa; simpl; try lia. exfalso. apply (surface_nonempty runs l [] Hne); auto. fold n; lia.
    apply (surface_ok_surface _ _ _ Sa). }
  assert (Nb : (0 < length sb)%nat).
  { destruct sb; simpl; try lia. exfalso. apply (surface_nonempty runs (S l) [] Hne); auto.
    apply (surface_ok_surface _ _ _ Sb). }
  unfold rect_pair. rewrite Za, Zb.
  replace (length sa =? 0)%nat with false by (symmetry; apply Nat.eqb_neq; lia).
  replace (length sb =? 0)%nat with false by (symmetry; apply Nat.eqb_neq; lia). cbn [orb].
  assert (Hd : (n / 2 < n)%nat) by (apply Nat.div_lt; lia).
  set (fl := fun i => snd (nth i sa ([], []))).
  set (g := fun i => Z.of_nat (countb (fun k => nth k (fl i) false) (seq 0 (n / 2))) -
                     Z.of_nat (countb (fun k => nth k (fl i) false) (seq (n / 2) (n - n / 2)))).
  unfold init_colors. rewrite Za. rewrite (collect_ok _ _ g).
  2:{ intros j Hj. unfold eaf_diff_color.
      rewrite (attained_left_right_ok 2 n ea sa j (n / 2)) by (auto; lia). reflexivity. }
  cbn [bind].
  assert (RA : forall i, (i < length (map fst sa))%nat -> read_point ea 2 i = Ret (row (map fst sa) i)).
  { intros i Hi. rewrite map_length in Hi. rewrite (read_point_ok 2 n ea sa i) by
      (auto; apply Sa, nth_In; auto).
    f_equal. unfold row. symmetry. apply (map_nth fst sa ([], []) i). }
  assert (RB : forall i, (i < length (map fst sb))%nat -> read_point eb 2 i = Ret (row (map fst sb) i)).
  { intros i Hi. rewrite map_length in Hi. rewrite (read_point_ok 2 n eb sb i) by
      (auto; apply Sb, nth_In; auto).
    f_equal. unfold row. symmetry. apply (map_nth fst sb ([], []) i). }
  rewrite RA, RB by (rewrite map_length; auto). cbn [bind].
  pose proof (surface_ok_surface _ _ _ Sa) as (Wa & Sta & Exa).
  pose proof (surface_ok_surface _ _ _ Sb) as (Wb & Stb & Exb).
  assert (DA : forall s z, domL s z <-> exists p, In p s /\ wdom (minimise 2) p z).
  { intros s z. split.
    - intros (i & Hi & X & Y). exists (row s i). split. now apply nth_In. now apply wdom2_iff.
    - intros (p & Hp & X). apply row_In_inv in Hp. destruct Hp as (i & Hi & <-).
      apply wdom2_iff in X. exists i. tauto. }
  assert (DaB : forall j, (j < length (map fst sb))%nat -> domL (map fst sa) (row (map fst sb) j)).
  { intros j Hj. apply DA. apply Exa.
    - unfold wf_points in Wb. rewrite Forall_forall in Wb. apply Wb. now apply nth_In.
    - apply (attained_le 2 l (S l)); auto. apply Exb.
      + unfold wf_points in Wb. rewrite Forall_forall in Wb. apply Wb. now apply nth_In.
      + exists (row (map fst sb) j). split. now apply nth_In. apply wdom_refl. }
  destruct (pair_loop_ok ea eb (map g (seq 0 (length sa))) (map fst sa) (map fst sb) rs0) as (new & E & F1 & F2 & F3); auto.
  all: try solve [rewrite map_length; auto]. { rewrite !map_length, seq_length. auto. }
  rewrite map_length in E. exists new. split. exact E.
  assert (Cov : forall z, length z = 2%nat -> ((exists r, In r new /\ in_rect r z) <->
      attained_by_at_least 2 l runs z /\ ~ attained_by_at_least 2 (S l) runs z)).
  { intros z Hz. rewrite F3, !DA, (Exa z Hz), (Exb z Hz). reflexivity. }
  split; [|split; [exact F2|split; [exact Cov|]]].
  - intros r Hr. now apply F1.
  - intros r z Hr Ir Hz.
    destruct (proj1 (Cov z Hz)) as [_ No]. { exists r; auto. }
    destruct (F1 r Hr) as [_ (k & Hk & Ec & Ex & Ey)]. rewrite map_length in Hk.
    assert (Ik : In (nth k sa ([], [])) sa) by (apply nth_In; auto).
    assert (Rk : row (map fst sa) k = fst (nth k sa ([], []))) by (unfold row; apply (map_nth fst sa ([], []) k)).
    rewrite Rk in Ex, Ey.
    destruct Sa as (_ & Fl & _). destruct (Fl _ Ik) as (Lp & _ & Fk).
    assert (Pa : attained_by_at_least 2 l runs (fst (nth k sa ([], [])))).
    { apply Exa; auto. exists (fst (nth k sa ([], []))). split. now apply in_map. apply wdom_refl. }
    assert (Wz : wdom (minimise 2) (fst (nth k sa ([], []))) z).
    { apply wdom2_iff. destruct Ir as (I1 & _ & I2 & _). lia. }
    assert (Fz : forall j, (j < n)%nat -> (nth j (fl k) false = true <-> attains 2 (nth j runs []) z)).
    { intros j Hj. rewrite <- (same_attaining l _ z Pa Wz No j Hj). apply Fk; auto. }
    exists (countb (fun j => nth j (fl k) false) (seq 0 (n / 2))),
           (countb (fun j => nth j (fl k) false) (seq (n / 2) (n - n / 2))).
    split; [|split].
    + apply (count_left_exactly runs (fun j => nth j (fl k) false) z 0 (n / 2)); auto. fold n. lia.
    + pose proof (count_left_exactly runs (fun j => nth j (fl k) false) z (n / 2) (n - n / 2) Fz ltac:(fold n; lia)) as C.
      rewrite (firstn_all2 (n := n - n / 2)) in C; auto. rewrite skipn_length. fold n. lia.
    + rewrite Ec. rewrite (nth_indep _ 0 (g 0%nat)) by (rewrite map_length, seq_length; auto).
      rewrite map_nth, seq_nth by auto. reflexivity.
Qed.

Lemma covers_app : forall l m k a b, (l <= m)%nat -> (m <= k)%nat ->
  covers l m a -> covers m k b -> covers l k (a ++ b).
Proof.
  intros l m k a b L1 L2 (A1 & A2 & A3 & A4) (B1 & B2 & B3 & B4). split; [|split; [|split]].
  - intros r Hr. apply in_app_iff in Hr. destruct Hr; auto.
  - apply pairwise_app; auto. intros r r' Hr Hr' z I I'.
    set (z' := [coord z 0; coord z 1]).
    assert (I1 : in_rect r z') by (apply (in_rect_ext _ _ z); auto).
    assert (I2 : in_rect r' z') by (apply (in_rect_ext _ _ z); auto).
    destruct (proj1 (A3 z' eq_refl)) as [_ X]; [exists r; auto|].
    destruct (proj1 (B3 z' eq_refl)) as [Y _]; [exists r'; auto|]. auto.
  - intros z Hz. split.
    + intros (r & Hr & Ir). apply in_app_iff in Hr. destruct Hr as [Hr|Hr].
      * destruct (proj1 (A3 z Hz)) as [X Y]; [exists r; auto|]. split; auto.
        intro N. apply Y. now apply (attained_le 2 m k).
      * destruct (proj1 (B3 z Hz)) as [X Y]; [exists r; auto|]. split; auto. now apply (attained_le 2 l m).
    + intros [X Y]. destruct (attained_dec m z) as [D|D].
      * destruct (proj2 (B3 z Hz)) as (r & Hr & Ir); auto. exists r. rewrite in_app_iff. auto.
      * destruct (proj2 (A3 z Hz)) as (r & Hr & Ir); auto. exists r. rewrite in_app_iff. auto.
  - intros r z Hr. apply in_app_iff in Hr. destruct Hr; auto.
Qed.

Lemma levels_ok : forall m l ss es rs0, (1 <= l)%nat -> (l + m <= n)%nat ->
  Forall2 (surface_ok runs) (seq l (S m)) ss -> Forall2 (holds 2 n) es ss ->
  exists new, rect_levels es n rs0 = Ret (rs0 ++ new) /\ covers l (l + m) new.
Proof.
  induction m; intros l ss es rs0 Hl Hm F1 F2.
  - inversion F1 as [|? s ? ss' S1 F3]; subst. inversion F3; subst. inversion F2 as [|e ? es' ? H F4]; subst.
    inversion F4; subst. cbn [rect_levels]. exists []. rewrite app_nil_r. split; auto.
    rewrite Nat.add_0_r. split; [|split; [|split]].
    + intros r [].
    + apply pairwise_nil.
    + intros z _. split. intros (r & [] & _). tauto.
    + intros r z [].
  - cbn [seq] in F1. inversion F1 as [|? s ? ss' S1 F3]; subst. inversion F2 as [|e ? es' ? H F4]; subst.
    pose proof F3 as F3'. inversion F3 as [|? s2 ? ss2 S2 F5]; subst. pose proof F4 as F4'.
    inversion F4 as [|e2 ? es2 ? H2 F6]; subst.
    change (rect_levels (e :: e2 :: es2) n rs0) with
      (rs <- rect_pair e e2 n rs0 ;; rect_levels (e2 :: es2) n rs).
    destruct (pair_ok l s s2 e e2 rs0) as (n1 & E1 & C1); auto; [lia|].
    rewrite E1. cbn [bind].
    destruct (IHm (S l) (s2 :: ss2) (e2 :: es2) (rs0 ++ n1)) as (n2 & E2 & C2); auto; [lia|].
    rewrite E2. exists (n1 ++ n2). rewrite app_assoc. split; auto.
    replace (l + S m)%nat with (S l + m)%nat by lia.
    apply (covers_app l (S l)); auto; lia.
Qed.
End Top.

Section Pipeline.
Variables (runs : list (list point)) (sortx sorty : list point -> list nat)
  (junk : nat -> Z) (grow : nat -> nat -> nat).
Hypothesis Hr : (2 <= length runs)%nat.
Hypothesis Hev : (length runs mod 2 = 0)%nat.
Hypothesis Hne : forall r, In r runs -> r <> [].
Hypothesis Hwf : wf_points 2 (concat runs).
Hypothesis Hsx : is_datax (concat runs) (sortx (concat runs)).
Hypothesis Hsy : is_datay (concat runs) (sorty (concat runs)).
Hypothesis Hjunk : forall i, is_word (junk i).
Hypothesis Hgrow : forall m r, (m <= grow m r)%nat.
Hypothesis Hsize : Z.of_nat (length (concat runs)) <= (2 ^ 31 - 1) / 2.
Let n := length runs.

Lemma rectangles_ok : forall intervals,
  exists rs,
    eafdiff_compute_rectangles sortx sorty junk grow (concat runs) (cumsizes runs) n intervals = Ret rs /\
    (forall r, In r rs -> nondegenerate r) /\ pairwise_disjoint rs /\
    (forall z, length z = 2%nat -> ((exists r, In r rs /\ in_rect r z) <->
       attained_by_at_least 2 1 runs z /\ ~ attained_by_at_least 2 n runs z)) /\
    (forall r z, In r rs -> in_rect r z -> length z = 2%nat -> diff_value runs intervals z (r_col r)).
Proof.
  intros intervals.
  assert (Hr' : runs <> []) by (intros E; rewrite E in Hr; simpl in Hr; lia).
  destruct (stored_ok runs sortx sorty junk grow Hr' Hne Hwf Hsx Hsy Hjunk Hgrow Hsize (seq 1 n)) as (ss & es & E1 & E2 & F1 & F2).
  { apply Forall_forall. intros l Hl. apply in_seq in Hl. fold n. lia. }
  fold n in E1, E2, F2.
  unfold eafdiff_compute_rectangles, levels_from_percentiles. rewrite Nat.eqb_refl. cbn [assert_ bind].
  replace (map (fun k => Z.of_nat (k + 1)) (seq 0 n)) with (map Z.of_nat (seq 1 n)).
  2:{ rewrite <- seq_shift, map_map. apply map_ext. intros. f_equal. lia. }
  rewrite E1. cbn [bind]. rewrite E2. cbn [bind].
  assert (Hn : n = S (n - 1)) by (unfold n; lia).
  rewrite Hn in F1.
  destruct (levels_ok runs Hne (n - 1) 1 ss es [] ltac:(lia) ltac:(fold n; lia) F1 F2) as (new & E & C1 & C2 & C3 & C4).
  unfold eaf_compute_rectangles.
  destruct es as [|e0 es]. { inversion F2; subst. inversion F1. }
  cbn [rd nth_error bind].
  assert (En : e_nruns e0 = n) by (inversion F2 as [|? ? ? ? H _]; subst; apply H).
  rewrite En. unfold n at 1. rewrite Hev. cbn [Nat.eqb assert_ bind].
  fold n in E. rewrite E. cbn [bind app].
  set (f := fun r : rect Z => mkRect (r_lx r) (r_ly r) (r_ux r) (r_uy r)
    (inject_Z (Z.of_nat intervals) * inject_Z (r_col r) / inject_Z (Z.of_nat (n / 2)))%Q).
  exists (map f new). split; auto.
  assert (If : forall r z, in_rect (f r) z <-> in_rect r z) by (intros; reflexivity).
  split; [|split; [|split]].
  - intros r H. apply in_map_iff in H. destruct H as (r' & <- & H). exact (C1 r' H).
  - intros i j r r' Hij N N' z. rewrite nth_error_map in N, N'.
    destruct (nth_error new i) as [q|] eqn:Q; [|discriminate].
    destruct (nth_error new j) as [q'|] eqn:Q'; [|discriminate].
    simpl in N, N'. injection N as <-. injection N' as <-. exact (C2 i j q q' Hij Q Q' z).
  - intros z Hz. specialize (C3 z Hz). replace (1 + (n - 1))%nat with n in C3 by lia. rewrite <- C3. split.
    + intros (r & H & I). apply in_map_iff in H. destruct H as (r' & <- & H). exists r'. auto.
    + intros (r & H & I). exists (f r). split; auto. now apply in_map.
  - intros r z H I Hz. apply in_map_iff in H. destruct H as (r' & <- & H).
    destruct (C4 r' z H I Hz) as (L & R & HL & HR & Ec). fold n in HL, HR.
    exists L, R. fold n. split; auto. split; auto.
    assert (Hh : (n - n / 2 = n / 2)%nat).
    { pose proof (Nat.div_mod_eq n 2) as X. assert (Hm : (n mod 2 = 0)%nat) by exact Hev. rewrite Hm in X. lia. }
    rewrite Hh. cbn [f r_col]. rewrite Ec. unfold Z.sub. rewrite inject_Z_plus, inject_Z_opp.
    assert (Hp : ~ (inject_Z (Z.of_nat (n / 2)) == 0)%Q).
    { unfold Qeq, inject_Z. cbn [Qnum Qden].
      assert (1 <= n / 2)%nat by (apply Nat.div_le_lower_bound; unfold n; lia).
      clear - H0. generalize dependent (n / 2)%nat. intros. lia. }
    unfold Qminus, Qdiv. ring.
Qed.
End Pipeline.
