(** The polygons of all levels. *)
From Coq Require Import List ZArith Lia Bool Arith.
From Verif Require Import Base Spec EafSpec RectSpec PolySpec BitArrayModel BitArrayProofs EafModel EafProofs EafMain
  EafStoreModel EafStoreProofs EafTop RectModel RectProofs RectTop PolyModel PolyProofs.
Import ListNotations.
Open Scope Z_scope.

Lemma lt_bound_le : forall x y b, x <= y -> lt_bound y b = true -> lt_bound x b = true.
Proof. intros x y [b|] L; cbn; auto. rewrite !Z.ltb_lt. lia. Qed.

Section Top.
Variables (runs : list (list point)).
Hypothesis Hne : forall r, In r runs -> r <> [].
Let n := length runs.

Definition diff_ok (c : Z) (z : point) : Prop :=
  exists L R, attained_by_exactly 2 L (firstn (n / 2) runs) z /\
              attained_by_exactly 2 R (skipn (n / 2) runs) z /\ c = Z.of_nat L - Z.of_nat R.

(** where the corners of the polygons between two levels may lie *)
Definition corner_at (l m : nat) (v : vertex) : Prop :=
  (exists p, length p = 2%nat /\ attained_by_at_least 2 l runs p /\
     leb_bound (coord p 0) (fst v) = true /\ leb_bound (coord p 1) (snd v) = true) /\
  (forall p, length p = 2%nat -> attained_by_at_least 2 m runs p ->
     lt_bound (coord p 0) (fst v) = true -> lt_bound (coord p 1) (snd v) = false).
Definition lt_bounds (a b : bound) : bool := match a with At x => lt_bound x b | Infty => false end.
(** two polygons one of which is not above the other, or without a corner of the
    second below and left of a corner of the first *)
Definition apart (p q : list vertex * Z) : Prop :=
  (exists t, (forall v, In v (fst p) -> leb_bound t (snd v) = true) /\
             (forall v, In v (fst q) -> le_bounds (snd v) (At t))) \/
  (forall v w, In v (fst p) -> In w (fst q) -> lt_bounds (fst w) (fst v) && lt_bounds (snd w) (snd v) = false).

Definition tiles (l m : nat) (new : list (list vertex * Z)) : Prop :=
  (forall P c, In (P, c) new -> orthogonal P /\ (4 <= length P)%nat /\ (length P mod 2 = 0)%nat) /\
  (forall z, length z = 2%nat -> attained_by_at_least 2 l runs z -> ~ attained_by_at_least 2 m runs z ->
     exists P c, containing new z = [(P, c)] /\ diff_ok c z) /\
  (forall z, length z = 2%nat -> ~ (attained_by_at_least 2 l runs z /\ ~ attained_by_at_least 2 m runs z) ->
     containing new z = []) /\
  (forall P c v, In (P, c) new -> In v P -> corner_at l m v) /\ ForallOrdPairs apart new.

Lemma pair_ok : forall l sa sb ea eb s0, (1 <= l)%nat -> (S l <= n)%nat ->
  surface_ok runs l sa -> surface_ok runs (S l) sb -> holds 2 n ea sa -> holds 2 n eb sb ->
  exists new, poly_pair ea eb n s0 = Ret (fst s0 ++ layout new, snd s0 ++ map snd new) /\ tiles l (S l) new.
Proof.
  intros l sa sb ea eb s0 Hl Hl' Sa Sb Ha Hb.
  pose proof Ha as (_ & Za & _). pose proof Hb as (_ & Zb & _).
  unfold poly_pair.
  assert (Hd : (n / 2 < n)%nat) by (apply Nat.div_lt; lia).
  set (fl := fun i => snd (nth i sa ([], []))).
  set (g := fun i => Z.of_nat (countb (fun k => nth k (fl i) false) (seq 0 (n / 2))) -
                     Z.of_nat (countb (fun k => nth k (fl i) false) (seq (n / 2) (n - n / 2)))).
  unfold init_colors. rewrite Za. rewrite (collect_ok _ _ g).
  2:{ intros j Hj. unfold eaf_diff_color.
      rewrite (attained_left_right_ok 2 n ea sa j (n / 2)) by (auto; lia). reflexivity. }
  cbn [bind].
  assert (RA : forall i, (i < length (map fst sa))%nat -> read_point ea 2 i = Ret (row (map fst sa) i)).
  { intros i Hi. rewrite map_length in Hi. rewrite (read_point_ok 2 n ea sa i) by
      (auto; apply Sa, nth_In; auto).
    f_equal. unfold row. symmetry. apply (map_nth fst sa ([], []) i). }
  assert (RB : forall i, (i < length (map fst sb))%nat -> read_point eb 2 i = Ret (row (map fst sb) i)).
  { intros i Hi. rewrite map_length in Hi. rewrite (read_point_ok 2 n eb sb i) by
      (auto; apply Sb, nth_In; auto).
    f_equal. unfold row. symmetry. apply (map_nth fst sb ([], []) i). }
  pose proof (surface_ok_surface _ _ _ Sa) as (Wa & Sta & Exa).
  pose proof (surface_ok_surface _ _ _ Sb) as (Wb & Stb & Exb).
  assert (DA : forall s z, domL s z <-> exists p, In p s /\ wdom (minimise 2) p z).
  { intros s z. split.
    - intros (i & Hi & X & Y). exists (row s i). split. now apply nth_In. now apply wdom2_iff.
    - intros (p & Hp & X). apply row_In_inv in Hp. destruct Hp as (i & Hi & <-).
      apply wdom2_iff in X. exists i. tauto. }
  assert (DaB : forall j, (j < length (map fst sb))%nat -> domL (map fst sa) (row (map fst sb) j)).
  { intros j Hj. apply DA. apply Exa.
    - unfold wf_points in Wb. rewrite Forall_forall in Wb. apply Wb. now apply nth_In.
    - apply (attained_le 2 l (S l)); auto. apply Exb.
      + unfold wf_points in Wb. rewrite Forall_forall in Wb. apply Wb. now apply nth_In.
      + exists (row (map fst sb) j). split. now apply nth_In. apply wdom_refl. }
  assert (Rk : forall k, row (map fst sa) k = fst (nth k sa ([], []))) by (intros k; unfold row; apply (map_nth fst sa ([], []) k)).
  assert (Cg : forall k, (k < length sa)%nat -> nth k (map g (seq 0 (length sa))) 0 = g k).
  { intros k Hk. rewrite (nth_indep _ 0 (g 0%nat)) by (rewrite map_length, seq_length; auto).
    rewrite map_nth, seq_nth by auto. reflexivity. }
  (* the sets that attain a location on the surface but not above it *)
  assert (Fz : forall k z, (k < length sa)%nat -> wdom (minimise 2) (fst (nth k sa ([], []))) z ->
     ~ attained_by_at_least 2 (S l) runs z ->
     forall j, (j < n)%nat -> (nth j (fl k) false = true <-> attains 2 (nth j runs []) z)).
  { intros k z Hk Wz No j Hj.
    assert (Ik : In (nth k sa ([], [])) sa) by (apply nth_In; auto).
    destruct Sa as (_ & Fl & _). destruct (Fl _ Ik) as (Lp & _ & Fk).
    assert (Pa : attained_by_at_least 2 l runs (fst (nth k sa ([], [])))).
    { apply Exa; auto. exists (fst (nth k sa ([], []))). split. now apply in_map. apply wdom_refl. }
    rewrite <- (same_attaining runs l _ z Pa Wz No j Hj). apply Fk; auto. }
  destruct (pair_loop_ok ea eb (map g (seq 0 (length sa))) (map fst sa) (map fst sb)) with (xy := fst s0) (cols := snd s0)
    as (new & E & F1 & F2 & F3 & F4 & F5); auto.
  all: try solve [rewrite map_length; auto]. { rewrite !map_length, seq_length. auto. }
  { intros i Hi Hc. rewrite map_length in Hi. rewrite !Cg in Hc by lia.
    set (z := [coord (row (map fst sa) (S i)) 0; coord (row (map fst sa) i) 1]).
    assert (Z0 : coord z 0 = coord (row (map fst sa) (S i)) 0) by reflexivity.
    assert (Z1 : coord z 1 = coord (row (map fst sa) i) 1) by reflexivity.
    destruct (attained_dec runs (S l) z) as [At1|No].
    - apply (Exb z eq_refl), DA in At1. destruct At1 as (j & Hj & X & Y). exists j. auto.
    - exfalso. apply Hc. clear Hc.
      destruct (Sta i (S i)) as [Q1 Q2]; [rewrite map_length; lia|].
      assert (W1 : wdom (minimise 2) (fst (nth i sa ([], []))) z).
      { apply wdom2_iff. rewrite <- Rk, Z0, Z1. lia. }
      assert (W2 : wdom (minimise 2) (fst (nth (S i) sa ([], []))) z).
      { apply wdom2_iff. rewrite <- Rk, Z0, Z1. lia. }
      pose proof (Fz i z ltac:(lia) W1 No) as G1. pose proof (Fz (S i) z ltac:(lia) W2 No) as G2.
      assert (Ef : forall j, (j < n)%nat -> nth j (fl i) false = nth j (fl (S i)) false).
      { intros j Hj. specialize (G1 j Hj). specialize (G2 j Hj).
        destruct (nth j (fl i) false), (nth j (fl (S i)) false); auto; exfalso; intuition discriminate. }
      unfold g.
      rewrite (countb_ext _ (fun k => nth k (fl i) false) (fun k => nth k (fl (S i)) false) (seq 0 (n / 2)))
        by (intros j Hj; apply in_seq in Hj; apply Ef; lia).
      rewrite (countb_ext _ (fun k => nth k (fl i) false) (fun k => nth k (fl (S i)) false) (seq (n / 2) (n - n / 2)))
        by (intros j Hj; apply in_seq in Hj; apply Ef; lia).
      reflexivity. }
  rewrite Za in E. exists new. split. exact E.
  assert (Cov : forall z, length z = 2%nat -> (lt_bound (coord z 1) Infty && domb (map fst sa) z && negb (domb (map fst sb) z) = true <->
      attained_by_at_least 2 l runs z /\ ~ attained_by_at_least 2 (S l) runs z)).
  { intros z Hz. cbn [lt_bound andb]. rewrite andb_true_iff, negb_true_iff, domb_iff, DA, (Exa z Hz).
    rewrite <- (Exb z Hz), <- DA, <- domb_iff. destruct (domb (map fst sb) z); split; intuition congruence. }
  split; [exact F1|]. split; [|split; [|split]].
  - intros z Hz A1 A2. destruct (F3 z) as (P & k & C1 & C2 & Ex & Ey). { apply Cov; auto. }
    rewrite map_length in C2. rewrite Rk in Ex, Ey.
    exists P, (nth k (map g (seq 0 (length sa))) 0). split; [exact C1|].
    assert (Wz : wdom (minimise 2) (fst (nth k sa ([], []))) z) by (apply wdom2_iff; auto).
    pose proof (Fz k z C2 Wz A2) as Gz.
    exists (countb (fun j => nth j (fl k) false) (seq 0 (n / 2))),
           (countb (fun j => nth j (fl k) false) (seq (n / 2) (n - n / 2))).
    split; [|split].
    + apply (count_left_exactly runs (fun j => nth j (fl k) false) z 0 (n / 2)); auto. fold n. lia.
    + pose proof (count_left_exactly runs (fun j => nth j (fl k) false) z (n / 2) (n - n / 2) Gz ltac:(fold n; lia)) as C.
      rewrite (firstn_all2 (n := n - n / 2)) in C; auto. rewrite skipn_length. fold n. lia.
    + now rewrite Cg.
  - intros z Hz No. apply F2. destruct (_ && _) eqn:X; auto. exfalso. apply No. now apply Cov.
  - intros P c v Q Hv. destruct (F4 P c v Q Hv) as [[(i & Hi & X & Y) C2] _]. split.
    + exists (row (map fst sa) i). unfold wf_points in Wa. rewrite Forall_forall in Wa.
      assert (I : In (row (map fst sa) i) (map fst sa)) by (apply nth_In; auto).
      split; [now apply Wa|]. split; auto. apply Exa; [now apply Wa|]. exists (row (map fst sa) i). split; auto. apply wdom_refl.
    + intros p Hp At1 X1. apply (Exb p Hp), DA in At1. destruct At1 as (j & Hj & X2 & Y2).
      pose proof (C2 j Hj (lt_bound_le _ _ _ X2 X1)) as N. destruct (lt_bound (coord p 1) (snd v)) eqn:Q1; auto.
      now rewrite (lt_bound_le _ _ _ Y2 Q1) in N.
  - clear - F5. induction F5 as [|a new F IH]; constructor; auto.
    revert F. apply Forall_impl. intros q H. left. exact H.
Qed.

Lemma containing_app : forall a b z, containing (a ++ b) z = containing a z ++ containing b z.
Proof. intros. unfold containing. apply filter_app. Qed.

Lemma tiles_app : forall l m k a b, (l <= m)%nat -> (m <= k)%nat ->
  tiles l m a -> tiles m k b -> tiles l k (a ++ b).
Proof.
  intros l m k a b L1 L2 (A1 & A2 & A3 & A4 & A5) (B1 & B2 & B3 & B4 & B5). split; [|split; [|split; [|split]]].
  - intros P c Hr. apply in_app_iff in Hr. destruct Hr; eauto.
  - intros z Hz X Y. rewrite containing_app. destruct (attained_dec runs m z) as [D|D].
    + destruct (B2 z Hz D Y) as (P & c & E & F). rewrite (A3 z Hz), E by tauto. exists P, c. auto.
    + destruct (A2 z Hz X D) as (P & c & E & F). rewrite (B3 z Hz), E by tauto. exists P, c. auto.
  - intros z Hz No. rewrite containing_app. rewrite (A3 z Hz), (B3 z Hz); auto.
    + intros [X Y]. apply No. split; auto. now apply (attained_le 2 l m).
    + intros [X Y]. apply No. split; auto. intro. apply Y. now apply (attained_le 2 m k).
  - intros P c v Hr Hv. apply in_app_iff in Hr. destruct Hr as [Hr|Hr].
    + destruct (A4 P c v Hr Hv) as [K1 K2]. split; auto. intros p Hp H. apply K2; auto. now apply (attained_le 2 m k).
    + destruct (B4 P c v Hr Hv) as [(p & K0 & K1 & K3) K2]. split; auto. exists p. split; auto. split; auto. now apply (attained_le 2 l m).
  - clear A2 A3 B2 B3 A1 B1. induction A5 as [|p a F A5 IH]; auto. cbn [app]. constructor.
    + apply Forall_app. split; auto. apply Forall_forall. intros [Q c] Hq. right. intros v w Hv Hw. cbn [fst snd] in *.
      destruct p as [P c']. destruct (A4 P c' v (or_introl eq_refl) Hv) as [_ K].
      destruct (B4 Q c w Hq Hw) as [(z & Z0 & Z1 & Z2 & Z3) _].
      specialize (K z Z0 Z1). destruct w as [[wx|] [wy|]]; cbn [lt_bounds fst snd leb_bound] in *; auto; try (now rewrite andb_false_r).
      apply Z.leb_le in Z2, Z3. destruct (lt_bound wx (fst v)) eqn:W1; auto. destruct (lt_bound wy (snd v)) eqn:W2; auto.
      rewrite (lt_bound_le _ _ _ Z3 W2) in K. now rewrite K by (now apply (lt_bound_le _ wx)).
    + apply IH. intros P c v Hp. apply (A4 P c v). now right.
Qed.

Lemma layout_app : forall a b, layout (a ++ b) = layout a ++ layout b.
Proof. intros. unfold layout. now rewrite map_app, concat_app. Qed.

Lemma levels_ok : forall m l ss es s0, (1 <= l)%nat -> (l + m <= n)%nat ->
  Forall2 (surface_ok runs) (seq l (S m)) ss -> Forall2 (holds 2 n) es ss ->
  exists new, poly_levels es n s0 = Ret (fst s0 ++ layout new, snd s0 ++ map snd new) /\ tiles l (l + m) new.
Proof.
  induction m; intros l ss es s0 Hl Hm F1 F2.
  - inversion F1 as [|? s ? ss' S1 F3]; subst. inversion F3; subst. inversion F2 as [|e ? es' ? H F4]; subst.
    inversion F4; subst. cbn [poly_levels]. exists []. cbn [layout map concat]. rewrite !app_nil_r. split; [now destruct s0|].
    rewrite Nat.add_0_r. split; [|split; [|split; [|split]]].
    + intros P c [].
    + intros z _ X Y. contradiction.
    + reflexivity.
    + intros P c v [].
    + constructor.
  - cbn [seq] in F1. inversion F1 as [|? s ? ss' S1 F3]; subst. inversion F2 as [|e ? es' ? H F4]; subst.
    pose proof F3 as F3'. inversion F3 as [|? s2 ? ss2 S2 F5]; subst. pose proof F4 as F4'.
    inversion F4 as [|e2 ? es2 ? H2 F6]; subst.
    change (poly_levels (e :: e2 :: es2) n s0) with
      (rs <- poly_pair e e2 n s0 ;; poly_levels (e2 :: es2) n rs).
    destruct (pair_ok l s s2 e e2 s0) as (n1 & E1 & C1); auto; [lia|].
    rewrite E1. cbn [bind].
    destruct (IHm (S l) (s2 :: ss2) (e2 :: es2) (fst s0 ++ layout n1, snd s0 ++ map snd n1)) as (n2 & E2 & C2); auto; [lia|].
    rewrite E2. exists (n1 ++ n2). cbn [fst snd]. rewrite layout_app, map_app, !app_assoc. split; auto.
    replace (l + S m)%nat with (S l + m)%nat by lia.
    apply (tiles_app l (S l)); auto; lia.
Qed.
End Top.

(** ** The R interface *)
Section Copy.
Variable ps : list (list vertex * Z).

Lemma len_ok : forall P pre post fuel, (length P < fuel)%nat ->
  polygon_len fuel (length pre) (pre ++ (map Some P ++ [None]) ++ post) = Ret (S (length P)).
Proof.
  induction P as [|v P IH]; intros pre post fuel Hf; (destruct fuel as [|fuel]; [simpl in Hf; lia|]); cbn [polygon_len].
  - unfold rd. rewrite nth_error_app2, Nat.sub_diag by lia. reflexivity.
  - unfold rd. rewrite nth_error_app2, Nat.sub_diag by lia. cbn [map app nth_error bind].
    specialize (IH (pre ++ [Some v]) post fuel ltac:(simpl in Hf; lia)).
    rewrite app_length in IH. cbn [length] in IH. rewrite Nat.add_1_r in IH.
    rewrite <- app_assoc in IH. cbn [app] in IH. rewrite IH. reflexivity.
Qed.

Lemma wr_mid : forall (T : Type) (a b : list T) x y, wr (a ++ x :: b) (length a) y = Ret (a ++ y :: b).
Proof.
  intros T a b x y. unfold wr. replace (length a <? length (a ++ x :: b))%nat with true.
  2:{ symmetry. apply Nat.ltb_lt. rewrite app_length. cbn [length]. lia. }
  f_equal. induction a as [|u a IH]; cbn [app upd length]; auto. now rewrite IH.
Qed.

Lemma copy_ok : forall P pre post done gap rest fuel, (length P < fuel)%nat -> length gap = S (length P) ->
  polygon_copy fuel (length pre) (length done) (pre ++ (map Some P ++ [None]) ++ post) (done ++ gap ++ rest) =
    Ret (done ++ (map Some P ++ [None]) ++ rest, (length done + S (length P))%nat).
Proof.
  induction P as [|v P IH]; intros pre post done gap rest fuel Hf Hg; (destruct fuel as [|fuel]; [simpl in Hf; lia|]);
    cbn [polygon_copy]; (destruct gap as [|g gap]; [discriminate|]).
  - destruct gap; [|discriminate]. unfold rd. rewrite nth_error_app2, Nat.sub_diag by lia. cbn [map app nth_error bind].
    rewrite wr_mid. cbn [bind length]. now rewrite Nat.add_1_r.
  - unfold rd. rewrite nth_error_app2, Nat.sub_diag by lia. cbn [map app nth_error bind].
    rewrite wr_mid. cbn [bind].
    specialize (IH (pre ++ [Some v]) post (done ++ [Some v]) gap rest fuel ltac:(simpl in Hf; lia) ltac:(simpl in Hg; lia)).
    rewrite !app_length in IH. cbn [length] in IH. rewrite !Nat.add_1_r in IH.
    rewrite <- !app_assoc in IH. cbn [app] in IH. rewrite <- !app_assoc. cbn [app]. rewrite IH.
    cbn [length]. now rewrite Nat.add_succ_comm.
Qed.
End Copy.

(** the polygons that go to the left and to the right side *)
Definition is_left (division intervals : nat) (p : list vertex * Z) : bool := 1 <=? adjust division intervals (snd p).
Definition lefts d i (ps : list (list vertex * Z)) := filter (is_left d i) ps.
Definition rights d i (ps : list (list vertex * Z)) := filter (fun p => negb (is_left d i p)) ps.

Lemma layout_length_cons : forall p ps, length (layout (p :: ps)) = (S (length (fst p)) + length (layout ps))%nat.
Proof. intros [P c] ps. rewrite layout_cons. rewrite !app_length, map_length. cbn [length fst]. lia. Qed.

Lemma room_ok : forall d iv ps pre ll rl,
  poly_room d iv (pre ++ layout ps) (length pre) (map snd ps) ll rl =
    Ret (map (fun p => adjust d iv (snd p)) ps, (ll + length (layout (lefts d iv ps)))%nat,
         (rl + length (layout (rights d iv ps)))%nat).
Proof.
  induction ps as [|[P c] ps IH]; intros pre ll rl; cbn [map poly_room].
  - cbn. now rewrite !Nat.add_0_r.
  - cbn [snd]. rewrite layout_cons. rewrite len_ok.
    2:{ rewrite !app_length, map_length. cbn [length]. lia. }
    cbn [bind].
    specialize (IH (pre ++ (map Some P ++ [None]))).
    assert (El : length (pre ++ map Some P ++ [None]) = (length pre + S (length P))%nat).
    { rewrite !app_length, map_length. cbn [length]. lia. }
    rewrite El in IH. rewrite <- app_assoc in IH. rewrite IH. cbn [bind].
    unfold lefts, rights, is_left. cbn [filter snd].
    destruct (Z.leb_spec 1 (adjust d iv c)) as [G|G]; cbn [negb].
    + rewrite layout_length_cons. cbn [fst]. f_equal. f_equal. f_equal. lia.
    + replace (adjust d iv c <=? 1) with true by (symmetry; apply Z.leb_le; lia).
      rewrite layout_length_cons. cbn [fst]. f_equal. f_equal. lia.
Qed.

Lemma split_len : forall (T : Type) (l : list T) a b, length l = (a + b)%nat ->
  exists l1 l2, l = l1 ++ l2 /\ length l1 = a /\ length l2 = b.
Proof.
  intros T l a b H. exists (firstn a l), (skipn a l). rewrite firstn_skipn, firstn_length, skipn_length. split; auto. lia.
Qed.

Lemma assign_ok : forall d iv ps pre dl dr gl gr lc rc,
  length gl = length (layout (lefts d iv ps)) -> length gr = length (layout (rights d iv ps)) ->
  poly_assign (pre ++ layout ps) (length pre) (map (fun p => adjust d iv (snd p)) ps)
    (dl ++ gl) (dr ++ gr) (length dl) (length dr) lc rc =
  Ret (dl ++ layout (lefts d iv ps), lc ++ map (fun p => adjust d iv (snd p) + 1) (lefts d iv ps),
       (dr ++ layout (rights d iv ps), rc ++ map (fun p => 1 - adjust d iv (snd p)) (rights d iv ps))).
Proof.
  induction ps as [|[P c] ps IH]; intros pre dl dr gl gr lc rc Hl Hr; cbn [map poly_assign snd].
  - cbn in *. destruct gl; [|discriminate]. destruct gr; [|discriminate]. now rewrite !app_nil_r.
  - assert (El : length (pre ++ map Some P ++ [None]) = (length pre + S (length P))%nat).
    { rewrite !app_length, map_length. cbn [length]. lia. }
    unfold lefts, rights, is_left in *. cbn [filter snd] in *. rewrite layout_cons.
    destruct (Z.leb_spec 1 (adjust d iv c)) as [G|G]; cbn [negb] in *.
    + rewrite layout_length_cons in Hl. cbn [fst] in Hl. destruct (split_len _ _ _ _ Hl) as (g1 & g2 & -> & L1 & L2).
      rewrite copy_ok; auto.
      2:{ rewrite !app_length, map_length. cbn [length]. lia. }
      cbn [bind fst snd]. replace (length dl + S (length P) - length dl)%nat with (S (length P)) by lia.
      specialize (IH (pre ++ (map Some P ++ [None])) (dl ++ map Some P ++ [None]) dr g2 gr (lc ++ [adjust d iv c + 1]) rc L2 Hr).
      rewrite El in IH. replace (length (dl ++ map Some P ++ [None])) with (length dl + S (length P))%nat in IH.
      2:{ rewrite !app_length, map_length. cbn [length]. lia. }
      rewrite <- !app_assoc in IH. rewrite <- !app_assoc. rewrite IH. rewrite layout_cons. cbn [map snd].
      rewrite <- !app_assoc. reflexivity.
    + replace (adjust d iv c <=? 1) with true by (symmetry; apply Z.leb_le; lia).
      rewrite layout_length_cons in Hr. cbn [fst] in Hr. destruct (split_len _ _ _ _ Hr) as (g1 & g2 & -> & L1 & L2).
      rewrite copy_ok; auto.
      2:{ rewrite !app_length, map_length. cbn [length]. lia. }
      cbn [bind fst snd]. replace (length dr + S (length P) - length dr)%nat with (S (length P)) by lia.
      specialize (IH (pre ++ (map Some P ++ [None])) dl (dr ++ map Some P ++ [None]) gl g2 lc (rc ++ [1 - adjust d iv c]) Hl L2).
      rewrite El in IH. replace (length (dr ++ map Some P ++ [None])) with (length dr + S (length P))%nat in IH.
      2:{ rewrite !app_length, map_length. cbn [length]. lia. }
      rewrite <- !app_assoc in IH. rewrite <- !app_assoc. rewrite IH. rewrite layout_cons. cbn [map snd].
      rewrite <- !app_assoc. reflexivity.
Qed.

Section Pipeline.
Variables (runs : list (list point)) (sortx sorty : list point -> list nat)
  (junk : nat -> Z) (grow : nat -> nat -> nat).
Hypothesis Hr : (2 <= length runs)%nat.
Hypothesis Hev : (length runs mod 2 = 0)%nat.
Hypothesis Hne : forall r, In r runs -> r <> [].
Hypothesis Hwf : wf_points 2 (concat runs).
Hypothesis Hsx : is_datax (concat runs) (sortx (concat runs)).
Hypothesis Hsy : is_datay (concat runs) (sorty (concat runs)).
Hypothesis Hjunk : forall i, is_word (junk i).
Hypothesis Hgrow : forall m r, (m <= grow m r)%nat.
Hypothesis Hsize : Z.of_nat (length (concat runs)) <= (2 ^ 31 - 1) / 2.
Let n := length runs.

Lemma polygons_ok : exists ps,
  eaf_polygons sortx sorty junk grow (concat runs) (cumsizes runs) n (map Z.of_nat (seq 1 n)) =
    Ret (layout ps, map snd ps) /\ tiles runs 1 n ps.
Proof.
  assert (Hr' : runs <> []) by (intros E; rewrite E in Hr; simpl in Hr; lia).
  destruct (stored_ok runs sortx sorty junk grow Hr' Hne Hwf Hsx Hsy Hjunk Hgrow Hsize (seq 1 n)) as (ss & es & E1 & E2 & F1 & F2).
  { apply Forall_forall. intros l Hl. apply in_seq in Hl. fold n. lia. }
  fold n in E1, E2, F2.
  assert (Hn : n = S (n - 1)) by (unfold n; lia).
  rewrite Hn in F1.
  destruct (levels_ok runs (n - 1) 1 ss es ([], []) ltac:(lia) ltac:(fold n; lia) F1 F2) as (new & E & T).
  exists new. split.
  - unfold eaf_polygons. rewrite E1. cbn [bind]. rewrite E2. cbn [bind]. unfold eaf_compute_polygon.
    destruct es as [|e0 es]. { inversion F2; subst. inversion F1. }
    cbn [rd nth_error bind].
    assert (En : e_nruns e0 = n) by (inversion F2 as [|? ? ? ? H _]; subst; apply H).
    rewrite En. unfold n at 1. rewrite Hev. cbn [Nat.eqb assert_ bind].
    fold n in E. rewrite E. reflexivity.
  - replace n with (1 + (n - 1))%nat by lia. exact T.
Qed.

Lemma eafdiff_polygon_ok : forall intervals garbage, exists ps,
  compute_eafdiff_polygon sortx sorty junk grow garbage (concat runs) (cumsizes runs) n intervals =
    Ret (layout (lefts (n / 2) intervals ps), map (fun p => adjust (n / 2) intervals (snd p) + 1) (lefts (n / 2) intervals ps),
         (layout (rights (n / 2) intervals ps), map (fun p => 1 - adjust (n / 2) intervals (snd p)) (rights (n / 2) intervals ps))) /\
  tiles runs 1 n ps.
Proof.
  intros intervals garbage. destruct polygons_ok as (ps & E3 & T). exists ps. split; auto.
  unfold compute_eafdiff_polygon, levels_from_percentiles. rewrite Nat.eqb_refl. cbn [assert_ bind].
  replace (map (fun k => Z.of_nat (k + 1)) (seq 0 n)) with (map Z.of_nat (seq 1 n)).
  2:{ rewrite <- seq_shift, map_map. apply map_ext. intros. f_equal. lia. }
  rewrite E3. cbn [bind fst snd].
  pose proof (room_ok (n / 2) intervals ps [] 0 0) as R. cbn [app length] in R. rewrite R. cbn [bind Nat.add].
  pose proof (assign_ok (n / 2) intervals ps [] [] [] (map garbage (seq 0 (length (layout (lefts (n / 2) intervals ps)))))
    (map garbage (seq 0 (length (layout (rights (n / 2) intervals ps))))) [] []) as Q.
  rewrite !map_length, !seq_length in Q. cbn [app length] in Q. apply Q; auto.
Qed.
End Pipeline.
