(** Proofs about the self-check of the polygons and about their output. *)
From Coq Require Import Ascii String List ZArith Lia Bool Arith.
From Verif Require Import Base Spec EafSpec RectSpec PolySpec PolyModel PolyProofs PolyTop PolyMainSpec EafMainSpec
  EafMainModel PolyMainModel.
Import ListNotations.
Local Open Scope list_scope.
Notation length := List.length.
Open Scope Z_scope.

(** ** The order of bounds *)
Lemma bleb_iff : forall a b, bleb a b = true <-> match a, b with At x, At y => x <= y | _, Infty => True | Infty, At _ => False end.
Proof. intros [x|] [y|]; unfold bleb; cbn; rewrite ?negb_true_iff, ?Z.ltb_ge; intuition; discriminate. Qed.
Lemma bleb_trans : forall a b c, bleb a b = true -> bleb b c = true -> bleb a c = true.
Proof. intros [x|] [y|] [z|]; rewrite !bleb_iff; lia || tauto. Qed.
Lemma bleb_refl : forall a, bleb a a = true.
Proof. intros [x|]; rewrite bleb_iff; auto. lia. Qed.
Lemma bltb_bleb : forall a b, bltb a b = false -> bleb b a = true.
Proof. intros a b H. unfold bleb. now rewrite H. Qed.
Lemma bltb_le : forall a b, bltb a b = true -> bleb a b = true.
Proof. intros [x|] [y|]; rewrite bleb_iff; cbn; auto; try discriminate. rewrite Z.ltb_lt. lia. Qed.
Lemma lt_bounds_bltb : forall a b, lt_bounds a b = bltb a b.
Proof. intros [x|] [y|]; reflexivity. Qed.
Lemma leb_bound_bleb : forall t b, leb_bound t b = true <-> bleb (At t) b = true.
Proof. intros t [b|]; rewrite bleb_iff; cbn; [apply Z.leb_le|tauto]. Qed.
Lemma le_bounds_bleb : forall a t, le_bounds a (At t) -> bleb a (At t) = true.
Proof.
  intros [x|] t H; rewrite bleb_iff.
  - destruct (Z_le_gt_dec x t); auto. specialize (H t). cbn in H. rewrite Z.ltb_lt, Z.ltb_lt in H. lia.
  - specialize (H t eq_refl). cbn in H. apply Z.ltb_lt in H. lia.
Qed.

(** ** The functions of the check on a list that holds polygons *)
Section Check.
Variable xy : list (option vertex).
(** the polygon P starts at row i *)
Definition at_row (i : nat) (P : list vertex) : Prop :=
  exists pre post, xy = pre ++ map Some P ++ None :: post /\ length pre = i.

Lemma at_row_cons : forall i v P, at_row i (v :: P) -> rd xy i = Ret (Some v) /\ at_row (S i) P.
Proof.
  intros i v P (pre & post & E & L). split.
  - unfold rd. rewrite E, nth_error_app2 by lia. rewrite L, Nat.sub_diag. reflexivity.
  - exists (pre ++ [Some v]), post. split; [|rewrite app_length; cbn; lia]. rewrite E, <- app_assoc. reflexivity.
Qed.
Lemma at_row_nil : forall i, at_row i [] -> rd xy i = Ret None /\ (i < length xy)%nat.
Proof.
  intros i (pre & post & E & L). split.
  - unfold rd. rewrite E, nth_error_app2 by lia. rewrite L, Nat.sub_diag. reflexivity.
  - rewrite E, app_length. cbn. lia.
Qed.
Lemma at_row_len : forall i P, at_row i P -> (i + length P < length xy)%nat.
Proof. intros i P (pre & post & E & L). rewrite E, !app_length, map_length. cbn [length]. lia. Qed.

Lemma next_ok : forall P i fuel, at_row i P -> (length P < fuel)%nat -> next_polygon xy fuel i = Ret (S (i + length P)).
Proof.
  induction P as [|v P IH]; intros i [|fuel] H Hf; cbn [length] in *; try lia; cbn [next_polygon].
  - destruct (at_row_nil _ H) as [E L]. replace (i <? length xy)%nat with true by (symmetry; apply Nat.ltb_lt; lia).
    rewrite E. cbn [bind]. do 2 f_equal. lia.
  - pose proof (at_row_len _ _ H) as L. destruct (at_row_cons _ _ _ H) as [E H'].
    replace (i <? length xy)%nat with true by (symmetry; apply Nat.ltb_lt; cbn in L; lia). rewrite E. cbn [bind].
    rewrite IH by (auto; lia). do 2 f_equal. lia.
Qed.

Lemma min_max_loop_ok : forall k P i fuel mn mx, at_row i P -> (length P < fuel)%nat ->
  exists mn' mx', min_max_loop xy fuel i k mn mx = Ret (mn', mx') /\ bleb mn' mn = true /\ bleb mx mx' = true /\
    (mn' = mn \/ exists v, In v P /\ mn' = vcoord v k) /\ (mx' = mx \/ exists v, In v P /\ mx' = vcoord v k).
Proof.
  intros k. induction P as [|v P IH]; intros i [|fuel] mn mx H Hf; cbn [length] in *; try lia; cbn [min_max_loop].
  - destruct (at_row_nil _ H) as [E L]. rewrite E. cbn [bind]. exists mn, mx. split; auto. split; [apply bleb_refl|]. split; [apply bleb_refl|]. auto.
  - destruct (at_row_cons _ _ _ H) as [E H']. rewrite E. cbn [bind].
    edestruct (IH (S i) fuel) as (mn' & mx' & E' & A & B & C & D); [exact H'|lia|]. rewrite E'. exists mn', mx'. split; auto. split; [|split; [|split]].
    + eapply bleb_trans; [exact A|]. destruct (bltb (vcoord v k) mn) eqn:Q; [now apply bltb_le|apply bleb_refl].
    + eapply bleb_trans; [|exact B]. destruct (bltb mx (vcoord v k)) eqn:Q; [now apply bltb_le|apply bleb_refl].
    + destruct C as [C|(w & W & C)]; [|right; exists w; simpl; auto].
      destruct (bltb (vcoord v k) mn); [right; exists v; simpl; auto|auto].
    + destruct D as [D|(w & W & D)]; [|right; exists w; simpl; auto].
      destruct (bltb mx (vcoord v k)); [right; exists v; simpl; auto|auto].
Qed.
(** the smallest and the largest are coordinates of the polygon *)
Lemma min_max_ok : forall k P i, (k < 2)%nat -> at_row i P -> P <> [] ->
  exists v w, min_max_in_objective xy i k = Ret (vcoord v k, vcoord w k) /\ In v P /\ In w P.
Proof.
  intros k [|v P] i Hk H N; [congruence|]. unfold min_max_in_objective.
  replace (k <? 2)%nat with true by (symmetry; apply Nat.ltb_lt; lia). cbn [assert_ bind].
  pose proof (at_row_len _ _ H) as L. destruct (at_row_cons _ _ _ H) as [E H']. rewrite E. cbn [bind].
  destruct (min_max_loop_ok k P (S i) (S (length xy)) (vcoord v k) (vcoord v k) H') as (mn & mx & E' & _ & _ & C & D). { cbn in L. lia. }
  rewrite E'. assert (X : forall m, (m = vcoord v k \/ exists w, In w P /\ m = vcoord w k) -> exists w, m = vcoord w k /\ In w (v :: P)).
  { intros m [->|(w & W & ->)]; [exists v|exists w]; simpl; auto. }
  destruct (X _ C) as (v1 & -> & V1), (X _ D) as (v2 & -> & V2). exists v1, v2. auto.
Qed.

Lemma dominates_point_ok : forall x P i fuel, at_row i P -> (length P < fuel)%nat ->
  polygon_dominates_point xy fuel i x = Ret (existsb (fun w => bltb (fst w) (fst x) && bltb (snd w) (snd x)) P).
Proof.
  intros x. induction P as [|v P IH]; intros i [|fuel] H Hf; cbn [length] in *; try lia; cbn [polygon_dominates_point existsb].
  - destruct (at_row_nil _ H) as [E L]. now rewrite E.
  - destruct (at_row_cons _ _ _ H) as [E H']. rewrite E. cbn [bind]. destruct (_ && _); auto. apply IH; auto. lia.
Qed.
Lemma dominates_any_ok : forall P i, at_row i P -> forall Q j fuel, at_row j Q -> (length Q < fuel)%nat ->
  polygon_dominates_any_point xy fuel i j =
    Ret (existsb (fun x => existsb (fun w => bltb (fst w) (fst x) && bltb (snd w) (snd x)) P) Q).
Proof.
  intros P i HP. pose proof (at_row_len _ _ HP) as LP.
  induction Q as [|v Q IH]; intros j [|fuel] H Hf; cbn [length] in *; try lia; cbn [polygon_dominates_any_point existsb].
  - destruct (at_row_nil _ H) as [E L]. now rewrite E.
  - destruct (at_row_cons _ _ _ H) as [E H']. rewrite E. cbn [bind]. rewrite (dominates_point_ok v P) by (auto; lia). cbn [bind].
    match goal with |- context [if ?b then _ else _] => destruct b end; auto. apply IH; auto. lia.
Qed.

Lemma separated_ok : forall k P i Q j, (k < 2)%nat -> at_row i P -> at_row j Q -> P <> [] -> Q <> [] ->
  exists s, separated xy i j k = Ret s /\
    ((exists t, (forall v, In v P -> bleb t (vcoord v k) = true) /\ (forall v, In v Q -> bleb (vcoord v k) t = true)) -> s = true).
Proof.
  intros k P i Q j Hk HP HQ NP NQ. unfold separated.
  destruct (min_max_ok k P i Hk HP NP) as (v1 & v2 & E1 & V1 & V2). destruct (min_max_ok k Q j Hk HQ NQ) as (w1 & w2 & E2 & W1 & W2).
  rewrite E1. cbn [bind]. rewrite E2. cbn [bind fst snd]. eexists. split. reflexivity.
  intros (t & A & B). apply orb_true_iff. right. eapply bleb_trans; [apply B|apply A]; auto.
Qed.

(** two polygons that are apart pass the test *)
Lemma intersect_ok : forall P i Q j cp cq, at_row i P -> at_row j Q -> P <> [] -> Q <> [] ->
  apart (P, cp) (Q, cq) -> polygons_intersect xy i j = Ret false.
Proof.
  intros P i Q j cp cq HP HQ NP NQ Ap. unfold polygons_intersect.
  destruct (separated_ok 0 P i Q j) as (s0 & E0 & _); auto. rewrite E0. cbn [bind]. destruct s0; auto.
  destruct (separated_ok 1 P i Q j) as (s1 & E1 & T); auto. rewrite E1. cbn [bind].
  pose proof (at_row_len _ _ HP) as LP. pose proof (at_row_len _ _ HQ) as LQ.
  destruct Ap as [(t & A & B)|Ap]; cbn [fst] in *.
  - rewrite T; auto. exists (At t). split.
    + intros v Hv. cbn [vcoord]. apply leb_bound_bleb. auto.
    + intros v Hv. cbn [vcoord]. apply le_bounds_bleb. auto.
  - destruct s1; auto. rewrite (dominates_any_ok P i HP Q j) by (auto; lia). cbn [bind]. match goal with |- context [if ?b then _ else _] => destruct b end; auto.
    rewrite (dominates_any_ok Q j HQ P i) by (auto; lia). f_equal.
    match goal with |- ?b = false => destruct b eqn:X end; auto. exfalso. apply existsb_exists in X. destruct X as (v & Hv & X).
    apply existsb_exists in X. destruct X as (w & Hw & X). specialize (Ap v w Hv Hw). rewrite (lt_bounds_bltb (fst w)), (lt_bounds_bltb (snd w)) in Ap. congruence.
Qed.
End Check.

Lemma layout_at_row : forall a P c b, at_row (layout (a ++ (P, c) :: b)) (length (layout a)) P.
Proof.
  intros. exists (layout a), (layout b). split; auto. rewrite layout_app, layout_cons, <- app_assoc. reflexivity.
Qed.

Lemma check_inner_ok : forall P cp b a a2 fuel, (forall p, In p ((P, cp) :: b) -> fst p <> []) ->
  Forall (apart (P, cp)) b -> (length b < fuel)%nat ->
  check_inner (layout (a ++ (P, cp) :: a2 ++ b)) fuel (length (layout a)) (length (layout (a ++ (P, cp) :: a2))) = Ret tt.
Proof.
  intros P cp. induction b as [|[Q cq] b IH]; intros a a2 [|fuel] Hn F Hf; cbn [length] in *; try lia; cbn [check_inner].
  - rewrite app_nil_r, Nat.ltb_irrefl. reflexivity.
  - set (xy := layout (a ++ (P, cp) :: a2 ++ (Q, cq) :: b)).
    assert (HP : at_row xy (length (layout a)) P) by apply layout_at_row.
    assert (HQ : at_row xy (length (layout (a ++ (P, cp) :: a2))) Q).
    { unfold xy. replace (a ++ (P, cp) :: a2 ++ (Q, cq) :: b) with ((a ++ (P, cp) :: a2) ++ (Q, cq) :: b) by (rewrite <- app_assoc; auto).
      apply layout_at_row. }
    pose proof (at_row_len _ _ _ HQ) as LQ. inversion F as [|? ? Ap F']; subst.
    replace (_ <? length xy)%nat with true by (symmetry; apply Nat.ltb_lt; lia).
    rewrite (intersect_ok xy P _ Q _ cp cq HP HQ (Hn (P, cp) (or_introl eq_refl)) (Hn (Q, cq) (or_intror (or_introl eq_refl))) Ap).
    cbn [bind assert_ negb]. rewrite (next_ok xy Q) by (auto; lia). cbn [bind].
    replace (S (length (layout (a ++ (P, cp) :: a2)) + length Q)) with (length (layout (a ++ (P, cp) :: (a2 ++ [(Q, cq)])))).
    2:{ replace (a ++ (P, cp) :: a2 ++ [(Q, cq)]) with ((a ++ (P, cp) :: a2) ++ [(Q, cq)]) by (rewrite <- app_assoc; auto).
        rewrite (layout_app (a ++ (P, cp) :: a2)), app_length, layout_cons. cbn [layout map concat]. rewrite !app_length, map_length. cbn [length]. lia. }
    unfold xy. replace (a ++ (P, cp) :: a2 ++ (Q, cq) :: b) with (a ++ (P, cp) :: (a2 ++ [(Q, cq)]) ++ b) by (rewrite <- app_assoc; auto).
    apply IH; auto; [|lia]. intros p [<-|Hp]; apply Hn; simpl; auto.
Qed.

Lemma layout_len : forall ps, (length ps <= length (layout ps))%nat.
Proof.
  induction ps as [|[P c] ps IH]; auto. rewrite layout_cons, !app_length, map_length. cbn [length]. lia.
Qed.

Lemma check_outer_ok : forall b a fuel, (forall p, In p b -> fst p <> []) -> ForallOrdPairs apart b -> (length b < fuel)%nat ->
  check_outer (layout (a ++ b)) fuel (length (layout a)) = Ret tt.
Proof.
  induction b as [|[P cp] b IH]; intros a [|fuel] Hn F Hf; cbn [length] in *; try lia; cbn [check_outer].
  - rewrite app_nil_r, Nat.ltb_irrefl. reflexivity.
  - assert (HP : at_row (layout (a ++ (P, cp) :: b)) (length (layout a)) P) by apply layout_at_row.
    pose proof (at_row_len _ _ _ HP) as LP. inversion F as [|? ? Ap F']; subst.
    replace (_ <? _)%nat with true by (symmetry; apply Nat.ltb_lt; lia).
    rewrite (next_ok _ P) by (auto; lia). cbn [bind].
    replace (S (length (layout a) + length P)) with (length (layout (a ++ [(P, cp)]))).
    2:{ rewrite layout_app, app_length, layout_cons. cbn [layout map concat]. rewrite !app_length, map_length. cbn [length]. lia. }
    pose proof (check_inner_ok P cp b a [] (S (length (layout (a ++ (P, cp) :: b)))) Hn Ap) as C. cbn [app] in C.
    rewrite C. 2:{ pose proof (layout_len (a ++ (P, cp) :: b)) as L. rewrite app_length in L. cbn [length] in L. lia. }
    cbn [bind]. replace (a ++ (P, cp) :: b) with ((a ++ [(P, cp)]) ++ b) by (rewrite <- app_assoc; auto).
    apply IH; auto; [|lia]. intros p Hp. apply Hn. now right.
Qed.

Lemma check_ok : forall ps, (forall p, In p ps -> fst p <> []) -> ForallOrdPairs apart ps ->
  eaf_check_polygons (layout ps) = Ret tt.
Proof.
  intros ps Hn F. apply (check_outer_ok ps [] _ Hn F). pose proof (layout_len ps). lia.
Qed.

Lemma FOP_firstn : forall (T : Type) (R : T -> T -> Prop) l k, ForallOrdPairs R l -> ForallOrdPairs R (firstn k l).
Proof.
  intros T R l k F. revert k. induction F as [|a l H F IH]; intros [|k]; cbn [firstn]; constructor; auto.
  rewrite Forall_forall in *. intros x Hx. apply H. rewrite <- (firstn_skipn k l). apply in_app_iff. auto.
Qed.

(** ** Output *)
Lemma pwritten_pput : forall f g ts, pwritten_to f (pput g ts) = if is_stream f g then ts else [].
Proof.
  intros f [g|] ts; unfold pwritten_to; cbn [pput is_stream]; auto.
  destruct (stream_eqb f g) eqn:E; induction ts as [|t ts IH]; cbn [map filter fst]; auto; rewrite E; cbn [map snd]; auto. now rewrite IH.
Qed.
Lemma pwritten_app : forall f a b, pwritten_to f (a ++ b) = pwritten_to f a ++ pwritten_to f b.
Proof. intros. unfold pwritten_to. now rewrite filter_app, map_app. Qed.

Lemma rows_text : forall ps, concat (map print_row (layout ps)) = concat (map (fun p => polygon_lines (fst p)) ps).
Proof.
  induction ps as [|[P c] ps IH]; auto. rewrite layout_cons, map_app, concat_app, IH. cbn [map concat fst]. f_equal.
  unfold polygon_lines. rewrite map_app, concat_app, map_map. f_equal. f_equal. apply map_ext. intros [x y]. reflexivity.
Qed.
Lemma print_polygon_ok : forall f g ps,
  pwritten_to f (eaf_print_polygon g (layout ps) (map snd ps)) = if is_stream f g then polygons_text ps else [].
Proof.
  intros f g ps. unfold eaf_print_polygon. rewrite !pwritten_app, !pwritten_pput, rows_text.
  destruct (is_stream f g); auto.
Qed.

(** the text determines the polygons *)
Lemma rows_inj : forall a b s t, concat (map print_row a) ++ PText "# col =" :: s = concat (map print_row b) ++ PText "# col =" :: t ->
  a = b /\ s = t.
Proof.
  assert (R : forall r, exists x y, print_row r = [x; PTok TSp; y; PTok TNl] /\ (forall s, x <> PText s)).
  { intros [[[x|] [y|]]|]; cbn; do 2 eexists; (split; [reflexivity|discriminate]). }
  assert (I : forall r q, print_row r = print_row q -> r = q).
  { intros [[[x|] [y|]]|] [[[u|] [v|]]|]; cbn; intros H; inversion H; auto. }
  induction a as [|r a IH]; intros [|q b] s t H; cbn [map concat app] in H.
  - now inversion H.
  - destruct (R q) as (x & y & E & N). rewrite E in H. cbn in H. inversion H. exfalso. eapply N. eauto.
  - destruct (R r) as (x & y & E & N). rewrite E in H. cbn in H. inversion H. exfalso. eapply N. eauto.
  - rewrite <- !app_assoc in H. destruct (R r) as (x & y & E & N), (R q) as (u & v & E' & N').
    assert (H' : print_row r = print_row q /\ concat (map print_row a) ++ PText "# col =" :: s = concat (map print_row b) ++ PText "# col =" :: t).
    { rewrite E, E' in *. cbn in H. inversion H. auto. }
    destruct H' as [H1 H2]. apply I in H1. apply IH in H2. destruct H2. subst. auto.
Qed.
Lemma layout_inj : forall ps qs, layout ps = layout qs -> map snd ps = map snd qs -> ps = qs.
Proof.
  induction ps as [|[P c] ps IH]; intros [|[Q d] qs] H Hc; auto; try discriminate.
  rewrite !layout_cons in H. inversion Hc as [[Ec Hc']].
  assert (K : P = Q /\ layout ps = layout qs).
  { rewrite <- !app_assoc in H. cbn [app] in H. clear - H. revert Q H. induction P as [|v P IHP]; intros [|w Q] H; cbn in H; try discriminate.
    - inversion H. auto.
    - inversion H. destruct (IHP Q H2). subst. auto. }
  destruct K as [-> E]. f_equal. now apply IH.
Qed.
Lemma text_inj : forall ps qs, polygons_text ps = polygons_text qs -> ps = qs.
Proof.
  intros ps qs H. unfold polygons_text, colour_line in H. rewrite <- !rows_text in H. apply rows_inj in H. destruct H as [H1 H2].
  apply layout_inj; auto. clear - H2.
  assert (X : forall cs ds, concat (map (fun c => [PTok TSp; PTok (TInt c)]) cs) ++ [PTok TNl] =
    concat (map (fun c => [PTok TSp; PTok (TInt c)]) ds) ++ [PTok TNl] -> cs = ds).
  { induction cs as [|c cs IH]; intros [|d ds] H; cbn in H; auto; try discriminate. inversion H. f_equal. auto. }
  apply X, H2.
Qed.
