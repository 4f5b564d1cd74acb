(** C60: the polygons of an EAF difference. *)
From Coq Require Import List ZArith Lia Bool Arith.
From Verif Require Import Base Spec EafSpec RectSpec PolySpec EafModel EafProofs EafMain EafStoreModel
  BitArrayProofs EafTop RectModel RectProofs RectTop PolyModel PolyProofs PolyTop.
Import ListNotations.
Open Scope Z_scope.

(** [c] is the number of the first half of the sets that attain [z] minus the number
    of the second half of the sets that attain it *)
Definition count_difference (runs : list (list point)) (z : point) (c : Z) : Prop :=
  exists L R, attained_by_exactly 2 L (firstn (length runs / 2) runs) z /\
              attained_by_exactly 2 R (skipn (length runs / 2) runs) z /\ c = Z.of_nat L - Z.of_nat R.

(** Every polygon has an even number, at least four, of vertices and only horizontal
    and vertical edges.  Every location attained by at least one but not by all sets
    lies in exactly one polygon, whose colour is the difference at that location.
    No other location lies in a polygon. *)
Theorem C60_polygons_exact : forall runs sortx sorty junk grow,
  (2 <= length runs)%nat -> Nat.Even (length runs) ->
  (forall r, In r runs -> r <> []) -> wf_points 2 (concat runs) ->
  is_datax (concat runs) (sortx (concat runs)) -> is_datay (concat runs) (sorty (concat runs)) ->
  (forall i, 0 <= junk i < 2 ^ 64) -> (forall m r, (m <= grow m r)%nat) ->
  Z.of_nat (length (concat runs)) <= (2 ^ 31 - 1) / 2 ->
  exists ps,
    eaf_polygons sortx sorty junk grow (concat runs) (cumsizes runs) (length runs)
      (map Z.of_nat (seq 1 (length runs))) = Ret (layout ps, map snd ps) /\
    (forall P c, In (P, c) ps -> orthogonal P /\ (4 <= length P)%nat /\ Nat.Even (length P)) /\
    (forall z, length z = 2%nat ->
       attained_by_at_least 2 1 runs z -> ~ attained_by_at_least 2 (length runs) runs z ->
       exists P c, containing ps z = [(P, c)] /\ count_difference runs z c) /\
    (forall z, length z = 2%nat ->
       ~ (attained_by_at_least 2 1 runs z /\ ~ attained_by_at_least 2 (length runs) runs z) ->
       containing ps z = []).
Proof.
  intros runs sortx sorty junk grow Hn He Hne Hwf Hsx Hsy Hj Hg Hs.
  assert (Hev : (length runs mod 2 = 0)%nat) by (destruct He as (k & ->); rewrite Nat.mul_comm; apply Nat.mod_mul; lia).
  destruct (polygons_ok runs sortx sorty junk grow Hn Hev Hne Hwf Hsx Hsy Hj Hg Hs) as (ps & E & T1 & T2 & T3 & _).
  exists ps. split; auto. split; auto.
  intros P c I. destruct (T1 P c I) as (O & L4 & L2). split; auto. split; auto.
  exists (length P / 2)%nat. pose proof (Nat.div_mod_eq (length P) 2). lia.
Qed.

(** The R interface: a location whose difference, scaled to the intervals and
    truncated, is at least 1 lies in exactly one polygon of the left side and in
    none of the right side; one whose truncated difference is below 1 lies in
    exactly one polygon of the right side and in none of the left side.  The colour
    index is 1 plus the absolute value of the truncated difference. *)
Theorem C60_R_sides : forall runs sortx sorty junk grow garbage intervals,
  (2 <= length runs)%nat -> Nat.Even (length runs) ->
  (forall r, In r runs -> r <> []) -> wf_points 2 (concat runs) ->
  is_datax (concat runs) (sortx (concat runs)) -> is_datay (concat runs) (sorty (concat runs)) ->
  (forall i, 0 <= junk i < 2 ^ 64) -> (forall m r, (m <= grow m r)%nat) ->
  Z.of_nat (length (concat runs)) <= (2 ^ 31 - 1) / 2 ->
  exists lps rps,
    compute_eafdiff_polygon sortx sorty junk grow garbage (concat runs) (cumsizes runs) (length runs) intervals
      = Ret (layout lps, map snd lps, (layout rps, map snd rps)) /\
    (forall P c, In (P, c) (lps ++ rps) -> orthogonal P /\ (4 <= length P)%nat /\ Nat.Even (length P)) /\
    (forall z c, length z = 2%nat ->
       attained_by_at_least 2 1 runs z -> ~ attained_by_at_least 2 (length runs) runs z ->
       count_difference runs z c ->
       let d := Z.quot (c * Z.of_nat intervals) (Z.of_nat (length runs / 2)) in
       (1 <= d -> exists P, containing lps z = [(P, 1 + Z.abs d)] /\ containing rps z = []) /\
       (d < 1 -> exists P, containing lps z = [] /\ containing rps z = [(P, 1 + Z.abs d)])) /\
    (forall z, length z = 2%nat ->
       ~ (attained_by_at_least 2 1 runs z /\ ~ attained_by_at_least 2 (length runs) runs z) ->
       containing lps z = [] /\ containing rps z = []).
Proof.
  intros runs sortx sorty junk grow garbage intervals Hn He Hne Hwf Hsx Hsy Hj Hg Hs.
  assert (Hev : (length runs mod 2 = 0)%nat) by (destruct He as (k & ->); rewrite Nat.mul_comm; apply Nat.mod_mul; lia).
  destruct (eafdiff_polygon_ok runs sortx sorty junk grow Hn Hev Hne Hwf Hsx Hsy Hj Hg Hs intervals garbage)
    as (ps & E & T1 & T2 & T3 & _).
  set (n := length runs) in *. set (dv := (n / 2)%nat) in *.
  set (fl := fun p : list vertex * Z => (fst p, adjust dv intervals (snd p) + 1)).
  set (fr := fun p : list vertex * Z => (fst p, 1 - adjust dv intervals (snd p))).
  assert (Lay : forall f : list vertex * Z -> list vertex * Z, (forall p, fst (f p) = fst p) -> forall l, layout (map f l) = layout l).
  { intros f Hf l. unfold layout. rewrite map_map. f_equal. apply map_ext. intros p. now rewrite Hf. }
  assert (Con : forall f : list vertex * Z -> list vertex * Z, (forall p, fst (f p) = fst p) -> forall l z,
     containing (map f l) z = map f (containing l z)).
  { intros f Hf l z. unfold containing. induction l as [|p l IH]; auto. cbn [map filter]. rewrite Hf, IH.
    now destruct (inside (fst p) z). }
  assert (Fil : forall g l z, containing (filter g l) z = filter g (containing l z)).
  { intros g l z. unfold containing. induction l as [|p l IH]; auto. cbn [filter].
    destruct (g p) eqn:G, (inside (fst p) z) eqn:I; cbn [filter]; rewrite ?I, ?G, ?IH; auto. }
  exists (map fl (lefts dv intervals ps)), (map fr (rights dv intervals ps)).
  split.
  { rewrite !Lay, !map_map by auto. exact E. }
  split; [|split].
  - intros P c I. apply in_app_iff in I.
    assert (X : exists c', In (P, c') ps).
    { destruct I as [I|I]; apply in_map_iff in I; destruct I as ([P' c'] & Q & I); apply filter_In in I;
        injection Q as <- <-; exists c'; apply I. }
    destruct X as (c' & I'). destruct (T1 P c' I') as (O & L4 & L2). split; auto. split; auto.
    exists (length P / 2)%nat. pose proof (Nat.div_mod_eq (length P) 2). lia.
  - intros z c Hz A1 A2 Dc d. destruct (T2 z Hz A1 A2) as (P & c' & C & (L & R & HL & HR & Ec)).
    assert (Ecc : c' = c).
    { destruct Dc as (L' & R' & HL' & HR' & Ec'). subst c c'.
      assert (U : forall m m' S, attained_by_exactly 2 m S z -> attained_by_exactly 2 m' S z -> m = m').
      { intros m m' S (ks & N1 & <- & H1) (ks' & N2 & <- & H2).
        apply Nat.le_antisymm; apply NoDup_incl_length; auto; intros k Hk.
        apply H2, H1, Hk. apply H1, H2, Hk. }
      rewrite (U _ _ _ HL HL'), (U _ _ _ HR HR'). reflexivity. }
    rewrite Ecc in C. clear Ecc Ec c'. rewrite !Con by auto. unfold lefts, rights. rewrite !Fil, C. cbn [filter].
    unfold is_left. cbn [snd]. unfold adjust. fold d.
    split; intros Hd; exists P.
    + replace (1 <=? d) with true by (symmetry; apply Z.leb_le; lia). cbn [negb map]. split; auto.
      unfold fl. cbn [fst snd]. unfold adjust. fold d. replace (d + 1) with (1 + Z.abs d) by lia. reflexivity.
    + replace (1 <=? d) with false by (symmetry; apply Z.leb_gt; lia). cbn [negb map]. split; auto.
      unfold fr. cbn [fst snd]. unfold adjust. fold d. replace (1 - d) with (1 + Z.abs d) by lia. reflexivity.
  - intros z Hz No. rewrite !Con by auto. unfold lefts, rights. rewrite !Fil, (T3 z Hz No). auto.
Qed.

(** An odd number of sets makes eaf --polygons and the R plot abort. *)
Theorem C60_odd_aborts : forall eafs e0 rest, eafs = e0 :: rest -> Nat.Odd (e_nruns e0) ->
  eaf_compute_polygon eafs = AssertFailed.
Proof.
  intros eafs e0 rest -> (k & E). unfold eaf_compute_polygon. cbn [rd nth_error bind].
  rewrite E. replace (2 * k + 1)%nat with (1 + k * 2)%nat by lia.
  rewrite Nat.mod_add by lia. reflexivity.
Qed.

(** With selected levels that are not consecutive (eaf --polygons -l 2,4) the
    polygons overlap the region attained by the upper level: here the location (4,4)
    is attained by all four sets, which is the second selected level, yet it lies in
    a polygon. *)
Definition sel_runs : list (list point) := [[[3; 0]]; [[2; 1]]; [[3; 3]]; [[2; 2]]].
Theorem C60_selected_levels_refuted :
  (exists ps, eaf_polygons sortx_exec sorty_exec (fun i => 17 * (Z.of_nat i mod 1000)) grow_exec
      (concat sel_runs) (cumsizes sel_runs) 4 [2; 4] = Ret (layout ps, map snd ps) /\
    length (containing ps [4; 4]) = 1%nat) /\
  attained_by_at_least 2 4 sel_runs [4; 4].
Proof.
  split.
  - exists [([(At 2, Infty); (At 2, At 2); (Infty, At 2); (Infty, Infty)], 0);
            ([(At 3, At 2); (At 3, At 1); (Infty, At 1); (Infty, At 2)], 2)].
    split; vm_compute; reflexivity.
  - exists [0; 1; 2; 3]%nat. split. repeat constructor; simpl; intuition lia. split. reflexivity.
    intros k Hk. split. simpl in *; intuition lia.
    simpl in Hk. destruct Hk as [<-|[<-|[<-|[<-|[]]]]]; eexists; (split; [left; reflexivity|]);
      apply wdom2_iff; unfold coord; simpl; lia.
Qed.

(** ** A concrete case: six sets, with surfaces that cross and colours that change *)
Definition px : list (list point) := [[[6; 4]; [4; 6]]; [[5; 2]; [2; 4]]; [[2; 4]];
  [[8; 5]; [6; 6]; [5; 7]]; [[6; 6]; [5; 7]]; [[4; 2]]].
Example ex_hyps : (2 <= length px)%nat /\ Nat.Even (length px) /\ (forall r, In r px -> r <> []) /\
  wf_points 2 (concat px) /\ is_datax (concat px) (sortx_exec (concat px)) /\
  is_datay (concat px) (sorty_exec (concat px)).
Proof.
  split. simpl; lia. split. exists 3%nat. reflexivity. split.
  { intros r H. simpl in H. repeat (destruct H as [<-|H]; [discriminate|]). destruct H. }
  split. repeat constructor. split. apply sortx_exec_ok. apply sorty_exec_ok.
Qed.
Example ex_polygons : compute_eafdiff_polygon sortx_exec sorty_exec (fun i => 17 * (Z.of_nat i mod 1000)) grow_exec
    (fun _ => None) (concat px) (cumsizes px) 6 3 =
  Ret ([Some (At 2, Infty); Some (At 2, At 4); Some (At 4, At 4); Some (At 4, Infty); None;
        Some (At 4, At 6); Some (At 4, At 4); Some (At 6, At 4); Some (At 6, At 6); None;
        Some (At 4, Infty); Some (At 4, At 6); Some (At 6, At 6); Some (At 6, At 7); Some (At 5, At 7);
        Some (At 5, Infty); None;
        Some (At 6, At 6); Some (At 6, At 4); Some (Infty, At 4); Some (Infty, At 5); Some (At 8, At 5);
        Some (At 8, At 6); None;
        Some (At 8, At 6); Some (At 8, At 5); Some (Infty, At 5); Some (Infty, At 6); None],
       [3; 2; 3; 3; 2],
       ([Some (At 4, At 4); Some (At 4, At 2); Some (At 5, At 2); Some (At 5, At 4); None;
         Some (At 5, At 4); Some (At 5, At 2); Some (Infty, At 2); Some (Infty, At 4); None],
        [2; 1])).
Proof. vm_compute. reflexivity. Qed.

Print Assumptions C60_polygons_exact.
Print Assumptions C60_R_sides.
Print Assumptions C60_odd_aborts.
Print Assumptions C60_selected_levels_refuted.
