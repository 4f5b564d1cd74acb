(** Proofs about the rotations of avl_rebalance (c/hv.c:354-489). *)
From Coq Require Import List ZArith Lia Bool Arith.
From Verif Require Import Base AvlModel AvlSpec AvlProofs.
Import ListNotations.
Open Scope nat_scope.

(** * One round of avl_rebalance *)

Ltac nz := cbv beta iota delta [Z.eqb Pos.eqb bind deref fst snd].
(* names the value of the outermost let of the left-hand side *)
Ltac dolet y E :=
  lazymatch goal with |- (let x := ?v in @?b x) = ?r =>
    assert (E : exists y, y = v) by (exists v; reflexivity);
    destruct E as [y E]; change (b v = r); rewrite <- E; cbv beta
  end.

Lemma rot_left_single : forall s n ch pr,
  par s n = pr -> check_balance s n = (-1)%Z -> lft s n = Some ch -> r_depth s ch <= l_depth s ch -> ch <> n ->
  exists d1 d2,
  let s6 := set_par ch pr (set_slot (slot_of s n pr) (Some ch) (set_par n (Some ch) (set_rgt ch (Some n)
             (set_par_opt (rgt s ch) (Some n) (set_lft n (rgt s ch) s))))) in
  d1 = calc_depth s6 n /\ d2 = calc_depth (set_dep n d1 s6) ch /\
  rebalance_step s n = Ret (set_dep ch d2 (set_dep n d1 s6), pr).
Proof.
  intros s n ch pr Hp Hb Hl Hd Hne. eexists. eexists. cbv zeta. split; [reflexivity|]. split; [reflexivity|].
  cbv beta delta [rebalance_step].
  dolet p E. rewrite Hp in E. subst p. dolet sp E. dolet b E0. rewrite Hb in E0. subst b. nz. rewrite Hl. nz.
  rewrite (proj2 (Nat.leb_le _ _) Hd). nz.
  dolet s1 E1. assert (R : lft s1 n = rgt s ch) by (rewrite E1; cbn; apply fset_same). rewrite R.
  dolet s2 E2. dolet s3 E3. dolet s4 E4. dolet s5 E5. dolet s6 E6. dolet s7 E7.
  subst. reflexivity.
Qed.

Lemma rot_right_single : forall s n ch pr,
  par s n = pr -> check_balance s n = 1%Z -> rgt s n = Some ch -> l_depth s ch <= r_depth s ch -> ch <> n ->
  exists d1 d2,
  let s6 := set_par ch pr (set_slot (slot_of s n pr) (Some ch) (set_par n (Some ch) (set_lft ch (Some n)
             (set_par_opt (lft s ch) (Some n) (set_rgt n (lft s ch) s))))) in
  d1 = calc_depth s6 n /\ d2 = calc_depth (set_dep n d1 s6) ch /\
  rebalance_step s n = Ret (set_dep ch d2 (set_dep n d1 s6), pr).
Proof.
  intros s n ch pr Hp Hb Hl Hd Hne. eexists. eexists. cbv zeta. split; [reflexivity|]. split; [reflexivity|].
  cbv beta delta [rebalance_step].
  dolet p E. rewrite Hp in E. subst p. dolet sp E. dolet b E0. rewrite Hb in E0. subst b. nz. rewrite Hl. nz.
  rewrite (proj2 (Nat.leb_le _ _) Hd). nz.
  dolet s1 E1. assert (R : rgt s1 n = lft s ch) by (rewrite E1; cbn; apply fset_same). rewrite R.
  dolet s2 E2. dolet s3 E3. dolet s4 E4. dolet s5 E5. dolet s6 E6. dolet s7 E7.
  subst. reflexivity.
Qed.

Lemma rot_left_double : forall s n ch g pr,
  par s n = pr -> check_balance s n = (-1)%Z -> lft s n = Some ch -> l_depth s ch < r_depth s ch -> rgt s ch = Some g ->
  ch <> n -> g <> n -> g <> ch ->
  exists d1 d2 d3,
  let s10 := set_par g pr (set_slot (slot_of s n pr) (Some g) (set_par ch (Some g) (set_lft g (Some ch)
             (set_par n (Some g) (set_rgt g (Some n)
             (set_par_opt (lft s g) (Some ch) (set_rgt ch (lft s g)
             (set_par_opt (rgt s g) (Some n) (set_lft n (rgt s g) s))))))))) in
  d1 = calc_depth s10 n /\ d2 = calc_depth (set_dep n d1 s10) ch /\ d3 = calc_depth (set_dep ch d2 (set_dep n d1 s10)) g /\
  rebalance_step s n = Ret (set_dep g d3 (set_dep ch d2 (set_dep n d1 s10)), pr).
Proof.
  intros s n ch g pr Hp Hb Hl Hd Hg N1 N2 N3. eexists. eexists. eexists. cbv zeta.
  split; [reflexivity|]. split; [reflexivity|]. split; [reflexivity|].
  cbv beta delta [rebalance_step].
  dolet p E. rewrite Hp in E. subst p. dolet sp E. dolet b E0. rewrite Hb in E0. subst b. nz. rewrite Hl. nz.
  rewrite (proj2 (Nat.leb_gt _ _) Hd). nz. rewrite Hg. nz.
  dolet s1 E1. assert (R : lft s1 n = rgt s g) by (rewrite E1; cbn; apply fset_same). rewrite R.
  dolet s2 E2. assert (R2 : lft s2 g = lft s g) by (rewrite E2, lft_popt, E1; cbn; apply fset_other; assumption). rewrite R2.
  dolet s3 E3. assert (R3 : rgt s3 ch = lft s g) by (rewrite E3; cbn; apply fset_same). rewrite R3.
  dolet s4 E4.
  dolet s5 E5. assert (R5 : rgt s5 g = Some n) by (rewrite E5; cbn; apply fset_same). rewrite R5. cbv beta iota delta [set_par_opt].
  dolet s6 E6.
  dolet s7 E7. assert (R7 : lft s7 g = Some ch) by (rewrite E7; cbn; apply fset_same). rewrite R7. nz.
  dolet s8 E8. dolet s9 E9. dolet s10 E10. dolet s11 E11. dolet s12 E12.
  subst. reflexivity.
Qed.

Lemma rot_right_double : forall s n ch g pr,
  par s n = pr -> check_balance s n = 1%Z -> rgt s n = Some ch -> r_depth s ch < l_depth s ch -> lft s ch = Some g ->
  ch <> n -> g <> n -> g <> ch ->
  exists d1 d2 d3,
  let s10 := set_par g pr (set_slot (slot_of s n pr) (Some g) (set_par ch (Some g) (set_rgt g (Some ch)
             (set_par n (Some g) (set_lft g (Some n)
             (set_par_opt (rgt s g) (Some ch) (set_lft ch (rgt s g)
             (set_par_opt (lft s g) (Some n) (set_rgt n (lft s g) s))))))))) in
  d1 = calc_depth s10 n /\ d2 = calc_depth (set_dep n d1 s10) ch /\ d3 = calc_depth (set_dep ch d2 (set_dep n d1 s10)) g /\
  rebalance_step s n = Ret (set_dep g d3 (set_dep ch d2 (set_dep n d1 s10)), pr).
Proof.
  intros s n ch g pr Hp Hb Hl Hd Hg N1 N2 N3. eexists. eexists. eexists. cbv zeta.
  split; [reflexivity|]. split; [reflexivity|]. split; [reflexivity|].
  cbv beta delta [rebalance_step].
  dolet p E. rewrite Hp in E. subst p. dolet sp E. dolet b E0. rewrite Hb in E0. subst b. nz. rewrite Hl. nz.
  rewrite (proj2 (Nat.leb_gt _ _) Hd). nz. rewrite Hg. nz.
  dolet s1 E1. assert (R : rgt s1 n = lft s g) by (rewrite E1; cbn; apply fset_same). rewrite R.
  dolet s2 E2. assert (R2 : rgt s2 g = rgt s g) by (rewrite E2, rgt_popt, E1; cbn; apply fset_other; assumption). rewrite R2.
  dolet s3 E3. assert (R3 : lft s3 ch = rgt s g) by (rewrite E3; cbn; apply fset_same). rewrite R3.
  dolet s4 E4.
  dolet s5 E5. assert (R5 : lft s5 g = Some n) by (rewrite E5; cbn; apply fset_same). rewrite R5. cbv beta iota delta [set_par_opt].
  dolet s6 E6.
  dolet s7 E7. assert (R7 : rgt s7 g = Some ch) by (rewrite E7; cbn; apply fset_same). rewrite R7. nz.
  dolet s8 E8. dolet s9 E9. dolet s10 E10. dolet s11 E11. dolet s12 E12.
  subst. reflexivity.
Qed.

(* disequality of nodes of different zones *)
Ltac zne :=
  match goal with
  | z : nat -> nat |- ?a <> ?b => let X := fresh "X" in intro X; assert (z a = z b) by (rewrite X; reflexivity); lia
  | Z : forall q, ?p = Some q -> _ |- ?p <> Some ?i => let X := fresh "X" in intro X; apply Z in X; lia
  end.
Ltac fld sn :=
  repeat first
    [ progress cbn [set_lft set_rgt set_par set_dep lft rgt par dep nxt prv hd_ tl_ tp node_depth]
    | rewrite lft_popt | rewrite rgt_popt | rewrite dep_popt | rewrite tp_popt
    | rewrite nxt_popt | rewrite prv_popt | rewrite hd_popt | rewrite tl_popt
    | rewrite par_slot | rewrite dep_slot | rewrite nxt_slot | rewrite prv_slot | rewrite hd_slot | rewrite tl_slot
    | rewrite fset_same | rewrite fset_other by zne | rewrite par_popt_other by first [assumption|zne] | rewrite par_popt_same
    | rewrite lft_slot by sn | rewrite rgt_slot by sn ].

Definition round_ok (s : avl) (l : btree) (n : nat) (r : btree) (c : list frame) (pr : option nat) : Prop :=
  exists s' t' root', rebalance_step s n = Ret (s', pr) /\
    points_to s' t' pr root' /\ ctx_ok s' c root' pr /\ inorder t' = inorder (Node l n r) /\ balanced t' /\
    Nat.max (height l) (height r) <= height t' <= S (Nat.max (height l) (height r)) /\
    (height l <= S (height r) -> height r <= S (height l) -> height t' = S (Nat.max (height l) (height r))) /\
    same_links s s'.

Definition round_pre (s : avl) (l : btree) (n : nat) (r : btree) (c : list frame) (pr : option nat) : Prop :=
  points_to s l (Some n) (lft s n) /\ points_to s r (Some n) (rgt s n) /\ par s n = pr /\
  ctx_ok s c (Some n) pr /\ NoDup (pre c ++ inorder (Node l n r) ++ post c) /\
  balanced l /\ balanced r /\ height l < 254 /\ height r < 254.

Lemma balance_num : forall s n l r pl pr, points_to s l pl (lft s n) -> points_to s r pr (rgt s n) ->
  check_balance s n = (if (height r + 1 <? height l)%nat then (-1)%Z else if (height l + 1 <? height r)%nat then 1%Z else 0%Z).
Proof.
  intros s n l r pl pr Hl Hr. unfold check_balance, l_depth, r_depth. rewrite (points_to_depth _ _ _ _ Hl), (points_to_depth _ _ _ _ Hr).
  destruct (Nat.ltb_spec (height r + 1) (height l)), (Nat.ltb_spec (height l + 1) (height r));
  repeat match goal with |- context [Z.ltb ?a ?b] => destruct (Z.ltb_spec a b) end; lia.
Qed.

Lemma round_none : forall s l n r c pr, round_pre s l n r c pr ->
  height l <= S (height r) -> height r <= S (height l) -> round_ok s l n r c pr.
Proof.
  intros s l n r c pr (Hl & Hr & Hp & Hc & ND & Bl & Br & Sl & Sr) B1 B2.
  assert (ND' : NoDup (concat [pre c; inorder l; [n]; inorder r; post c])).
  { cbn [concat]. cbn [inorder] in ND. rewrite !app_nil_r, <- ?app_assoc in *. cbn in *. exact ND. }
  destruct (zones _ ND') as [z Z].
  assert (Z0 : forall i, In i (pre c) -> z i = 0) by (intros i; apply (Z 0)).
  assert (Z1 : forall i, In i (inorder l) -> z i = 1) by (intros i; apply (Z 1)).
  assert (Z2 : z n = 2) by (apply (Z 2); left; reflexivity).
  assert (Z3 : forall i, In i (inorder r) -> z i = 3) by (intros i; apply (Z 3)).
  assert (Z4 : forall i, In i (post c) -> z i = 4) by (intros i; apply (Z 4)). clear Z.
  assert (Zc : forall i, In i (cnodes c) -> z i = 0 \/ z i = 4) by (intros i Hi; apply in_app_or in Hi; destruct Hi; auto).
  assert (NDl : NoDup (inorder l)) by (apply nodup_r, nodup_l, nodup_l in ND; exact ND).
  assert (NDr : NoDup (inorder r)) by (apply nodup_r, nodup_l, nodup_r in ND; inversion ND; assumption).
  assert (NDc : NoDup (cnodes c)).
  { apply nodup_app_iff; [eapply nodup_l; eassumption|apply nodup_r, nodup_r in ND; exact ND|].
    intros x X Y. apply Z0 in X. apply Z4 in Y. lia. }
  exists (set_dep n (calc_depth s n) s), (Node l n r), (Some n).
  split.
  { cbv beta delta [rebalance_step]. dolet p E. rewrite Hp in E. subst p. dolet sp E. dolet b E0.
    rewrite (balance_num s n l r _ _ Hl Hr) in E0.
    destruct (Nat.ltb_spec (height r + 1) (height l)); [lia|]. destruct (Nat.ltb_spec (height l + 1) (height r)); [lia|].
    subst b. nz. reflexivity. }
  split; [cbn [points_to]|split; [|split; [|split; [|split; [|split]]]]].
  - split; [reflexivity|]. split; [exact Hp|]. split.
    { cbn. rewrite fset_same. apply calc_depth_ok; [exact (points_to_depth _ _ _ _ Hl)|exact (points_to_depth _ _ _ _ Hr)|lia]. }
    split.
    + apply (points_to_frame _ s _ _ _ _ Hl NDl).
      * intros i Hi. apply Z1 in Hi. repeat split; fld idtac; reflexivity.
      * intros q Hq. fld idtac. rewrite Hq in Hl. eapply points_to_par; eassumption.
    + apply (points_to_frame _ s _ _ _ _ Hr NDr).
      * intros i Hi. apply Z3 in Hi. repeat split; fld idtac; reflexivity.
      * intros q Hq. fld idtac. rewrite Hq in Hr. eapply points_to_par; eassumption.
  - apply (ctx_ok_frame _ s _ _ _ Hc NDc); [|reflexivity].
    intros i Hi. apply Zc in Hi. repeat split; fld idtac; reflexivity.
  - reflexivity.
  - cbn [balanced]. auto.
  - cbn [height]. lia.
  - cbn [height]. lia.
  - repeat split.
Qed.

(* proves one subtree after a rotation *)
Ltac sub_ok sn H ND Z :=
  refine (points_to_frame _ _ _ _ _ _ H ND _ _);
  [ let i := fresh "i" in let Hi := fresh "Hi" in intros i Hi; apply Z in Hi; repeat split; intros; fld sn; reflexivity
  | let q := fresh "q" in let Hq := fresh "Hq" in intros q Hq; let Zq := fresh "Zq" in
    assert (Zq := Hq); rewrite Hq in H; apply points_to_root in H as Hin; apply Z in Hin; rewrite ?Hq; fld sn;
    first [reflexivity | eapply points_to_par; eassumption] ].

Lemma round_left_single : forall s ll ch lr n r c pr, round_pre s (Node ll ch lr) n r c pr ->
  height (Node ll ch lr) = S (S (height r)) -> height lr <= height ll -> round_ok s (Node ll ch lr) n r c pr.
Proof.
  intros s ll ch lr n r c pr (Hl & Hr & Hp & Hc & ND & Bl & Br & Sl & Sr) Hh Hs.
  assert (ND' : NoDup (concat [pre c; inorder ll; [ch]; inorder lr; [n]; inorder r; post c])).
  { cbn [concat]. cbn [inorder] in ND. rewrite !app_nil_r in *. repeat (progress (rewrite <- ?app_assoc in *; cbn [app] in * )). exact ND. }
  destruct (zones _ ND') as [z Z].
  assert (Z0 : forall i, In i (pre c) -> z i = 0) by (intros i; apply (Z 0)).
  assert (Z_ll : forall i, In i (inorder ll) -> z i = 1) by (intros i; apply (Z 1)).
  assert (Z_ch : z ch = 2) by (apply (Z 2); left; reflexivity).
  assert (Z_lr : forall i, In i (inorder lr) -> z i = 3) by (intros i; apply (Z 3)).
  assert (Z_n : z n = 4) by (apply (Z 4); left; reflexivity).
  assert (Z_r : forall i, In i (inorder r) -> z i = 5) by (intros i; apply (Z 5)).
  assert (Zp : forall i, In i (post c) -> z i = 6) by (intros i; apply (Z 6)). clear Z.
  assert (Zc : forall i, In i (cnodes c) -> z i = 0 \/ z i = 6) by (intros i Hi; apply in_app_or in Hi; destruct Hi; auto).
  cbn [concat] in ND'.
  pose proof (nodup_l _ _ ND') as ND0. apply nodup_r in ND'.
  pose proof (nodup_l _ _ ND') as ND_ll.
  apply nodup_r in ND'.
  apply nodup_r in ND'.
  pose proof (nodup_l _ _ ND') as ND_lr.
  apply nodup_r in ND'.
  apply nodup_r in ND'.
  pose proof (nodup_l _ _ ND') as ND_r.
  apply nodup_r in ND'.
  apply nodup_l in ND'.
  assert (NDc : NoDup (cnodes c)) by (apply nodup_app_iff; auto; intros x X Y; apply Z0 in X; apply Zp in Y; lia).
  assert (Nc : ~ In n (cnodes c)) by (intro X; apply Zc in X; lia).
  pose proof (balance_num s n _ _ _ _ Hl Hr) as Eb. rewrite Hh in Eb.
  repeat match type of Eb with context [Nat.ltb ?a ?b] => destruct (Nat.ltb_spec a b); [try lia|try lia] end.
  cbn [points_to] in Hl. destruct Hl as (El & Pch & Dch & Hll & Hlr).
  assert (Zq_Hll : forall q, lft s ch = Some q -> z q = 1) by (intros q Hq; rewrite Hq in Hll; apply Z_ll; eapply points_to_root; eassumption).
  assert (Zq_Hlr : forall q, rgt s ch = Some q -> z q = 3) by (intros q Hq; rewrite Hq in Hlr; apply Z_lr; eapply points_to_root; eassumption).
  assert (Zq_Hr : forall q, rgt s n = Some q -> z q = 5) by (intros q Hq; rewrite Hq in Hr; apply Z_r; eapply points_to_root; eassumption).
  assert (SN : forall i, z i <> 0 -> z i <> 6 -> slot_not (slot_of s n pr) i).
  { intros i Y0 Y6. apply (slot_not_out s c n pr i Hc). intro X. apply Zc in X. lia. }
  assert (Hdd : r_depth s ch <= l_depth s ch) by (unfold r_depth, l_depth; rewrite (points_to_depth _ _ _ _ Hll), (points_to_depth _ _ _ _ Hlr); lia).
  destruct (rot_left_single s n ch pr Hp Eb El Hdd ltac:(zne)) as (d1 & d2 & E1 & E2 & E).
  set (sp := slot_of s n pr) in *.
  cbn [balanced] in Bl, Br. cbn [height] in Hh, Hs, Sl, Sr.
  assert (Hd1 : d1 = S (Nat.max (height lr) (height r))).
  { rewrite E1. apply calc_depth_ok; [| |cbn [height]; lia].
    - rewrite <- (points_to_depth _ _ _ _ Hlr). fld ltac:(apply SN; lia). destruct (rgt s ch) as [q|] eqn:Eq; [|reflexivity].
      pose proof (Zq_Hlr q eq_refl). cbn. fld idtac. reflexivity.
    - rewrite <- (points_to_depth _ _ _ _ Hr). fld ltac:(apply SN; lia). destruct (rgt s n) as [q|] eqn:Eq; [|reflexivity].
      pose proof (Zq_Hr q eq_refl). cbn. fld idtac. reflexivity.
  }
  assert (Hd2 : d2 = S (Nat.max (height ll) (height (Node lr n r)))).
  { rewrite E2. apply calc_depth_ok; [| |cbn [height]; lia].
    - rewrite <- (points_to_depth _ _ _ _ Hll). fld ltac:(apply SN; lia). destruct (lft s ch) as [q|] eqn:Eq; [|reflexivity].
      pose proof (Zq_Hll q eq_refl). cbn. fld idtac. reflexivity.
    - cbn [height]. rewrite <- Hd1. fld ltac:(apply SN; lia). reflexivity.
  }
  exists (set_dep ch d2 (set_dep n d1 (set_par ch pr (set_slot sp (Some ch) (set_par n (Some ch) (set_rgt ch (Some n) (set_par_opt (rgt s ch) (Some n) (set_lft n (rgt s ch) s)))))))), (Node ll ch (Node lr n r)), (Some ch).
  split; [exact E|].
  split; [|split; [|split; [|split; [|split; [|split]]]]].
  - cbn [points_to]. split; [reflexivity|]. split; [fld idtac; reflexivity|]. split; [fld idtac; exact Hd2|].
    fld ltac:(apply SN; lia). split; [sub_ok ltac:(apply SN; lia) Hll ND_ll Z_ll|].
    split; [reflexivity|]. split; [reflexivity|]. split; [exact Hd1|].
    split; [sub_ok ltac:(apply SN; lia) Hlr ND_lr Z_lr|sub_ok ltac:(apply SN; lia) Hr ND_r Z_r].
  - apply (ctx_ok_slot c s _ n pr (Some ch) Hc NDc Nc).
    + fold sp. intros i Hi. apply Zc in Hi.
      split; [|split; [|split]]; fld fail; [| |reflexivity|reflexivity].
      * apply lft_slot_ext. fld fail. reflexivity.
      * apply rgt_slot_ext. fld fail. reflexivity.
    + fold sp. fld fail. apply tp_slot_ext. fld fail. reflexivity.
  - cbn [inorder]. repeat (progress (rewrite <- ?app_assoc; cbn [app])). reflexivity.
  - cbn [balanced height]. cbn [height] in *. repeat match goal with H : _ /\ _ |- _ => destruct H end.
    repeat match goal with |- _ /\ _ => split end; solve [assumption|lia].
  - cbn [height]. lia.
  - cbn [height]. lia.
  - repeat split; fld fail; reflexivity.
Qed.

Lemma round_right_single : forall s l n rl ch rr c pr, round_pre s l n (Node rl ch rr) c pr ->
  height (Node rl ch rr) = S (S (height l)) -> height rl <= height rr -> round_ok s l n (Node rl ch rr) c pr.
Proof.
  intros s l n rl ch rr c pr (Hl & Hr & Hp & Hc & ND & Bl & Br & Sl & Sr) Hh Hs.
  assert (ND' : NoDup (concat [pre c; inorder l; [n]; inorder rl; [ch]; inorder rr; post c])).
  { cbn [concat]. cbn [inorder] in ND. rewrite !app_nil_r in *. repeat (progress (rewrite <- ?app_assoc in *; cbn [app] in * )). exact ND. }
  destruct (zones _ ND') as [z Z].
  assert (Z0 : forall i, In i (pre c) -> z i = 0) by (intros i; apply (Z 0)).
  assert (Z_l : forall i, In i (inorder l) -> z i = 1) by (intros i; apply (Z 1)).
  assert (Z_n : z n = 2) by (apply (Z 2); left; reflexivity).
  assert (Z_rl : forall i, In i (inorder rl) -> z i = 3) by (intros i; apply (Z 3)).
  assert (Z_ch : z ch = 4) by (apply (Z 4); left; reflexivity).
  assert (Z_rr : forall i, In i (inorder rr) -> z i = 5) by (intros i; apply (Z 5)).
  assert (Zp : forall i, In i (post c) -> z i = 6) by (intros i; apply (Z 6)). clear Z.
  assert (Zc : forall i, In i (cnodes c) -> z i = 0 \/ z i = 6) by (intros i Hi; apply in_app_or in Hi; destruct Hi; auto).
  cbn [concat] in ND'.
  pose proof (nodup_l _ _ ND') as ND0. apply nodup_r in ND'.
  pose proof (nodup_l _ _ ND') as ND_l.
  apply nodup_r in ND'.
  apply nodup_r in ND'.
  pose proof (nodup_l _ _ ND') as ND_rl.
  apply nodup_r in ND'.
  apply nodup_r in ND'.
  pose proof (nodup_l _ _ ND') as ND_rr.
  apply nodup_r in ND'.
  apply nodup_l in ND'.
  assert (NDc : NoDup (cnodes c)) by (apply nodup_app_iff; auto; intros x X Y; apply Z0 in X; apply Zp in Y; lia).
  assert (Nc : ~ In n (cnodes c)) by (intro X; apply Zc in X; lia).
  pose proof (balance_num s n _ _ _ _ Hl Hr) as Eb. rewrite Hh in Eb.
  repeat match type of Eb with context [Nat.ltb ?a ?b] => destruct (Nat.ltb_spec a b); [try lia|try lia] end.
  cbn [points_to] in Hr. destruct Hr as (Er & Pch & Dch & Hrl & Hrr).
  assert (Zq_Hrr : forall q, rgt s ch = Some q -> z q = 5) by (intros q Hq; rewrite Hq in Hrr; apply Z_rr; eapply points_to_root; eassumption).
  assert (Zq_Hrl : forall q, lft s ch = Some q -> z q = 3) by (intros q Hq; rewrite Hq in Hrl; apply Z_rl; eapply points_to_root; eassumption).
  assert (Zq_Hl : forall q, lft s n = Some q -> z q = 1) by (intros q Hq; rewrite Hq in Hl; apply Z_l; eapply points_to_root; eassumption).
  assert (SN : forall i, z i <> 0 -> z i <> 6 -> slot_not (slot_of s n pr) i).
  { intros i Y0 Y6. apply (slot_not_out s c n pr i Hc). intro X. apply Zc in X. lia. }
  assert (Hdd : l_depth s ch <= r_depth s ch) by (unfold r_depth, l_depth; rewrite (points_to_depth _ _ _ _ Hrl), (points_to_depth _ _ _ _ Hrr); lia).
  destruct (rot_right_single s n ch pr Hp Eb Er Hdd ltac:(zne)) as (d1 & d2 & E1 & E2 & E).
  set (sp := slot_of s n pr) in *.
  cbn [balanced] in Bl, Br. cbn [height] in Hh, Hs, Sl, Sr.
  assert (Hd1 : d1 = S (Nat.max (height l) (height rl))).
  { rewrite E1. apply calc_depth_ok; [| |cbn [height]; lia].
    - rewrite <- (points_to_depth _ _ _ _ Hl). fld ltac:(apply SN; lia). destruct (lft s n) as [q|] eqn:Eq; [|reflexivity].
      pose proof (Zq_Hl q eq_refl). cbn. fld idtac. reflexivity.
    - rewrite <- (points_to_depth _ _ _ _ Hrl). fld ltac:(apply SN; lia). destruct (lft s ch) as [q|] eqn:Eq; [|reflexivity].
      pose proof (Zq_Hrl q eq_refl). cbn. fld idtac. reflexivity.
  }
  assert (Hd2 : d2 = S (Nat.max (height (Node l n rl)) (height rr))).
  { rewrite E2. apply calc_depth_ok; [| |cbn [height]; lia].
    - cbn [height]. rewrite <- Hd1. fld ltac:(apply SN; lia). reflexivity.
    - rewrite <- (points_to_depth _ _ _ _ Hrr). fld ltac:(apply SN; lia). destruct (rgt s ch) as [q|] eqn:Eq; [|reflexivity].
      pose proof (Zq_Hrr q eq_refl). cbn. fld idtac. reflexivity.
  }
  exists (set_dep ch d2 (set_dep n d1 (set_par ch pr (set_slot sp (Some ch) (set_par n (Some ch) (set_lft ch (Some n) (set_par_opt (lft s ch) (Some n) (set_rgt n (lft s ch) s)))))))), (Node (Node l n rl) ch rr), (Some ch).
  split; [exact E|].
  split; [|split; [|split; [|split; [|split; [|split]]]]].
  - cbn [points_to]. split; [reflexivity|]. split; [fld idtac; reflexivity|]. split; [fld idtac; exact Hd2|].
    fld ltac:(apply SN; lia). split; [|sub_ok ltac:(apply SN; lia) Hrr ND_rr Z_rr].
    split; [reflexivity|]. split; [reflexivity|]. split; [exact Hd1|].
    split; [sub_ok ltac:(apply SN; lia) Hl ND_l Z_l|sub_ok ltac:(apply SN; lia) Hrl ND_rl Z_rl].
  - apply (ctx_ok_slot c s _ n pr (Some ch) Hc NDc Nc).
    + fold sp. intros i Hi. apply Zc in Hi.
      split; [|split; [|split]]; fld fail; [| |reflexivity|reflexivity].
      * apply lft_slot_ext. fld fail. reflexivity.
      * apply rgt_slot_ext. fld fail. reflexivity.
    + fold sp. fld fail. apply tp_slot_ext. fld fail. reflexivity.
  - cbn [inorder]. repeat (progress (rewrite <- ?app_assoc; cbn [app])). reflexivity.
  - cbn [balanced height]. cbn [height] in *. repeat match goal with H : _ /\ _ |- _ => destruct H end.
    repeat match goal with |- _ /\ _ => split end; solve [assumption|lia].
  - cbn [height]. lia.
  - cbn [height]. lia.
  - repeat split; fld fail; reflexivity.
Qed.

Lemma round_left_double : forall s ll ch lrl g lrr n r c pr, round_pre s (Node ll ch (Node lrl g lrr)) n r c pr ->
  height (Node ll ch (Node lrl g lrr)) = S (S (height r)) -> height ll < height (Node lrl g lrr) -> round_ok s (Node ll ch (Node lrl g lrr)) n r c pr.
Proof.
  intros s ll ch lrl g lrr n r c pr (Hl & Hr & Hp & Hc & ND & Bl & Br & Sl & Sr) Hh Hs.
  assert (ND' : NoDup (concat [pre c; inorder ll; [ch]; inorder lrl; [g]; inorder lrr; [n]; inorder r; post c])).
  { cbn [concat]. cbn [inorder] in ND. rewrite !app_nil_r in *. repeat (progress (rewrite <- ?app_assoc in *; cbn [app] in * )). exact ND. }
  destruct (zones _ ND') as [z Z].
  assert (Z0 : forall i, In i (pre c) -> z i = 0) by (intros i; apply (Z 0)).
  assert (Z_ll : forall i, In i (inorder ll) -> z i = 1) by (intros i; apply (Z 1)).
  assert (Z_ch : z ch = 2) by (apply (Z 2); left; reflexivity).
  assert (Z_lrl : forall i, In i (inorder lrl) -> z i = 3) by (intros i; apply (Z 3)).
  assert (Z_g : z g = 4) by (apply (Z 4); left; reflexivity).
  assert (Z_lrr : forall i, In i (inorder lrr) -> z i = 5) by (intros i; apply (Z 5)).
  assert (Z_n : z n = 6) by (apply (Z 6); left; reflexivity).
  assert (Z_r : forall i, In i (inorder r) -> z i = 7) by (intros i; apply (Z 7)).
  assert (Zp : forall i, In i (post c) -> z i = 8) by (intros i; apply (Z 8)). clear Z.
  assert (Zc : forall i, In i (cnodes c) -> z i = 0 \/ z i = 8) by (intros i Hi; apply in_app_or in Hi; destruct Hi; auto).
  cbn [concat] in ND'.
  pose proof (nodup_l _ _ ND') as ND0. apply nodup_r in ND'.
  pose proof (nodup_l _ _ ND') as ND_ll.
  apply nodup_r in ND'.
  apply nodup_r in ND'.
  pose proof (nodup_l _ _ ND') as ND_lrl.
  apply nodup_r in ND'.
  apply nodup_r in ND'.
  pose proof (nodup_l _ _ ND') as ND_lrr.
  apply nodup_r in ND'.
  apply nodup_r in ND'.
  pose proof (nodup_l _ _ ND') as ND_r.
  apply nodup_r in ND'.
  apply nodup_l in ND'.
  assert (NDc : NoDup (cnodes c)) by (apply nodup_app_iff; auto; intros x X Y; apply Z0 in X; apply Zp in Y; lia).
  assert (Nc : ~ In n (cnodes c)) by (intro X; apply Zc in X; lia).
  pose proof (balance_num s n _ _ _ _ Hl Hr) as Eb. rewrite Hh in Eb.
  repeat match type of Eb with context [Nat.ltb ?a ?b] => destruct (Nat.ltb_spec a b); [try lia|try lia] end.
  cbn [points_to] in Hl. destruct Hl as (El & Pch & Dch & Hll & Eg & Pg & Dg & Hlrl & Hlrr).
  assert (Zq_Hll : forall q, lft s ch = Some q -> z q = 1) by (intros q Hq; rewrite Hq in Hll; apply Z_ll; eapply points_to_root; eassumption).
  assert (Zq_Hlrl : forall q, lft s g = Some q -> z q = 3) by (intros q Hq; rewrite Hq in Hlrl; apply Z_lrl; eapply points_to_root; eassumption).
  assert (Zq_Hlrr : forall q, rgt s g = Some q -> z q = 5) by (intros q Hq; rewrite Hq in Hlrr; apply Z_lrr; eapply points_to_root; eassumption).
  assert (Zq_Hr : forall q, rgt s n = Some q -> z q = 7) by (intros q Hq; rewrite Hq in Hr; apply Z_r; eapply points_to_root; eassumption).
  assert (SN : forall i, z i <> 0 -> z i <> 8 -> slot_not (slot_of s n pr) i).
  { intros i Y0 Y6. apply (slot_not_out s c n pr i Hc). intro X. apply Zc in X. lia. }
  assert (Hdd : l_depth s ch < r_depth s ch) by (unfold r_depth, l_depth; rewrite (points_to_depth _ _ _ _ Hll), Eg; cbn [node_depth]; rewrite Dg; lia).
  destruct (rot_left_double s n ch g pr Hp Eb El Hdd Eg ltac:(zne) ltac:(zne) ltac:(zne)) as (d1 & d2 & d3 & E1 & E2 & E3 & E).
  set (sp := slot_of s n pr) in *.
  cbn [balanced] in Bl, Br. cbn [height] in Hh, Hs, Sl, Sr.
  assert (Hd1 : d1 = S (Nat.max (height lrr) (height r))).
  { rewrite E1. apply calc_depth_ok; [| |cbn [height]; lia].
    - rewrite <- (points_to_depth _ _ _ _ Hlrr). fld ltac:(apply SN; lia). destruct (rgt s g) as [q|] eqn:Eq; [|reflexivity].
      pose proof (Zq_Hlrr q eq_refl). cbn. fld idtac. reflexivity.
    - rewrite <- (points_to_depth _ _ _ _ Hr). fld ltac:(apply SN; lia). destruct (rgt s n) as [q|] eqn:Eq; [|reflexivity].
      pose proof (Zq_Hr q eq_refl). cbn. fld idtac. reflexivity.
  }
  assert (Hd2 : d2 = S (Nat.max (height ll) (height lrl))).
  { rewrite E2. apply calc_depth_ok; [| |cbn [height]; lia].
    - rewrite <- (points_to_depth _ _ _ _ Hll). fld ltac:(apply SN; lia). destruct (lft s ch) as [q|] eqn:Eq; [|reflexivity].
      pose proof (Zq_Hll q eq_refl). cbn. fld idtac. reflexivity.
    - rewrite <- (points_to_depth _ _ _ _ Hlrl). fld ltac:(apply SN; lia). destruct (lft s g) as [q|] eqn:Eq; [|reflexivity].
      pose proof (Zq_Hlrl q eq_refl). cbn. fld idtac. reflexivity.
  }
  assert (Hd3 : d3 = S (Nat.max (height (Node ll ch lrl)) (height (Node lrr n r)))).
  { rewrite E3. apply calc_depth_ok; [| |cbn [height]; lia].
    - cbn [height]. rewrite <- Hd2. fld ltac:(apply SN; lia). reflexivity.
    - cbn [height]. rewrite <- Hd1. fld ltac:(apply SN; lia). reflexivity.
  }
  exists (set_dep g d3 (set_dep ch d2 (set_dep n d1 (set_par g pr (set_slot sp (Some g) (set_par ch (Some g) (set_lft g (Some ch) (set_par n (Some g) (set_rgt g (Some n) (set_par_opt (lft s g) (Some ch) (set_rgt ch (lft s g) (set_par_opt (rgt s g) (Some n) (set_lft n (rgt s g) s))))))))))))), (Node (Node ll ch lrl) g (Node lrr n r)), (Some g).
  split; [exact E|].
  split; [|split; [|split; [|split; [|split; [|split]]]]].
  - cbn [points_to]. split; [reflexivity|]. split; [fld idtac; reflexivity|]. split; [fld idtac; exact Hd3|].
    fld ltac:(apply SN; lia). split.
    + split; [reflexivity|]. split; [reflexivity|]. split; [exact Hd2|].
      split; [sub_ok ltac:(apply SN; lia) Hll ND_ll Z_ll|sub_ok ltac:(apply SN; lia) Hlrl ND_lrl Z_lrl].
    + split; [reflexivity|]. split; [reflexivity|]. split; [exact Hd1|].
      split; [sub_ok ltac:(apply SN; lia) Hlrr ND_lrr Z_lrr|sub_ok ltac:(apply SN; lia) Hr ND_r Z_r].
  - apply (ctx_ok_slot c s _ n pr (Some g) Hc NDc Nc).
    + fold sp. intros i Hi. apply Zc in Hi.
      split; [|split; [|split]]; fld fail; [| |reflexivity|reflexivity].
      * apply lft_slot_ext. fld fail. reflexivity.
      * apply rgt_slot_ext. fld fail. reflexivity.
    + fold sp. fld fail. apply tp_slot_ext. fld fail. reflexivity.
  - cbn [inorder]. repeat (progress (rewrite <- ?app_assoc; cbn [app])). reflexivity.
  - cbn [balanced height]. cbn [height] in *. repeat match goal with H : _ /\ _ |- _ => destruct H end.
    repeat match goal with |- _ /\ _ => split end; solve [assumption|lia].
  - cbn [height]. lia.
  - cbn [height]. lia.
  - repeat split; fld fail; reflexivity.
Qed.

Lemma round_right_double : forall s l n rll g rlr ch rr c pr, round_pre s l n (Node (Node rll g rlr) ch rr) c pr ->
  height (Node (Node rll g rlr) ch rr) = S (S (height l)) -> height rr < height (Node rll g rlr) -> round_ok s l n (Node (Node rll g rlr) ch rr) c pr.
Proof.
  intros s l n rll g rlr ch rr c pr (Hl & Hr & Hp & Hc & ND & Bl & Br & Sl & Sr) Hh Hs.
  assert (ND' : NoDup (concat [pre c; inorder l; [n]; inorder rll; [g]; inorder rlr; [ch]; inorder rr; post c])).
  { cbn [concat]. cbn [inorder] in ND. rewrite !app_nil_r in *. repeat (progress (rewrite <- ?app_assoc in *; cbn [app] in * )). exact ND. }
  destruct (zones _ ND') as [z Z].
  assert (Z0 : forall i, In i (pre c) -> z i = 0) by (intros i; apply (Z 0)).
  assert (Z_l : forall i, In i (inorder l) -> z i = 1) by (intros i; apply (Z 1)).
  assert (Z_n : z n = 2) by (apply (Z 2); left; reflexivity).
  assert (Z_rll : forall i, In i (inorder rll) -> z i = 3) by (intros i; apply (Z 3)).
  assert (Z_g : z g = 4) by (apply (Z 4); left; reflexivity).
  assert (Z_rlr : forall i, In i (inorder rlr) -> z i = 5) by (intros i; apply (Z 5)).
  assert (Z_ch : z ch = 6) by (apply (Z 6); left; reflexivity).
  assert (Z_rr : forall i, In i (inorder rr) -> z i = 7) by (intros i; apply (Z 7)).
  assert (Zp : forall i, In i (post c) -> z i = 8) by (intros i; apply (Z 8)). clear Z.
  assert (Zc : forall i, In i (cnodes c) -> z i = 0 \/ z i = 8) by (intros i Hi; apply in_app_or in Hi; destruct Hi; auto).
  cbn [concat] in ND'.
  pose proof (nodup_l _ _ ND') as ND0. apply nodup_r in ND'.
  pose proof (nodup_l _ _ ND') as ND_l.
  apply nodup_r in ND'.
  apply nodup_r in ND'.
  pose proof (nodup_l _ _ ND') as ND_rll.
  apply nodup_r in ND'.
  apply nodup_r in ND'.
  pose proof (nodup_l _ _ ND') as ND_rlr.
  apply nodup_r in ND'.
  apply nodup_r in ND'.
  pose proof (nodup_l _ _ ND') as ND_rr.
  apply nodup_r in ND'.
  apply nodup_l in ND'.
  assert (NDc : NoDup (cnodes c)) by (apply nodup_app_iff; auto; intros x X Y; apply Z0 in X; apply Zp in Y; lia).
  assert (Nc : ~ In n (cnodes c)) by (intro X; apply Zc in X; lia).
  pose proof (balance_num s n _ _ _ _ Hl Hr) as Eb. rewrite Hh in Eb.
  repeat match type of Eb with context [Nat.ltb ?a ?b] => destruct (Nat.ltb_spec a b); [try lia|try lia] end.
  cbn [points_to] in Hr. destruct Hr as (Er & Pch & Dch & (Eg & Pg & Dg & Hrll & Hrlr) & Hrr).
  assert (Zq_Hrr : forall q, rgt s ch = Some q -> z q = 7) by (intros q Hq; rewrite Hq in Hrr; apply Z_rr; eapply points_to_root; eassumption).
  assert (Zq_Hrll : forall q, lft s g = Some q -> z q = 3) by (intros q Hq; rewrite Hq in Hrll; apply Z_rll; eapply points_to_root; eassumption).
  assert (Zq_Hrlr : forall q, rgt s g = Some q -> z q = 5) by (intros q Hq; rewrite Hq in Hrlr; apply Z_rlr; eapply points_to_root; eassumption).
  assert (Zq_Hl : forall q, lft s n = Some q -> z q = 1) by (intros q Hq; rewrite Hq in Hl; apply Z_l; eapply points_to_root; eassumption).
  assert (SN : forall i, z i <> 0 -> z i <> 8 -> slot_not (slot_of s n pr) i).
  { intros i Y0 Y6. apply (slot_not_out s c n pr i Hc). intro X. apply Zc in X. lia. }
  assert (Hdd : r_depth s ch < l_depth s ch) by (unfold r_depth, l_depth; rewrite (points_to_depth _ _ _ _ Hrr), Eg; cbn [node_depth]; rewrite Dg; lia).
  destruct (rot_right_double s n ch g pr Hp Eb Er Hdd Eg ltac:(zne) ltac:(zne) ltac:(zne)) as (d1 & d2 & d3 & E1 & E2 & E3 & E).
  set (sp := slot_of s n pr) in *.
  cbn [balanced] in Bl, Br. cbn [height] in Hh, Hs, Sl, Sr.
  assert (Hd1 : d1 = S (Nat.max (height l) (height rll))).
  { rewrite E1. apply calc_depth_ok; [| |cbn [height]; lia].
    - rewrite <- (points_to_depth _ _ _ _ Hl). fld ltac:(apply SN; lia). destruct (lft s n) as [q|] eqn:Eq; [|reflexivity].
      pose proof (Zq_Hl q eq_refl). cbn. fld idtac. reflexivity.
    - rewrite <- (points_to_depth _ _ _ _ Hrll). fld ltac:(apply SN; lia). destruct (lft s g) as [q|] eqn:Eq; [|reflexivity].
      pose proof (Zq_Hrll q eq_refl). cbn. fld idtac. reflexivity.
  }
  assert (Hd2 : d2 = S (Nat.max (height rlr) (height rr))).
  { rewrite E2. apply calc_depth_ok; [| |cbn [height]; lia].
    - rewrite <- (points_to_depth _ _ _ _ Hrlr). fld ltac:(apply SN; lia). destruct (rgt s g) as [q|] eqn:Eq; [|reflexivity].
      pose proof (Zq_Hrlr q eq_refl). cbn. fld idtac. reflexivity.
    - rewrite <- (points_to_depth _ _ _ _ Hrr). fld ltac:(apply SN; lia). destruct (rgt s ch) as [q|] eqn:Eq; [|reflexivity].
      pose proof (Zq_Hrr q eq_refl). cbn. fld idtac. reflexivity.
  }
  assert (Hd3 : d3 = S (Nat.max (height (Node l n rll)) (height (Node rlr ch rr)))).
  { rewrite E3. apply calc_depth_ok; [| |cbn [height]; lia].
    - cbn [height]. rewrite <- Hd1. fld ltac:(apply SN; lia). reflexivity.
    - cbn [height]. rewrite <- Hd2. fld ltac:(apply SN; lia). reflexivity.
  }
  exists (set_dep g d3 (set_dep ch d2 (set_dep n d1 (set_par g pr (set_slot sp (Some g) (set_par ch (Some g) (set_rgt g (Some ch) (set_par n (Some g) (set_lft g (Some n) (set_par_opt (rgt s g) (Some ch) (set_lft ch (rgt s g) (set_par_opt (lft s g) (Some n) (set_rgt n (lft s g) s))))))))))))), (Node (Node l n rll) g (Node rlr ch rr)), (Some g).
  split; [exact E|].
  split; [|split; [|split; [|split; [|split; [|split]]]]].
  - cbn [points_to]. split; [reflexivity|]. split; [fld idtac; reflexivity|]. split; [fld idtac; exact Hd3|].
    fld ltac:(apply SN; lia). split.
    + split; [reflexivity|]. split; [reflexivity|]. split; [exact Hd1|].
      split; [sub_ok ltac:(apply SN; lia) Hl ND_l Z_l|sub_ok ltac:(apply SN; lia) Hrll ND_rll Z_rll].
    + split; [reflexivity|]. split; [reflexivity|]. split; [exact Hd2|].
      split; [sub_ok ltac:(apply SN; lia) Hrlr ND_rlr Z_rlr|sub_ok ltac:(apply SN; lia) Hrr ND_rr Z_rr].
  - apply (ctx_ok_slot c s _ n pr (Some g) Hc NDc Nc).
    + fold sp. intros i Hi. apply Zc in Hi.
      split; [|split; [|split]]; fld fail; [| |reflexivity|reflexivity].
      * apply lft_slot_ext. fld fail. reflexivity.
      * apply rgt_slot_ext. fld fail. reflexivity.
    + fold sp. fld fail. apply tp_slot_ext. fld fail. reflexivity.
  - cbn [inorder]. repeat (progress (rewrite <- ?app_assoc; cbn [app])). reflexivity.
  - cbn [balanced height]. cbn [height] in *. repeat match goal with H : _ /\ _ |- _ => destruct H end.
    repeat match goal with |- _ /\ _ => split end; solve [assumption|lia].
  - cbn [height]. lia.
  - cbn [height]. lia.
  - repeat split; fld fail; reflexivity.
Qed.

(** one round of the loop restores the balance of a node whose subtrees differ by at
    most two in height *)
Lemma round_any : forall s l n r c pr, round_pre s l n r c pr ->
  height l <= S (S (height r)) -> height r <= S (S (height l)) -> round_ok s l n r c pr.
Proof.
  intros s l n r c pr H H1 H2.
  destruct (Nat.eq_dec (height l) (S (S (height r)))) as [E|E].
  - destruct l as [|ll ch lr]; [cbn in E; lia|].
    destruct (le_lt_dec (height lr) (height ll)) as [G|G]; [apply round_left_single; auto|].
    destruct lr as [|lrl g lrr]; [cbn in G; lia|]. apply round_left_double; auto.
  - destruct (Nat.eq_dec (height r) (S (S (height l)))) as [E'|E'].
    + destruct r as [|rl ch rr]; [cbn in E'; lia|].
      destruct (le_lt_dec (height rl) (height rr)) as [G|G]; [apply round_right_single; auto|].
      destruct rl as [|rll g rlr]; [cbn in G; lia|]. apply round_right_double; auto.
    + apply round_none; auto; lia.
Qed.

(** * The whole loop *)

Lemma same_links_trans : forall a b c, same_links a b -> same_links b c -> same_links a c.
Proof. intros a b c (A & B & C & D) (A' & B' & C' & D'). repeat split; congruence. Qed.

Lemma rebalance_loop_ok : forall c s t x pr h fuel,
  points_to s t pr x -> ctx_ok s c x pr -> balanced t -> ctx_bal c h ->
  height t <= S h -> h <= S (height t) ->
  NoDup (inorder (plug c t)) -> allocatable (inorder (plug c t)) -> length c <= fuel ->
  exists s' t', rebalance_loop fuel s pr = Ret s' /\
    points_to s' t' None (tp s') /\ balanced t' /\ inorder t' = inorder (plug c t) /\ same_links s s'.
Proof.
  induction c as [|f c IH]; intros s t x pr h fuel Ht Hc Bt Bc H1 H2 ND Al Hf.
  - destruct Hc as [Hx ->]. subst x. exists s, t. destruct fuel; (split; [reflexivity|]); (split; [exact Ht|]);
    (split; [exact Bt|]); (split; [reflexivity|]); repeat split.
  - cbn [length] in Hf. destruct fuel as [|fuel]; [lia|]. rewrite inorder_plug in ND, Al.
    unfold allocatable in Al. rewrite !app_length in Al.
    destruct f as [n r|l n]; cbn [ctx_ok ctx_bal pre post plug] in *.
    + destruct Hc as (-> & Hx & Hr & Hc). destruct Bc as (B1 & B2 & Br & Bc). cbn [length] in Al. rewrite app_length in Al.
      assert (St : height t < 242) by (apply height_small; [exact Bt|lia]).
      assert (Sr : height r < 242) by (apply height_small; [exact Br|lia]).
      assert (P : round_pre s t n r c (par s n)).
      { split; [rewrite Hx; exact Ht|]. split; [exact Hr|]. split; [reflexivity|]. split; [exact Hc|]. split.
        - cbn [inorder]. rewrite <- app_assoc. exact ND.
        - repeat split; auto; lia. }
      destruct (round_any _ _ _ _ _ _ P) as (s1 & t1 & x1 & E & P1 & C1 & I1 & Bt1 & Hh & Hh' & L1); [lia|lia|].
      destruct (IH s1 t1 x1 (par s n) (S (Nat.max h (height r))) fuel P1 C1 Bt1 Bc) as (s' & t' & E' & P' & B' & I' & L').
      * lia.
      * lia.
      * rewrite inorder_plug, I1. cbn [inorder]. rewrite <- app_assoc. exact ND.
      * unfold allocatable. rewrite inorder_plug, I1. cbn [inorder]. rewrite !app_length. cbn [length]. lia.
      * lia.
      * exists s', t'. cbn [rebalance_loop]. rewrite E. cbn [bind fst snd]. split; [exact E'|]. split; [exact P'|]. split; [exact B'|].
        split; [|eapply same_links_trans; eassumption]. rewrite I', !inorder_plug, I1. reflexivity.
    + destruct Hc as (-> & Hx & Hl & Hc). destruct Bc as (B1 & B2 & Bl & Bc). cbn [length] in Al. rewrite !app_length in Al. cbn [length] in Al.
      assert (St : height t < 242) by (apply height_small; [exact Bt|lia]).
      assert (Sr : height l < 242) by (apply height_small; [exact Bl|lia]).
      assert (P : round_pre s l n t c (par s n)).
      { split; [exact Hl|]. split; [rewrite Hx; exact Ht|]. split; [reflexivity|]. split; [exact Hc|]. split.
        - cbn [inorder]. rewrite <- !app_assoc in *. exact ND.
        - repeat split; auto; lia. }
      destruct (round_any _ _ _ _ _ _ P) as (s1 & t1 & x1 & E & P1 & C1 & I1 & Bt1 & Hh & Hh' & L1); [lia|lia|].
      destruct (IH s1 t1 x1 (par s n) (S (Nat.max h (height l))) fuel P1 C1 Bt1 Bc) as (s' & t' & E' & P' & B' & I' & L').
      * lia.
      * lia.
      * rewrite inorder_plug, I1. cbn [inorder]. rewrite <- !app_assoc in *. exact ND.
      * unfold allocatable. rewrite inorder_plug, I1. cbn [inorder]. rewrite !app_length. cbn [length]. lia.
      * lia.
      * exists s', t'. cbn [rebalance_loop]. rewrite E. cbn [bind fst snd]. split; [exact E'|]. split; [exact P'|]. split; [exact B'|].
        split; [|eapply same_links_trans; eassumption]. rewrite I', !inorder_plug, I1. reflexivity.
Qed.
