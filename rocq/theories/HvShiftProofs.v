(** The shifted entry point, contributions, maximisation and symmetric
    difference. *)
From Coq Require Import List ZArith Lia Bool Arith Permutation Sorted.
From Verif Require Import Base Spec NondomModel HvSpec Hv2dModel Hv2dProofs HvModel HvLinks Hv3dProofs
  HvNdProofs HvMain HvFacts HvShiftModel.
Import ListNotations.
Open Scope Z_scope.

(** ** The shifted functions are the [_ref] functions at the origin *)
Section Zero.
Variable data : list point.
Variable ref : point.
Hypothesis Hz : forall i, coord ref i = 0.

Lemma pop0_eq : forall bf x0 x1 nxt0 cur h,
  hv3d0_pop data x0 x1 nxt0 cur bf h =
  let '(h', prv1, bf') := hv3d_pop data ref x0 nxt0 cur bf h in
  (h' + (prv1 - x1) * (nxt0 - x0), bf').
Proof.
  induction bf as [|q bf IH]; intros; cbn [hv3d0_pop hv3d_pop].
  - rewrite !Hz. f_equal; try ring.
  - destruct (_ <? _); auto.
Qed.

Lemma step0_eq : forall st pp T ha hv ht,
  hv3d0_step data st pp T ha hv ht = hv3d_step data ref st pp T ha hv ht.
Proof.
  intros. unfold hv3d0_step, hv3d_step. destruct (2 <=? ign st pp)%nat; auto.
  destruct (getx data pp 0) as [x| | |]; cbn [bind]; auto.
  destruct (getx data pp 1) as [y| | |]; cbn [bind]; auto.
  destruct (hv3d_split data pp T []) as [bf af]. rewrite Hz.
  set (n0 := match af with [] => 0 | e :: _ => node_x data 0 e end).
  destruct (x <? n0); auto.
  destruct bf as [|q bf]. { rewrite Hz. replace (0 - y) with (- y) by ring. auto. }
  destruct (x <? node_x data 0 q); auto.
  rewrite pop0_eq. destruct (hv3d_pop data ref x n0 q bf ha) as [[h' prv1] bf']. auto.
Qed.

Lemma loop0_eq : forall fuel st pp T ha hv,
  hv3d0_loop fuel data st pp T ha hv = hv3d_loop fuel data ref st pp T ha hv.
Proof.
  induction fuel; intros; cbn [hv3d0_loop hv3d_loop]; auto.
  destruct (getx data pp 2) as [z| | |]; cbn [bind]; auto. rewrite Hz.
  replace (0 - z) with (- z) by ring.
  match goal with |- bind ?a _ = _ => destruct a as [ht| | |]; cbn [bind]; auto end.
  rewrite step0_eq.
  match goal with |- bind ?a _ = _ => destruct a as [[[[s t] a1] b1]| | |]; cbn [bind]; auto end.
  destruct (_ =? _)%nat; auto.
Qed.

Lemma hv3d0_eq : forall st c, fpli_hv3d data st c = fpli_hv3d_ref data ref st c.
Proof.
  intros. unfold fpli_hv3d, fpli_hv3d_ref.
  destruct (getx data (nxt st 2 0) 0) as [x| | |]; cbn [bind]; auto.
  destruct (getx data (nxt st 2 0) 1) as [y| | |]; cbn [bind]; auto.
  destruct (getx data (nxt st 2 0) 2) as [z| | |]; cbn [bind]; auto. rewrite !Hz.
  replace (0 - z) with (- z) by ring. replace ((0 - x) * (0 - y)) with (x * y) by ring.
  match goal with |- bind ?a _ = _ => destruct a as [ht| | |]; cbn [bind]; auto end.
  destruct (_ =? _)%nat; auto. apply loop0_eq.
Qed.

Lemma area0_eq : forall is p st, area0_prefix data p is st = area_prefix data ref p is st.
Proof.
  induction is as [|i is IH]; intros; cbn [area0_prefix area_prefix]; auto.
  destruct (getx data p (i - 1)) as [x| | |]; cbn [bind]; auto. rewrite Hz, IH.
  replace (0 - x) with (- x) by ring. auto.
Qed.

Lemma skip_ext : forall rec rec', (forall st c, rec st c = rec' st c) ->
  forall dim p c st, skip_or_recurse rec dim p c st = skip_or_recurse rec' dim p c st.
Proof. intros. unfold skip_or_recurse. rewrite H. auto. Qed.

Lemma reinsert_ext : forall rec rec', (forall st c, rec st c = rec' st c) ->
  forall fuel dim p0 p1 c hv st, hv_reinsert_while fuel rec data dim p0 p1 c hv st =
    hv_reinsert_while fuel rec' data dim p0 p1 c hv st.
Proof.
  intros rec rec' H. induction fuel; intros; cbn [hv_reinsert_while]; auto.
  destruct (p0 =? 0)%nat; auto.
  destruct (getx data p0 dim) as [x| | |]; cbn [bind]; auto.
  destruct (getx data p1 dim) as [y| | |]; cbn [bind]; auto.
  match goal with |- bind ?a _ = _ => destruct a as [s| | |]; cbn [bind]; auto end.
  rewrite (skip_ext rec rec' H).
  match goal with |- bind ?a _ = _ => destruct a as [s'| | |]; cbn [bind]; auto end.
Qed.

Lemma recstep0_eq : forall rec rec' dim st c, (forall st c, rec st c = rec' st c) ->
  hv0_rec_step rec data dim st c = hv_rec_step rec' data ref dim st c.
Proof.
  intros rec rec' dim st c H. unfold hv0_rec_step, hv_rec_step.
  match goal with |- bind ?a _ = _ => destruct a as [s| | |]; cbn [bind]; auto end.
  match goal with |- bind ?a _ = _ => destruct a as [[[[p0 p1] c'] s']| | |]; cbn [bind]; auto end.
  rewrite area0_eq.
  match goal with |- bind ?a _ = _ => destruct a as [[h s2]| | |]; cbn [bind]; auto end.
  rewrite (skip_ext rec rec' H).
  match goal with |- bind ?a _ = _ => destruct a as [s3| | |]; cbn [bind]; auto end.
  rewrite (reinsert_ext rec rec' H).
  match goal with |- bind ?a _ = _ => destruct a as [[[q1 h4] s4]| | |]; cbn [bind]; auto end.
  destruct (getx data q1 dim) as [x| | |]; cbn [bind]; auto. rewrite Hz.
  replace (0 - x) with (- x) by ring. auto.
Qed.

Lemma recursive0_eq : forall k st c, hv_recursive k data st c = hv_recursive_ref k data ref st c.
Proof.
  induction k; intros; cbn [hv_recursive hv_recursive_ref]. apply hv3d0_eq.
  apply recstep0_eq. auto.
Qed.

Lemma filter0_inner_eq : forall m d i aux n st,
  filter0_inner m data d i aux n st = filter_inner m data ref d i aux n st.
Proof.
  induction m; intros; cbn [filter0_inner filter_inner]; auto.
  destruct (getx data aux i) as [x| | |]; cbn [bind]; auto. rewrite Hz.
  destruct (x <? 0); auto.
Qed.

Lemma filter0_eq : forall is d n st, filter0 data d is n st = filter_ref data ref d is n st.
Proof.
  induction is as [|i is IH]; intros; cbn [filter0 filter_ref]; auto.
  rewrite filter0_inner_eq.
  match goal with |- bind ?a _ = _ => destruct a as [s| | |]; cbn [bind]; auto end.
Qed.

Lemma box0_eq : forall is p acc, box0_loop data p is acc = box_loop data ref p is acc.
Proof.
  induction is as [|i is IH]; intros; cbn [box0_loop box_loop]; auto.
  destruct (getx data p i) as [x| | |]; cbn [bind]; auto. rewrite Hz, IH.
  replace (0 - x) with (- x) by ring. auto.
Qed.

(** the three-objective sweep does not look at [bound] *)
Definition with_bnd (b : nat -> Z) (st : hvst) : hvst :=
  mkst (nxt st) (prv st) (ign st) (area st) (vol st) b.
Definition map_res {A B} (f : A -> B) (x : outcome A) : outcome B :=
  match x with Ret a => Ret (f a) | AssertFailed => AssertFailed | OutOfBounds => OutOfBounds
             | OutOfFuel => OutOfFuel end.

Lemma step_bnd : forall b st pp T ha hv ht,
  hv3d_step data ref (with_bnd b st) pp T ha hv ht =
  map_res (fun r => let '(s, t, a, v) := r in (with_bnd b s, t, a, v)) (hv3d_step data ref st pp T ha hv ht).
Proof.
  intros. unfold hv3d_step. cbn [ign with_bnd].
  destruct (2 <=? ign st pp)%nat; auto.
  destruct (getx data pp 0) as [x| | |]; cbn [bind]; auto.
  destruct (getx data pp 1) as [y| | |]; cbn [bind]; auto.
  destruct (hv3d_split data pp T []) as [bf af].
  destruct (x <? _); auto.
  match goal with |- context[match bf with [] => ?a | _ => _ end] => idtac end.
  destruct bf as [|q bf]; auto.
  destruct (x <? node_x data 0 q); auto.
  destruct (hv3d_pop _ _ _ _ _ _ _) as [[h' prv1] bf']. auto.
Qed.

Lemma loop_bnd : forall b fuel st pp T ha hv,
  hv3d_loop fuel data ref (with_bnd b st) pp T ha hv =
  map_res (fun r => (fst r, with_bnd b (snd r))) (hv3d_loop fuel data ref st pp T ha hv).
Proof.
  induction fuel; intros; cbn [hv3d_loop]; auto.
  destruct (getx data pp 2) as [z| | |]; cbn [bind map_res]; auto.
  change (prv (with_bnd b st)) with (prv st). change (nxt (with_bnd b st)) with (nxt st).
  match goal with |- bind ?a _ = _ => destruct a as [ht| | |]; cbn [bind map_res]; auto end.
  rewrite step_bnd.
  destruct (hv3d_step data ref st pp T ha hv ht) as [[[[s t] a1] b1]| | |]; cbn [bind map_res]; auto.
  change (nxt (with_bnd b s)) with (nxt s).
  destruct (_ =? _)%nat; auto.
Qed.

Lemma hv3d_bnd : forall b st c,
  fpli_hv3d_ref data ref (with_bnd b st) c =
  map_res (fun r => (fst r, with_bnd b (snd r))) (fpli_hv3d_ref data ref st c).
Proof.
  intros. unfold fpli_hv3d_ref. change (nxt (with_bnd b st)) with (nxt st).
  destruct (getx data (nxt st 2 0) 0) as [x| | |]; cbn [bind]; auto.
  destruct (getx data (nxt st 2 0) 1) as [y| | |]; cbn [bind]; auto.
  destruct (getx data (nxt st 2 0) 2) as [z| | |]; cbn [bind]; auto.
  match goal with |- bind ?a _ = _ => destruct a as [ht| | |]; cbn [bind map_res]; auto end.
  destruct (_ =? _)%nat; auto. apply loop_bnd.
Qed.
End Zero.

Lemma shift_length : forall d ref data, length (shift_reference d ref data) = length data.
Proof. intros. apply map_length. Qed.

Lemma coord_shift : forall d ref p i, (i < d)%nat -> coord (shift_row d ref p) i = coord p i - coord ref i.
Proof.
  intros. unfold coord at 1, shift_row.
  rewrite (nth_indep _ 0 (coord p 0 - coord ref 0)) by (rewrite map_length, seq_length; auto).
  rewrite (map_nth (fun k => coord p k - coord ref k)). now rewrite seq_nth by auto.
Qed.

Lemma shift_wf : forall d ref data, wf_points d (shift_reference d ref data).
Proof.
  intros. apply Forall_forall. intros p Hp. apply in_map_iff in Hp. destruct Hp as (q & <- & _).
  unfold shift_row. rewrite map_length, seq_length. auto.
Qed.

Lemma coord_zero : forall d i, coord (repeat 0 d) i = 0.
Proof. intros. unfold coord. revert i. induction d; destruct i; simpl; auto. Qed.

(** translating the set and the reference point does not change the hypervolume *)
Lemma hypervolume_shift : forall data d ref v, length ref = d ->
  hypervolume (shift_reference d ref data) (repeat 0 d) v -> hypervolume data ref v.
Proof.
  intros data d ref v Hr (L & N & I & ->).
  set (back := fun z => map (fun k => coord z k + coord ref k) (seq 0 d)).
  assert (Cb : forall z i, (i < d)%nat -> coord (back z) i = coord z i + coord ref i).
  { intros. unfold coord at 1, back.
    rewrite (nth_indep _ 0 (coord z 0 + coord ref 0)) by (rewrite map_length, seq_length; auto).
    rewrite (map_nth (fun k => coord z k + coord ref k)). now rewrite seq_nth by auto. }
  assert (Lb : forall z, length (back z) = d) by (intros; unfold back; now rewrite map_length, seq_length).
  assert (LL : forall z, In z L -> length z = d).
  { intros z Hz. apply I in Hz. destruct Hz as (Hz & _). rewrite repeat_length in Hz. auto. }
  exists (map back L). split; [|split].
  - clear I. induction L as [|z L IH]; simpl; constructor.
    + intros H. apply in_map_iff in H. destruct H as (y & E & Hy). inversion N; subst. apply H1.
      replace z with y; auto. apply (list_ext _ 0).
      { rewrite (LL y), (LL z); simpl; auto. }
      intros i Hi. rewrite (LL y) in Hi by (simpl; auto).
      assert (E2 : coord (back y) i = coord (back z) i) by congruence.
      rewrite !Cb in E2 by auto. unfold coord in E2. lia.
    + inversion N; subst. apply IH; auto. intros; apply LL; simpl; auto.
  - intros z. rewrite in_map_iff. split.
    + intros (y & <- & Hy). apply I in Hy. destruct Hy as (Hy1 & (p & Hp & Hle) & Hlt).
      rewrite repeat_length in *. apply in_map_iff in Hp. destruct Hp as (q & <- & Hq).
      split. rewrite Lb; auto. rewrite Hr. split.
      * exists q. split; auto. intros i Hi. specialize (Hle i Hi). rewrite coord_shift in Hle by auto.
        rewrite Cb by auto. lia.
      * intros i Hi. specialize (Hlt i Hi). rewrite coord_zero in Hlt. rewrite Cb by auto. lia.
    + intros (Hl & (p & Hp & Hle) & Hlt). exists (shift_row d ref z). split.
      * apply (list_ext _ 0). { rewrite Lb. congruence. }
        intros i Hi. rewrite Lb in Hi. fold (coord (back (shift_row d ref z)) i). fold (coord z i).
        rewrite Cb, coord_shift by auto. lia.
      * apply I. split. { unfold shift_row. now rewrite map_length, seq_length, repeat_length. }
        rewrite repeat_length. split.
        -- exists (shift_row d ref p). split. { apply in_map_iff; eauto. }
           intros i Hi. rewrite !coord_shift by auto. rewrite Hr in Hle. specialize (Hle i Hi). lia.
        -- intros i Hi. rewrite coord_zero, coord_shift by auto. rewrite Hr in Hlt. specialize (Hlt i Hi). lia.
  - now rewrite map_length.
Qed.

Lemma no_ties_shift : forall d ref data, no_ties data d -> no_ties (shift_reference d ref data) d.
Proof.
  intros d ref data H i a b Hi Hd Ha Hb Hab. rewrite shift_length in *.
  assert (R : forall x, (x < length data)%nat -> row (shift_reference d ref data) x = shift_row d ref (row data x)).
  { intros x Hx. unfold row. rewrite nth_indep with (d' := shift_row d ref []) by (now rewrite shift_length).
    unfold shift_reference. apply map_nth. }
  rewrite !R, !coord_shift by lia. specialize (H i a b Hi Hd Ha Hb Hab). lia.
Qed.

Theorem fpli_hv_shift_ok : forall sort2d sortd dbl_max g data d ref,
  valid_sort2d sort2d -> valid_sort sortd ->
  (d <= 3)%nat \/ stable_sort sortd \/ no_ties data d ->
  wf_points d data -> length ref = d -> (1 <= d)%nat ->
  (forall p i, In p data -> (i < d)%nat -> - dbl_max <= coord p i - coord ref i) ->
  exists v data', fpli_hv_shift sort2d sortd dbl_max g data d ref = Ret (v, data') /\ hypervolume data ref v /\
    data' = if (d =? 2)%nat then data else shift_reference d ref data.
Proof.
  intros sort2d sortd dbl_max g data d ref Hs2 Hs Hst Hwf Hr Hd Hmax. unfold fpli_hv_shift.
  destruct (Nat.eqb_spec (length data) 0) as [E0|E0].
  { destruct data; [|discriminate]. exists 0, []. split; auto. split; [|destruct (_ =? _)%nat; auto].
    rewrite <- (V_nil 0 ref (length ref)). apply V_hypervolume. intros p i []. }
  destruct (Nat.eqb_spec d 2) as [E2|E2].
  { destruct (hv2d_ok sort2d data ref) as (v & E & H); auto. congruence.
    rewrite E. cbn [bind]. eauto. }
  set (sd := shift_reference d ref data). set (z := repeat 0 d).
  assert (Wsd : wf_points d sd) by apply shift_wf.
  assert (Hz : forall i, coord z i = 0) by apply coord_zero.
  assert (Hlz : length z = d) by apply repeat_length.
  assert (Hlen : length sd = length data) by apply shift_length.
  rewrite (filter0_eq sd z Hz). rewrite <- Hlen.
  destruct (Nat.eq_dec d 1) as [E1|E1].
  - destruct (prep_ok sortd g sd d z Hs Wsd Hlz Hd) as (S1 & st1 & E & HS1 & B2 & B3 & B4 & Hperm & HV).
    set (G := order_of sortd sd d) in *. set (lo := min_coord sd) in *.
    rewrite E. cbn [bind]. replace (d - 1)%nat with 0%nat in HV by lia.
    pose proof (B2 0%nat ltac:(lia)) as [D1 D2].
    assert (HGp : forall i, (i < d)%nat -> Permutation (seq 1 (length sd)) (G i)) by (intros; now apply G_perm).
    pose proof (lst_sorted sd d G (G_sorted sortd sd d Hs) S1 0 ltac:(lia)) as SS.
    pose proof (fun p => lst_in sd z d lo G HGp S1 0 p HS1 ltac:(lia)) as LI.
    destruct (lst G S1 0) as [|p l] eqn:EL.
    { cbn [length Nat.eqb]. exists 0, sd. split; auto. split; auto. apply (hypervolume_shift data d ref); auto.
      unfold pts_of in HV. simpl map in HV. rewrite V_nil in HV. auto. }
    assert (Sp : S1 p = true) by (apply LI; simpl; auto).
    destruct (HS1 p Sp) as [Np Ip].
    assert (Hfin : hypervolume data ref (- node_x sd 0 p)).
    { apply (hypervolume_shift data d ref); auto. fold z sd.
      rewrite E1 in HV. rewrite (V_dim1 lo z (pts_of sd (p :: l)) (pt sd p)) in HV.
      - rewrite Hz in HV. unfold node_x. fold (pt sd p). replace (- coord (pt sd p) 0) with (0 - coord (pt sd p) 0) by ring.
        exact HV.
      - simpl. auto.
      - apply Ip. lia.
      - intros q Hq. apply in_map_iff in Hq. destruct Hq as (e & <- & He).
        unfold sortedn in SS. inversion SS as [|? ? _ F]; subst. rewrite Forall_forall in F.
        destruct He as [->|He]; [lia|]. specialize (F e He). unfold node_x in F. exact F. }
    cbn [seg] in D2. destruct D2 as (D2 & _).
    cbn [length Nat.eqb]. destruct (Nat.eqb_spec (length l) 0) as [EL0|EL0].
    + rewrite D2. rewrite E1. cbn [seq box0_loop]. rewrite (getx_ok sd d) by (auto; lia). cbn [bind].
      exists (1 * - node_x sd 0 p), sd. rewrite Z.mul_1_l. rewrite E1 in *. auto.
    + rewrite E1. cbn [Nat.eqb nxt]. rewrite D2. rewrite (getx_ok sd d) by (auto; lia). cbn [bind].
      exists (- node_x sd 0 p), sd. rewrite E1 in *. auto.
  - destruct (fpli_hv_ok_gen sort2d sortd dbl_max g sd d z) as (v & E & HV); auto; try lia.
    { destruct Hst as [Hst|[Hst|Hst]]; auto. right; right. now apply no_ties_shift. }
    { intros p i Hp Hi. apply in_map_iff in Hp. destruct Hp as (q & <- & Hq). rewrite coord_shift by auto. auto. }
    exists v, sd. split; [|split; auto]. 2:{ now apply (hypervolume_shift data d ref). }
    unfold fpli_hv, fpli_hv_with in E. replace (length sd =? 0)%nat with false in E by (symmetry; apply Nat.eqb_neq; lia).
    replace (d =? 2)%nat with false in E by (symmetry; apply Nat.eqb_neq; lia).
    replace (2 <? d)%nat with true in E by (symmetry; apply Nat.ltb_lt; lia). cbn [assert_ bind] in E.
    destruct (filter_ref sd z d (seq 0 d) (length sd) (setup_cdllist sortd sd d g)) as [[n st]| | |];
      cbn [bind] in E |- *; try discriminate.
    destruct (n =? 0)%nat. { injection E as <-. auto. }
    destruct (n =? 1)%nat. { rewrite (box0_eq sd z Hz), E. auto. }
    replace (d =? 1)%nat with false by (symmetry; apply Nat.eqb_neq; lia).
    match type of E with context[hv_recursive_ref _ _ _ ?s _] => set (st2 := s) in * end.
    destruct (Nat.eqb_spec d 3) as [E3|E3].
    + rewrite (hv3d0_eq sd z Hz). rewrite E3 in E. cbn [Nat.sub hv_recursive_ref] in E.
      change st2 with (with_bnd (bnd st2) st) in E.
      rewrite hv3d_bnd in E. destruct (fpli_hv3d_ref sd z st n) as [r| | |]; cbn [map_res bind fst] in *; congruence.
    + rewrite (recursive0_eq sd z Hz). destruct (hv_recursive_ref (d - 3) sd z st2 n) as [r| | |];
        cbn [bind] in *; congruence.
Qed.

(** ** Contributions *)
Lemma upd_upd : forall A (l : list A) i v w, upd (upd l i v) i w = upd l i w.
Proof. induction l; destruct i; simpl; intros; auto. now rewrite IHl. Qed.

Lemma upd_same : forall A (l : list A) i d, (i < length l)%nat -> upd l i (nth i l d) = l.
Proof. induction l; destruct i; simpl; intros; auto; try lia. rewrite IHl; auto. lia. Qed.

(** the set without row [i] *)
Definition remove_row (i : nat) (pts : list point) : list point := firstn i pts ++ skipn (S i) pts.

Lemma upd_split : forall A (l : list A) i v, (i < length l)%nat ->
  upd l i v = firstn i l ++ v :: skipn (S i) l.
Proof.
  induction l; destruct i; simpl; intros; auto; try lia. rewrite IHl by lia. auto.
Qed.

Lemma split_row : forall (l : list point) i, (i < length l)%nat ->
  l = firstn i l ++ row l i :: skipn (S i) l.
Proof. intros. rewrite <- (upd_split _ l i (row l i)) by auto. symmetry. now apply upd_same. Qed.

Lemma remove_row_incl : forall i pts, incl (remove_row i pts) pts.
Proof.
  intros i pts p Hp. unfold remove_row in Hp. apply in_app_iff in Hp.
  rewrite <- (firstn_skipn i pts). apply in_app_iff. destruct Hp as [Hp|Hp]; auto. right.
  revert i Hp. induction pts; destruct i; simpl; intros; auto.
Qed.

Lemma diffs_ok : forall (hv : list point -> outcome Z) ref is points,
  (forall i, In i is -> (i < length points)%nat) ->
  (forall i, In i is -> exists v, hv (upd points i ref) = Ret v) ->
  exists hvc, hv_1point_diffs hv ref is points = Ret (hvc, points) /\
    Forall2 (fun i v => hv (upd points i ref) = Ret v) is hvc.
Proof.
  induction is as [|i is IH]; intros points Hi Hv; cbn [hv_1point_diffs].
  - exists []. auto.
  - assert (Hl : (i < length points)%nat) by (apply Hi; simpl; auto).
    rewrite (rd_ok _ points i []) by auto. cbn [bind]. rewrite wr_ok by auto. cbn [bind].
    destruct (Hv i (or_introl eq_refl)) as (v & Ev). rewrite Ev. cbn [bind].
    rewrite wr_ok by (now rewrite upd_length). cbn [bind]. rewrite upd_upd, upd_same by auto.
    destruct (IH points) as (hvc & E & F).
    { intros; apply Hi; simpl; auto. } { intros; apply Hv; simpl; auto. }
    rewrite E. cbn [bind fst snd]. eauto.
Qed.

Lemma contrib_loop_ok : forall tol total hvc, (forall h, In h hvc -> h <= total) ->
  contrib_loop tol total hvc =
    Ret (map (fun h => if tol <=? total - h then total - h else 0) hvc).
Proof.
  induction hvc as [|h t IH]; intros H; cbn [contrib_loop map]; auto.
  assert (h <= total) by (apply H; simpl; auto).
  rewrite Z.abs_eq by lia.
  assert (E : (0 <=? (if tol <=? total - h then total - h else 0)) = true).
  { apply Z.leb_le. destruct (tol <=? total - h); lia. }
  rewrite E. cbn [assert_ bind]. rewrite IH by (intros; apply H; simpl; auto). auto.
Qed.

Theorem hv_contributions_ok : forall sort2d sortd dbl_max g tol pts d ref,
  hv_input sort2d sortd dbl_max pts d ref ->
  (forall i, (i < d)%nat -> - dbl_max <= coord ref i) ->
  exists total hvc,
    hv_contributions sort2d sortd dbl_max g tol pts d ref = Ret (hvc, pts) /\
    hypervolume pts ref total /\ length hvc = length pts /\
    forall i, (i < length pts)%nat -> exists v,
      hypervolume (remove_row i pts) ref v /\ v <= total /\
      nth i hvc 0 = if tol <=? total - v then total - v else 0.
Proof.
  intros * HI Hb. pose proof HI as (H1 & H2 & H3 & H4 & H5 & H6 & H7).
  unfold hv_contributions. destruct (fpli_hv_exact _ _ _ g _ _ _ HI) as (total & E & Ht).
  rewrite E. cbn [bind].
  assert (HIi : forall i, (i < length pts)%nat -> hv_input sort2d sortd dbl_max (upd pts i ref) d ref).
  { intros i Hi. split; [|split; [|split; [|split; [|split; [|split]]]]]; auto.
    - unfold wf_points in *. rewrite Forall_forall in *. intros p Hp. rewrite upd_split in Hp by auto.
      apply in_app_iff in Hp. destruct Hp as [Hp|[<-|Hp]]; auto; apply H4, (remove_row_incl i);
        unfold remove_row; apply in_app_iff; auto.
    - intros p j Hp Hj. rewrite upd_split in Hp by auto. apply in_app_iff in Hp.
      destruct Hp as [Hp|[<-|Hp]]; auto; apply H7; auto; apply (remove_row_incl i);
        unfold remove_row; apply in_app_iff; auto. }
  destruct (diffs_ok (fun pts => fpli_hv sort2d sortd dbl_max g pts d ref) ref (seq 0 (length pts)) pts)
    as (hvc & Ed & F).
  { intros i Hi. apply in_seq in Hi. lia. }
  { intros i Hi. apply in_seq in Hi. destruct (fpli_hv_exact _ _ _ g _ _ _ (HIi i ltac:(lia))) as (v & Ev & _). eauto. }
  rewrite Ed. cbn [bind fst snd].
  assert (Hlen : length hvc = length pts).
  { rewrite <- (seq_length (length pts) 0). clear -F. induction F; simpl; auto. }
  assert (Hnth : forall i, (i < length pts)%nat -> hypervolume (remove_row i pts) ref (nth i hvc 0)).
  { intros i Hi. assert (Ei : fpli_hv sort2d sortd dbl_max g (upd pts i ref) d ref = Ret (nth i hvc 0)).
    { assert (K : forall is hs, Forall2 (fun i v => fpli_hv sort2d sortd dbl_max g (upd pts i ref) d ref = Ret v) is hs ->
        forall k, (k < length is)%nat -> fpli_hv sort2d sortd dbl_max g (upd pts (nth k is 0%nat) ref) d ref = Ret (nth k hs 0)).
      { induction 1; intros k Hk; simpl in Hk; [lia|]. destruct k; simpl; auto. apply IHForall2. lia. }
      specialize (K _ _ F i). rewrite seq_length, seq_nth in K by auto. apply K; auto. }
    destruct (fpli_hv_exact _ _ _ g _ _ _ (HIi i Hi)) as (v & Ev & Hv). rewrite Ev in Ei. injection Ei as ->.
    destruct Hv as (L & N & I & ->). exists L. split; auto. split; auto.
    intros z. rewrite I. rewrite upd_split by auto. unfold remove_row.
    split; intros (A & (p & Hp & Hle) & Hlt); split; auto; split; auto; exists p; split; auto;
      rewrite in_app_iff in *; simpl in *.
    - destruct Hp as [Hp|[<-|Hp]]; auto. exfalso. specialize (Hle 0%nat ltac:(lia)). specialize (Hlt 0%nat ltac:(lia)). lia.
    - tauto. }
  assert (Hle : forall i, (i < length pts)%nat -> nth i hvc 0 <= total).
  { intros i Hi. eapply hypervolume_mono; [apply Hnth; auto|exact Ht|].
    intros z (A & (p & Hp & Hl) & Hlt). split; auto. split; auto. exists p. split; auto. eapply remove_row_incl; eauto. }
  rewrite contrib_loop_ok.
  2:{ intros h Hh. apply In_nth with (d := 0) in Hh. destruct Hh as (i & Hi & <-). apply Hle. lia. }
  cbn [bind]. exists total. eexists. split; [reflexivity|]. split; auto. split. now rewrite map_length.
  intros i Hi. exists (nth i hvc 0). split; auto. split; auto.
  rewrite nth_indep with (d' := (fun h => if tol <=? total - h then total - h else 0) 0)
    by (rewrite map_length; lia).
  now rewrite (map_nth (fun h => if tol <=? total - h then total - h else 0)).
Qed.

(** ** Maximisation *)

(** unit cells on the good side of the reference, counted in the direction of
    each objective *)
Definition dominated_cell_mx (mx : list bool) (S : list point) (ref z : point) : Prop :=
  length z = length ref /\
  (exists p, In p S /\ forall i, (i < length ref)%nat -> as_good mx p z i) /\
  (forall i, (i < length ref)%nat -> better mx z ref i).
Definition hypervolume_mx (mx : list bool) (S : list point) (ref : point) (v : Z) : Prop :=
  exists L, NoDup L /\ (forall z, In z L <-> dominated_cell_mx mx S ref z) /\
            v = Z.of_nat (length L).

Lemma negate_cols_length : forall mx p, length (negate_cols mx p) = length p.
Proof. intros. unfold negate_cols. now rewrite map_length, seq_length. Qed.

Lemma coord_negate_cols : forall mx p i,
  coord (negate_cols mx p) i = if nth i mx false then - coord p i else coord p i.
Proof.
  intros. destruct (Nat.lt_ge_cases i (length p)) as [H|H].
  - unfold coord at 1, negate_cols. set (f := fun k => if nth k mx false then - coord p k else coord p k).
    rewrite (nth_indep _ 0 (f 0%nat)) by (rewrite map_length, seq_length; auto).
    rewrite (map_nth f). now rewrite seq_nth by auto.
  - unfold coord. rewrite (nth_overflow p) by auto.
    rewrite nth_overflow by (now rewrite negate_cols_length). destruct (nth i mx false); auto.
Qed.

Lemma negate_cols_invol : forall mx p, negate_cols mx (negate_cols mx p) = p.
Proof.
  intros. apply (list_ext _ 0). now rewrite !negate_cols_length.
  intros i Hi. change (coord (negate_cols mx (negate_cols mx p)) i = coord p i).
  rewrite !coord_negate_cols. destruct (nth i mx false); lia.
Qed.

Lemma negate_cols_none : forall mx p, existsb (fun b => b) mx = false -> negate_cols mx p = p.
Proof.
  intros mx p H. apply (list_ext _ 0). now rewrite !negate_cols_length.
  intros i Hi. change (coord (negate_cols mx p) i = coord p i). rewrite coord_negate_cols.
  destruct (nth i mx false) eqn:E; auto. exfalso.
  destruct (Nat.lt_ge_cases i (length mx)).
  - assert (existsb (fun b => b) mx = true). { apply existsb_exists. exists true. split; auto. rewrite <- E. now apply nth_In. }
    congruence.
  - rewrite nth_overflow in E by auto. discriminate.
Qed.

Lemma hypervolume_negate : forall mx S ref v,
  hypervolume (map (negate_cols mx) S) (negate_cols mx ref) v -> hypervolume_mx mx S ref v.
Proof.
  intros mx S ref v (L & N & I & ->). exists (map (negate_cols mx) L). split; [|split].
  - apply FinFun.Injective_map_NoDup; auto. intros a b E.
    rewrite <- (negate_cols_invol mx a), <- (negate_cols_invol mx b). now rewrite E.
  - intros z. rewrite in_map_iff. split.
    + intros (y & <- & Hy). apply I in Hy. destruct Hy as (A & (p & Hp & Hle) & Hlt).
      apply in_map_iff in Hp. destruct Hp as (q & <- & Hq). rewrite negate_cols_length in *.
      split. now rewrite negate_cols_length. split.
      * exists q. split; auto. intros i Hi. specialize (Hle i Hi). rewrite coord_negate_cols in Hle.
        unfold as_good. rewrite coord_negate_cols. destruct (nth i mx false); lia.
      * intros i Hi. specialize (Hlt i Hi). rewrite coord_negate_cols in Hlt.
        unfold better. rewrite coord_negate_cols. destruct (nth i mx false); lia.
    + intros (A & (p & Hp & Hle) & Hlt). exists (negate_cols mx z). split. apply negate_cols_invol.
      apply I. split. { now rewrite !negate_cols_length. } rewrite negate_cols_length. split.
      * exists (negate_cols mx p). split. { apply in_map_iff; eauto. }
        intros i Hi. specialize (Hle i Hi). unfold as_good in Hle. rewrite !coord_negate_cols.
        destruct (nth i mx false); lia.
      * intros i Hi. specialize (Hlt i Hi). unfold better in Hlt. rewrite !coord_negate_cols.
        destruct (nth i mx false); lia.
  - now rewrite map_length.
Qed.

Lemma hypervolume_py_negate : forall sort2d sortd dbl_max g data d ref mx,
  length ref = d -> length mx = d ->
  hypervolume_py sort2d sortd dbl_max g data d ref mx =
  fpli_hv sort2d sortd dbl_max g (map (negate_cols mx) data) d (negate_cols mx ref).
Proof.
  intros. unfold hypervolume_py. rewrite H, H0, Nat.eqb_refl. cbn [assert_ bind].
  destruct (existsb (fun b => b) mx) eqn:E; auto.
  rewrite (negate_cols_none _ ref E). f_equal.
  rewrite (map_ext _ (fun p => p)). symmetry; apply map_id. intros; now apply negate_cols_none.
Qed.

(** ** Symmetric difference *)
Lemma NoDup_app_intro : forall A (l1 l2 : list A), NoDup l1 -> NoDup l2 ->
  (forall x, In x l1 -> In x l2 -> False) -> NoDup (l1 ++ l2).
Proof.
  induction l1; simpl; intros; auto. inversion H; subst. constructor.
  - rewrite in_app_iff. intros [C|C]; auto. apply (H1 a); auto.
  - apply IHl1; auto. intros x Hx. apply H1. auto.
Qed.

Lemma hypervolume_symdiff : forall A B ref ha hb hu,
  hypervolume A ref ha -> hypervolume B ref hb -> hypervolume (A ++ B) ref hu ->
  exists L, NoDup L /\
    (forall z, In z L <-> (dominated_cell A ref z /\ ~ dominated_cell B ref z) \/
                          (dominated_cell B ref z /\ ~ dominated_cell A ref z)) /\
    2 * hu - ha - hb = Z.of_nat (length L).
Proof.
  intros A B ref ha hb hu (LA & NA & IA & ->) (LB & NB & IB & ->) (LU & NU & IU & ->).
  assert (DU : forall z, dominated_cell (A ++ B) ref z <-> dominated_cell A ref z \/ dominated_cell B ref z).
  { intros z. unfold dominated_cell. split.
    - intros (H1 & (p & Hp & H2) & H3). apply in_app_iff in Hp. destruct Hp; [left|right]; eauto.
    - intros [(H1 & (p & Hp & H2) & H3)|(H1 & (p & Hp & H2) & H3)]; split; auto; split; auto; exists p;
        rewrite in_app_iff; auto. }
  assert (dec : forall (x y : point), {x = y} + {x <> y}) by (apply list_eq_dec, Z.eq_dec).
  set (f := fun L z => if in_dec dec z L then false else true).
  exists (filter (f LB) LA ++ filter (f LA) LB).
  assert (Hf : forall L z, f L z = true <-> ~ In z L).
  { intros. unfold f. destruct (in_dec dec z L); split; intros; auto; try discriminate; tauto. }
  assert (NAB : NoDup (filter (f LB) LA ++ filter (f LA) LB)).
  { apply NoDup_app_intro; try now apply NoDup_filter. intros x Hx Hy. apply filter_In in Hx, Hy.
    destruct Hx as [_ Hx]. apply Hf in Hx. tauto. }
  split; auto. split.
  - intros z. rewrite in_app_iff, !filter_In, !Hf, IA, IB. tauto.
  - assert (NUA : NoDup (LA ++ filter (f LA) LB)).
    { apply NoDup_app_intro; auto. now apply NoDup_filter. intros x Hx Hy. apply filter_In in Hy.
      destruct Hy as [_ Hy]. apply Hf in Hy. tauto. }
    assert (NUB : NoDup (LB ++ filter (f LB) LA)).
    { apply NoDup_app_intro; auto. now apply NoDup_filter. intros x Hx Hy. apply filter_In in Hy.
      destruct Hy as [_ Hy]. apply Hf in Hy. tauto. }
    assert (P1 : Permutation LU (LA ++ filter (f LA) LB)).
    { apply NoDup_Permutation; auto. intros z. rewrite IU, DU, in_app_iff, filter_In, Hf, IA, IB.
      destruct (in_dec dec z LA) as [H|H]; rewrite IA in H; tauto. }
    assert (P2 : Permutation LU (LB ++ filter (f LB) LA)).
    { apply NoDup_Permutation; auto. intros z. rewrite IU, DU, in_app_iff, filter_In, Hf, IA, IB.
      destruct (in_dec dec z LB) as [H|H]; rewrite IB in H; tauto. }
    apply Permutation_length in P1, P2. rewrite app_length in *. lia.
Qed.
