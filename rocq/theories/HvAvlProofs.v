(** The pointer-tree version of the three-objective hypervolume computes the same
    result as the version on sequences. *)
From Coq Require Import List ZArith Lia Bool Arith Sorted Permutation.
From Verif Require Import Base AvlModel AvlSpec AvlProofs AvlRotate AvlOps HvSpec NondomModel Hv2dModel Hv2dProofs HvModel HvLinks Hv3dProofs HvNdProofs HvMain HvAvlModel.
Import ListNotations.
Open Scope Z_scope.

Lemma alloc_le : forall (xs ys : list nat), (length xs <= length ys)%nat -> allocatable ys -> allocatable xs.
Proof. unfold allocatable. intros. lia. Qed.

Lemma last_or_rev : forall bf p, last_or (rev bf) p = match bf with [] => p | q :: _ => Some q end.
Proof.
  intros [|q bf] p; [reflexivity|]. cbn [rev]. unfold last_or. rewrite last_error_snoc. reflexivity.
Qed.

Lemma holds_prv : forall s bf a ys, holds s (rev bf ++ a :: ys) ->
  AvlModel.prv s a = match bf with [] => None | q :: _ => Some q end.
Proof.
  intros s bf a ys (_ & _ & _ & _ & L). destruct (linked_at _ _ _ _ _ _ L) as [E _].
  rewrite E. apply last_or_rev.
Qed.

Lemma holds_nxt : forall s xs a ys, holds s (xs ++ a :: ys) ->
  AvlModel.nxt s a = match ys with [] => None | q :: _ => Some q end.
Proof.
  intros s xs a ys (_ & _ & _ & _ & L). destruct (linked_at _ _ _ _ _ _ L) as [_ E].
  rewrite E. reflexivity.
Qed.

Section Refine.
Variable data : list point.
Variable ref : point.

Lemma pop_ok : forall x0 nxt0 pp af bf fuel cur prv_ip hypera tr h prv1 bf2,
  holds tr (rev bf ++ cur :: pp :: af) -> allocatable (rev bf ++ cur :: pp :: af) ->
  (length bf < fuel)%nat ->
  hv3d_pop data ref x0 nxt0 cur bf hypera = (h, prv1, bf2) ->
  exists t cur' p' h' tr1 tr2,
    pop_loop_avl fuel data x0 nxt0 cur cur prv_ip hypera tr = Ret (t, cur', p', h', tr1) /\
    avl_unlink_node t tr1 = Ret tr2 /\
    (match AvlModel.prv tr2 t with
     | None => (coord ref 1, h' - (coord ref 1 - node_x data 1 cur') * (nxt0 - node_x data 0 cur'), tr2)
     | Some _ => (p', h', tr2)
     end = (prv1, h, tr2)) /\
    holds tr2 (rev bf2 ++ pp :: af).
Proof.
  intros x0 nxt0 pp af. induction bf as [|q bf IH]; intros fuel cur prv_ip hypera tr h prv1 bf2 H Al Hf E;
    (destruct fuel as [|fuel]; [cbn in Hf; lia|]); cbn [hv3d_pop pop_loop_avl] in *;
    rewrite (holds_prv _ _ _ _ H); cbv iota.
  - injection E as <- <- <-. destruct (unlink_node _ _ _ _ H Al) as (tr2 & E2 & H2 & P2 & _).
    exists cur, cur, prv_ip, hypera, tr, tr2. split; [reflexivity|]. split; [exact E2|].
    rewrite P2, (holds_prv _ _ _ _ H). split; [reflexivity|exact H2].
  - destruct (unlink_node _ _ _ _ H Al) as (tr2 & E2 & H2 & P2 & _).
    rewrite (holds_prv _ _ _ _ H) in P2. cbv zeta in E |- *.
    destruct (node_x data 0 q <? x0).
    + injection E as <- <- <-.
      exists cur, cur, (node_x data 1 q), (hypera - (node_x data 1 q - node_x data 1 cur) * (nxt0 - node_x data 0 cur)), tr, tr2.
      split; [reflexivity|]. split; [exact E2|]. rewrite P2. split; [reflexivity|exact H2].
    + rewrite E2. cbn [bind]. rewrite P2. cbn [AvlModel.deref bind].
      cbn [rev] in H2. rewrite <- app_assoc in H2. cbn [app] in H2.
      apply (IH fuel q _ _ tr2 h prv1 bf2 H2); [|cbn in Hf; lia|exact E].
      eapply alloc_le; [|exact Al]. cbn [rev]. rewrite !app_length. cbn. lia.
Qed.

Lemma tree_ordered : forall pp T, tree_ok data T -> ordered (compare_tree_asc data pp) T.
Proof.
  intros pp T HT ws a ys b zs ->. unfold tree_ok in HT.
  apply StronglySorted_app_inv in HT. destruct HT as (_ & HT & _). inversion HT as [|? ? _ HF]; subst.
  rewrite Forall_forall in HF. specialize (HF b). rewrite in_app_iff in HF. specialize (HF (or_intror (or_introl eq_refl))).
  cbv beta in HF. unfold compare_tree_asc.
  repeat match goal with |- context [Z.ltb ?x ?y] => destruct (Z.ltb_spec x y) | |- context [Z.leb ?x ?y] => destruct (Z.leb_spec x y) end;
    cbn; lia.
Qed.

Lemma cmp_nonzero : forall pp e, compare_tree_asc data pp e <> 0.
Proof.
  intros. unfold compare_tree_asc.
  repeat match goal with |- context [Z.ltb ?x ?y] => destruct (Z.ltb x y) | |- context [Z.leb ?x ?y] => destruct (Z.leb x y) end; lia.
Qed.

Lemma split_pos : forall pp ws bf0 T', Forall (fun e => compare_tree_asc data pp e > 0) ws ->
  hv3d_split data pp (ws ++ T') bf0 = hv3d_split data pp T' (rev ws ++ bf0).
Proof.
  induction ws as [|w ws IH]; intros bf0 T' F; [reflexivity|]. inversion F; subst. cbn [app hv3d_split].
  destruct (Z.leb_spec (compare_tree_asc data pp w) 0); [lia|]. rewrite IH by assumption. cbn [rev].
  rewrite <- app_assoc. reflexivity.
Qed.

Lemma split_neg : forall pp bf0 T', Forall (fun e => compare_tree_asc data pp e < 0) T' ->
  hv3d_split data pp T' bf0 = (bf0, T').
Proof.
  intros pp bf0 [|e T'] F; [reflexivity|]. inversion F; subst. cbn [hv3d_split].
  destruct (Z.leb_spec (compare_tree_asc data pp e) 0); [reflexivity|lia].
Qed.

(** one point: same result, and the tree holds the new sequence *)
Lemma step_refines : forall st pp T hypera hyperv hgt tr st' T' h' v',
  holds tr T -> tree_ok data T -> T <> [] -> ~ In pp T -> allocatable (pp :: T) ->
  (length T <= length data)%nat ->
  hv3d_step data ref st pp T hypera hyperv hgt = Ret (st', T', h', v') ->
  exists tr', hv3d_step_avl data ref st pp tr hypera hyperv hgt = Ret (st', tr', h', v') /\ holds tr' T'.
Proof.
  intros st pp T hypera hyperv hgt tr st' T' h' v' H HT Hne Hpp Al HL E.
  unfold hv3d_step in E. unfold hv3d_step_avl. destruct (2 <=? ign st pp)%nat.
  { injection E as <- <- <- <-. exists tr. auto. }
  destruct (getx data pp 0) as [x| | |]; try discriminate. cbn [bind] in E |- *.
  destruct (getx data pp 1) as [y| | |]; try discriminate. cbn [bind] in E |- *.
  destruct (search_ok (compare_tree_asc data pp) tr T H) as [[? _]|(m & c & Es & Hc)];
    [eapply alloc_le; [|exact Al]; cbn; lia|apply tree_ordered; exact HT|contradiction|].
  rewrite Es. cbn [bind fst snd AvlModel.deref].
  destruct (hv3d_split data pp T []) as [bf af] eqn:Esp.
  (* the neighbours found by the search are those of the split *)
  assert (Hn : T = rev bf ++ af /\
     (if c <=? 0 then (node_x data 0 m, AvlModel.prv tr m)
      else (match AvlModel.nxt tr m with Some e => node_x data 0 e | None => coord ref 0 end, Some m))
     = (match af with [] => coord ref 0 | e :: _ => node_x data 0 e end,
        match bf with [] => None | q :: _ => Some q end)).
  { destruct Hc as (ws & ys & ET & Hc).
    destruct Hc as [[-> C0]|[[[-> C0] [F1 F2]]|[[-> C0] [F1 F2]]]].
    - exfalso. now apply (cmp_nonzero pp m).
    - rewrite ET in Esp. rewrite split_pos in Esp by exact F1. rewrite split_neg in Esp by (constructor; assumption).
      injection Esp as <- <-. rewrite app_nil_r, rev_involutive. split; [exact ET|].
      cbn [Z.leb Z.compare]. f_equal. rewrite ET in H. rewrite <- (rev_involutive ws) in H.
      rewrite (holds_prv _ _ _ _ H). reflexivity.
    - rewrite ET in Esp. change (ws ++ m :: ys) with (ws ++ [m] ++ ys) in Esp. rewrite app_assoc in Esp.
      rewrite split_pos in Esp by (apply Forall_app; split; [exact F1|repeat constructor; lia]).
      rewrite split_neg in Esp by assumption. injection Esp as <- <-.
      rewrite app_nil_r, rev_involutive, rev_app_distr. cbn [rev app]. split; [rewrite <- app_assoc; exact ET|].
      cbn [Z.leb Z.compare]. rewrite ET in H. rewrite (holds_nxt _ _ _ _ H). f_equal. destruct ys; reflexivity. }
  destruct Hn as [ET ->]. clear Es Hc Esp m c.
  set (nxt0 := match af with [] => coord ref 0 | e :: _ => node_x data 0 e end) in *.
  destruct (x <? nxt0) eqn:Ex.
  2:{ cbn [bind]. injection E as <- <- <- <-. exists tr. auto. }
  assert (Hins : exists tr1, avl_insert_after (match bf with [] => None | q :: _ => Some q end) pp tr = Ret tr1 /\
            holds tr1 (rev bf ++ pp :: af)).
  { destruct bf as [|q bf'].
    - destruct (insert_after_null tr T pp H Hpp Al) as (tr1 & E1 & H1). exists tr1. split; [exact E1|].
      cbn [rev app] in *. rewrite <- ET. exact H1.
    - assert (ET2 : T = rev bf' ++ q :: af) by (rewrite ET; cbn [rev]; rewrite <- app_assoc; reflexivity).
      rewrite ET2 in H, Hpp, Al.
      destruct (insert_after_node tr (rev bf') q af pp H Hpp Al) as (tr1 & E1 & H1). exists tr1. split; [exact E1|].
      cbn [rev]. rewrite <- app_assoc. exact H1. }
  destruct Hins as (tr1 & -> & H1). cbn [bind].
  destruct bf as [|q bf'].
  { cbn [bind]. injection E as <- <- <- <-. exists tr1. auto. }
  destruct (x <? node_x data 0 q).
  2:{ cbn [bind]. injection E as <- <- <- <-. exists tr1. auto. }
  rewrite (holds_prv _ _ _ _ H1). cbn [AvlModel.deref bind].
  cbn [rev] in H1. rewrite <- app_assoc in H1. cbn [app] in H1.
  destruct (hv3d_pop data ref x nxt0 q bf' hypera) as [[h prv1] bf2] eqn:Epop.
  destruct (pop_ok x nxt0 pp af bf' (length data) q (node_x data 1 q) hypera tr1 h prv1 bf2 H1) as
    (t & cur' & p' & hh & tr2 & tr3 & E2 & E3 & E4 & H3); auto.
  { eapply alloc_le; [|exact Al]. rewrite ET. cbn [rev length]. rewrite !app_length. cbn. lia. }
  { rewrite ET in HL. cbn [rev] in HL. rewrite !app_length, rev_length in HL. cbn in HL. lia. }
  rewrite E2. cbn [bind]. rewrite E3. cbn [bind].
  destruct (AvlModel.prv tr3 t); injection E4 as -> ->; cbn [bind]; injection E as <- <- <- <-;
    exists tr3; auto.
Qed.

End Refine.

Section Loop.
Variable data : list point.
Variable ref : point.
Variable d : nat.
Variable lo : Z.
Hypothesis Hwf : wf_points d data.
Hypothesis Hd : (3 <= d)%nat.
Hypothesis Hal : Z.of_nat (length data) < 2 ^ 120.

Notation pt := (pt data).
Notation pts := (pts_of data).

Lemma incl_count : forall (T P : list nat), NoDup T -> incl T P -> (length T <= length P)%nat.
Proof. intros. now apply NoDup_incl_length. Qed.

Lemma loop_refines : forall R F P pp st T hypera hyperv fuel tr,
  F = P ++ pp :: R ->
  dll (nxt st 2) (prv st 2) F ->
  (forall e, In e F -> good data ref lo 2 e) ->
  (forall P' p R', F = P' ++ p :: R' -> In p (pp :: R) -> (2 <= ign st p)%nat -> witness2 data P' p) ->
  tree_ok data T -> incl T P -> covers 2 (pts T) (pts P) -> hypera = stair data ref (coord ref 1) T ->
  sorted_on 2 (pts F) -> (forall e, In e F -> node_x data 2 e <= coord ref 2) ->
  (length (pp :: R) <= fuel)%nat ->
  P <> [] -> (length F <= length data)%nat -> holds tr T ->
  exists v st' tr', hv3d_loop fuel data ref st pp T hypera hyperv = Ret (v, st') /\
    hv3d_loop_avl fuel data ref st pp tr hypera hyperv = Ret (v, st', tr') /\ holds tr' [].
Proof.
  induction R as [|r R IH]; intros F P pp st T hypera hyperv fuel tr EF HD Hg Hw HT HTP HC Hh HS Hr Hf HP HL Htr.
  all: assert (HDD := HD); rewrite EF in HDD; destruct (dll_at _ _ _ _ _ HDD) as (En & _).
  all: assert (Hpp : good data ref lo 2 pp) by (apply Hg; rewrite EF; apply in_app_iff; simpl; auto).
  all: assert (Hnode : forall e, In e F -> node data e) by (intros; now apply Hg).
  all: assert (NF : NoDup F) by (destruct HD as [N _]; inversion N; assumption).
  all: assert (HppP : ~ In pp P) by (rewrite EF in NF; apply NoDup_remove_2 in NF; intros HI; apply NF, in_app_iff; auto).
  all: assert (HLP : (length (P ++ [pp]) <= length data)%nat) by (rewrite EF in HL; rewrite app_length in *; simpl in *; lia).
  all: assert (Tne : T <> []) by (intros ->; destruct P as [|a P]; [congruence|]; destruct (HC (pt a)) as (q & [] & _); left; reflexivity).
  all: assert (LT : (length T <= length P)%nat) by (apply incl_count; [apply Htr|exact HTP]).
  all: destruct fuel as [|fuel]; [simpl in Hf; lia|]; cbn [hv3d_loop hv3d_loop_avl].
  all: rewrite (getx_ok data d) by (try lia; try exact Hwf; try (apply Hpp)); cbn [bind].
  all: rewrite (hv3d_height data ref d Hwf Hd F _ _ _ _ EF HD Hnode); cbn [bind].
  all: pose proof (sorted_height data ref d Hd F _ _ _ EF HS Hr) as Hhgt.
  all: match goal with |- context[hv3d_step _ _ _ _ _ _ _ ?h] => set (hgt := h) in * end.
  all: destruct (hv3d_step_ok data ref d lo Hwf Hd F P pp _ st T hypera hyperv hgt EF Hg) as
        (st1 & T1 & Est & E1 & E2 & E3 & E4 & E5 & T1ok & T1P & T1C & I1 & I2); auto;
       try (intros; eapply Hw; eauto; simpl; auto; fail).
  all: assert (A1 : ~ In pp T) by (intros HI; exact (HppP (HTP _ HI))).
  all: assert (A2 : allocatable (pp :: T)) by (unfold allocatable; rewrite app_length in HLP; simpl in *; lia).
  all: assert (A3 : (length T <= length data)%nat) by (rewrite app_length in HLP; simpl in *; lia).
  all: destruct (step_refines data ref _ _ _ _ _ _ tr _ _ _ _ Htr HT Tne A1 A2 A3 Est) as (tr1 & Est' & Htr1).
  all: rewrite Est, Est'; cbn [bind]; rewrite E1, En; cbn [hd].
  - simpl Nat.eqb. cbv iota. eexists _, _, _. split; [reflexivity|]. split; [reflexivity|]. apply clear_holds.
  - assert (Hr0 : r <> O).
    { intros ->. assert (node data 0) by (apply Hnode; rewrite EF; apply in_app_iff; simpl; auto).
      unfold node in H. lia. }
    apply Nat.eqb_neq in Hr0. rewrite Hr0.
    apply (IH F (P ++ [pp]) r st1 T1 _ _ fuel tr1); auto.
    + rewrite <- app_assoc. exact EF.
    + rewrite E1, E2. auto.
    + intros P' p R' EF' Hp Hi. eapply Hw; eauto. simpl; auto. simpl in Hp.
      rewrite I2 in Hi; auto. intros ->. rewrite EF in NF. apply NoDup_remove_2 in NF. apply NF.
      apply in_app_iff. simpl. tauto.
    + simpl in *. lia.
    + destruct P; discriminate.
Qed.

(** the whole function: same value, same state of the linked lists, and the tree is
    empty afterwards *)
Lemma hv3d_refines : forall st F tr v st', pre3 data ref lo st F -> holds tr [] ->
  fpli_hv3d_ref data ref st (length F) = Ret (v, st') ->
  exists tr', fpli_hv3d_ref_avl data ref st (length F) tr = Ret (v, st', tr') /\ holds tr' [].
Proof.
  intros st F tr v st' (HD & HF & Hg & HL & Hw & HS) Htr. destruct F as [|pp R]; [congruence|]. clear HF.
  assert (Hg2 : forall e, In e (pp :: R) -> good data ref lo 2 e).
  { intros e He. destruct (Hg e He). split; auto. intros i Hi. apply H0. lia. }
  assert (Hr : forall e, In e (pp :: R) -> node_x data 2 e <= coord ref 2).
  { intros e He. destruct (Hg e He) as [_ H0]. specialize (H0 2%nat ltac:(lia)). unfold node_x, pt in *. lia. }
  assert (Hnode : forall e, In e (pp :: R) -> node data e) by (intros; now apply Hg).
  assert (Hpp : good data ref lo 3 pp) by (apply Hg; simpl; auto).
  destruct (dll_at _ _ [] pp R HD) as (En & _).
  assert (E0 : nxt st 2 0 = pp) by (destruct HD as [_ HD]; simpl in HD; tauto).
  unfold fpli_hv3d_ref, fpli_hv3d_ref_avl. rewrite E0.
  pose proof (proj1 Hpp) as Hnp. do 3 (rewrite (getx_ok data d pp) by (auto; lia); cbn [bind]).
  assert (Hc : (length (pp :: R) =? 1)%nat = (pp =? prv st 2 0)%nat).
  { rewrite (dll_is_last _ _ [] pp R HD). destruct R; reflexivity. }
  rewrite Hc. rewrite (hv3d_height data ref d Hwf Hd (pp :: R) [] pp R st); auto. cbn [bind].
  rewrite En. destruct R as [|r R]; cbn [hd].
  - simpl Nat.eqb. cbv iota. injection 1 as <- <-. exists tr. auto.
  - assert (Hr0 : r <> O).
    { intros ->. assert (node data 0) by (apply Hnode; simpl; auto). unfold node in H. lia. }
    apply Nat.eqb_neq in Hr0. rewrite Hr0.
    destruct (insert_top_ok tr pp) as (tr1 & -> & H1). cbn [bind].
    match goal with |- hv3d_loop ?f _ _ _ _ _ ?a ?b = _ -> _ =>
      destruct (loop_refines R (pp :: r :: R) [pp] r st [pp] a b f tr1) as (v1 & st1 & tr2 & E1 & E2 & H2); auto end.
    + intros; eapply Hw; eauto.
    + repeat constructor.
    + intros a Ha; auto.
    + apply covers_refl.
    + simpl. lia.
    + simpl in *. lia.
    + discriminate.
    + rewrite E1. injection 1 as <- <-. exists tr2. auto.
Qed.

(** ** The recursion

    The calls made by the recursion all satisfy [pre3].  To use this in the relation
    between the two versions, [pre3] is decided and built into a guarded version. *)

Definition decidable (P : Prop) : Type := {P} + {~ P}.

Lemma dec_lt : forall (P : nat -> Prop), (forall i, decidable (P i)) -> forall n, decidable (forall i, (i < n)%nat -> P i).
Proof.
  intros P HP. induction n as [|n [IH|IH]].
  - left. intros i Hi. exfalso. lia.
  - destruct (HP n) as [H|H].
    + left. intros i Hi. destruct (Nat.eq_dec i n) as [->|]; auto. apply IH. lia.
    + right. intros K. apply H, K. lia.
  - right. intros K. apply IH. intros. apply K. lia.
Qed.

Lemma dec_and : forall P Q, decidable P -> decidable Q -> decidable (P /\ Q).
Proof. intros P Q [H|H] [K|K]; [left|right|right|right]; tauto. Qed.

Lemma dec_in : forall (P : nat -> Prop), (forall i, decidable (P i)) -> forall l, decidable (forall e, In e l -> P e).
Proof.
  intros P HP l. destruct (Forall_dec P HP l) as [H|H]; [left|right]; rewrite Forall_forall in H; exact H.
Qed.

Lemma dec_seg : forall nx pv l a b, decidable (seg nx pv a l b).
Proof.
  induction l as [|x l IH]; intros a b; cbn [seg]; repeat apply dec_and; auto; apply Nat.eq_dec.
Qed.

Lemma dec_split : forall (Q : list nat -> nat -> Prop), (forall P p, decidable (Q P p)) ->
  forall F pre, decidable (forall P p R, F = P ++ p :: R -> Q (pre ++ P) p).
Proof.
  intros Q HQ. induction F as [|a F IH]; intros pre.
  - left. intros [|? ?] p R E; discriminate.
  - destruct (HQ pre a) as [H|H]; [destruct (IH (pre ++ [a])) as [K|K]|].
    + left. intros [|b P] p R E; injection E as -> E; [rewrite app_nil_r; exact H|].
      specialize (K P p R E). rewrite <- app_assoc in K. exact K.
    + right. intros K2. apply K. intros P p R ->. specialize (K2 (a :: P) p R eq_refl). rewrite <- app_assoc. exact K2.
    + right. intros K2. apply H. specialize (K2 [] a F eq_refl). rewrite app_nil_r in K2. exact K2.
Qed.

Lemma dec_sorted : forall (R : nat -> nat -> Prop), (forall a b, decidable (R a b)) -> forall l, decidable (StronglySorted R l).
Proof.
  intros R HR. induction l as [|a l IH]; [left; constructor|].
  destruct IH as [IH|IH]; [destruct (Forall_dec (R a) (HR a) l) as [H|H]|].
  - left. constructor; assumption.
  - right. intros K. inversion K; contradiction.
  - right. intros K. inversion K; contradiction.
Qed.

Lemma SS_unmap : forall A B (f : A -> B) (R : B -> B -> Prop) l,
  StronglySorted R (map f l) -> StronglySorted (fun a b => R (f a) (f b)) l.
Proof.
  induction l; simpl; intros H; constructor; inversion H; subst; auto.
  rewrite Forall_forall in *. intros y Hy. apply H3. now apply in_map.
Qed.

Lemma pre3_dec : forall st F, decidable (pre3 data ref lo st F).
Proof.
  intros st F. unfold pre3. apply dec_and; [apply dec_and; [apply ListDec.NoDup_dec, Nat.eq_dec|apply dec_seg]|].
  apply dec_and; [destruct F; [right|left]; congruence|].
  apply dec_and.
  { apply dec_in. intros e. apply dec_and.
    - apply dec_and; apply le_dec.
    - apply dec_lt. intros i. apply dec_and; [apply Z_le_dec|apply Z_lt_dec]. }
  apply dec_and; [apply le_dec|]. apply dec_and.
  { apply (dec_split (fun P p => (2 <= ign st p)%nat -> witness2 data P p)) with (pre := []).
    intros P p. destruct (le_dec 2 (ign st p)) as [H|H]; [|left; intros K; contradiction].
    destruct (Exists_dec (fun q => leq_upto 2 (pt q) (pt p)) P) as [E|E].
    - intros q. apply dec_lt. intros i. apply Z_le_dec.
    - left. intros _. rewrite Exists_exists in E. exact E.
    - right. intros K. apply E. rewrite Exists_exists. exact (K H). }
  destruct (dec_sorted (fun a b => coord (pt a) 2 <= coord (pt b) 2)) with (l := F) as [H|H].
  - intros. apply Z_le_dec.
  - left. unfold sorted_on, pts_of. apply SS_map. exact H.
  - right. intros K. apply H. unfold sorted_on, pts_of in K. apply SS_unmap in K. exact K.
Qed.

Fixpoint walk (st : hvst) (c p : nat) : list nat :=
  match c with O => [] | S c => nxt st 2 p :: walk st c (nxt st 2 p) end.

Lemma seg_walk : forall F st a b, seg (nxt st 2) (prv st 2) a F b -> walk st (length F) a = F.
Proof.
  induction F as [|x F IH]; intros st a b H; cbn [seg length walk] in *; [reflexivity|].
  destruct H as (-> & _ & H). f_equal. eapply IH; eauto.
Qed.

Lemma pre3_walk : forall st F, pre3 data ref lo st F -> walk st (length F) 0 = F.
Proof. intros st F ((_ & H) & _). eapply seg_walk; eauto. Qed.

Lemma walk_length : forall c st a, length (walk st c a) = c.
Proof. induction c; intros; cbn; auto. Qed.

(** the sequence version, guarded *)
Definition hv3d_chk (st : hvst) (c : nat) : outcome (Z * hvst) :=
  if pre3_dec st (walk st c 0) then fpli_hv3d_ref data ref st c else OutOfFuel.

Fixpoint hv_chk (k : nat) (st : hvst) (c : nat) : outcome (Z * hvst) :=
  match k with
  | O => hv3d_chk st c
  | S k' => hv_rec_step (fun st c => hv_chk k' st c) data ref (k + 2) st c
  end.

(** [g] does what [f] does and leaves the tree empty *)
Definition sim (f : hvst -> nat -> outcome (Z * hvst)) (g : hvst -> nat -> avl -> outcome (Z * hvst * avl)) : Prop :=
  forall st c v st' tr, f st c = Ret (v, st') -> holds tr [] ->
  exists tr', g st c tr = Ret (v, st', tr') /\ holds tr' [].

Lemma sim_3d : sim hv3d_chk (fpli_hv3d_ref_avl data ref).
Proof.
  intros st c v st' tr E Htr. unfold hv3d_chk in E. destruct (pre3_dec st (walk st c 0)) as [HP|]; [|discriminate].
  pose proof (hv3d_refines st (walk st c 0) tr v st' HP Htr) as R. rewrite walk_length in R. exact (R E).
Qed.

Ltac step E := let r := fresh "r" in let K := fresh "K" in
  match type of E with bind ?e _ = _ => destruct e as [r| | |] eqn:K; try discriminate E; cbn [bind] in E |- * end.

Lemma sim_skip : forall f g dim p c st tr st', sim f g ->
  skip_or_recurse f dim p c st = Ret st' -> holds tr [] ->
  exists tr', skip_or_recurse_avl g dim p c st tr = Ret (st', tr') /\ holds tr' [].
Proof.
  intros f g dim p c st tr st' S E Htr. unfold skip_or_recurse, skip_or_recurse_avl in *.
  destruct (dim <=? ign st p)%nat. { injection E as <-. exists tr. auto. }
  destruct (f st c) as [[v s1]| | |] eqn:K; try discriminate E. cbn [bind fst snd] in E.
  destruct (S _ _ _ _ _ K Htr) as (tr1 & -> & H1). cbn [bind]. injection E as <-. exists tr1. auto.
Qed.

Lemma sim_reinsert : forall f g dim fuel p0 p1 c h st tr q v st', sim f g ->
  hv_reinsert_while fuel f data dim p0 p1 c h st = Ret (q, v, st') -> holds tr [] ->
  exists tr', hv_reinsert_while_avl fuel g data dim p0 p1 c h st tr = Ret (q, v, st', tr') /\ holds tr' [].
Proof.
  intros f g dim. induction fuel as [|fuel IH]; intros p0 p1 c h st tr q v st' S E Htr; [discriminate|].
  cbn [hv_reinsert_while hv_reinsert_while_avl] in *.
  destruct (p0 =? 0)%nat. { injection E as <- <- <-. exists tr. auto. }
  cbv zeta in E |- *. step E. step E. step E. step E.
  destruct (sim_skip _ _ _ _ _ _ _ _ S K2 Htr) as (tr1 & -> & H1). cbn [bind].
  eapply IH; eauto.
Qed.

Lemma sim_step : forall f g dim, sim f g -> sim (hv_rec_step f data ref dim) (hv_rec_step_avl g data ref dim).
Proof.
  intros f g dim S st c v st' tr E Htr. unfold hv_rec_step, hv_rec_step_avl in *. cbv zeta in E |- *.
  step E. step E. destruct r0 as [[[p0 p1] c'] s1]. step E. destruct r0 as [h s2]. step E.
  destruct (sim_skip _ _ _ _ _ _ _ _ S K2 Htr) as (tr1 & -> & H1). cbn [bind].
  step E. destruct r1 as [[q w] s3].
  destruct (sim_reinsert _ _ _ _ _ _ _ _ _ _ _ _ _ S K3 H1) as (tr2 & -> & H2). cbn [bind].
  step E. injection E as <- <-. exists tr2. auto.
Qed.

Lemma sim_rec : forall k, sim (hv_chk k) (hv_recursive_ref_avl k data ref).
Proof.
  induction k as [|k IH]; [exact sim_3d|]. cbn [hv_chk hv_recursive_ref_avl]. apply sim_step. exact IH.
Qed.

Section Rec.
Variable G : nat -> list nat.
Hypothesis HGp : forall i, (i < d)%nat -> Permutation (seq 1 (length data)) (G i).
Hypothesis HGs : forall i, (i < d)%nat -> StronglySorted (fun a b => node_x data i a <= node_x data i b) (G i).
Hypothesis Hord : forall k i q p, (2 <= i <= k)%nat -> (k < d)%nat -> (1 <= q)%nat -> (1 <= p)%nat ->
     leq_upto k (pt q) (pt p) -> before (G k) q p -> before (G i) q p.

Lemma chk_Spec : forall k, (k + 2 < d)%nat -> Spec data ref d lo G (k + 2) (hv_chk k).
Proof.
  induction k; intros.
  - apply (Spec_2_gen data ref d lo G Hwf Hd HGp HGs). intros st F HP. cbn [hv_chk]. unfold hv3d_chk.
    rewrite (pre3_walk st F HP). destruct (pre3_dec st F); [reflexivity|contradiction].
  - exact (Spec_step data ref d lo G Hwf Hd HGp HGs Hord (k + 2) _ (IHk ltac:(lia)) ltac:(lia) ltac:(lia)).
Qed.

Lemma avl_Spec : forall k tr, (k + 2 < d)%nat -> holds tr [] ->
  Spec data ref d lo G (k + 2) (fun st c => r <- hv_recursive_ref_avl k data ref st c tr ;; Ret (fst r)).
Proof.
  intros k tr Hk Htr. apply (Spec_ext data ref d lo G _ (hv_chk k)); [|apply chk_Spec; exact Hk].
  intros st c [v st'] E. destruct (sim_rec k st c v st' tr E Htr) as (tr' & -> & _). reflexivity.
Qed.
End Rec.
End Loop.

Theorem fpli_hv_avl_ok : forall mem sort2d sortd dbl_max g data d ref,
  valid_sort2d sort2d -> valid_sort sortd ->
  (d <= 3)%nat \/ stable_sort sortd \/ no_ties data d ->
  wf_points d data -> length ref = d -> (2 <= d)%nat ->
  (forall p i, In p data -> (i < d)%nat -> - dbl_max <= coord p i) ->
  Z.of_nat (length data) < 2 ^ 120 ->
  exists v, fpli_hv_avl mem sort2d sortd dbl_max g data d ref = Ret v /\ hypervolume data ref v.
Proof.
  intros mem sort2d sortd dbl_max g data d ref Hs2 Hs Hst Hwf. intros. unfold fpli_hv_avl. apply fpli_hv_with_ok; auto.
  intros lo G Hd HGp HGs Hord.
  pose proof (avl_Spec data ref d lo Hwf Hd H2 G HGp HGs Hord (d - 3) (avl_init_tree mem) ltac:(lia)) as HSp.
  replace (d - 3 + 2)%nat with (d - 1)%nat in HSp by lia. apply HSp. apply holds_nil; reflexivity.
Qed.
