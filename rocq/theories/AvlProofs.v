(** Proofs about the pointer AVL tree of AvlModel.v. *)
From Coq Require Import List ZArith Lia Bool Arith.
From Verif Require Import Base AvlModel AvlSpec.
Import ListNotations.
Open Scope nat_scope.

(** * Field access *)

Lemma fset_same : forall A (f : nat -> A) k v, fset f k v k = v.
Proof. intros. unfold fset. rewrite Nat.eqb_refl. reflexivity. Qed.
Lemma fset_other : forall A (f : nat -> A) k v i, i <> k -> fset f k v i = f i.
Proof. intros. unfold fset. destruct (Nat.eqb_spec i k); congruence. Qed.

Definition slot_not (sl : slot) (i : nat) : Prop := sl <> SLeft i /\ sl <> SRight i.

Lemma lft_slot : forall sl v s i, slot_not sl i -> lft (set_slot sl v s) i = lft s i.
Proof. intros [p|p|] v s i [A B]; cbn; try reflexivity. apply fset_other. congruence. Qed.
Lemma rgt_slot : forall sl v s i, slot_not sl i -> rgt (set_slot sl v s) i = rgt s i.
Proof. intros [p|p|] v s i [A B]; cbn; try reflexivity. apply fset_other. congruence. Qed.
Lemma par_slot : forall sl v s, par (set_slot sl v s) = par s.
Proof. intros [p|p|] v s; reflexivity. Qed.
Lemma dep_slot : forall sl v s, dep (set_slot sl v s) = dep s.
Proof. intros [p|p|] v s; reflexivity. Qed.
Lemma nxt_slot : forall sl v s, nxt (set_slot sl v s) = nxt s.
Proof. intros [p|p|] v s; reflexivity. Qed.
Lemma prv_slot : forall sl v s, prv (set_slot sl v s) = prv s.
Proof. intros [p|p|] v s; reflexivity. Qed.
Lemma hd_slot : forall sl v s, hd_ (set_slot sl v s) = hd_ s.
Proof. intros [p|p|] v s; reflexivity. Qed.
Lemma tl_slot : forall sl v s, tl_ (set_slot sl v s) = tl_ s.
Proof. intros [p|p|] v s; reflexivity. Qed.

Lemma lft_popt : forall p v s, lft (set_par_opt p v s) = lft s.
Proof. intros [p|] v s; reflexivity. Qed.
Lemma rgt_popt : forall p v s, rgt (set_par_opt p v s) = rgt s.
Proof. intros [p|] v s; reflexivity. Qed.
Lemma dep_popt : forall p v s, dep (set_par_opt p v s) = dep s.
Proof. intros [p|] v s; reflexivity. Qed.
Lemma nxt_popt : forall p v s, nxt (set_par_opt p v s) = nxt s.
Proof. intros [p|] v s; reflexivity. Qed.
Lemma prv_popt : forall p v s, prv (set_par_opt p v s) = prv s.
Proof. intros [p|] v s; reflexivity. Qed.
Lemma hd_popt : forall p v s, hd_ (set_par_opt p v s) = hd_ s.
Proof. intros [p|] v s; reflexivity. Qed.
Lemma tl_popt : forall p v s, tl_ (set_par_opt p v s) = tl_ s.
Proof. intros [p|] v s; reflexivity. Qed.
Lemma tp_popt : forall p v s, tp (set_par_opt p v s) = tp s.
Proof. intros [p|] v s; reflexivity. Qed.
Lemma par_popt_other : forall p v s i, p <> Some i -> par (set_par_opt p v s) i = par s i.
Proof. intros [p|] v s i H; cbn; [apply fset_other; congruence|reflexivity]. Qed.
Lemma par_popt_same : forall v s i, par (set_par_opt (Some i) v s) i = v.
Proof. intros v s i. cbn. apply fset_same. Qed.

(** * Heights *)

Fixpoint size (t : btree) : nat := match t with Leaf => 0 | Node l _ r => S (size l + size r) end.
Lemma size_inorder : forall t, length (inorder t) = size t.
Proof. induction t; cbn; [reflexivity|]. rewrite app_length. cbn. lia. Qed.

Lemma balanced_size : forall t, balanced t -> forall k, 2 * k <= height t -> 2 ^ k <= size t + 1.
Proof.
  induction t as [|l IHl n r IHr]; intros B k Hk.
  - cbn in Hk. assert (k = 0) by lia; subst; cbn; lia.
  - cbn [balanced] in B. destruct B as (B1 & B2 & Bl & Br). cbn [height size] in *.
    destruct k as [|k]; [cbn; lia|].
    assert (Hs : 2 ^ S k = 2 * 2 ^ k) by reflexivity.
    assert (2 ^ k <= size l + 1 /\ 2 ^ k <= size r + 1) by (split; [apply IHl|apply IHr]; auto; lia). lia.
Qed.

Lemma pow2_Z : forall k, Z.of_nat (2 ^ k) = (2 ^ Z.of_nat k)%Z.
Proof. induction k; [reflexivity|]. rewrite Nat2Z.inj_succ, Z.pow_succ_r by lia. cbn [Nat.pow]. lia. Qed.

(** the depth of a balanced tree is logarithmic in its number of nodes *)
Lemma balanced_height : forall t, balanced t -> (2 ^ (Z.of_nat (height t) / 2) <= Z.of_nat (length (inorder t)) + 1)%Z.
Proof.
  intros t B. pose proof (balanced_size t B) as H. rewrite size_inorder.
  specialize (H (Nat.div (height t) 2)).
  assert (E : (Z.of_nat (height t) / 2 = Z.of_nat (Nat.div (height t) 2))%Z) by (symmetry; apply (Nat2Z.inj_div (height t) 2)).
  rewrite E, <- pow2_Z. assert (2 * (Nat.div (height t) 2) <= height t) by (apply Nat.mul_div_le; lia).
  specialize (H H0). lia.
Qed.

Lemma height_small : forall t, balanced t -> (Z.of_nat (length (inorder t)) < 2 ^ 120)%Z -> height t < 242.
Proof.
  intros t B Hs. pose proof (balanced_height t B) as H.
  destruct (le_lt_dec 242 (height t)) as [Hge|]; [exfalso|assumption].
  assert (121 <= Z.of_nat (height t) / 2)%Z by (apply Z.div_le_lower_bound; lia).
  assert (2 ^ 121 <= 2 ^ (Z.of_nat (height t) / 2))%Z by (apply Z.pow_le_mono_r; lia).
  assert (2 ^ 121 = 2 * 2 ^ 120)%Z by reflexivity. assert (1 < 2 ^ 120)%Z by reflexivity. lia.
Qed.

(** * Frames *)

Lemma nodup_l : forall (a b : list nat), NoDup (a ++ b) -> NoDup a.
Proof.
  induction a; intros b H; [constructor|]. inversion H; subst. constructor; [|eapply IHa; eassumption].
  intro; apply H2; apply in_or_app; left; assumption.
Qed.
Lemma nodup_r : forall (a b : list nat), NoDup (a ++ b) -> NoDup b.
Proof. induction a; intros b H; [exact H|]. inversion H; subst. apply IHa; assumption. Qed.
Lemma nodup_disj : forall (a b : list nat) x, NoDup (a ++ b) -> In x a -> In x b -> False.
Proof.
  induction a; intros b x H Ha Hb; [destruct Ha|]. inversion H; subst. destruct Ha as [->|Ha]; [|eapply IHa; eassumption].
  apply H2. apply in_or_app. right. assumption.
Qed.
Lemma nodup_app_iff : forall (a b : list nat), NoDup a -> NoDup b -> (forall x, In x a -> In x b -> False) -> NoDup (a ++ b).
Proof.
  induction a; intros b Ha Hb H; [exact Hb|]. inversion Ha; subst. cbn. constructor.
  - intro C. apply in_app_or in C. destruct C as [C|C]; [contradiction|]. apply (H a); [left; reflexivity|exact C].
  - apply IHa; auto. intros x X Y. apply (H x); [right; exact X|exact Y].
Qed.

Lemma points_to_root : forall s t pr q, points_to s t pr (Some q) -> In q (inorder t).
Proof. intros s [|l n r] pr q H; cbn in *; [discriminate|]. destruct H as [H _]. injection H as ->. apply in_or_app. right. left. reflexivity. Qed.
Lemma points_to_depth : forall s t pr root, points_to s t pr root -> node_depth s root = height t.
Proof. intros s [|l n r] pr root H; cbn in H; [subst; reflexivity|]. destruct H as (-> & _ & H & _). exact H. Qed.
Lemma points_to_par : forall s t pr q, points_to s t pr (Some q) -> par s q = pr.
Proof. intros s [|l n r] pr q H; cbn in *; [discriminate|]. destruct H as (H & E & _). injection H as ->. exact E. Qed.

Lemma points_to_frame : forall t s s' pr pr' root,
  points_to s t pr root -> NoDup (inorder t) ->
  (forall i, In i (inorder t) -> lft s' i = lft s i /\ rgt s' i = rgt s i /\ dep s' i = dep s i /\
                                 (root <> Some i -> par s' i = par s i)) ->
  (forall q, root = Some q -> par s' q = pr') ->
  points_to s' t pr' root.
Proof.
  induction t as [|l IHl n r IHr]; intros s s' pr pr' root H ND F R; cbn [points_to] in *; [exact H|].
  destruct H as (-> & Hp & Hd & Hl & Hr). cbn [inorder] in *.
  assert (Fn : In n (inorder l ++ n :: inorder r)) by (apply in_or_app; right; left; reflexivity).
  destruct (F n Fn) as (F1 & F2 & F3 & _).
  pose proof (NoDup_remove_2 _ _ _ ND) as Nn. apply NoDup_remove_1 in ND.
  split; [reflexivity|]. split; [apply R; reflexivity|]. split; [congruence|]. rewrite F1, F2. split.
  - apply (IHl s s' (Some n) (Some n) _ Hl).
    + exact (nodup_l _ _ ND).
    + intros i Hi. destruct (F i) as (A & B & C & D); [apply in_or_app; left; exact Hi|].
      split; [exact A|split; [exact B|split; [exact C|]]]. intros _. apply D. intro E. injection E as ->. apply Nn. apply in_or_app. left. exact Hi.
    + intros q Hq. rewrite Hq in Hl. pose proof (points_to_root _ _ _ _ Hl) as Hin. pose proof (points_to_par _ _ _ _ Hl) as Hpq.
      destruct (F q) as (_ & _ & _ & D); [apply in_or_app; left; exact Hin|]. rewrite D; [exact Hpq|].
      intro E. injection E as ->. apply Nn. apply in_or_app. left. exact Hin.
  - apply (IHr s s' (Some n) (Some n) _ Hr).
    + exact (nodup_r _ _ ND).
    + intros i Hi. destruct (F i) as (A & B & C & D); [apply in_or_app; right; right; exact Hi|].
      split; [exact A|split; [exact B|split; [exact C|]]]. intros _. apply D. intro E. injection E as ->. apply Nn. apply in_or_app. right. exact Hi.
    + intros q Hq. rewrite Hq in Hr. pose proof (points_to_root _ _ _ _ Hr) as Hin. pose proof (points_to_par _ _ _ _ Hr) as Hpq.
      destruct (F q) as (_ & _ & _ & D); [apply in_or_app; right; right; exact Hin|]. rewrite D; [exact Hpq|].
      intro E. injection E as ->. apply Nn. apply in_or_app. right. exact Hin.
Qed.

(** contexts: the path from a subtree up to the root *)
Inductive frame := FL (n : nat) (r : btree) | FR (l : btree) (n : nat).
Fixpoint plug (c : list frame) (t : btree) : btree :=
  match c with [] => t | FL n r :: c => plug c (Node t n r) | FR l n :: c => plug c (Node l n t) end.
Fixpoint pre (c : list frame) : list nat :=
  match c with [] => [] | FL _ _ :: c => pre c | FR l n :: c => pre c ++ inorder l ++ [n] end.
Fixpoint post (c : list frame) : list nat :=
  match c with [] => [] | FL n r :: c => n :: inorder r ++ post c | FR _ _ :: c => post c end.
Lemma inorder_plug : forall c t, inorder (plug c t) = pre c ++ inorder t ++ post c.
Proof.
  induction c as [|[n r|l n] c IH]; intros t; cbn [plug pre post].
  - rewrite app_nil_r. reflexivity.
  - rewrite IH. cbn [inorder]. rewrite <- app_assoc. reflexivity.
  - rewrite IH. cbn [inorder]. rewrite <- !app_assoc. reflexivity.
Qed.

(** memory image of a context whose hole holds the pointer [x] and has parent [pr];
    the depths of the nodes on the path are not constrained *)
Fixpoint ctx_ok (s : avl) (c : list frame) (x pr : option nat) : Prop :=
  match c with
  | [] => tp s = x /\ pr = None
  | FL n r :: c => pr = Some n /\ lft s n = x /\ points_to s r (Some n) (rgt s n) /\ ctx_ok s c (Some n) (par s n)
  | FR l n :: c => pr = Some n /\ rgt s n = x /\ points_to s l (Some n) (lft s n) /\ ctx_ok s c (Some n) (par s n)
  end.
(** balance of the context around a hole of height [h] *)
Fixpoint ctx_bal (c : list frame) (h : nat) : Prop :=
  match c with
  | [] => True
  | FL _ t :: c | FR t _ :: c =>
      h <= S (height t) /\ height t <= S h /\ balanced t /\ ctx_bal c (S (Nat.max h (height t)))
  end.

Definition cnodes (c : list frame) : list nat := pre c ++ post c.

Lemma ctx_ok_frame : forall c s s' x pr,
  ctx_ok s c x pr -> NoDup (cnodes c) ->
  (forall i, In i (cnodes c) -> lft s' i = lft s i /\ rgt s' i = rgt s i /\ dep s' i = dep s i /\ par s' i = par s i) ->
  tp s' = tp s -> ctx_ok s' c x pr.
Proof.
  unfold cnodes. induction c as [|[n r|l n] c IH]; intros s s' x pr H ND F T; cbn [ctx_ok pre post] in *.
  - rewrite T. exact H.
  - destruct H as (E1 & E2 & E3 & E4).
    destruct (F n) as (A & B & C & D); [apply in_or_app; right; left; reflexivity|].
    rewrite A, B, D. split; [exact E1|split; [exact E2|split]].
    + apply (points_to_frame r s s' (Some n) (Some n) _ E3).
      * apply nodup_r in ND. inversion ND; subst. eapply nodup_l; eassumption.
      * intros i Hi. destruct (F i) as (? & ? & ? & ?); [apply in_or_app; right; right; apply in_or_app; left; exact Hi|]. auto.
      * intros q Hq. destruct (F q) as (? & ? & ? & ->).
        { rewrite Hq in E3. apply in_or_app; right; right; apply in_or_app; left. eapply points_to_root; eassumption. }
        rewrite Hq in E3. eapply points_to_par; eassumption.
    + apply (IH s s' (Some n) (par s n) E4); [|intros i Hi|exact T].
      * apply nodup_app_iff; [eapply nodup_l; eassumption| |].
        { apply nodup_r in ND. inversion ND; subst. eapply nodup_r; eassumption. }
        intros y Y1 Y2. eapply (nodup_disj _ _ y ND Y1). right. apply in_or_app. right. exact Y2.
      * apply F. apply in_app_or in Hi. apply in_or_app. destruct Hi as [Hi|Hi]; [left; exact Hi|right; right; apply in_or_app; right; exact Hi].
  - destruct H as (E1 & E2 & E3 & E4).
    destruct (F n) as (A & B & C & D); [apply in_or_app; left; apply in_or_app; right; apply in_or_app; right; left; reflexivity|].
    rewrite A, B, D. split; [exact E1|split; [exact E2|split]].
    + apply (points_to_frame l s s' (Some n) (Some n) _ E3).
      * apply nodup_l in ND. apply nodup_r in ND. eapply nodup_l; eassumption.
      * intros i Hi. destruct (F i) as (? & ? & ? & ?); [apply in_or_app; left; apply in_or_app; right; apply in_or_app; left; exact Hi|]. auto.
      * intros q Hq. destruct (F q) as (? & ? & ? & ->).
        { rewrite Hq in E3. apply in_or_app; left; apply in_or_app; right; apply in_or_app; left. eapply points_to_root; eassumption. }
        rewrite Hq in E3. eapply points_to_par; eassumption.
    + apply (IH s s' (Some n) (par s n) E4); [|intros i Hi|exact T].
      * apply nodup_app_iff; [|eapply nodup_r; eassumption|].
        { apply nodup_l in ND. eapply nodup_l; eassumption. }
        intros y Y1 Y2. eapply (nodup_disj _ _ y ND); [|exact Y2]. apply in_or_app. left. exact Y1.
      * apply F. apply in_app_or in Hi. apply in_or_app. destruct Hi as [Hi|Hi]; [left; apply in_or_app; left; exact Hi|right; exact Hi].
Qed.

(** the slot found by the code is the one that points to the hole *)
Lemma slot_of_FL : forall s n r c a, ctx_ok s (FL n r :: c) (Some a) (Some n) -> slot_of s a (Some n) = SLeft n.
Proof. intros s n r c a (E & E2 & _). cbn. rewrite E2. cbn. rewrite Nat.eqb_refl. reflexivity. Qed.
Lemma slot_of_FR : forall s n l c a, ctx_ok s (FR l n :: c) (Some a) (Some n) -> ~ In a (inorder l) -> slot_of s a (Some n) = SRight n.
Proof.
  intros s n l c a (E & E2 & E3 & _) Na. cbn. destruct (lft s n) as [b|] eqn:Eb; cbn; [|reflexivity].
  destruct (Nat.eqb_spec b a); [|reflexivity]. subst. apply points_to_root in E3. contradiction.
Qed.

Lemma slot_not_out : forall s c a pr i, ctx_ok s c (Some a) pr -> ~ In i (cnodes c) -> slot_not (slot_of s a pr) i.
Proof.
  unfold cnodes, slot_not. intros s [|[n r|l n] c] a pr i H Ni; cbn [ctx_ok pre post] in *.
  - destruct H as [_ ->]. cbn. split; discriminate.
  - destruct H as (-> & _). assert (n <> i) by (intros ->; apply Ni; apply in_or_app; right; left; reflexivity).
    cbn. destruct (opt_is (lft s n) a); split; congruence.
  - destruct H as (-> & _). assert (n <> i) by (intros ->; apply Ni; apply in_or_app; left; apply in_or_app; right; apply in_or_app; right; left; reflexivity).
    cbn. destruct (opt_is (lft s n) a); split; congruence.
Qed.

Lemma ctx_ok_slot : forall c s s' a pr v,
  ctx_ok s c (Some a) pr -> NoDup (cnodes c) -> ~ In a (cnodes c) ->
  (forall i, In i (cnodes c) -> lft s' i = lft (set_slot (slot_of s a pr) v s) i /\ rgt s' i = rgt (set_slot (slot_of s a pr) v s) i /\
                                dep s' i = dep s i /\ par s' i = par s i) ->
  tp s' = tp (set_slot (slot_of s a pr) v s) -> ctx_ok s' c v pr.
Proof.
  intros c s s' a pr v H ND Na F T.
  apply (ctx_ok_frame c (set_slot (slot_of s a pr) v s) s'); [|exact ND| |exact T].
  2:{ intros i Hi. destruct (F i Hi) as (A & B & C & D). rewrite par_slot, dep_slot. auto. }
  clear F T s'.
  destruct c as [|[n r|l n] c]; cbn [ctx_ok].
  - destruct H as [H1 H2]. subst pr. cbn. split; reflexivity.
  - assert (pr = Some n) by (destruct H; assumption). subst pr. rewrite (slot_of_FL _ _ _ _ _ H).
    destruct H as (_ & E2 & E3 & E4). cbn [set_slot]. cbn [set_lft lft rgt par].
    split; [reflexivity|]. split; [apply fset_same|].
    unfold cnodes in ND; cbn [pre post] in ND.
    assert (NDr : NoDup (n :: inorder r ++ post c)) by (eapply nodup_r; eassumption). inversion NDr as [|? ? Nn NDr']; subst.
    assert (Hne : forall i, In i (inorder r) -> i <> n) by (intros i Hi ->; apply Nn; apply in_or_app; left; exact Hi).
    split.
    + apply (points_to_frame r s _ (Some n) (Some n) _ E3); [eapply nodup_l; eassumption| |].
      * intros i Hi. cbn. rewrite fset_other by auto. auto.
      * intros q Hq. cbn. rewrite Hq in E3. eapply points_to_par; eassumption.
    + apply (ctx_ok_frame c s _ _ _ E4); [| |reflexivity].
      * apply nodup_app_iff; [eapply nodup_l; eassumption|eapply nodup_r; eassumption|].
        intros y Y1 Y2. eapply (nodup_disj _ _ y ND Y1). right. apply in_or_app. right. exact Y2.
      * intros i Hi. cbn. rewrite fset_other; [auto|]. intros ->. apply in_app_or in Hi. destruct Hi as [Hi|Hi].
        { eapply (nodup_disj _ _ n ND Hi). left. reflexivity. }
        { apply Nn. apply in_or_app. right. exact Hi. }
  - assert (pr = Some n) by (destruct H; assumption). subst pr.
    unfold cnodes in ND, Na; cbn [pre post] in ND, Na.
    rewrite (slot_of_FR _ _ _ _ _ H) by (intro; apply Na; apply in_or_app; left; apply in_or_app; right; apply in_or_app; left; assumption).
    destruct H as (_ & E2 & E3 & E4). cbn [set_slot]. cbn [set_rgt lft rgt par].
    split; [reflexivity|]. split; [apply fset_same|].
    assert (NDl : NoDup (pre c ++ inorder l ++ [n])) by (eapply nodup_l; eassumption).
    assert (NDl' : NoDup (inorder l ++ [n])) by (eapply nodup_r; eassumption).
    assert (Hne : forall i, In i (inorder l) -> i <> n) by (intros i Hi ->; eapply (nodup_disj _ _ n NDl' Hi); left; reflexivity).
    split.
    + apply (points_to_frame l s _ (Some n) (Some n) _ E3); [eapply nodup_l; eassumption| |].
      * intros i Hi. cbn. rewrite fset_other by auto. auto.
      * intros q Hq. cbn. rewrite Hq in E3. eapply points_to_par; eassumption.
    + apply (ctx_ok_frame c s _ _ _ E4); [| |reflexivity].
      * apply nodup_app_iff; [eapply nodup_l; eassumption|eapply nodup_r; eassumption|].
        intros y Y1 Y2. eapply (nodup_disj _ _ y ND); [|exact Y2]. apply in_or_app. left. exact Y1.
      * intros i Hi. cbn. rewrite fset_other; [auto|]. intros ->. apply in_app_or in Hi. destruct Hi as [Hi|Hi].
        { eapply (nodup_disj _ _ n NDl Hi). apply in_or_app. right. left. reflexivity. }
        { eapply (nodup_disj _ _ n ND); [|exact Hi]. apply in_or_app. right. apply in_or_app. right. left. reflexivity. }
Qed.

(** * Zones: telling apart the nodes of disjoint subtrees *)

Lemma zones : forall Xs : list (list nat), NoDup (concat Xs) -> exists z : nat -> nat, forall k i, In i (nth k Xs []) -> z i = k.
Proof.
  induction Xs as [|X Xs IH]; intros ND; cbn [concat] in ND.
  - exists (fun _ => 0). intros [|k] i []. 
  - destruct (IH (nodup_r _ _ ND)) as [z Hz].
    exists (fun i => if in_dec Nat.eq_dec i X then 0 else S (z i)). intros [|k] i Hi; cbn [nth] in Hi.
    + destruct (in_dec Nat.eq_dec i X); [reflexivity|contradiction].
    + destruct (in_dec Nat.eq_dec i X) as [Hx|]; [exfalso|f_equal; apply Hz; exact Hi].
      apply (nodup_disj _ _ i ND Hx). apply in_concat. exists (nth k Xs []). split; [|exact Hi].
      destruct (lt_dec k (length Xs)) as [Hk|Hk]; [apply nth_In; exact Hk|]. rewrite nth_overflow in Hi by lia. destruct Hi.
Qed.

Lemma lft_slot_ext : forall sl v s s1 i, lft s1 i = lft s i -> lft (set_slot sl v s1) i = lft (set_slot sl v s) i.
Proof. intros [p|p|] v s s1 i H; cbn; auto. unfold fset. destruct (i =? p); auto. Qed.
Lemma rgt_slot_ext : forall sl v s s1 i, rgt s1 i = rgt s i -> rgt (set_slot sl v s1) i = rgt (set_slot sl v s) i.
Proof. intros [p|p|] v s s1 i H; cbn; auto. unfold fset. destruct (i =? p); auto. Qed.
Lemma tp_slot_ext : forall sl v s s1, tp s1 = tp s -> tp (set_slot sl v s1) = tp (set_slot sl v s).
Proof. intros [p|p|] v s s1 H; cbn; auto. Qed.

Lemma uchar_id : forall x, x < 256 -> uchar x = x.
Proof. intros x H. unfold uchar. rewrite Z.mod_small by lia. apply Nat2Z.id. Qed.

(** CALC_DEPTH computes the height of a node over two good subtrees *)
Lemma calc_depth_ok : forall s n l r,
  node_depth s (lft s n) = height l -> node_depth s (rgt s n) = height r ->
  S (Nat.max (height l) (height r)) < 256 ->
  calc_depth s n = S (Nat.max (height l) (height r)).
Proof.
  intros s n l r Hl Hr H. unfold calc_depth, l_depth, r_depth. rewrite Hl, Hr.
  destruct (Nat.ltb_spec (height r) (height l)); rewrite uchar_id; lia.
Qed.

Definition same_links (s s' : avl) : Prop := nxt s' = nxt s /\ prv s' = prv s /\ hd_ s' = hd_ s /\ tl_ s' = tl_ s.
