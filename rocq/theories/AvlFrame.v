(** The operations of the AVL tree touch only the nodes of their own tree: several trees
    can live in the same memory. *)
From Coq Require Import List ZArith Lia Bool Arith.
From Verif Require Import Base AvlModel AvlSpec AvlProofs AvlRotate AvlOps.
Import ListNotations.
Open Scope nat_scope.

(** the fields of node [i] *)
Definition same_node (s s' : avl) (i : nat) : Prop :=
  AvlModel.nxt s' i = AvlModel.nxt s i /\ AvlModel.prv s' i = AvlModel.prv s i /\ par s' i = par s i /\
  lft s' i = lft s i /\ rgt s' i = rgt s i /\ dep s' i = dep s i.

Lemma Ret_pair : forall A B (a c : A) (b d : B), Ret (a, b) = Ret (c, d) -> a = c /\ b = d.
Proof. intros. injection H as -> ->. auto. Qed.

Section Frame.
(** [P]: the nodes of the tree; [X]: a node whose fields are not yet initialised *)
Variables P X : nat -> Prop.
Definition OP (o : option nat) : Prop := match o with Some j => P j | None => True end.

(** the nodes of [P] point only to nodes of [P] *)
Definition closed (s : avl) : Prop :=
  OP (hd_ s) /\ OP (tl_ s) /\ OP (tp s) /\
  forall i, P i -> ~ X i -> OP (AvlModel.nxt s i) /\ OP (AvlModel.prv s i) /\ OP (par s i) /\ OP (lft s i) /\ OP (rgt s i).
Definition fr (s0 s : avl) : Prop := closed s /\ forall i, ~ P i -> same_node s0 s i.

Lemma fr_refl : forall s, closed s -> fr s s.
Proof. intros s H. split; auto. intros i _. repeat split. Qed.
Lemma fr_trans : forall s1 s2 s3, fr s1 s2 -> fr s2 s3 -> fr s1 s3.
Proof.
  intros s1 s2 s3 [_ F1] [C F2]. split; auto. intros i Hi.
  destruct (F1 i Hi) as (?&?&?&?&?&?), (F2 i Hi) as (?&?&?&?&?&?). repeat split; congruence.
Qed.

Ltac fr_field :=
  intros s0 s p v [(H1 & H2 & H3 & C) F] Hp Hv; split;
  [ split; [exact H1|]; split; [exact H2|]; split; [exact H3|]; intros i Hi Xi; destruct (C i Hi Xi) as (?&?&?&?&?);
    repeat split; cbn; auto; unfold fset; destruct (i =? p); auto
  | intros i Hi; destruct (F i Hi) as (?&?&?&?&?&?); repeat split; cbn; auto; rewrite fset_other; auto; intros ->; auto ].
Lemma fr_nxt : forall s0 s p v, fr s0 s -> P p -> OP v -> fr s0 (set_nxt p v s).
Proof. fr_field. Qed.
Lemma fr_prv : forall s0 s p v, fr s0 s -> P p -> OP v -> fr s0 (set_prv p v s).
Proof. fr_field. Qed.
Lemma fr_par : forall s0 s p v, fr s0 s -> P p -> OP v -> fr s0 (set_par p v s).
Proof. fr_field. Qed.
Lemma fr_lft : forall s0 s p v, fr s0 s -> P p -> OP v -> fr s0 (set_lft p v s).
Proof. fr_field. Qed.
Lemma fr_rgt : forall s0 s p v, fr s0 s -> P p -> OP v -> fr s0 (set_rgt p v s).
Proof. fr_field. Qed.
Lemma fr_dep : forall s0 s p v, fr s0 s -> P p -> fr s0 (set_dep p v s).
Proof.
  intros s0 s p v [(H1 & H2 & H3 & C) F] Hp; split.
  - split; [exact H1|]; split; [exact H2|]; split; [exact H3|]; exact C.
  - intros i Hi; destruct (F i Hi) as (?&?&?&?&?&?); repeat split; cbn; auto. rewrite fset_other; auto; intros ->; auto.
Qed.
Lemma fr_hd : forall s0 s v, fr s0 s -> OP v -> fr s0 (set_hd v s).
Proof. intros s0 s v [(H1 & H2 & H3 & C) F] Hv. split; [repeat split; auto; apply C; auto|exact F]. Qed.
Lemma fr_tl : forall s0 s v, fr s0 s -> OP v -> fr s0 (set_tl v s).
Proof. intros s0 s v [(H1 & H2 & H3 & C) F] Hv. split; [repeat split; auto; apply C; auto|exact F]. Qed.
Lemma fr_tp : forall s0 s v, fr s0 s -> OP v -> fr s0 (set_tp v s).
Proof. intros s0 s v [(H1 & H2 & H3 & C) F] Hv. split; [repeat split; auto; apply C; auto|exact F]. Qed.
Lemma fr_popt : forall s0 s p v, fr s0 s -> OP p -> OP v -> fr s0 (set_par_opt p v s).
Proof. intros s0 s [p|] v H Hp Hv; cbn; auto. apply fr_par; auto. Qed.
Definition slot_in (sl : slot) : Prop := match sl with SLeft p | SRight p => P p | STop => True end.
Lemma fr_slot : forall s0 s sl v, fr s0 s -> slot_in sl -> OP v -> fr s0 (set_slot sl v s).
Proof. intros s0 s [p|p|] v H Hp Hv; cbn; [apply fr_lft|apply fr_rgt|apply fr_tp]; auto. Qed.
Lemma slot_of_in : forall s n p, OP p -> slot_in (slot_of s n p).
Proof. intros s n [p|] H; cbn; auto. destruct (opt_is (lft s p) n); exact H. Qed.

Lemma in_nxt : forall s0 s i, fr s0 s -> P i -> ~ X i -> OP (AvlModel.nxt s i). Proof. intros s0 s i [(_ & _ & _ & C) _] H K. apply (C i H K). Qed.
Lemma in_prv : forall s0 s i, fr s0 s -> P i -> ~ X i -> OP (AvlModel.prv s i). Proof. intros s0 s i [(_ & _ & _ & C) _] H K. apply (C i H K). Qed.
Lemma in_par : forall s0 s i, fr s0 s -> P i -> ~ X i -> OP (par s i). Proof. intros s0 s i [(_ & _ & _ & C) _] H K. apply (C i H K). Qed.
Lemma in_lft : forall s0 s i, fr s0 s -> P i -> ~ X i -> OP (lft s i). Proof. intros s0 s i [(_ & _ & _ & C) _] H K. apply (C i H K). Qed.
Lemma in_rgt : forall s0 s i, fr s0 s -> P i -> ~ X i -> OP (rgt s i). Proof. intros s0 s i [(_ & _ & _ & C) _] H K. apply (C i H K). Qed.
Lemma deref_in : forall o n, OP o -> deref o = Ret n -> P n.
Proof. intros [m|] n H E; inversion E; subst; auto. Qed.

Ltac go :=
  match goal with
  | |- fr _ (set_dep _ _ _) => apply fr_dep; go
  | |- fr _ (set_nxt _ _ _) => apply fr_nxt; go
  | |- fr _ (set_prv _ _ _) => apply fr_prv; go
  | |- fr _ (set_par _ _ _) => apply fr_par; go
  | |- fr _ (set_lft _ _ _) => apply fr_lft; go
  | |- fr _ (set_rgt _ _ _) => apply fr_rgt; go
  | |- fr _ (set_hd _ _) => apply fr_hd; go
  | |- fr _ (set_tl _ _) => apply fr_tl; go
  | |- fr _ (set_tp _ _) => apply fr_tp; go
  | |- fr _ (set_par_opt _ _ _) => apply fr_popt; go
  | |- fr _ (set_slot _ _ _) => apply fr_slot; go
  | |- fr _ _ => eassumption
  | |- slot_in (slot_of _ _ _) => apply slot_of_in; go
  | |- OP (Some _) => cbn [OP]; go
  | |- OP None => exact I
  | |- OP (par ?s ?i) => eapply (in_par _ s i); go
  | |- OP (lft ?s ?i) => eapply (in_lft _ s i); go
  | |- OP (rgt ?s ?i) => eapply (in_rgt _ s i); go
  | |- OP (AvlModel.nxt ?s ?i) => eapply (in_nxt _ s i); go
  | |- OP (AvlModel.prv ?s ?i) => eapply (in_prv _ s i); go
  | |- ~ X _ => auto
  | |- _ => eassumption
  end.

Hypothesis NX : forall i, ~ X i.
Lemma rebalance_step_fr : forall s0 s n s' q, fr s0 s -> P n -> rebalance_step s n = Ret (s', q) -> fr s0 s' /\ OP q.
Proof.
  intros s0 s n s' q F Pn E. assert (Pp : OP (par s n)) by go.
  unfold rebalance_step in E.
  assert (Sl : slot_in (slot_of s n (par s n))) by go.
  destruct (check_balance s n =? -1)%Z; [|destruct (check_balance s n =? 1)%Z].
  - destruct (deref (lft s n)) as [ch| | |] eqn:Ec; cbn [bind] in E; try discriminate.
    assert (Pc : P ch) by (eapply deref_in; [|exact Ec]; go).
    destruct (r_depth s ch <=? l_depth s ch).
    + apply Ret_pair in E; destruct E as [<- <-]. split; [|exact Pp]. cbv zeta.
      set (s1 := set_lft n (rgt s ch) s). assert (F1 : fr s0 s1) by (unfold s1; go). clearbody s1. go.
    + destruct (deref (rgt s ch)) as [g| | |] eqn:Eg; cbn [bind] in E; try discriminate.
      assert (Pg : P g) by (eapply deref_in; [|exact Eg]; go).
      apply Ret_pair in E; destruct E as [<- <-]. split; [|exact Pp].
      set (s1 := set_lft n (rgt s g) s). assert (F1 : fr s0 s1) by (unfold s1; go). clearbody s1.
      set (s2 := set_par_opt (lft s1 n) (Some n) s1). assert (F2 : fr s0 s2) by (unfold s2; go). clearbody s2.
      set (s3 := set_rgt ch (lft s2 g) s2). assert (F3 : fr s0 s3) by (unfold s3; go). clearbody s3.
      set (s4 := set_par_opt (rgt s3 ch) (Some ch) s3). assert (F4 : fr s0 s4) by (unfold s4; go). clearbody s4.
      set (s5 := set_rgt g (Some n) s4). assert (F5 : fr s0 s5) by (unfold s5; go). clearbody s5.
      set (s6 := set_par_opt (rgt s5 g) (Some g) s5). assert (F6 : fr s0 s6) by (unfold s6; go). clearbody s6.
      set (s7 := set_lft g (Some ch) s6). assert (F7 : fr s0 s7) by (unfold s7; go). clearbody s7.
      set (s8 := set_par_opt (lft s7 g) (Some g) s7). assert (F8 : fr s0 s8) by (unfold s8; go). clearbody s8.
      go.
  - destruct (deref (rgt s n)) as [ch| | |] eqn:Ec; cbn [bind] in E; try discriminate.
    assert (Pc : P ch) by (eapply deref_in; [|exact Ec]; go).
    destruct (l_depth s ch <=? r_depth s ch).
    + apply Ret_pair in E; destruct E as [<- <-]. split; [|exact Pp]. cbv zeta.
      set (s1 := set_rgt n (lft s ch) s). assert (F1 : fr s0 s1) by (unfold s1; go). clearbody s1. go.
    + destruct (deref (lft s ch)) as [g| | |] eqn:Eg; cbn [bind] in E; try discriminate.
      assert (Pg : P g) by (eapply deref_in; [|exact Eg]; go).
      apply Ret_pair in E; destruct E as [<- <-]. split; [|exact Pp].
      set (s1 := set_rgt n (lft s g) s). assert (F1 : fr s0 s1) by (unfold s1; go). clearbody s1.
      set (s2 := set_par_opt (rgt s1 n) (Some n) s1). assert (F2 : fr s0 s2) by (unfold s2; go). clearbody s2.
      set (s3 := set_lft ch (rgt s2 g) s2). assert (F3 : fr s0 s3) by (unfold s3; go). clearbody s3.
      set (s4 := set_par_opt (lft s3 ch) (Some ch) s3). assert (F4 : fr s0 s4) by (unfold s4; go). clearbody s4.
      set (s5 := set_lft g (Some n) s4). assert (F5 : fr s0 s5) by (unfold s5; go). clearbody s5.
      set (s6 := set_par_opt (lft s5 g) (Some g) s5). assert (F6 : fr s0 s6) by (unfold s6; go). clearbody s6.
      set (s7 := set_rgt g (Some ch) s6). assert (F7 : fr s0 s7) by (unfold s7; go). clearbody s7.
      set (s8 := set_par_opt (rgt s7 g) (Some g) s7). assert (F8 : fr s0 s8) by (unfold s8; go). clearbody s8.
      go.
  - apply Ret_pair in E; destruct E as [<- <-]. split; [|exact Pp]. go.
Qed.

Lemma rebalance_fr : forall fuel s0 s n s', fr s0 s -> OP n -> rebalance_loop fuel s n = Ret s' -> fr s0 s'.
Proof.
  induction fuel as [|fuel IH]; intros s0 s [n|] s' F Pn E; cbn [rebalance_loop] in E; try discriminate; try (injection E as <-; exact F).
  destruct (rebalance_step s n) as [[s1 q]| | |] eqn:E1; cbn [bind fst snd] in E; try discriminate.
  destruct (rebalance_step_fr s0 s n s1 q F Pn E1) as [F1 Q]. eapply IH; eauto.
Qed.

Lemma unlink_fr : forall s0 s a s', fr s0 s -> P a -> avl_unlink_node a s = Ret s' -> fr s0 s'.
Proof.
  intros s0 s a s' F Pa E. unfold avl_unlink_node in E.
  set (s1 := match AvlModel.prv s a with Some p => set_nxt p (AvlModel.nxt s a) s | None => set_hd (AvlModel.nxt s a) s end) in E.
  assert (F1 : fr s0 s1). { unfold s1. assert (O : OP (AvlModel.prv s a)) by go. destruct (AvlModel.prv s a); cbn [OP] in O; go. }
  clearbody s1.
  set (s2 := match AvlModel.nxt s1 a with Some p => set_prv p (AvlModel.prv s1 a) s1 | None => set_tl (AvlModel.prv s1 a) s1 end) in E.
  assert (F2 : fr s0 s2). { unfold s2. assert (O : OP (AvlModel.nxt s1 a)) by go. destruct (AvlModel.nxt s1 a); cbn [OP] in O; go. }
  clearbody s2. clear F F1 s s1.
  assert (Pp : OP (par s2 a)) by go. assert (Sl : slot_in (slot_of s2 a (par s2 a))) by go.
  assert (Ol : OP (lft s2 a)) by go. assert (Or : OP (rgt s2 a)) by go.
  set (pa := par s2 a) in *. set (sl := slot_of s2 a pa) in *. clearbody sl. clearbody pa.
  unfold avl_rebalance in E.
  destruct (lft s2 a) as [l|]; [destruct (rgt s2 a) as [r|]|]; cbn [OP] in Ol, Or.
  - destruct (deref (AvlModel.prv s2 a)) as [sb| | |] eqn:Es; cbn [bind] in E; try discriminate.
    assert (Ps : P sb) by (eapply deref_in; [|exact Es]; go).
    destruct (sb =? l).
    + cbn [bind fst snd] in E. eapply rebalance_fr; [| |exact E]; go.
    + destruct (deref (par s2 sb)) as [b| | |] eqn:Eb; cbn [bind fst snd] in E; try discriminate.
      assert (Pb : P b) by (eapply deref_in; [|exact Eb]; go).
      eapply rebalance_fr; [| |exact E]; [|go]. clear E.
      assert (F3 : fr s0 (set_rgt b (lft s2 sb) s2)) by go. set (s3 := set_rgt b (lft s2 sb) s2) in *. clearbody s3. go.
  - eapply rebalance_fr; [| |exact E]; go.
  - eapply rebalance_fr; [| |exact E]; go.
Qed.
End Frame.

(** a tree that holds [xs] points only to nodes of [xs] *)
Lemma points_to_OP : forall t s pr root, points_to s t pr root ->
  OP (fun i => In i (inorder t)) root /\
  forall i, In i (inorder t) -> (par s i = pr \/ OP (fun j => In j (inorder t)) (par s i)) /\
    OP (fun j => In j (inorder t)) (lft s i) /\ OP (fun j => In j (inorder t)) (rgt s i).
Proof.
  induction t as [|l IHl n r IHr]; intros s pr root H; cbn [points_to] in H.
  - subst. split; [exact I|]. intros i [].
  - destruct H as (-> & Hp & _ & Hl & Hr). destruct (IHl _ _ _ Hl) as [Rl Gl]. destruct (IHr _ _ _ Hr) as [Rr Gr].
    cbn [inorder]. assert (M1 : forall o, OP (fun i => In i (inorder l)) o -> OP (fun i => In i (inorder l ++ n :: inorder r)) o).
    { intros [j|] Hj; cbn in *; auto. apply in_or_app. auto. }
    assert (M2 : forall o, OP (fun i => In i (inorder r)) o -> OP (fun i => In i (inorder l ++ n :: inorder r)) o).
    { intros [j|] Hj; cbn in *; auto. apply in_or_app. right. right. auto. }
    assert (In n (inorder l ++ n :: inorder r)) by (apply in_or_app; right; left; reflexivity).
    split; [exact H|]. intros i Hi. apply in_app_or in Hi. destruct Hi as [Hi|[<-|Hi]].
    + destruct (Gl i Hi) as ([E|E] & E2 & E3); (split; [|split; apply M1; assumption]).
      right. rewrite E. exact H. right. apply M1. exact E.
    + split; [left; exact Hp|]. split; [apply M1; exact Rl|apply M2; exact Rr].
    + destruct (Gr i Hi) as ([E|E] & E2 & E3); (split; [|split; apply M2; assumption]).
      right. rewrite E. exact H. right. apply M2. exact E.
Qed.

Lemma linked_OP : forall xs s p q i, linked s p xs q -> In i xs ->
  (AvlModel.prv s i = p \/ OP (fun j => In j xs) (AvlModel.prv s i)) /\
  (AvlModel.nxt s i = q \/ OP (fun j => In j xs) (AvlModel.nxt s i)).
Proof.
  induction xs as [|x xs IH]; intros s p q i H Hi; [contradiction|]. cbn [linked] in H. destruct H as (Hp & Hn & H).
  destruct Hi as [<-|Hi].
  - split; [left; exact Hp|]. rewrite Hn. destruct xs as [|y xs]; [left; reflexivity|right]. cbn. auto.
  - destruct (IH _ _ _ i H Hi) as [A B]. split.
    + right. destruct A as [->|A]; [left; reflexivity|]. destruct (AvlModel.prv s i); cbn in *; auto.
    + destruct B as [->|B]; [left; reflexivity|right]. destruct (AvlModel.nxt s i); cbn in *; auto.
Qed.

Lemma holds_closed : forall s xs (P : nat -> Prop), holds s xs -> (forall i, In i xs -> P i) ->
  OP P (hd_ s) /\ OP P (tl_ s) /\ OP P (tp s) /\
  forall i, In i xs -> OP P (AvlModel.nxt s i) /\ OP P (AvlModel.prv s i) /\ OP P (par s i) /\ OP P (lft s i) /\ OP P (rgt s i).
Proof.
  intros s xs P (ND & (t & It & Bt & Pt) & Hh & Ht & HL) HP.
  assert (M : forall o, OP (fun i => In i xs) o -> OP P o) by (intros [j|] Hj; cbn in *; auto).
  destruct (points_to_OP _ _ _ _ Pt) as [R G]. rewrite It in *.
  split. { rewrite Hh. destruct xs; cbn; auto. apply HP. now left. }
  split. { rewrite Ht. destruct (last_error xs) eqn:E; cbn; auto. apply HP. now apply last_error_In. }
  split. { apply M, R. }
  intros i Hi. destruct (G i Hi) as (A & B & C). destruct (linked_OP _ _ _ _ _ HL Hi) as [D E].
  split. { destruct E as [->|E]; cbn; auto. } split. { destruct D as [->|D]; cbn; auto. }
  split. { destruct A as [->|A]; cbn; auto. } auto.
Qed.

(** [holds] depends only on the tree pointers and on the fields of the nodes *)
Lemma holds_frame : forall s s' xs, holds s xs -> hd_ s' = hd_ s -> tl_ s' = tl_ s -> tp s' = tp s ->
  (forall i, In i xs -> same_node s s' i) -> holds s' xs.
Proof.
  intros s s' xs (ND & (t & It & Bt & Pt) & Hh & Ht & HL) E1 E2 E3 F.
  split; [exact ND|]. split; [|split; [congruence|split; [congruence|]]].
  - exists t. split; [exact It|]. split; [exact Bt|]. rewrite E3. subst xs.
    apply (points_to_frame t s s' None None (tp s)); auto.
    + intros i Hi. destruct (F i Hi) as (_&_&?&?&?&?). auto.
    + intros q Eq. destruct t as [|l n r]; cbn in Pt; [congruence|]. destruct Pt as (En & Ep & _). rewrite En in Eq. injection Eq as ->.
      destruct (F q) as (_&_&->&_); [cbn; apply in_or_app; right; left; reflexivity|exact Ep].
  - apply (linked_frame xs s); auto. intros x Hx. destruct (F x Hx) as (?&?&_). auto.
Qed.

(** ** An operation leaves all other nodes as they are *)
Definition none (i : nat) : Prop := False.
Lemma no_none : forall i, ~ none i. Proof. intros i H. exact H. Qed.

(** when the fields of the new node are written, nothing is exempt *)
Lemma fr_done : forall P n s0 s, fr P (eq n) s0 s -> OP P (AvlModel.nxt s n) -> OP P (AvlModel.prv s n) -> OP P (par s n) ->
  OP P (lft s n) -> OP P (rgt s n) -> fr P none s0 s.
Proof.
  intros P n s0 s [(H1 & H2 & H3 & C) F] A B D E G. split; [|exact F]. split; [exact H1|]. split; [exact H2|]. split; [exact H3|].
  intros i Hi _. destruct (Nat.eq_dec n i) as [<-|N]; [tauto|]. apply C; auto.
Qed.

Ltac go2 :=
  match goal with
  | |- fr _ _ _ (set_dep _ _ _) => apply fr_dep; go2
  | |- fr _ _ _ (set_nxt _ _ _) => apply fr_nxt; go2
  | |- fr _ _ _ (set_prv _ _ _) => apply fr_prv; go2
  | |- fr _ _ _ (set_par _ _ _) => apply fr_par; go2
  | |- fr _ _ _ (set_lft _ _ _) => apply fr_lft; go2
  | |- fr _ _ _ (set_rgt _ _ _) => apply fr_rgt; go2
  | |- fr _ _ _ (set_hd _ _) => apply fr_hd; go2
  | |- fr _ _ _ (set_tl _ _) => apply fr_tl; go2
  | |- fr _ _ _ (set_tp _ _) => apply fr_tp; go2
  | |- fr _ _ _ _ => eassumption
  | |- OP _ (Some _) => cbn [OP]; go2
  | |- OP _ None => exact I
  | |- _ => eassumption
  end.

Lemma insert_top_fr : forall P n s0 s s', fr P (eq n) s0 s -> P n -> avl_insert_top n s = Ret s' -> fr P none s0 s'.
Proof.
  intros P n s0 s s' F Pn E. unfold avl_insert_top, avl_clear_node in E.
  assert (E' : set_hd (Some n) (set_tl (Some n) (set_tp (Some n) (set_par n None (set_nxt n None (set_prv n None
     (set_dep n 1 (set_rgt n None (set_lft n None s)))))))) = s') by congruence. subst s'.
  apply (fr_done P n); [go2| | | | |]; cbn; unfold fset; rewrite Nat.eqb_refl; exact I.
Qed.

Lemma insert_fr : forall (P : nat -> Prop) n, P n -> forall calls s0 s w s', fr P (eq n) s0 s -> OP P w -> w <> Some n ->
  (forall i, P i -> i <> n -> AvlModel.nxt s i <> Some n /\ AvlModel.prv s i <> Some n) -> hd_ s <> Some n -> tl_ s <> Some n ->
  (insert_before calls w n s = Ret s' -> fr P none s0 s') /\ (insert_after calls w n s = Ret s' -> fr P none s0 s').
Proof.
  intros P n Pn. induction calls as [|calls IH]; intros s0 s w s' F Pw Nw NN Nh Nt; split; intros E; try discriminate.
  - cbn [insert_before] in E. destruct w as [a|].
    + cbn [OP] in Pw. assert (Na : a <> n) by congruence. destruct (lft s a).
      * refine (proj2 (IH s0 s (AvlModel.prv s a) s' F _ _ NN Nh Nt) E); [apply (in_prv P (eq n) s0); auto|apply NN; auto].
      * unfold avl_clear_node, avl_rebalance in E. eapply rebalance_fr; [apply no_none| | |exact E]; [|exact Pw]. clear E.
        assert (O3 : OP P (AvlModel.prv s a)) by (apply (in_prv P (eq n) s0); auto).
        assert (N3 : AvlModel.prv s a <> Some n) by (apply NN; auto).
        cbn [AvlModel.prv set_dep set_rgt set_lft set_nxt set_par set_prv].
        assert (Ea : fset (AvlModel.prv s) n (AvlModel.prv s a) a = AvlModel.prv s a) by (apply fset_other; auto).
        rewrite Ea. destruct (AvlModel.prv s a) as [p|]; cbn [OP] in O3.
        -- assert (p <> n) by congruence.
           apply (fr_done P n); [go2| | | | |]; cbn; unfold fset; rewrite ?Nat.eqb_refl;
             repeat (match goal with |- context [n =? ?z] => destruct (Nat.eqb_spec n z); [exfalso; congruence|] end); cbn; auto.
        -- apply (fr_done P n); [go2| | | | |]; cbn; unfold fset; rewrite ?Nat.eqb_refl;
             repeat (match goal with |- context [n =? ?z] => destruct (Nat.eqb_spec n z); [exfalso; congruence|] end); cbn; auto.
    + destruct (tl_ s) as [t|] eqn:Et; [|eapply insert_top_fr; eauto].
      refine (proj2 (IH s0 s (Some t) s' F _ Nt NN Nh _) E); [|rewrite Et; exact Nt]. destruct F as [(_ & H & _) _]. rewrite Et in H. exact H.
  - cbn [insert_after] in E. destruct w as [a|].
    + cbn [OP] in Pw. assert (Na : a <> n) by congruence. destruct (rgt s a).
      * refine (proj1 (IH s0 s (AvlModel.nxt s a) s' F _ _ NN Nh Nt) E); [apply (in_nxt P (eq n) s0); auto|apply NN; auto].
      * unfold avl_clear_node, avl_rebalance in E. eapply rebalance_fr; [apply no_none| | |exact E]; [|exact Pw]. clear E.
        assert (O3 : OP P (AvlModel.nxt s a)) by (apply (in_nxt P (eq n) s0); auto).
        assert (N3 : AvlModel.nxt s a <> Some n) by (apply NN; auto).
        cbn [AvlModel.nxt set_dep set_rgt set_lft set_nxt set_par set_prv].
        assert (Ea : fset (AvlModel.nxt s) n (AvlModel.nxt s a) a = AvlModel.nxt s a) by (apply fset_other; auto).
        rewrite Ea. destruct (AvlModel.nxt s a) as [p|]; cbn [OP] in O3.
        -- assert (p <> n) by congruence.
           apply (fr_done P n); [go2| | | | |]; cbn; unfold fset; rewrite ?Nat.eqb_refl;
             repeat (match goal with |- context [n =? ?z] => destruct (Nat.eqb_spec n z); [exfalso; congruence|] end); cbn; auto.
        -- apply (fr_done P n); [go2| | | | |]; cbn; unfold fset; rewrite ?Nat.eqb_refl;
             repeat (match goal with |- context [n =? ?z] => destruct (Nat.eqb_spec n z); [exfalso; congruence|] end); cbn; auto.
    + destruct (hd_ s) as [t|] eqn:Et; [|eapply insert_top_fr; eauto].
      refine (proj1 (IH s0 s (Some t) s' F _ Nh NN _ Nt) E); [|rewrite Et; exact Nh]. destruct F as [(H & _) _]. rewrite Et in H. exact H.
Qed.

Lemma holds_fr : forall s xs n, holds s xs -> fr (fun i => i = n \/ In i xs) (eq n) s s.
Proof.
  intros s xs n H. destruct (holds_closed s xs (fun i => i = n \/ In i xs) H) as (A & B & C & D); [auto|].
  apply fr_refl. split; [exact A|]. split; [exact B|]. split; [exact C|]. intros i [->|Hi] N; [now destruct N|auto].
Qed.
Lemma holds_no : forall s xs n, holds s xs -> ~ In n xs ->
  (forall i, i = n \/ In i xs -> i <> n -> AvlModel.nxt s i <> Some n /\ AvlModel.prv s i <> Some n) /\ hd_ s <> Some n /\ tl_ s <> Some n.
Proof.
  intros s xs n H Nn. destruct (holds_closed s xs (fun i => In i xs) H) as (A & B & C & D); [auto|].
  assert (M : forall o, OP (fun i => In i xs) o -> o <> Some n) by (intros [j|] Hj E; inversion E; subst; contradiction).
  split; [|split; apply M; assumption]. intros i [->|Hi] N; [congruence|]. destruct (D i Hi) as (E1 & E2 & _). split; apply M; assumption.
Qed.

Theorem insert_before_other : forall s xs w n s', holds s xs -> (match w with Some a => In a xs | None => True end) -> ~ In n xs ->
  avl_insert_before w n s = Ret s' -> forall i, i <> n -> ~ In i xs -> same_node s s' i.
Proof.
  intros s xs w n s' H Hw Nn E i Hi Ni. destruct (holds_no s xs n H Nn) as (A & B & C).
  destruct (insert_fr (fun i => i = n \/ In i xs) n (or_introl eq_refl) 3 s s w s') as [G _]; auto.
  - apply holds_fr. exact H. - destruct w; cbn; auto. - intros ->. contradiction.
  - apply G in E. destruct E as [_ E]. apply E. intros [|]; contradiction.
Qed.
Theorem insert_after_other : forall s xs w n s', holds s xs -> (match w with Some a => In a xs | None => True end) -> ~ In n xs ->
  avl_insert_after w n s = Ret s' -> forall i, i <> n -> ~ In i xs -> same_node s s' i.
Proof.
  intros s xs w n s' H Hw Nn E i Hi Ni. destruct (holds_no s xs n H Nn) as (A & B & C).
  destruct (insert_fr (fun i => i = n \/ In i xs) n (or_introl eq_refl) 3 s s w s') as [_ G]; auto.
  - apply holds_fr. exact H. - destruct w; cbn; auto. - intros ->. contradiction.
  - apply G in E. destruct E as [_ E]. apply E. intros [|]; contradiction.
Qed.
Theorem insert_top_other : forall s n s', avl_insert_top n s = Ret s' -> forall i, i <> n -> same_node s s' i.
Proof.
  intros s n s' E i Hi. unfold avl_insert_top, avl_clear_node in E. injection E as <-.
  repeat split; cbn; rewrite ?fset_other by auto; reflexivity.
Qed.
Theorem unlink_other : forall s xs a s', holds s xs -> In a xs -> avl_unlink_node a s = Ret s' ->
  forall i, ~ In i xs -> same_node s s' i.
Proof.
  intros s xs a s' H Ha E i Ni. destruct (holds_closed s xs (fun i => In i xs) H) as (A & B & C & D); [auto|].
  assert (F : fr (fun i => In i xs) none s s) by (apply fr_refl; repeat split; auto; intros; apply D; auto).
  apply (unlink_fr _ _ no_none s s a s' F Ha) in E. apply E. exact Ni.
Qed.
