(** One pointer tree of the 3-objective EAF and the list of nodes that models it. *)
From Coq Require Import List ZArith Lia Bool Arith Sorted.
From Verif Require Import Base EafModel EafStoreModel AvlModel AvlSpec AvlProofs AvlRotate AvlOps AvlFrame.
From Verif Require Import Eaf3dModel Eaf3dTrees Eaf3dPtrModel.
Import ListNotations.
Open Scope Z_scope.

(** ** The search *)
Lemma psearch_loop_eq : forall t fuel cmp c s pr n, points_to s t pr (Some n) -> (forall i, In i (inorder t) -> cmp i = Ret (c i)) ->
  psearch_loop fuel cmp s n = search_loop fuel c s n.
Proof.
  induction t as [|l IHl x r IHr]; intros fuel cmp c s pr n P H; [discriminate P|].
  destruct P as (E & _ & _ & Pl & Pr). injection E as <-. destruct fuel as [|fuel]; [reflexivity|]. cbn [psearch_loop search_loop inorder] in *.
  rewrite H by (apply in_or_app; right; left; reflexivity). cbn [bind].
  destruct (c n <? 0); [|destruct (0 <? c n); auto].
  - destruct (lft s n) as [m|]; auto. eapply IHl; eauto. intros i Hi. apply H. apply in_or_app. auto.
  - destruct (rgt s n) as [m|]; auto. eapply IHr; eauto. intros i Hi. apply H. apply in_or_app. right. right. auto.
Qed.
Lemma psearch_eq : forall cmp c s xs, holds s xs -> (forall i, In i xs -> cmp i = Ret (c i)) -> psearch cmp s = avl_search_closest c s.
Proof.
  intros cmp c s xs (_ & (t & It & _ & Pt) & _) H. unfold psearch, avl_search_closest. destruct (tp s) as [n|]; auto.
  rewrite (psearch_loop_eq t FUEL cmp c s None n Pt); auto. rewrite It. exact H.
Qed.

(** a tree is the list [zs] of its nodes: addresses and what the list model says *)
Definition crd (q : node) : xyz := (nx q, ny q, nz q).
Definition items_ok (it : nat -> option xyz) (zs : list (nat * node)) : Prop := forall a q, In (a, q) zs -> it a = Some (crd q).
Definition xs_of (zs : list (nat * node)) : list nat := map fst zs.
Definition t_of (zs : list (nat * node)) : list node := map snd zs.

Lemma sorted_split : forall A (Rr : A -> A -> Prop) u a v b w, StronglySorted Rr (u ++ a :: v ++ b :: w) -> Rr a b.
Proof.
  induction u as [|x u IH]; intros a v b w H; cbn in H; inversion H; subst.
  - rewrite Forall_forall in H3. apply H3. apply in_or_app. right. left. reflexivity.
  - eapply IH; eauto.
Qed.

Lemma zsearch : forall (zs : list (nat * node)) s cmp (f : node -> Z),
  holds s (xs_of zs) -> allocatable (xs_of zs) -> (forall a q, In (a, q) zs -> cmp a = Ret (f q)) ->
  StronglySorted (fun p q => Z.sgn (f q) <= Z.sgn (f p)) (t_of zs) -> zs <> [] ->
  exists zw a q zy c, zs = zw ++ (a, q) :: zy /\ psearch cmp s = Ret (Some a, c) /\
    ((c = 0 /\ f q = 0) \/
     (c = -1 /\ (forall p, In p (t_of zw) -> f p > 0) /\ f q < 0 /\ (forall p, In p (t_of zy) -> f p < 0)) \/
     (c = 1 /\ (forall p, In p (t_of zw) -> f p > 0) /\ f q > 0 /\ (forall p, In p (t_of zy) -> f p < 0))).
Proof.
  intros zs s cmp f H Al Hc So Ne.
  set (c := fun a => match cmp a with Ret z => z | _ => 0 end).
  assert (Ec : forall a q, In (a, q) zs -> c a = f q) by (intros a q Hi; unfold c; rewrite (Hc a q Hi); reflexivity).
  assert (Ei : forall i, In i (xs_of zs) -> cmp i = Ret (c i)).
  { intros i Hi. apply in_map_iff in Hi. destruct Hi as ([a q] & <- & Hi). cbn. rewrite (Ec a q Hi). apply Hc. exact Hi. }
  rewrite (psearch_eq cmp c s (xs_of zs) H Ei).
  assert (O : ordered c (xs_of zs)).
  { intros ws a ys b us E. unfold xs_of in E.
    apply map_eq_app in E. destruct E as (z1 & z2 & -> & <- & E).
    destruct z2 as [|[a' p] z2]; [discriminate|]. cbn in E. injection E as -> E.
    apply map_eq_app in E. destruct E as (z3 & z4 & -> & <- & E).
    destruct z4 as [|[b' q] z4]; [discriminate|]. cbn in E. injection E as -> _.
    rewrite (Ec a p), (Ec b q).
    - unfold t_of in So. rewrite map_app in So. cbn in So. rewrite map_app in So. cbn in So. eapply sorted_split in So. exact So.
    - apply in_or_app. right. right. apply in_or_app. right. left. reflexivity.
    - apply in_or_app. right. left. reflexivity. }
  destruct (search_ok c s (xs_of zs) H Al O) as [[K _]|(m & r & E & ws & ys & Ex & C)].
  { unfold xs_of in K. apply map_eq_nil in K. contradiction. }
  unfold xs_of in Ex. apply map_eq_app in Ex. destruct Ex as (zw & z2 & -> & <- & Ex).
  destruct z2 as [|[m' q] zy]; [discriminate|]. cbn in Ex. injection Ex as -> <-.
  exists zw, m, q, zy, r. split; auto. split; auto.
  assert (Eq : c m = f q) by (apply Ec; apply in_or_app; right; left; reflexivity).
  assert (G1 : Forall (fun i => c i > 0) (map fst zw) -> forall p, In p (t_of zw) -> f p > 0).
  { intros F p Hp. apply in_map_iff in Hp. destruct Hp as ([b p'] & <- & Hp). cbn. rewrite <- (Ec b p') by (apply in_or_app; left; exact Hp).
    rewrite Forall_forall in F. apply F. apply in_map_iff. exists (b, p'). auto. }
  assert (G2 : Forall (fun i => c i < 0) (map fst zy) -> forall p, In p (t_of zy) -> f p < 0).
  { intros F p Hp. apply in_map_iff in Hp. destruct Hp as ([b p'] & <- & Hp). cbn. rewrite <- (Ec b p') by (apply in_or_app; right; right; exact Hp).
    rewrite Forall_forall in F. apply F. apply in_map_iff. exists (b, p'). auto. }
  rewrite Eq in C. destruct C as [C|[((C1 & C2) & C3 & C4)|((C1 & C2) & C3 & C4)]]; [left|right; left|right; right]; auto.
Qed.

Lemma stair_split : forall u q v, stair (u ++ q :: v) -> (forall p, In p u -> step2 p q) /\ (forall p, In p v -> step2 q p).
Proof.
  intros u q v H. apply stair_app_inv in H. destruct H as (_ & H2 & H3). split.
  - intros p Hp. apply H3; auto. now left. - apply stair_inv in H2. apply H2.
Qed.
Lemma sorted_impl : forall A (R1 R2 : A -> A -> Prop) l, (forall a b, R1 a b -> R2 a b) -> StronglySorted R1 l -> StronglySorted R2 l.
Proof. intros A R1 R2 l H S. induction S; constructor; auto. eapply Forall_impl; [|eassumption]. auto. Qed.

Lemma cmp_asc_sgn : forall a b, cmp_asc a b = Z.sgn (a - b).
Proof. intros. unfold cmp_asc. destruct (Z.ltb_spec a b), (Z.ltb_spec b a); destruct (a - b) eqn:E; cbn; lia. Qed.
Lemma sgn_pos : forall z, Z.sgn z > 0 <-> z > 0. Proof. destruct z; cbn; lia. Qed.
Lemma sgn_neg : forall z, Z.sgn z < 0 <-> z < 0. Proof. destruct z; cbn; lia. Qed.

Lemma linked_mid : forall s u a v, linked s None (u ++ a :: v) None -> AvlModel.prv s a = last_error u /\ AvlModel.nxt s a = hd_error v.
Proof.
  intros s u a v H. apply linked_at in H. destruct H as [A B]. rewrite A, B. split.
  - unfold last_or. destruct (last_error u); reflexivity. - unfold first_or. destruct v; reflexivity.
Qed.
Lemma holds_mid : forall m h u a v, holds (view m h) (u ++ a :: v) -> AvlModel.prv m a = last_error u /\ AvlModel.nxt m a = hd_error v.
Proof. intros m h u a v (_ & _ & _ & _ & L). apply linked_mid in L. exact L. Qed.

(** find_left on a list split where the search stops *)
Lemma find_left_app : forall u v x cur, (forall p, In p u -> nx p <= x) -> (match v with [] => True | b :: _ => x < nx b end) ->
  find_left_from (u ++ v) x cur = match rev u with [] => cur | p :: _ => Some p end.
Proof.
  induction u as [|a u IH]; intros v x cur Hu Hv; cbn [app find_left_from].
  - destruct v as [|b v]; auto. cbn. destruct (Z.leb_spec (nx b) x); auto. lia.
  - destruct (Z.leb_spec (nx a) x) as [_|L]; [|specialize (Hu a (or_introl eq_refl)); lia].
    rewrite IH; auto. 2:{ intros p Hp. apply Hu. now right. } cbn [rev]. destruct (rev u); reflexivity.
Qed.

Section OneTree.
Variables (st : pst) (h : hdr) (zs : list (nat * node)).
Hypothesis H : holds (view (mem st) h) (xs_of zs).
Hypothesis Al : allocatable (xs_of zs).
Hypothesis It : items_ok (item st) zs.
Hypothesis St : stair (t_of zs).

Lemma pt_ok : forall a q, In (a, q) zs -> pt st a = Ret (crd q).
Proof. intros a q Hi. unfold pt. rewrite (It a q Hi). reflexivity. Qed.

Lemma search_x : forall x, zs <> [] ->
  exists zw a q zy c, zs = zw ++ (a, q) :: zy /\ psearch (cmp_x st x) (view (mem st) h) = Ret (Some a, c) /\
    ((c = 0 /\ nx q = x) \/
     (c = -1 /\ (forall p, In p (t_of zw) -> nx p < x) /\ x < nx q) \/
     (c = 1 /\ nx q < x /\ (forall p, In p (t_of zy) -> x < nx p))).
Proof.
  intros x Ne. destruct (zsearch zs (view (mem st) h) (cmp_x st x) (fun q => cmp_asc x (nx q)) H Al) as (zw & a & q & zy & c & E & Es & C); auto.
  - intros a q Hi. unfold cmp_x. rewrite (pt_ok a q Hi). reflexivity.
  - eapply sorted_impl; [|exact St]. intros p q [L _]. rewrite !cmp_asc_sgn. destruct (x - nx p) eqn:E1, (x - nx q) eqn:E2; cbn; lia.
  - exists zw, a, q, zy, c. split; auto. split; auto. rewrite cmp_asc_sgn in C.
    destruct C as [[-> C]|[(-> & C1 & C2 & C3)|(-> & C1 & C2 & C3)]].
    + left. split; auto. destruct (x - nx q) eqn:E1; cbn in C; lia.
    + right. left. split; auto. apply sgn_neg in C2. split; [|lia]. intros p Hp. specialize (C1 p Hp). rewrite cmp_asc_sgn in C1. apply sgn_pos in C1. lia.
    + right. right. split; auto. apply sgn_pos in C2. split; [lia|]. intros p Hp. specialize (C3 p Hp). rewrite cmp_asc_sgn in C3. apply sgn_neg in C3. lia.
Qed.
Lemma search_y : forall y, zs <> [] ->
  exists zw a q zy c, zs = zw ++ (a, q) :: zy /\ psearch (cmp_y st y) (view (mem st) h) = Ret (Some a, c) /\
    ((c = 0 /\ ny q = y) \/
     (c = -1 /\ (forall p, In p (t_of zw) -> y < ny p) /\ ny q < y) \/
     (c = 1 /\ y < ny q /\ (forall p, In p (t_of zy) -> ny p < y))).
Proof.
  intros y Ne. destruct (zsearch zs (view (mem st) h) (cmp_y st y) (fun q => cmp_asc (ny q) y) H Al) as (zw & a & q & zy & c & E & Es & C); auto.
  - intros a q Hi. unfold cmp_y. rewrite (pt_ok a q Hi). reflexivity.
  - eapply sorted_impl; [|exact St]. intros p q [_ L]. rewrite !cmp_asc_sgn. destruct (ny p - y) eqn:E1, (ny q - y) eqn:E2; cbn; lia.
  - exists zw, a, q, zy, c. split; auto. split; auto. rewrite cmp_asc_sgn in C.
    destruct C as [[-> C]|[(-> & C1 & C2 & C3)|(-> & C1 & C2 & C3)]].
    + left. split; auto. destruct (ny q - y) eqn:E1; cbn in C; lia.
    + right. left. split; auto. apply sgn_neg in C2. split; [|lia]. intros p Hp. specialize (C1 p Hp). rewrite cmp_asc_sgn in C1. apply sgn_pos in C1. lia.
    + right. right. split; auto. apply sgn_pos in C2. split; [lia|]. intros p Hp. specialize (C3 p Hp). rewrite cmp_asc_sgn in C3. apply sgn_neg in C3. lia.
Qed.

Lemma zs_mid : forall zw a q zy, zs = zw ++ (a, q) :: zy ->
  AvlModel.prv (mem st) a = last_error (xs_of zw) /\ AvlModel.nxt (mem st) a = hd_error (xs_of zy).
Proof. intros zw a q zy E. pose proof H as H'. rewrite E in H'. unfold xs_of in H'. rewrite map_app in H'. cbn in H'. apply holds_mid in H'. exact H'. Qed.

Lemma snoc_cases : forall A (l : list A), l = [] \/ exists l' x, l = l' ++ [x].
Proof. intros A l. destruct l as [|a l]; auto. right. exists (removelast (a :: l)), (last (a :: l) a). apply app_removelast_last. discriminate. Qed.

(** find_point_at_left *)
Lemma at_left_ok : forall x q, find_point_at_left (t_of zs) x = Ret q ->
  exists zw a zy, zs = zw ++ (a, q) :: zy /\ p_at_left st h x = Ret a.
Proof.
  intros x q F. assert (Ne : zs <> []) by (intros ->; discriminate F).
  destruct (search_x x Ne) as (zw & a & p & zy & c & E & Es & C). unfold p_at_left. rewrite Es. cbn [bind fst snd deref].
  destruct (zs_mid zw a p zy E) as [Hp Hn].
  assert (S' : stair (t_of zw ++ p :: t_of zy)) by (pose proof St as S'; rewrite E in S'; unfold t_of in S'; rewrite map_app in S'; exact S').
  destruct (stair_split _ _ _ S') as [A1 A2].
  unfold find_point_at_left in F. rewrite E in F. unfold t_of in F. rewrite map_app in F. cbn [map snd] in F. fold (t_of zw) (t_of zy) in F.
  destruct C as [[-> C]|[(-> & C1 & C2)|(-> & C1 & C2)]].
  - exists zw, a, zy. cbn. split; auto. replace (t_of zw ++ p :: t_of zy) with ((t_of zw ++ [p]) ++ t_of zy) in F by (rewrite <- app_assoc; reflexivity).
    rewrite find_left_app in F. rewrite rev_unit in F. injection F as <-. exact E.
    + intros r Hr. apply in_app_or in Hr. destruct Hr as [Hr|[<-|[]]]; [destruct (A1 r Hr); lia|lia].
    + destruct (t_of zy) as [|b v]; auto. destruct (A2 b (or_introl eq_refl)). lia.
  - cbn. rewrite find_left_app in F; [| |cbn; lia]. 2:{ intros r Hr. specialize (C1 r Hr). lia. }
    destruct (snoc_cases _ zw) as [->|(zw' & [b r] & ->)]; [discriminate F|].
    unfold t_of in F. rewrite map_app in F. cbn [map snd] in F. rewrite rev_unit in F. injection F as <-.
    exists zw', b, ((a, p) :: zy). rewrite Hp. unfold xs_of. rewrite map_app. cbn [map fst]. rewrite last_error_snoc. cbn [deref]. split; auto.
    rewrite E, <- app_assoc. reflexivity.
  - exists zw, a, zy. cbn. split; auto. replace (t_of zw ++ p :: t_of zy) with ((t_of zw ++ [p]) ++ t_of zy) in F by (rewrite <- app_assoc; reflexivity).
    rewrite find_left_app in F. rewrite rev_unit in F. injection F as <-. exact E.
    + intros r Hr. apply in_app_or in Hr. destruct Hr as [Hr|[<-|[]]]; [destruct (A1 r Hr); lia|lia].
    + destruct (t_of zy) as [|b v]; auto. apply C2. now left.
Qed.

(** find_point_below *)
Lemma find_below_app : forall u b v y, (forall p, In p u -> y <= ny p) -> ny b < y -> find_point_below (u ++ b :: v) y = Ret b.
Proof.
  induction u as [|a u IH]; intros b v y Hu Hb; cbn.
  - destruct (Z.ltb_spec (ny b) y); auto. lia.
  - destruct (Z.ltb_spec (ny a) y) as [L|_]; [specialize (Hu a (or_introl eq_refl)); lia|]. apply IH; auto. intros p Hp. apply Hu. now right.
Qed.
Lemma find_below_none : forall u y, (forall p, In p u -> y <= ny p) -> find_point_below u y = OutOfBounds.
Proof.
  induction u as [|a u IH]; intros y Hu; cbn; auto.
  destruct (Z.ltb_spec (ny a) y) as [L|_]; [specialize (Hu a (or_introl eq_refl)); lia|]. apply IH. intros p Hp. apply Hu. now right.
Qed.
Lemma below_ok : forall y q, find_point_below (t_of zs) y = Ret q ->
  exists zw a zy, zs = zw ++ (a, q) :: zy /\ p_below st h y = Ret a.
Proof.
  intros y q F. assert (Ne : zs <> []) by (intros ->; discriminate F).
  destruct (search_y y Ne) as (zw & a & p & zy & c & E & Es & C). unfold p_below. rewrite Es. cbn [bind fst snd deref].
  destruct (zs_mid zw a p zy E) as [Hp Hn].
  assert (S' : stair (t_of zw ++ p :: t_of zy)) by (pose proof St as S'; rewrite E in S'; unfold t_of in S'; rewrite map_app in S'; exact S').
  destruct (stair_split _ _ _ S') as [A1 A2].
  rewrite E in F. unfold t_of in F. rewrite map_app in F. cbn [map snd] in F. fold (t_of zw) (t_of zy) in F.
  assert (Nxt : y <= ny p -> (match t_of zy with [] => True | b :: _ => ny b < y end) ->
     exists zw' a' zy', zs = zw' ++ (a', q) :: zy' /\ deref (AvlModel.nxt (mem st) a) = Ret a').
  { intros L1 L2. destruct zy as [|[b r] zy].
    - exfalso. rewrite find_below_none in F; [discriminate|]. intros r Hr. apply in_app_or in Hr. destruct Hr as [Hr|[<-|[]]]; auto. destruct (A1 r Hr). lia.
    - cbn [t_of map snd] in *. replace (t_of zw ++ p :: r :: map snd zy) with ((t_of zw ++ [p]) ++ r :: map snd zy) in F by (rewrite <- app_assoc; reflexivity).
      rewrite find_below_app in F; auto.
      + injection F as <-. exists (zw ++ [(a, p)]), b, zy. rewrite Hn. cbn. split; auto. rewrite E, <- app_assoc. reflexivity.
      + intros r' Hr. apply in_app_or in Hr. destruct Hr as [Hr|[<-|[]]]; auto. destruct (A1 r' Hr). lia. }
  destruct C as [[-> C]|[(-> & C1 & C2)|(-> & C1 & C2)]]; cbn.
  - apply Nxt; [lia|]. destruct (t_of zy) as [|b v]; auto. destruct (A2 b (or_introl eq_refl)). lia.
  - rewrite find_below_app in F; auto. { injection F as <-. exists zw, a, zy. auto. } intros r Hr. specialize (C1 r Hr). lia.
  - apply Nxt; [lia|]. destruct (t_of zy) as [|b v]; auto. apply C2. now left.
Qed.

(** node->next *)
Lemma t_of_app : forall u v, t_of (u ++ v) = t_of u ++ t_of v. Proof. intros. apply map_app. Qed.
Lemma xs_of_app : forall u v, xs_of (u ++ v) = xs_of u ++ xs_of v. Proof. intros. apply map_app. Qed.
Lemma next_of_app : forall u q v, ~ In q u -> next_of (u ++ q :: v) q = match v with b :: _ => Ret b | [] => OutOfBounds end.
Proof.
  induction u as [|a u IH]; intros q v N; cbn.
  - rewrite node_eqb_refl. reflexivity.
  - destruct (node_eqb a q) eqn:E; [apply node_eqb_iff in E; subst; destruct N; now left|]. apply IH. intros Hi. apply N. now right.
Qed.
Lemma not_before : forall u q v, stair (u ++ q :: v) -> ~ In q u.
Proof. intros u q v S Hi. apply stair_split in S. destruct S as [S _]. destruct (S q Hi). lia. Qed.
Lemma next_ok : forall zw a q zy q', zs = zw ++ (a, q) :: zy -> next_of (t_of zs) q = Ret q' ->
  exists a' zy', zy = (a', q') :: zy' /\ AvlModel.nxt (mem st) a = Some a'.
Proof.
  intros zw a q zy q' E N. destruct (zs_mid zw a q zy E) as [_ Hn]. pose proof St as S. rewrite E in S, N. rewrite t_of_app in S, N.
  cbn [t_of map snd] in S, N. fold (t_of zy) in S, N. rewrite next_of_app in N by (eapply not_before; eauto).
  destruct zy as [|[b r] zy]; cbn [t_of map snd] in N; [discriminate|]. injection N as <-. exists b, zy. split; auto.
Qed.
End OneTree.
