(** Lemmas about the staircase trees of the 3-objective EAF model. *)
From Coq Require Import List ZArith Lia Bool Arith Sorted Permutation.
From Verif Require Import Base Eaf3dModel.
Import ListNotations.
Open Scope Z_scope.

Definition step2 (a b : node) : Prop := nx a < nx b /\ ny b < ny a.
Definition stair (t : list node) : Prop := StronglySorted step2 t.

Lemma node_eqb_iff : forall a b, node_eqb a b = true <-> a = b.
Proof.
  intros [a1 a2 a3 a4] [b1 b2 b3 b4]. unfold node_eqb; cbn [nx ny nz nid]. rewrite !andb_true_iff, !Z.eqb_eq.
  assert (I : id_eqb a4 b4 = true <-> a4 = b4).
  { destruct a4, b4; cbn; try (split; congruence). rewrite Nat.eqb_eq. split; congruence. }
  rewrite I. split.
  - intros [[[-> ->] ->] ->]. auto.
  - intros H. inversion H. auto.
Qed.
Lemma node_eqb_refl : forall a, node_eqb a a = true.
Proof. intros. now apply node_eqb_iff. Qed.
Lemma node_eq_dec : forall a b : node, {a = b} + {a <> b}.
Proof.
  intros. destruct (node_eqb a b) eqn:E. left; now apply node_eqb_iff.
  right; intros ->. rewrite node_eqb_refl in E. discriminate.
Qed.

Lemma stair_inv : forall a t, stair (a :: t) -> stair t /\ forall q, In q t -> step2 a q.
Proof. intros a t H. inversion H; subst. split; auto. now apply Forall_forall. Qed.

Lemma stair_cmp : forall t p q, stair t -> In p t -> In q t -> p = q \/ step2 p q \/ step2 q p.
Proof.
  induction t as [|a t IH]; intros p q H Hp Hq. contradiction.
  apply stair_inv in H. destruct H as [H1 H2]. destruct Hp as [->|Hp], Hq as [->|Hq]; auto.
Qed.
Lemma stair_x : forall t p q, stair t -> In p t -> In q t -> nx p < nx q -> ny q < ny p.
Proof. intros t p q H Hp Hq L. destruct (stair_cmp t p q H Hp Hq) as [->|[[]|[]]]; lia. Qed.
Lemma stair_y : forall t p q, stair t -> In p t -> In q t -> ny q < ny p -> nx p < nx q.
Proof. intros t p q H Hp Hq L. destruct (stair_cmp t p q H Hp Hq) as [->|[[]|[]]]; lia. Qed.
Lemma stair_eq_y : forall t p q, stair t -> In p t -> In q t -> ny p = ny q -> p = q.
Proof. intros t p q H Hp Hq L. destruct (stair_cmp t p q H Hp Hq) as [->|[[]|[]]]; auto; lia. Qed.
Lemma stair_eq_x : forall t p q, stair t -> In p t -> In q t -> nx p = nx q -> p = q.
Proof. intros t p q H Hp Hq L. destruct (stair_cmp t p q H Hp Hq) as [->|[[]|[]]]; auto; lia. Qed.
Lemma stair_NoDup : forall t, stair t -> NoDup t.
Proof.
  induction t as [|a t IH]; intros H; constructor.
  - intros I. apply stair_inv in H. destruct H as [_ H]. destruct (H a I). lia.
  - apply IH. now apply stair_inv in H.
Qed.
Lemma stair_app : forall a b, stair a -> stair b -> (forall p q, In p a -> In q b -> step2 p q) -> stair (a ++ b).
Proof. intros. now apply StronglySorted_app. Qed.
Lemma stair_app_inv : forall a b, stair (a ++ b) -> stair a /\ stair b /\ forall p q, In p a -> In q b -> step2 p q.
Proof. intros. now apply StronglySorted_app_inv. Qed.

(** ** Searches *)
Lemma find_left_spec : forall t x cur, stair t -> forall r, find_left_from t x cur = r ->
  (exists q, r = Some q /\ In q t /\ nx q <= x /\ forall p, In p t -> nx p <= x -> p = q \/ nx p < nx q) \/
  (r = cur /\ forall p, In p t -> x < nx p).
Proof.
  induction t as [|a t IH]; intros x cur H r E; cbn in E.
  - right. split; auto. intros p [].
  - apply stair_inv in H. destruct H as [H1 H2]. destruct (Z.leb_spec (nx a) x).
    + destruct (IH x (Some a) H1 r E) as [(q & -> & Iq & Lq & Hq)|[-> Hn]].
      * left. exists q. repeat split; auto. now right. intros p [->|Hp] L; auto. right. apply (H2 q Iq).
      * left. exists a. repeat split; auto. now left. intros p [->|Hp] L; auto. specialize (Hn p Hp). lia.
    + right. split; auto. intros p [->|Hp]; auto. destruct (H2 p Hp). lia.
Qed.

(** [q] is the first node of [t] with y < Y *)
Definition first_below (t : list node) (Y : Z) (q : node) : Prop :=
  In q t /\ ny q < Y /\ forall r, In r t -> ny r < Y -> r = q \/ ny r < ny q.

Lemma first_below_exists : forall t Y, stair t -> (exists r, In r t /\ ny r < Y) ->
  exists q, find_point_below t Y = Ret q /\ first_below t Y q.
Proof.
  induction t as [|a t IH]; intros Y H (r & Hr & Lr). contradiction.
  apply stair_inv in H. destruct H as [H1 H2]. cbn. destruct (Z.ltb_spec (ny a) Y).
  - exists a. split; auto. split. now left. split; auto. intros p [->|Hp] L; auto. right. apply (H2 p Hp).
  - destruct Hr as [->|Hr]. lia. destruct (IH Y H1) as (q & E & I & L & F). eauto.
    exists q. split; auto. split. now right. split; auto. intros p [->|Hp] L'. lia. auto.
Qed.

Lemma next_of_spec : forall t q, stair t -> In q t -> (exists r, In r t /\ ny r < ny q) ->
  exists q', next_of t q = Ret q' /\ first_below t (ny q) q'.
Proof.
  induction t as [|a t IH]; intros q H Hq (r & Hr & Lr). contradiction.
  apply stair_inv in H. destruct H as [H1 H2]. cbn. destruct (node_eqb a q) eqn:E.
  - apply node_eqb_iff in E. subst a. destruct Hr as [->|Hr]. lia.
    destruct t as [|b t]. contradiction. exists b. split; auto. destruct (H2 b (or_introl eq_refl)) as [_ Lb].
    split. right; now left. split; auto. intros p [->|[->|Hp]] L; auto. lia.
    right. apply stair_inv in H1. apply (proj2 H1 p Hp).
  - destruct Hq as [->|Hq]. { rewrite node_eqb_refl in E. discriminate. }
    destruct Hr as [->|Hr]. { destruct (H2 q Hq). lia. }
    destruct (IH q H1 Hq) as (q' & E' & I & L & F). eauto. exists q'. split; auto.
    split. now right. split; auto. intros p [->|Hp] L'; auto. destruct (H2 q Hq). lia.
Qed.

Lemma first_below_unique : forall t Y p q, stair t -> first_below t Y p -> first_below t Y q -> p = q.
Proof.
  intros t Y p q H (I1 & L1 & F1) (I2 & L2 & F2). destruct (F1 q I2 L2) as [->|]; auto.
  destruct (F2 p I1 L1) as [->|]; auto. lia.
Qed.

(** the nodes with y < Y are the same *)
Definition agree (Y : Z) (t t' : list node) : Prop := forall q, ny q < Y -> (In q t <-> In q t').

Lemma agree_refl : forall Y t, agree Y t t.
Proof. intros Y t q _. tauto. Qed.
Lemma agree_weaken : forall Y Y' t t', agree Y t t' -> Y' <= Y -> agree Y' t t'.
Proof. intros Y Y' t t' H L q Hq. apply H. lia. Qed.
Lemma first_below_agree : forall Y Y' t t' q, agree Y t t' -> Y' <= Y -> first_below t Y' q -> first_below t' Y' q.
Proof.
  intros Y Y' t t' q A L (I & B & F). split. apply A; auto; lia. split; auto.
  intros r Hr Br. apply F; auto. apply A; auto; lia.
Qed.

Section WithBounds.
Variables lo hi : Z.

Definition real (q : node) : Prop := nx q < hi /\ ny q < hi.
Definition below2 (q : node) (a b : Z) : Prop := nx q <= a /\ ny q <= b.
(** the locations weakly dominated by the real nodes *)
Definition reg (t : list node) (a b : Z) : Prop := exists q, In q t /\ real q /\ below2 q a b.
Definition inside (q : node) : Prop := lo < nx q < hi /\ lo < ny q < hi.

Definition wft (t : list node) : Prop :=
  stair t /\ (exists h, In h t /\ nx h = lo /\ ny h = hi) /\ (exists l, In l t /\ nx l = hi /\ ny l = lo) /\
  forall q, In q t -> (nx q = lo /\ ny q = hi) \/ (nx q = hi /\ ny q = lo) \/ inside q.

Lemma reg_mono : forall t a b a' b', reg t a b -> a <= a' -> b <= b' -> reg t a' b'.
Proof. intros t a b a' b' (q & I & R & [B1 B2]) L1 L2. exists q. repeat split; auto; try apply R; lia. Qed.

Lemma wft_bounds : forall t q, wft t -> In q t -> lo <= hi -> lo <= nx q <= hi /\ lo <= ny q <= hi.
Proof. intros t q (_ & _ & _ & H) Hq L. destruct (H q Hq) as [[]|[[]|[]]]; lia. Qed.

Lemma find_left_ok : forall t x, wft t -> lo <= x -> exists q, find_point_at_left t x = Ret q /\
  In q t /\ nx q <= x /\ forall p, In p t -> nx p <= x -> p = q \/ (nx p < nx q /\ ny q < ny p).
Proof.
  intros t x (S & (h & Hh & Xh & Yh) & _ & _) L. unfold find_point_at_left.
  destruct (find_left_spec t x None S _ eq_refl) as [(q & -> & I & Lq & F)|[_ Hn]].
  - exists q. split; auto. split; auto. split; auto. intros p Hp Lp. destruct (F p Hp Lp) as [|K]; auto.
    right. split; auto. eapply stair_x; eauto.
  - specialize (Hn h Hh). lia.
Qed.

Lemma span_app : forall f t, let '(p, s) := span f t in
  t = p ++ s /\ (forall q, In q p -> f q = true) /\ match s with [] => True | a :: _ => f a = false end.
Proof.
  induction t as [|a t IH]; cbn. { repeat split; auto; intros q []. }
  destruct (f a) eqn:E.
  - destruct (span f t) as [p s]. destruct IH as (-> & F & Hs). repeat split; auto. intros q [<-|Hq]; auto.
  - repeat split; auto; intros q [].
Qed.

Lemma remove_left_spec : forall r item, (exists h, In h r /\ nx h < nx item) ->
  exists pop rest, r = pop ++ rest /\ (forall q, In q pop -> nx item <= nx q) /\
    (match rest with [] => False | a :: _ => nx a < nx item end) /\
    remove_left r item = Ret (rest, filter (fun a => nz a <? nz item) pop, filter (fun a => negb (nz a <? nz item)) pop).
Proof.
  induction r as [|a r IH]; intros item (h & Hh & Lh). contradiction. cbn.
  destruct (Z.leb_spec (nx item) (nx a)).
  - destruct Hh as [->|Hh]. lia. destruct (IH item) as (pop & rest & -> & P & Q & E). eauto.
    exists (a :: pop), rest. split; auto. split. { intros q [<-|Hq]; auto. } split; auto.
    rewrite E. cbn. destruct (nz a <? nz item); auto.
  - exists [], (a :: r). repeat split; auto; intros q [].
Qed.

(** ** add2level *)
Lemma add2level_spec : forall t o item, lo < hi -> wft t -> inside item ->
  exists t' rem ins, add2level t o item = Ret (t', o ++ rem, ins) /\ wft t' /\
    (forall q, In q t' -> In q t \/ (q = item /\ ~ reg t (nx item) (ny item))) /\
    (forall q, In q t -> In q t' \/ (below2 item (nx q) (ny q) /\ real q /\ (nz q < nz item -> In q rem))) /\
    reg t' (nx item) (ny item) /\
    NoDup rem /\ (forall q, In q rem -> In q t /\ ~ In q t' /\ real q /\ nz q < nz item) /\
    match ins with
    | None => t' = t /\ rem = []
    | Some d => In item t' /\ ~ reg t (nx item) (ny item) /\ NoDup d /\
        (forall q, In q d -> In q t /\ ~ In q t' /\ real q /\ nz item <= nz q /\ below2 item (nx q) (ny q)) /\
        (forall q, In q t -> In q t' \/ In q rem \/ In q d)
    end.
Proof.
  intros t o item LH W I. unfold add2level.
  pose proof (span_app (before item) t) as Sp. destruct (span (before item) t) as [pre post].
  destruct Sp as (Et & Pre & Post). destruct W as (S & (h & Hh & Xh & Yh) & (l & Hl & Xl & Yl) & Al).
  destruct I as [Ix Iy].
  assert (Sa : stair (pre ++ post)) by now rewrite <- Et.
  destruct (stair_app_inv _ _ Sa) as (S1 & S2 & S12).
  assert (PreY : forall q, In q pre -> ny item < ny q \/ (ny q = ny item /\ nx item < nx q)).
  { intros q Hq. specialize (Pre q Hq). unfold before in Pre. apply orb_true_iff in Pre. destruct Pre as [P|P].
    - left. now apply Z.ltb_lt. - right. apply andb_true_iff in P. rewrite Z.eqb_eq, Z.ltb_lt in P. tauto. }
  assert (Post1 : forall a post', post = a :: post' -> ny a <= ny item /\ (ny a = ny item -> nx a <= nx item)).
  { intros a post' ->. unfold before in Post. apply orb_false_iff in Post. destruct Post as [P1 P2].
    apply Z.ltb_ge in P1. split; auto. intros E. apply andb_false_iff in P2. rewrite Z.eqb_neq, Z.ltb_ge in P2. lia. }
  assert (Hpre : In h pre).
  { rewrite Et in Hh. apply in_app_iff in Hh. destruct Hh as [|Hh]; auto. exfalso.
    destruct post as [|a post']. contradiction. destruct (Post1 a post' eq_refl) as [P1 _].
    destruct Hh as [->|Hh]. lia. apply stair_inv in S2. destruct (proj2 S2 h Hh). lia. }
  assert (Hpost : In l post).
  { rewrite Et in Hl. apply in_app_iff in Hl. destruct Hl as [Hl|]; auto. exfalso. destruct (PreY l Hl); lia. }
  destruct pre as [|p0 pre']. contradiction. destruct post as [|aux post']. contradiction.
  destruct (Post1 aux post' eq_refl) as [P1 P2].
  assert (PostX : forall q, In q (aux :: post') -> nx aux <= nx q /\ ny q <= ny aux).
  { intros q [<-|Hq]. lia. apply stair_inv in S2. destruct (proj2 S2 q Hq). lia. }
  set (pre := p0 :: pre') in *. set (post := aux :: post') in *.
  destruct (Z.ltb_spec (nx item) (nx aux)) as [Lx|Gx].
  - destruct (remove_left_spec (rev pre) item) as (pop & rest & Er & Pop & Rest & E).
    { exists h. split; [now apply -> in_rev|lia]. }
    rewrite E. cbn [bind fst snd].
    assert (Ep : pre = rev rest ++ rev pop).
    { rewrite <- (rev_involutive pre), Er, rev_app_distr. auto. }
    assert (S1' : stair (rev rest ++ rev pop)) by now rewrite <- Ep.
    destruct (stair_app_inv _ _ S1') as (T1 & T2 & T12).
    assert (RestX : forall q, In q (rev rest) -> nx q < nx item /\ ny item < ny q).
    { intros q Hq. assert (X : nx q < nx item).
      { destruct rest as [|a rest]. contradiction. cbn in Hq. rewrite in_app_iff in Hq.
        destruct Hq as [Hq|[<-|[]]]; auto. cbn in T1. destruct (stair_app_inv _ _ T1) as (_ & _ & K).
        destruct (K q a Hq (or_introl eq_refl)). lia. }
      split; auto. destruct (PreY q) as [|]; auto. rewrite Ep. apply in_app_iff; auto. lia. }
    assert (PopX : forall q, In q pop -> nx item <= nx q /\ ny item <= ny q).
    { intros q Hq. split. now apply Pop. destruct (PreY q). rewrite Ep. apply in_app_iff. right. now apply -> in_rev. lia. lia. }
    assert (PopIn : forall q, In q pop -> In q t).
    { intros q Hq. rewrite Et, in_app_iff. left. rewrite Ep, in_app_iff. right. now apply -> in_rev. }
    assert (PopR : forall q, In q pop -> real q).
    { intros q Hq. destruct (PopX q Hq). destruct (Al q (PopIn q Hq)) as [[]|[[]|[]]]; unfold real; lia. }
    assert (PostLt : forall q, In q post -> nx item < nx q /\ ny q < ny item).
    { intros q Hq. destruct (PostX q Hq). split. lia. destruct (Z.eq_dec (ny aux) (ny item)). specialize (P2 e). lia. lia. }
    assert (NR : ~ reg t (nx item) (ny item)).
    { intros (q & Iq & Rq & [B1 B2]). rewrite Et, Ep, !in_app_iff in Iq. destruct Iq as [[Iq|Iq]|Iq].
      - destruct (RestX q Iq). lia.
      - destruct (PreY q). rewrite Ep, in_app_iff; auto. lia. lia.
      - destruct (PostLt q Iq). lia. }
    exists (rev rest ++ item :: post), (filter (fun a => nz a <? nz item) pop), (Some (filter (fun a => negb (nz a <? nz item)) pop)). split; auto.
    assert (St : stair (rev rest ++ item :: post)).
    { apply stair_app; auto.
      - constructor; auto. apply Forall_forall. intros q Hq. apply PostLt; auto.
      - intros p q Hp [<-|Hq]. apply RestX; auto. apply S12; auto. rewrite Ep, in_app_iff; auto. }
    assert (Sub : forall q, In q t -> In q (rev rest ++ item :: post) \/ In q pop).
    { intros q Hq. rewrite Et, Ep, !in_app_iff in Hq. rewrite in_app_iff. cbn [In]. rewrite <- (in_rev pop) in Hq. tauto. }
    assert (NotPop : forall q, In q pop -> ~ In q (rev rest ++ item :: post)).
    { intros q Hq K. rewrite in_app_iff in K. destruct K as [K|[<-|K]].
      - destruct (RestX q K), (PopX q Hq). lia.
      - apply NR. exists item. split; auto. split; [now apply PopR|split; lia].
      - destruct (PostLt q K), (PopX q Hq). lia. }
    assert (Sup : forall q, In q (rev rest ++ item :: post) -> In q t \/ q = item).
    { intros q Hq. rewrite in_app_iff in Hq. destruct Hq as [Hq|[<-|Hq]]; auto; left; rewrite Et, Ep, !in_app_iff; auto. }
    split; [|split; [|split; [|split; [|split; [|split]]]]].
    + repeat split; auto.
      * exists h. split; auto. destruct (Sub h Hh) as [|K]; auto. destruct (PopX h K). lia.
      * exists l. split; auto. destruct (Sub l Hl) as [|K]; auto. destruct (PopR l K). lia.
      * intros q Hq. destruct (Sup q Hq) as [K| ->]; auto. right; right. split; auto.
    + intros q Hq. destruct (Sup q Hq); auto.
    + intros q Hq. destruct (Sub q Hq) as [|K]; auto. right. split. apply PopX; auto. split; auto.
      intros Lz. apply filter_In. split; auto. now apply Z.ltb_lt.
    + exists item. split. apply in_app_iff. right; now left. repeat split; lia.
    + apply NoDup_filter. apply NoDup_rev in S1' || idtac.
      rewrite <- (rev_involutive pop). apply NoDup_rev. now apply stair_NoDup.
    + intros q Hq. apply filter_In in Hq. destruct Hq as [Hq Lz]. apply Z.ltb_lt in Lz. repeat split; auto; apply PopR; auto.
    + split. { apply in_app_iff. right; now left. } split; auto. split.
      { apply NoDup_filter. rewrite <- (rev_involutive pop). apply NoDup_rev. now apply stair_NoDup. } split.
      * intros q Hq. apply filter_In in Hq. destruct Hq as [Hq Lz]. apply negb_true_iff, Z.ltb_ge in Lz.
        split; auto. split; auto. split; auto. split; auto. apply PopX; auto.
      * intros q Hq. destruct (Sub q Hq) as [|K]; auto. right. rewrite !filter_In.
        destruct (nz q <? nz item); auto.
  - exists t, [], None. rewrite app_nil_r. split; auto.
    assert (W : wft t) by (repeat split; eauto).
    split; auto. split; auto. split; auto. split.
    + exists aux. split. rewrite Et, in_app_iff. right; now left. split; split; lia.
    + split. constructor. split. intros q []. auto.
Qed.

Lemma add2level_reg : forall t t' item,
  (forall q, In q t' -> In q t \/ (q = item /\ ~ reg t (nx item) (ny item))) ->
  (forall q, In q t -> In q t' \/ (below2 item (nx q) (ny q) /\ real q /\ True)) ->
  reg t' (nx item) (ny item) ->
  forall a b, reg t' a b <-> reg t a b \/ below2 item a b.
Proof.
  intros t t' item H1 H2 H3 a b. split.
  - intros (q & I & R & B). destruct (H1 q I) as [K|[-> _]]; auto. left. exists q. auto.
  - intros [(q & I & R & [B1 B2])|[B1 B2]].
    + destruct (H2 q I) as [K|[[C1 C2] _]]. exists q. repeat split; auto; apply R. eapply reg_mono; eauto; lia.
    + eapply reg_mono; eauto.
Qed.

(** ** add2set *)
Lemma cut_after_spec : forall t q, In q t -> exists pre post, cut_after t q = Ret (pre ++ [q], post) /\ t = pre ++ q :: post.
Proof.
  induction t as [|a t IH]; intros q H. contradiction. cbn. destruct (node_eqb a q) eqn:E.
  - apply node_eqb_iff in E. subst. exists [], t. auto.
  - destruct H as [->|H]. { rewrite node_eqb_refl in E. discriminate. }
    destruct (IH q H) as (pre & post & E1 & ->). rewrite E1. exists (a :: pre), post. auto.
Qed.
Lemma cut_before_spec : forall t q, In q t -> exists pre post, cut_before t q = Ret (pre, q :: post) /\ t = pre ++ q :: post.
Proof.
  induction t as [|a t IH]; intros q H. contradiction. cbn. destruct (node_eqb a q) eqn:E.
  - apply node_eqb_iff in E. subst. exists [], t. auto.
  - destruct H as [->|H]. { rewrite node_eqb_refl in E. discriminate. }
    destruct (IH q H) as (pre & post & E1 & ->). rewrite E1. exists (a :: pre), post. auto.
Qed.
Lemma drop_above_spec : forall t y, stair t -> (exists r, In r t /\ ny r < y) ->
  exists d t', drop_above t y = Ret t' /\ t = d ++ t' /\ (forall q, In q d -> y <= ny q) /\ (forall q, In q t' -> ny q < y).
Proof.
  induction t as [|a t IH]; intros y H (r & Hr & Lr). contradiction. apply stair_inv in H. destruct H as [H1 H2]. cbn.
  destruct (Z.leb_spec y (ny a)).
  - destruct Hr as [->|Hr]. lia. destruct (IH y H1) as (d & t' & E & -> & D & B). eauto.
    exists (a :: d), t'. repeat split; auto. intros q [<-|Hq]; auto.
  - exists [], (a :: t). repeat split; auto. intros q []. intros q [<-|Hq]; auto. destruct (H2 q Hq). lia.
Qed.

Lemma add2set_spec : forall t prev item, lo < hi -> wft t -> inside item -> find_point_at_left t (nx item) = Ret prev ->
  ny item < ny prev ->
  exists t', add2set t prev item = Ret t' /\ wft t' /\
    (forall q, In q t' -> In q t \/ q = item) /\
    (forall q, In q t -> In q t' \/ (below2 item (nx q) (ny q) /\ real q)) /\
    In item t'.
Proof.
  intros t prev item LH W I F Ly. destruct (find_left_ok t (nx item) W) as (q & E & Iq & Lq & Fq). { destruct I. lia. }
  rewrite E in F. inversion F; subst q. clear F E. pose proof W as W0.
  destruct W as (S & (h & Hh & Xh & Yh) & (l & Hl & Xl & Yl) & Al). destruct I as [Ix Iy].
  assert (C : exists pre post0, (if nx prev =? nx item then
          c <- cut_before t prev ;; match fst c with [] => OutOfBounds | _ => Ret c end
        else cut_after t prev) = Ret (pre, post0) /\ t = pre ++ post0 /\
        (forall q, In q pre -> nx q < nx item) /\ (forall q, In q post0 -> nx item <= nx q)).
  { destruct (Z.eqb_spec (nx prev) (nx item)) as [Ex|Ex].
    - destruct (cut_before_spec t prev Iq) as (pre & post & Ec & Et). rewrite Ec. cbn [bind fst].
      assert (S' := S). rewrite Et in S'. destruct (stair_app_inv _ _ S') as (A1 & A2 & A3).
      destruct pre as [|p0 pre'].
      + exfalso. cbn in Et. rewrite Et in Hh. destruct Hh as [<-|Hh]. lia. apply stair_inv in S'. destruct (proj2 S' h Hh). lia.
      + exists (p0 :: pre'), (prev :: post). split; auto. split; auto. split.
        * intros q Hq. destruct (A3 q prev Hq (or_introl eq_refl)). lia.
        * intros q [<-|Hq]. lia. apply stair_inv in A2. destruct (proj2 A2 q Hq). lia.
    - destruct (cut_after_spec t prev Iq) as (pre & post & Ec & Et). rewrite Ec.
      exists (pre ++ [prev]), post. split; auto. split. { rewrite Et, <- app_assoc. auto. }
      assert (S' := S). rewrite Et in S'. destruct (stair_app_inv _ _ S') as (A1 & A2 & A3). split.
      + intros q Hq. apply in_app_iff in Hq. destruct Hq as [Hq|[<-|[]]]. destruct (A3 q prev Hq (or_introl eq_refl)). lia. lia.
      + intros q Hq. apply stair_inv in A2. destruct (Z.le_gt_cases (nx item) (nx q)); auto.
        assert (In q t). { rewrite Et, in_app_iff. right; right; auto. }
        destruct (Fq q H0) as [->|[K _]]. lia. destruct (proj2 A2 prev Hq). lia. destruct (proj2 A2 q Hq). lia. }
  destruct C as (pre & post0 & Ec & Et & Px & Qx). unfold add2set. rewrite Ec. cbn [bind fst snd].
  assert (S' := S). rewrite Et in S'. destruct (stair_app_inv _ _ S') as (A1 & A2 & A3).
  assert (Hl' : In l post0). { rewrite Et, in_app_iff in Hl. destruct Hl as [Hl|]; auto. specialize (Px l Hl). lia. }
  destruct (drop_above_spec post0 (ny item) A2) as (d & post & Ed & Ep & Dd & Dp). { exists l. split; auto. lia. }
  rewrite Ed. cbn [bind]. exists (pre ++ item :: post). split; auto.
  assert (PreY : forall q, In q pre -> ny item < ny q).
  { intros q Hq. assert (In q t) by (rewrite Et, in_app_iff; auto).
    destruct (Fq q H) as [->|[_ K]]; auto. specialize (Px q Hq). lia. lia. }
  assert (PostX : forall q, In q post -> nx item < nx q).
  { intros q Hq. assert (Iq0 : In q post0) by (rewrite Ep, in_app_iff; auto). specialize (Qx q Iq0). specialize (Dp q Hq).
    assert (In q t) by (rewrite Et, in_app_iff; auto).
    destruct (Z.eq_dec (nx q) (nx item)) as [Ex|]; [|lia]. exfalso.
    destruct (Fq q H) as [->|[_ K]]; lia. }
  assert (Sup : forall q, In q (pre ++ item :: post) -> In q t \/ q = item).
  { intros q Hq. rewrite in_app_iff in Hq. destruct Hq as [Hq|[<-|Hq]]; auto; left; rewrite Et, in_app_iff; auto.
    right. rewrite Ep, in_app_iff; auto. }
  assert (Sub : forall q, In q t -> In q (pre ++ item :: post) \/ In q d).
  { intros q Hq. rewrite Et, Ep, !in_app_iff in Hq. rewrite in_app_iff. cbn [In]. tauto. }
  assert (Dr : forall q, In q d -> below2 item (nx q) (ny q) /\ real q).
  { intros q Hq. assert (Iq0 : In q post0) by (rewrite Ep, in_app_iff; auto). specialize (Dd q Hq). specialize (Qx q Iq0).
    split. split; auto. assert (In q t) by (rewrite Et, in_app_iff; auto). destruct (Al q H) as [[]|[[]|[]]]; unfold real; lia. }
  split; [|split; [|split]].
  - repeat split.
    + apply stair_app; auto.
      * rewrite Ep in A2. destruct (stair_app_inv _ _ A2) as (_ & A2' & _). constructor; auto. apply Forall_forall. intros q Hq. split; auto.
      * intros p q Hp [<-|Hq]. split; auto. apply A3; auto. rewrite Ep, in_app_iff; auto.
    + exists h. split; auto. destruct (Sub h Hh) as [|K]; auto. destruct (Dr h K) as [[] []]. lia.
    + exists l. split; auto. destruct (Sub l Hl) as [|K]; auto. destruct (Dr l K) as [_ []]. lia.
    + intros q Hq. destruct (Sup q Hq) as [K| ->]; auto. right; right. split; auto.
  - auto.
  - intros q Hq. destruct (Sub q Hq) as [|K]; auto.
  - apply in_app_iff. right; now left.
Qed.
End WithBounds.
