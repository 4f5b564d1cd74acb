(** The rectangles of one pair of consecutive levels cover exactly the locations
    between the two surfaces, without overlap. *)
From Coq Require Import List ZArith Lia Bool Arith QArith.
From Verif Require Import Base Spec EafSpec RectSpec BitArrayModel EafModel EafStoreModel RectModel.
Import ListNotations.
Open Scope Z_scope.

Lemma belowb_iff : forall x b, belowb x b = true <-> below x b.
Proof. destruct b; simpl. apply Z.ltb_lt. tauto. Qed.

Lemma below_le : forall x y b, x <= y -> below y b -> below x b.
Proof. destruct b; simpl; auto. lia. Qed.

Definition disjoint2 {C} (r r' : rect C) : Prop := forall z, in_rect r z -> in_rect r' z -> False.

Lemma pairwise_app : forall C (a b : list (rect C)), pairwise_disjoint a -> pairwise_disjoint b ->
  (forall r r', In r a -> In r' b -> disjoint2 r r') -> pairwise_disjoint (a ++ b).
Proof.
  intros C a b Ha Hb H i j r r' Hij E E' z.
  destruct (lt_dec i (length a)) as [Li|Li]; destruct (lt_dec j (length a)) as [Lj|Lj]; try lia.
  - rewrite nth_error_app1 in E, E' by auto. exact (Ha i j r r' Hij E E' z).
  - rewrite nth_error_app1 in E by auto. rewrite nth_error_app2 in E' by lia.
    apply nth_error_In in E. apply nth_error_In in E'. apply H; auto.
  - rewrite nth_error_app2 in E, E' by lia. refine (Hb _ _ r r' _ E E' z). lia.
Qed.
Lemma pairwise_nil : forall C, @pairwise_disjoint C [].
Proof. intros C i j r r' _ E. destruct i; discriminate. Qed.
Lemma pairwise_one : forall C (r : rect C), pairwise_disjoint [r].
Proof. intros C r i j r1 r2 L E E'. destruct j; [lia|]. destruct j; discriminate. Qed.

Section Pair.
Variables (ea eb : eaf_t) (color : list Z) (A B : list point) (rs0 : list (rect Z)).
Hypothesis HsA : e_size ea = length A.
Hypothesis HsB : e_size eb = length B.
Hypothesis HrA : forall i, (i < length A)%nat -> read_point ea 2 i = Ret (row A i).
Hypothesis HrB : forall i, (i < length B)%nat -> read_point eb 2 i = Ret (row B i).
Hypothesis Hcol : length color = length A.
Hypothesis StA : staircase A.
Hypothesis StB : staircase B.

Notation ax i := (coord (row A i) 0). Notation ay i := (coord (row A i) 1).
Notation bx i := (coord (row B i) 0). Notation by_ i := (coord (row B i) 1).

Hypothesis Hdom : forall j, (j < length B)%nat -> exists i, (i < length A)%nat /\ ax i <= bx j /\ ay i <= by_ j.

Definition domL (L : list point) (z : point) : Prop :=
  exists i, (i < length L)%nat /\ coord (row L i) 0 <= coord z 0 /\ coord (row L i) 1 <= coord z 1.

Definition Okr (r : rect Z) : Prop :=
  nondegenerate r /\
  exists k, (k < length A)%nat /\ r_col r = nth k color 0 /\ r_lx r = ax k /\ ay k <= r_ly r.

Definition Good (top : bound) (new : list (rect Z)) : Prop :=
  (forall r, In r new -> Okr r /\ ~ below (r_ly r) top) /\
  pairwise_disjoint new /\
  (forall z, ~ below (coord z 1) top -> ((exists r, In r new /\ in_rect r z) <-> domL A z /\ ~ domL B z)).

Definition Final (new : list (rect Z)) : Prop :=
  (forall r, In r new -> Okr r) /\ pairwise_disjoint new /\
  (forall z, (exists r, In r new /\ in_rect r z) <-> domL A z /\ ~ domL B z).

Lemma good_add : forall top new r y, Good top new -> Okr r -> r_ly r = y -> r_uy r = top ->
  (forall z, y <= coord z 1 -> below (coord z 1) top -> (in_rect r z <-> domL A z /\ ~ domL B z)) ->
  Good (At y) (new ++ [r]).
Proof.
  intros top new r y (G1 & G2 & G3) Or Ly Uy H.
  assert (Bt : below y top) by (destruct Or as [[_ Nd] _]; rewrite Ly, Uy in Nd; auto).
  split; [|split].
  - intros r' Hr. apply in_app_iff in Hr. destruct Hr as [Hr|[<-|[]]].
    + destruct (G1 r' Hr) as [O L]. split; auto. intro X. apply L. simpl in X.
      apply (below_le _ y); auto. lia.
    + split; auto. simpl. lia.
  - apply pairwise_app; auto. apply pairwise_one.
    intros r1 r2 H1 [<-|[]] z Z1 Z2. destruct (G1 r1 H1) as [_ L].
    destruct Z1 as (_ & _ & Z1 & _). destruct Z2 as (_ & _ & _ & Z2). apply L.
    rewrite Uy in Z2. apply (below_le _ (coord z 1)); auto.
  - intros z Hz. simpl in Hz.
    assert (D : below (coord z 1) top \/ ~ below (coord z 1) top).
    { destruct top; simpl; [lia|tauto]. }
    destruct D as [D|D].
    + rewrite <- H by (auto; lia). split.
      * intros (r' & Hr & Ir). apply in_app_iff in Hr. destruct Hr as [Hr|[<-|[]]]; auto.
        exfalso. destruct (G1 r' Hr) as [_ L]. apply L. destruct Ir as (_ & _ & Ir & _).
        apply (below_le _ (coord z 1)); auto.
      * intros Ir. exists r. split; auto. apply in_app_iff. simpl; auto.
    + rewrite <- (G3 z D). split; intros (r' & Hr & Ir); exists r'; split; auto.
      * apply in_app_iff in Hr. destruct Hr as [Hr|[<-|[]]]; auto.
        exfalso. apply D. destruct Ir as (_ & _ & _ & Ir). now rewrite Uy in Ir.
      * apply in_app_iff; auto.
Qed.

Lemma good_skip : forall top new y, Good top new -> below y top ->
  (forall z, y <= coord z 1 -> below (coord z 1) top -> ~ (domL A z /\ ~ domL B z)) ->
  Good (At y) new.
Proof.
  intros top new y (G1 & G2 & G3) Bt H. split; [|split]; auto.
  - intros r' Hr. destruct (G1 r' Hr) as [O L]. split; auto. intro X. apply L. simpl in X.
    apply (below_le _ y); auto. lia.
  - intros z Hz. simpl in Hz.
    assert (D : below (coord z 1) top \/ ~ below (coord z 1) top).
    { destruct top; simpl; [lia|tauto]. }
    destruct D as [D|D]; [|auto]. split.
    + intros (r' & Hr & Ir). exfalso. destruct (G1 r' Hr) as [_ L]. apply L.
      destruct Ir as (_ & _ & Ir & _). apply (below_le _ (coord z 1)); auto.
    + intros X. exfalso. apply (H z); auto. lia.
Qed.

(** which points matter in the horizontal band below [top] *)
Lemma band : forall L k top z, staircase L -> (k < length L)%nat ->
  (forall i, (i < k)%nat -> ~ below (coord (row L i) 1) top) ->
  below (coord z 1) top ->
  (domL L z -> coord (row L k) 0 <= coord z 0) /\
  (coord (row L k) 1 <= coord z 1 -> (domL L z <-> coord (row L k) 0 <= coord z 0)).
Proof.
  intros L k top z St Hk Hp Hz.
  assert (F : domL L z -> coord (row L k) 0 <= coord z 0).
  { intros (i & Hi & X & Y). destruct (lt_eq_lt_dec i k) as [[Lt| ->]|Gt]; auto.
    - exfalso. apply (Hp i Lt). apply (below_le _ (coord z 1)); auto.
    - destruct (St k i); lia. }
  split; auto. intros Y. split; auto. intros X. exists k. auto.
Qed.

Definition Inv (ka kb : nat) (top : bound) (new : list (rect Z)) : Prop :=
  (ka < length A)%nat /\ (kb < length B)%nat /\ below (ay ka) top /\ below (by_ kb) top /\
  (forall i, (i < ka)%nat -> ~ below (ay i) top) /\ (forall j, (j < kb)%nat -> ~ below (by_ j) top) /\
  Good top new.

(** B is exhausted *)
Definition InvC (ka : nat) (top : bound) (new : list (rect Z)) : Prop :=
  (ka < length A)%nat /\ below (ay ka) top /\
  (forall i, (i < ka)%nat -> ~ below (ay i) top) /\
  (forall j, (j < length B)%nat -> ~ below (by_ j) top) /\ Good top new.

Lemma exhausted : forall top z, (forall j, (j < length B)%nat -> ~ below (by_ j) top) ->
  below (coord z 1) top -> ~ domL B z.
Proof. intros top z H Hz (j & Hj & _ & Y). apply (H j Hj). apply (below_le _ (coord z 1)); auto. Qed.

Lemma good_final : forall y new, Good (At y) new -> (forall i, (i < length A)%nat -> y <= ay i) -> Final new.
Proof.
  intros y new (G1 & G2 & G3) H. split; [|split]; auto.
  - intros r Hr. now apply G1.
  - intros z. destruct (Z_lt_le_dec (coord z 1) y) as [Lt|Ge].
    + split.
      * intros (r & Hr & Ir). exfalso. destruct (G1 r Hr) as [_ L]. simpl in L.
        destruct Ir as (_ & _ & Ir & _). lia.
      * intros [(i & Hi & _ & Y) _]. specialize (H i Hi). lia.
    + apply G3. simpl. lia.
Qed.

Lemma add_ok : forall rs lx ly ux uy c, below lx ux -> below ly uy ->
  rectangle_add rs lx ly ux uy c = Ret (rs ++ [mkRect lx ly ux uy c]).
Proof.
  intros. unfold rectangle_add. apply belowb_iff in H. apply belowb_iff in H0. rewrite H, H0. reflexivity.
Qed.

Lemma close_ok : forall fuel ka pkb top new, InvC ka top new -> ay ka < coord pkb 1 ->
  (length A < fuel + ka)%nat ->
  exists new', rect_close ea color fuel ka (row A ka) pkb top (rs0 ++ new) = Ret (rs0 ++ new') /\ Final new'.
Proof.
  induction fuel; intros ka pkb top new (Hka & Ta & Pa & Pb & G) Hp Hf; [lia|].
  cbn [rect_close]. apply Z.ltb_lt in Hp as Hp'. rewrite Hp'. cbn [assert_ bind].
  rewrite (rd_ok _ _ _ 0) by lia. cbn [bind]. rewrite add_ok by (simpl; auto). cbn [bind].
  rewrite <- app_assoc.
  set (r := mkRect (ax ka) (ay ka) Infty top (nth ka color 0)).
  assert (G' : Good (At (ay ka)) (new ++ [r])).
  { apply (good_add top); auto.
    - split. split; simpl; auto. exists ka. repeat (split; [solve [auto]|]). simpl. lia.
    - intros z Y D. destruct (band A ka top z StA Hka Pa D) as [_ E]. rewrite (E Y).
      unfold in_rect, r. cbn [r_lx r_ly r_ux r_uy]. pose proof (exhausted top z Pb D). simpl. tauto. }
  rewrite HsA. destruct (Nat.leb_spec (length A) (S ka)) as [Le|Gt].
  - exists (new ++ [r]). split; auto. apply (good_final (ay ka)); auto.
    intros i Hi. destruct (Nat.eq_dec i ka). subst; lia. destruct (StA i ka); lia.
  - rewrite HrA by lia. cbn [bind]. apply IHfuel; try lia.
    + split; [lia|]. split. { simpl. destruct (StA ka (S ka)); lia. }
      split. { intros i Hi. simpl. destruct (Nat.eq_dec i ka). subst; lia. destruct (StA i ka); lia. }
      split; auto. intros j Hj. simpl. intro X. apply (Pb j Hj).
      apply (below_le _ (ay ka)); auto. lia.
    + destruct (StA ka (S ka)); lia.
Qed.

(** the region between the current points *)
Lemma band_both : forall ka kb top new z y, Inv ka kb top new -> below (coord z 1) top ->
  ay ka <= y -> by_ kb <= y -> y <= coord z 1 ->
  (domL A z /\ ~ domL B z <-> ax ka <= coord z 0 < bx kb).
Proof.
  intros ka kb top new z y (Hka & Hkb & Ta & Tb & Pa & Pb & G) D Ya Yb Y.
  destruct (band A ka top z StA Hka Pa D) as [_ Ea]. destruct (band B kb top z StB Hkb Pb D) as [_ Eb].
  rewrite Ea, Eb by lia. lia.
Qed.

Lemma while_ok : forall fuel ka kb top new, Inv ka kb top new -> (length B < fuel + kb)%nat ->
  exists closed kb' pkb' top' new',
    rect_while eb color fuel ka kb (row A ka) (row B kb) top (rs0 ++ new) =
      Ret (closed, kb', pkb', top', rs0 ++ new') /\
    (if closed : bool then InvC ka top' new' /\ ay ka < coord pkb' 1
     else pkb' = row B kb' /\ Inv ka kb' top' new' /\ by_ kb' <= ay ka).
Proof.
  induction fuel; intros ka kb top new I Hf; [destruct I; lia|].
  pose proof I as (Hka & Hkb & Ta & Tb & Pa & Pb & G). cbn [rect_while].
  destruct (Z.ltb_spec (ay ka) (by_ kb)) as [Lt|Ge].
  2:{ exists false, kb, (row B kb), top, new. auto. }
  assert (X : exists new1,
    (if ax ka <? bx kb
     then c <- rd color ka ;; rectangle_add (rs0 ++ new) (ax ka) (by_ kb) (At (bx kb)) top c
     else Ret (rs0 ++ new)) = Ret (rs0 ++ new1) /\ Good (At (by_ kb)) new1).
  { destruct (Z.ltb_spec (ax ka) (bx kb)) as [Lx|Gx].
    - rewrite (rd_ok _ _ _ 0) by lia. cbn [bind]. rewrite add_ok by (simpl; auto).
      rewrite <- app_assoc.
      exists (new ++ [mkRect (ax ka) (by_ kb) (At (bx kb)) top (nth ka color 0)]). split; auto.
      apply (good_add top); auto.
      + split. split; simpl; auto. exists ka. cbn [r_col r_lx r_ly]. repeat (split; [solve [auto]|]). lia.
      + intros z Y D. rewrite (band_both ka kb top new z (by_ kb)) by (auto; lia).
        unfold in_rect. cbn [r_lx r_ly r_ux r_uy below]. intuition.
    - exists new. split; auto. apply (good_skip top); auto. intros z Y D.
      rewrite (band_both ka kb top new z (by_ kb)) by (auto; lia). lia. }
  destruct X as (new1 & -> & G1). cbn [bind].
  assert (Pb' : forall j, (j < S kb)%nat -> ~ below (by_ j) (At (by_ kb))).
  { intros j Hj. simpl. destruct (Nat.eq_dec j kb). subst; lia. destruct (StB j kb); lia. }
  assert (Pa' : forall i, (i < ka)%nat -> ~ below (ay i) (At (by_ kb))).
  { intros i Hi. simpl. intro X. apply (Pa i Hi). apply (below_le _ (by_ kb)); auto. lia. }
  rewrite HsB. destruct (Nat.leb_spec (length B) (S kb)) as [Le|Gt].
  - exists true, (S kb), (row B kb), (At (by_ kb)), new1. split; auto. split; auto.
    split; auto. split; [simpl; lia|]. split; auto. split; auto.
    intros j Hj. apply Pb'. lia.
  - rewrite HrB by lia. cbn [bind]. apply IHfuel; try lia.
    split; auto. split; auto. split; [simpl; lia|]. split; [simpl; destruct (StB kb (S kb)); lia|].
    split; auto.
Qed.

Lemma loop_ok : forall fuel ka kb top new, Inv ka kb top new -> (length A < fuel + ka)%nat ->
  exists new', rect_loop ea eb color fuel ka kb (row A ka) (row B kb) top (rs0 ++ new) = Ret (rs0 ++ new')
    /\ Final new'.
Proof.
  induction fuel; intros ka kb top new I Hf; [destruct I; lia|].
  cbn [rect_loop]. destruct (while_ok (S (e_size eb)) ka kb top new I) as (cl & kb' & pkb' & top' & new' & E & R).
  { rewrite HsB. lia. }
  rewrite E. cbn [bind]. clear E I kb top new. destruct cl.
  { destruct R as [R1 R2]. apply close_ok; auto. rewrite HsA. lia. }
  destruct R as (-> & I & Hy). pose proof I as (Hka & Hkb & Ta & Tb & Pa & Pb & G).
  assert (X : exists new1,
    (if ax ka <? bx kb'
     then c <- rd color ka ;; rectangle_add (rs0 ++ new') (ax ka) (ay ka) (At (bx kb')) top' c
     else _ <- assert_ ((ax ka =? bx kb') && (ay ka =? by_ kb')) ;; Ret (rs0 ++ new')) = Ret (rs0 ++ new1)
     /\ Good (At (ay ka)) new1).
  { destruct (Z.ltb_spec (ax ka) (bx kb')) as [Lx|Gx].
    - rewrite (rd_ok _ _ _ 0) by lia. cbn [bind]. rewrite add_ok by (simpl; auto).
      rewrite <- app_assoc.
      exists (new' ++ [mkRect (ax ka) (ay ka) (At (bx kb')) top' (nth ka color 0)]). split; auto.
      apply (good_add top'); auto.
      + split. split; simpl; auto. exists ka. cbn [r_col r_lx r_ly]. repeat (split; [solve [auto]|]). lia.
      + intros z Y D. rewrite (band_both ka kb' top' new' z (ay ka)) by (auto; lia).
        unfold in_rect. cbn [r_lx r_ly r_ux r_uy below]. intuition.
    - destruct (Hdom kb' Hkb) as (i & Hi & Dx & Dy).
      assert (ka = i).
      { destruct (lt_eq_lt_dec i ka) as [[Lt|]|Gt]; auto.
        - exfalso. destruct (StA i ka); lia.
        - exfalso. destruct (StA ka i); lia. }
      subst i. replace (ax ka =? bx kb') with true by (symmetry; apply Z.eqb_eq; lia).
      replace (ay ka =? by_ kb') with true by (symmetry; apply Z.eqb_eq; lia). cbn [andb assert_ bind].
      exists new'. split; auto. apply (good_skip top'); auto. intros z Y D.
      rewrite (band_both ka kb' top' new' z (ay ka)) by (auto; lia). lia. }
  destruct X as (new1 & -> & G1). cbn [bind].
  assert (Pa' : forall i, (i < S ka)%nat -> ~ below (ay i) (At (ay ka))).
  { intros i Hi. simpl. destruct (Nat.eq_dec i ka). subst; lia. destruct (StA i ka); lia. }
  assert (Pb' : forall j, (j < kb')%nat -> ~ below (by_ j) (At (ay ka))).
  { intros j Hj. simpl. intro X. apply (Pb j Hj). apply (below_le _ (ay ka)); auto. lia. }
  rewrite HsA. destruct (Nat.leb_spec (length A) (S ka)) as [Le|Gt].
  { exists new1. split; auto. apply (good_final (ay ka)); auto.
    intros i Hi. specialize (Pa' i ltac:(lia)). simpl in Pa'. lia. }
  rewrite HrA by lia. cbn [bind].
  assert (Sa : ay (S ka) < ay ka) by (destruct (StA ka (S ka)); lia).
  destruct (Z.eqb_spec (by_ kb') (ay ka)) as [Ey|Ny].
  - assert (Pb2 : forall j, (j < S kb')%nat -> ~ below (by_ j) (At (ay ka))).
    { intros j Hj. destruct (Nat.eq_dec j kb'). subst; simpl; lia. apply Pb'. lia. }
    rewrite HsB. destruct (Nat.leb_spec (length B) (S kb')) as [Le|Gb].
    + apply close_ok; try lia. split; auto. split; auto. split; auto. split; auto.
      intros j Hj. apply Pb2. lia.
    + rewrite HrB by lia. cbn [bind]. apply IHfuel; try lia.
      split; auto. split; auto. split; auto. split; auto. simpl. destruct (StB kb' (S kb')); lia.
  - apply IHfuel; try lia. split; auto. split; auto. split; auto. split; auto. simpl. lia.
Qed.

Lemma pair_loop_ok : (0 < length A)%nat -> (0 < length B)%nat ->
  exists new, rect_loop ea eb color (S (length A)) 0 0 (row A 0) (row B 0) Infty rs0 = Ret (rs0 ++ new)
    /\ Final new.
Proof.
  intros La Lb.
  destruct (loop_ok (S (length A)) 0 0 Infty []) as (new & E & F); try lia.
  - split; auto. split; auto. split; [simpl; auto|]. split; [simpl; auto|].
    split; [intros; lia|]. split; [intros; lia|].
    split; [|split]. intros r []. apply pairwise_nil.
    intros z X. exfalso. apply X. simpl. auto.
  - exists new. rewrite app_nil_r in E. auto.
Qed.
End Pair.
