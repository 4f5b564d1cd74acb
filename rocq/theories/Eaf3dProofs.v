(** One step of the 3-objective EAF sweep. *)
From Coq Require Import List ZArith Lia Bool Arith Sorted Permutation.
From Verif Require Import Base Eaf3dModel Eaf3dTrees.
Import ListNotations.
Open Scope Z_scope.

Lemma NoDup_app_intro : forall A (a b : list A), NoDup a -> NoDup b -> (forall x, In x a -> In x b -> False) -> NoDup (a ++ b).
Proof.
  induction a as [|x a IH]; intros b Ha Hb D; auto. inversion Ha; subst. cbn. constructor.
  - rewrite in_app_iff. intros [|K]; auto. apply (D x); auto. now left.
  - apply IH; auto. intros y Hy. apply D. now right.
Qed.
Lemma NoDup_app_elim : forall A (a b : list A), NoDup (a ++ b) -> NoDup a /\ NoDup b /\ (forall x, In x a -> In x b -> False).
Proof.
  induction a as [|x a IH]; intros b H; cbn in H. { repeat split; auto. constructor. }
  inversion H; subst. destruct (IH b H3) as (N1 & N2 & D). split; [|split]; auto.
  - constructor; auto. rewrite in_app_iff in H2. tauto.
  - intros y [->|Hy] K. apply H2. rewrite in_app_iff; auto. eauto.
Qed.

Lemma countb_le : forall A (f g : A -> bool) l, (forall x, In x l -> f x = true -> g x = true) -> (countb f l <= countb g l)%nat.
Proof.
  induction l as [|a l IH]; intros H; cbn [countb]. lia.
  assert (countb f l <= countb g l)%nat by (apply IH; intros; apply H; auto; now right).
  specialize (H a (or_introl eq_refl)). destruct (f a), (g a); try lia; discriminate (H eq_refl).
Qed.
Lemma countb_lt : forall A (f g : A -> bool) l x, (forall x, In x l -> f x = true -> g x = true) ->
  In x l -> f x = false -> g x = true -> (countb f l < countb g l)%nat.
Proof.
  induction l as [|a l IH]; intros x H I Fx Gx; cbn [countb]. contradiction.
  destruct I as [->|I].
  - rewrite Fx, Gx. assert (countb f l <= countb g l)%nat by (apply countb_le; intros; apply H; auto; now right). lia.
  - assert (countb f l < countb g l)%nat by (eapply IH; eauto; intros; apply H; auto; now right).
    specialize (H a (or_introl eq_refl)). destruct (f a), (g a); try lia; discriminate (H eq_refl).
Qed.
Lemma countb_len : forall A (f : A -> bool) l, (countb f l <= length l)%nat.
Proof. induction l; cbn [countb length]. lia. destruct (f a); lia. Qed.

Section Levels.
Variables lo hi : Z.
Hypothesis LH : lo < hi.
Notation reg := (reg hi). Notation real := (real hi). Notation wft := (wft lo hi). Notation inside := (inside lo hi).

(** a level tree with its output, when the sweep is at height [zn] *)
Definition lok (zn : Z) (t o : list node) : Prop :=
  wft t /\ (forall q, In q t -> real q -> nz q <= zn) /\
  (forall q, In q o -> real q /\ nz q < zn /\ reg t (nx q) (ny q)) /\
  NoDup (o ++ t) /\
  (forall p q, In p (o ++ t) -> In q (o ++ t) -> real p -> real q ->
     below2 p (nx q) (ny q) -> nz p <= nz q -> p = q).

Definition covers (t o : list node) (a b c : Z) : Prop :=
  exists p, In p (o ++ t) /\ real p /\ below2 p a b /\ nz p <= c.

(** the effect of an insertion that removes the nodes [d] *)
Definition inserted (zn : Z) (t o : list node) (item : node) (t' o' d : list node) : Prop :=
  In item t' /\ ~ reg t (nx item) (ny item) /\ (forall q, In q t' -> In q t \/ q = item) /\
  (forall q, In q o' -> In q o \/ In q t) /\
  (forall q, In q d -> In q t /\ ~ In q t' /\ real q /\ nz q = zn /\ below2 item (nx q) (ny q)).

Lemma level_add : forall zn t o item, lok zn t o -> inside item -> nz item = zn ->
  exists t' o' ins, add2level t o item = Ret (t', o', ins) /\ lok zn t' o' /\
    (forall a b c, c < zn -> (covers t o a b c <-> covers t' o' a b c)) /\
    (forall a b, reg t' a b <-> reg t a b \/ below2 item a b) /\
    (forall Y, Y <= ny item -> agree Y t' t) /\
    match ins with None => t' = t /\ o' = o | Some d => inserted zn t o item t' o' d end.
Proof.
  intros zn t o item (W & Zt & Zo & ND & AC) I Ez.
  destruct (add2level_spec lo hi t o item LH W I) as (t' & rem & ins & E & W' & H1 & H2 & H3 & NR & HR & HI).
  exists t', (o ++ rem), ins. split; auto.
  assert (RG : forall a b, reg t' a b <-> reg t a b \/ below2 item a b).
  { apply add2level_reg; auto. intros q Hq. destruct (H2 q Hq) as [|(A & B & _)]; auto. }
  assert (Cases : forall q, In q ((o ++ rem) ++ t') -> In q (o ++ t) \/ (q = item /\ ~ reg t (nx item) (ny item) /\ In q t')).
  { intros q Hq. rewrite !in_app_iff in Hq. rewrite in_app_iff. destruct Hq as [[Hq|Hq]|Hq]; auto.
    - left; right. apply HR; auto.
    - destruct (H1 q Hq) as [|[-> N]]; auto. }
  destruct (NoDup_app_elim _ _ _ ND) as (N1 & N2 & D).
  assert (NoReg : forall p, In p (o ++ t) -> real p -> below2 p (nx item) (ny item) -> reg t (nx item) (ny item)).
  { intros p Hp Rp [B1 B2]. rewrite in_app_iff in Hp. destruct Hp as [Hp|Hp].
    - eapply reg_mono; [apply (Zo p Hp)| |]; auto.
    - exists p. repeat split; auto; apply Rp. }
  split; [|split; [|split; [|split]]]; auto.
  - split; [|split; [|split; [|split]]]; auto.
    + intros q Hq Rq. destruct (H1 q Hq) as [|[-> _]]; auto. lia.
    + intros q Hq. rewrite in_app_iff in Hq. destruct Hq as [Hq|Hq].
      * destruct (Zo q Hq) as (R1 & R2 & R3). split; auto. split; auto. apply RG. auto.
      * destruct (HR q Hq) as (K1 & K2 & K3 & K4). split; auto. split. lia. apply RG. left.
        exists q. repeat split; auto; try apply K3; lia.
    + apply NoDup_app_intro. apply NoDup_app_intro; auto. { intros x Hx Hr. apply (D x Hx). apply HR; auto. }
      { apply stair_NoDup. apply W'. }
      intros x Hx Ht. rewrite in_app_iff in Hx. destruct Hx as [Hx|Hx].
      * destruct (H1 x Ht) as [K|[-> K]]. eauto. apply K. apply (Zo item Hx).
      * apply (HR x Hx); auto.
    + intros p q Hp Hq Rp Rq B Lz. destruct (Cases p Hp) as [Op|(-> & Np & Ip)], (Cases q Hq) as [Oq|(-> & Nq & Iq)]; auto.
      * exfalso. apply Nq. eapply NoReg; eauto.
      * rewrite !in_app_iff in Hq. destruct Hq as [[Hq|Hq]|Hq].
        -- destruct (Zo q Hq). lia.
        -- destruct (HR q Hq). lia.
        -- destruct B as [B1 B2]. destruct (stair_cmp t' item q) as [|[[]|[]]]; auto; try lia. apply W'.
  - intros a b c Lc. split.
    + intros (p & Ip & Rp & B & Lz). rewrite in_app_iff in Ip. destruct Ip as [Ip|Ip].
      * exists p. repeat split; auto; try apply Rp; try apply B. rewrite !in_app_iff; auto.
      * destruct (H2 p Ip) as [K|(_ & _ & K)].
        -- exists p. repeat split; auto; try apply Rp; try apply B. rewrite !in_app_iff; auto.
        -- exists p. repeat split; auto; try apply Rp; try apply B. rewrite !in_app_iff. left; right. apply K. lia.
    + intros (p & Ip & Rp & B & Lz). destruct (Cases p Ip) as [Op|(-> & _)]; [|lia].
      exists p. auto.
  - intros Y LY q Lq. split; intros Hq.
    + destruct (H1 q Hq) as [|[-> _]]; auto. lia.
    + destruct (H2 q Hq) as [|([_ K] & _)]; auto. lia.
  - destruct ins as [d|].
    + destruct HI as (I1 & I2 & I3 & I4 & I5). split; auto. split; auto. split. { intros q Hq. destruct (H1 q Hq) as [|[]]; auto. } split.
      * intros q Hq. apply in_app_iff in Hq. destruct Hq as [|Hq]; auto. right. apply HR; auto.
      * intros q Hq. destruct (I4 q Hq) as (K1 & K2 & K3 & K4 & K5). specialize (Zt q K1 K3).
        split; auto. split; auto. split; auto. split; auto. lia.
    + destruct HI as [-> ->]. now rewrite app_nil_r.
Qed.

Lemma lok_later : forall zn zn' t o, lok zn t o -> zn <= zn' -> lok zn' t o.
Proof.
  intros zn zn' t o (W & Zt & Zo & ND & AC) L. split; [|split; [|split; [|split]]]; auto.
  - intros q Hq Rq. specialize (Zt q Hq Rq). lia.
  - intros q Hq. destruct (Zo q Hq) as (R1 & R2 & R3). repeat split; auto; try apply R1. lia.
Qed.
End Levels.

Definition L (s : trees) (j : nat) : list node := nth j (lev s) [].
Definition O_ (s : trees) (j : nat) : list node := nth j (out s) [].

(** ** The fields of the nodes *)
Definition fld (h : list info) (i : nat) : info := nth i h (mkInfo O None None None).

Lemma set_removers_ok : forall d h id, (forall q, In q d -> exists i, nid q = Some i /\ (i < length h)%nat) ->
  exists h', set_removers h d id = Ret h' /\ length h' = length h /\
    forall i, (i < length h)%nat -> iset (fld h' i) = iset (fld h i) /\ iprom (fld h' i) = iprom (fld h i) /\
      ieq (fld h' i) = ieq (fld h i) /\
      (irem (fld h' i) = irem (fld h i) \/ (irem (fld h' i) = Some id /\ exists q, In q d /\ nid q = Some i)).
Proof.
  induction d as [|q d IH]; intros h id H; cbn [set_removers].
  - exists h. repeat split; auto.
  - destruct (H q (or_introl eq_refl)) as (i & E & Hi). unfold id_of. rewrite E. cbn [bind].
    rewrite (rd_ok _ h i (mkInfo O None None None)) by auto. cbn [bind]. fold (fld h i). rewrite wr_ok by auto. cbn [bind].
    destruct (IH (upd h i (mkInfo (iset (fld h i)) (iprom (fld h i)) (Some id) (ieq (fld h i)))) id) as (h' & E' & L' & F').
    { intros r Hr. destruct (H r (or_intror Hr)) as (i' & ? & ?). exists i'. now rewrite upd_length. }
    rewrite upd_length in *. exists h'. split; auto. split; auto. intros i' Hi'. destruct (F' i' Hi') as (F1 & F2 & F3 & F4).
    unfold fld in *. rewrite nth_upd in F1, F2, F3, F4 by auto. destruct (Nat.eqb_spec i i') as [->|N]; cbn [iset iprom irem ieq] in *.
    + repeat split; auto. right. destruct F4 as [F4|(F4 & _)]; (split; [exact F4|]); exists q; split; auto; now left.
    + repeat split; auto. destruct F4 as [F4|(F4 & r & Hr & Er)]; auto. right. split; auto. exists r. split; auto. now right.
Qed.

Definition same3 (p q : node) : Prop := nx p = nx q /\ ny p = ny q /\ nz p = nz q.
Lemma same3_dec : forall p q, {same3 p q} + {~ same3 p q}.
Proof.
  intros. unfold same3. destruct (Z.eq_dec (nx p) (nx q)), (Z.eq_dec (ny p) (ny q)), (Z.eq_dec (nz p) (nz q)); try (right; lia). left; auto.
Qed.

Section Step.
Variables lo hi : Z.
Hypothesis LH : lo < hi.
Notation reg := (reg hi). Notation real := (real hi). Notation wft := (wft lo hi). Notation inside := (inside lo hi).
Notation lok := (lok lo hi). Notation covers := (covers hi).

Variable nset : nat.
Variables (new prev : node) (St : list node).
Hypothesis Hin : inside new.
Hypothesis HS : wft St.
Hypothesis Hprev : find_point_at_left St (nx new) = Ret prev.
Hypothesis Hd : ny new < ny prev.
(** the trees of all levels before the step *)
Variables T O0 : nat -> list node.
(** the number of sets that attain a location before and after the step *)
Variables cnt cnt' : Z -> Z -> nat.

(** locations newly attained by the set of the new point *)
Definition A (a b : Z) : Prop := nx new <= a < hi /\ ny new <= b < hi /\ ~ reg St a b.

Hypothesis WT : forall j, (j < nset)%nat -> wft (T j).
Hypothesis HT : forall j, (j < nset)%nat -> forall a b, reg (T j) a b <-> (j < cnt a b)%nat.
Hypothesis CA : forall a b, A a b -> cnt' a b = S (cnt a b).
Hypothesis Cmono : forall a b a' b', a <= a' -> b <= b' -> (cnt' a b <= cnt' a' b')%nat.
Hypothesis Cmax : forall a b, (cnt' a b <= nset)%nat.

(** the number of the set of the new point; every node of the levels before the
    step has fields *)
Variables sno N0 : nat.
Hypothesis HTid : forall j q, (j < nset)%nat -> In q (T j) -> real q -> exists i, nid q = Some i /\ (i < N0)%nat.

Let zn := nz new.

Record Good (s : trees) (B : nat -> Z) : Prop := mkGood {
  g_len1 : length (lev s) = nset;
  g_len2 : length (out s) = nset;
  g_lok : forall j, (j < nset)%nat -> lok zn (L s j) (O_ s j);
  g_cov : forall j, (j < nset)%nat -> forall a b c, c < zn -> (covers (T j) (O0 j) a b c <-> covers (L s j) (O_ s j) a b c);
  g_agree : forall j, (j < nset)%nat -> agree (B j) (L s j) (T j);
  g_grow : forall j, (j < nset)%nat -> forall a b, reg (T j) a b -> reg (L s j) a b;
  g_sound : forall j, (j < nset)%nat -> forall a b, reg (L s j) a b -> (j < cnt' a b)%nat;
  g_heap : (N0 <= length (heap s))%nat;
  g_ids : forall j, (j < nset)%nat -> forall q, In q (L s j) -> real q -> exists i, nid q = Some i /\ (i < length (heap s))%nat }.

Lemma Good_weaken : forall s B B', Good s B -> (forall j, B' j <= B j) -> Good s B'.
Proof. intros s B B' [] H. constructor; auto. intros j Hj. eapply agree_weaken; eauto. Qed.

(** the promoter of a node inserted at level [j] *)
Definition prom_ok (j : nat) (item : node) (prom : option node) : Prop :=
  match prom with
  | None => j = O
  | Some q => (1 <= j)%nat /\ In q (T (j - 1)%nat) /\ real q /\ below2 q (nx item) (ny item)
  end.
Definition pid (prom : option node) : option nat := match prom with None => None | Some q => nid q end.

(** one insertion: [item] becomes node number length (heap s) *)
Definition op (s s' : trees) : Prop :=
  exists B j item prom t' o' d, Good s B /\ (j < nset)%nat /\ inside item /\ nz item = zn /\ A (nx item) (ny item) /\
    nid item = Some (length (heap s)) /\ prom_ok j item prom /\
    inserted hi zn (L s j) (O_ s j) item t' o' d /\
    (forall i, L s' i = if (i =? j)%nat then t' else L s i) /\
    (forall i, O_ s' i = if (i =? j)%nat then o' else O_ s i) /\
    (forall a b, reg (L s j) a b -> reg t' a b) /\
    length (heap s') = S (length (heap s)) /\
    fld (heap s') (length (heap s)) = mkInfo sno (pid prom) None None /\
    (forall i, (i < length (heap s))%nat ->
       iset (fld (heap s') i) = iset (fld (heap s) i) /\ iprom (fld (heap s') i) = iprom (fld (heap s) i) /\
       (irem (fld (heap s') i) = irem (fld (heap s) i) \/
         (irem (fld (heap s') i) = Some (length (heap s)) /\ exists q, In q d /\ nid q = Some i)) /\
       (ieq (fld (heap s') i) = ieq (fld (heap s) i) \/
         (ieq (fld (heap s') i) = Some (length (heap s)) /\ exists q, prom = Some q /\ nid q = Some i /\ same3 q item))) /\
    (forall q i, prom = Some q -> nid q = Some i -> same3 q item -> ieq (fld (heap s') i) = Some (length (heap s))).

Inductive ops : trees -> trees -> Prop :=
| ops_nil : forall s, ops s s
| ops_step : forall s1 s2 s3, op s1 s2 -> ops s2 s3 -> ops s1 s3.
Lemma ops_trans : forall s1 s2 s3, ops s1 s2 -> ops s2 s3 -> ops s1 s3.
Proof. induction 1; auto. intros. eapply ops_step; eauto. Qed.
Lemma ops_one : forall s1 s2, op s1 s2 -> ops s1 s2.
Proof. intros. eapply ops_step; eauto. apply ops_nil. Qed.

(** the assignment to the field equal, if any *)
Definition linked (prom : option node) (r : trees * option nat) (item : node) (s' : trees) : Prop :=
  match prom with
  | None => s' = fst r
  | Some q => exists b, (b = true <-> same3 q item) /\ link r q (Ret b) = Ret s'
  end.

Lemma add_at_good : forall s B j item prom, Good s B -> (j < nset)%nat -> inside item -> nz item = zn ->
  B j <= ny item -> (j < cnt' (nx item) (ny item))%nat -> A (nx item) (ny item) -> prom_ok j item prom ->
  exists r, add_at s j item sno prom = Ret r /\ (prom = None -> exists s', linked None r item s') /\
    (forall q b, prom = Some q -> (b = true <-> same3 q item) -> exists s', link r q (Ret b) = Ret s') /\
    forall s', linked prom r item s' ->
    Good s' B /\ (forall i, i <> j -> L s' i = L s i) /\
    (forall a b, reg (L s' j) a b <-> reg (L s j) a b \/ below2 item a b) /\ ops s s'.
Proof.
  intros s B j item prom G Hj I Ez LB HC HA HP. pose proof G as G0. destruct G as [g1 g2 g3 g4 g5 g6 g7 g8 g9].
  set (it := with_id item (length (heap s))).
  destruct (level_add lo hi LH zn (L s j) (O_ s j) it (g3 j Hj) I Ez) as (t' & o' & ins & E & K' & Cv & Rg & Ag & HI).
  change (nx it) with (nx item) in *. change (ny it) with (ny item) in *.
  unfold add_at. rewrite (rd_ok _ (lev s) j []) by lia. cbn [bind]. rewrite (rd_ok _ (out s) j []) by lia. cbn [bind].
  fold (L s j). fold (O_ s j). fold it. rewrite E. cbn [bind fst snd].
  destruct ins as [d|].
  2:{ destruct HI as [-> ->]. exists (s, None). split; auto. split. { intros _. exists s. reflexivity. }
      split. { intros q b _ _. exists s. reflexivity. }
      intros s' Hl. assert (s' = s). { destruct prom as [q|]; cbn in Hl. destruct Hl as (b & _ & Hl). congruence. auto. }
      subst s'. split; auto. split; auto. split; auto. apply ops_nil. }
  assert (Ed : forall q, In q d -> exists i, nid q = Some i /\ (i < length (heap s))%nat).
  { intros q Hq. destruct HI as (_ & _ & _ & _ & Hd'). destruct (Hd' q Hq) as (K1 & _ & K2 & _). eapply g9; eauto. }
  destruct (set_removers_ok d (heap s) (length (heap s)) Ed) as (h & Eh & Lh & Fh).
  assert (Epr : (match prom with None => Ret None | Some q => i <- id_of q ;; Ret (Some i) end) = Ret (pid prom) /\
    forall q, prom = Some q -> exists i, nid q = Some i /\ (i < length (heap s))%nat).
  { destruct prom as [q|]; cbn [pid]; [|split; auto; discriminate]. destruct HP as (P1 & P2 & P3 & P4).
    destruct (HTid (j - 1) q) as (i & Ei & Li); auto. lia. unfold id_of. rewrite Ei. split; auto. intros q' [= <-].
    exists i. split; auto. lia. }
  destruct Epr as [Epr Hid]. rewrite Epr. cbn [bind].
  rewrite (wr_ok _ (lev s) j) by lia. cbn [bind]. rewrite (wr_ok _ (out s) j) by lia. cbn [bind]. rewrite Eh. cbn [bind].
  set (s1 := mkTrees _ _ _).
  assert (Lj : forall i, L s1 i = if (i =? j)%nat then t' else L s i).
  { intros i. unfold L, s1. cbn [lev]. rewrite nth_upd by lia. rewrite Nat.eqb_sym. auto. }
  assert (Oj : forall i, O_ s1 i = if (i =? j)%nat then o' else O_ s i).
  { intros i. unfold O_, s1. cbn [out]. rewrite nth_upd by lia. rewrite Nat.eqb_sym. auto. }
  assert (H1 : length (heap s1) = S (length (heap s))). { unfold s1. cbn [heap]. rewrite app_length. cbn. lia. }
  assert (F0 : fld (heap s1) (length (heap s)) = mkInfo sno (pid prom) None None).
  { unfold fld, s1. cbn [heap]. rewrite app_nth2, Lh, Nat.sub_diag by lia. reflexivity. }
  assert (F1 : forall i, (i < length (heap s))%nat -> fld (heap s1) i = fld h i).
  { intros i Hi. unfold fld, s1. cbn [heap]. apply app_nth1. lia. }
  exists (s1, Some (length (heap s))). split; auto.
  assert (Gd : forall s', lev s' = lev s1 -> out s' = out s1 -> length (heap s') = length (heap s1) ->
    Good s' B /\ (forall i, i <> j -> L s' i = L s i) /\ (forall a b, reg (L s' j) a b <-> reg (L s j) a b \/ below2 item a b)).
  { intros s' El Eo Ehp.
    assert (Li : forall i, L s' i = if (i =? j)%nat then t' else L s i). { intros i. rewrite <- Lj. unfold L. now rewrite El. }
    assert (Oi : forall i, O_ s' i = if (i =? j)%nat then o' else O_ s i). { intros i. rewrite <- Oj. unfold O_. now rewrite Eo. }
    split; [|split].
    2:{ intros i N. rewrite Li. apply Nat.eqb_neq in N. now rewrite N. }
    2:{ intros a b. rewrite Li, Nat.eqb_refl. exact (Rg a b). }
    constructor.
    - rewrite El. unfold s1. cbn [lev]. now rewrite upd_length.
    - rewrite Eo. unfold s1. cbn [out]. now rewrite upd_length.
    - intros i Hi. rewrite Li, Oi. destruct (Nat.eqb_spec i j) as [->|N]; auto.
    - intros i Hi a b c Lc. rewrite Li, Oi. destruct (Nat.eqb_spec i j) as [->|N]; auto. rewrite g4 by auto. apply Cv; auto.
    - intros i Hi. rewrite Li. destruct (Nat.eqb_spec i j) as [->|N]; auto.
      intros q Lq. rewrite (Ag (B j) LB q Lq). apply g5; auto.
    - intros i Hi a b R. rewrite Li. destruct (Nat.eqb_spec i j) as [->|N]; auto. apply Rg. auto.
    - intros i Hi a b R. rewrite Li in R. destruct (Nat.eqb_spec i j) as [->|N]; auto.
      apply Rg in R. destruct R as [R|[B1 B2]]; auto. specialize (Cmono _ _ _ _ B1 B2). cbn in *. lia.
    - lia.
    - intros i Hi q Iq Rq. rewrite Li in Iq. rewrite Ehp, H1. destruct (Nat.eqb_spec i j) as [->|N].
      + destruct HI as (_ & _ & HI & _). destruct (HI q Iq) as [Iq' | ->].
        * destruct (g9 j Hj q Iq' Rq) as (i & ? & ?). exists i. split; auto.
        * exists (length (heap s)). split; auto.
      + destruct (g9 i Hi q Iq Rq) as (i' & ? & ?). exists i'. split; auto. }
  assert (Op : forall s', lev s' = lev s1 -> out s' = out s1 -> length (heap s') = length (heap s1) ->
    (forall i, fld (heap s') i = match prom with
       | Some q => if id_eqb (nid q) (Some i) && (if same3_dec q item then true else false) then
           let f := fld (heap s1) i in mkInfo (iset f) (iprom f) (irem f) (Some (length (heap s))) else fld (heap s1) i
       | None => fld (heap s1) i end) -> ops s s').
  { intros s' El Eo Ehp Hf. apply ops_one. exists B, j, it, prom, t', o', d.
    assert (Npr : forall q, prom = Some q -> nid q <> Some (length (heap s))).
    { intros q Eq. destruct (Hid q Eq) as (i & -> & Hi). intros [= K]. lia. }
    repeat (split; [assumption || reflexivity|]).
    split. { intros i. rewrite <- Lj. unfold L. now rewrite El. }
    split. { intros i. rewrite <- Oj. unfold O_. now rewrite Eo. }
    split. { intros a b R. apply Rg. auto. }
    split. { lia. }
    split. { rewrite Hf. destruct prom as [q|]; auto. specialize (Npr q eq_refl).
             destruct (id_eqb (nid q) (Some (length (heap s)))) eqn:Ei; auto. exfalso. apply Npr.
             destruct (nid q) as [n|]; [|discriminate]. cbn in Ei. apply Nat.eqb_eq in Ei. now subst. }
    split.
    - intros i Hi. destruct (Fh i Hi) as (Q1 & Q2 & Q3 & Q4). rewrite Hf. rewrite F1 by auto.
      destruct prom as [q|].
      + destruct (id_eqb (nid q) (Some i)) eqn:Ei; cbn [andb].
        * assert (Eq : nid q = Some i). { destruct (nid q) as [n|]; [|discriminate]. cbn in Ei. apply Nat.eqb_eq in Ei. now subst. }
          destruct (same3_dec q item) as [Sm|Sm]; cbn zeta; cbn [iset iprom irem ieq].
          -- rewrite Q1, Q2. repeat split; auto. right. split; auto. exists q. auto.
          -- rewrite Q1, Q2, Q3. repeat split; auto.
        * rewrite Q1, Q2, Q3. repeat split; auto.
      + rewrite Q1, Q2, Q3. repeat split; auto.
    - intros q i -> Eq Sm. rewrite Hf. rewrite Eq. cbn [id_eqb]. rewrite Nat.eqb_refl. cbn [andb].
      destruct (same3_dec q item) as [_|N]; [reflexivity|]. exfalso. apply N. exact Sm. }
  clearbody s1. split. { intros _. exists s1. reflexivity. }
  split.
  - intros q b Eq Hb. cbn [link fst snd bind]. unfold link. cbn [fst snd bind]. destruct b; [|eauto].
    destruct (Hid q Eq) as (i & Ei & Hi). unfold set_equal, id_of. rewrite Ei. cbn [bind].
    rewrite (rd_ok _ _ _ (mkInfo O None None None)) by (rewrite H1; lia). cbn [bind]. rewrite wr_ok by (rewrite H1; lia). cbn [bind]. eauto.
  - intros s' Hl. destruct prom as [q|]; cbn [linked fst] in Hl.
    + destruct Hl as (b & Hb & Hl). unfold link in Hl. cbn [fst snd bind] in Hl. destruct b.
      * destruct (Hid q eq_refl) as (i & Ei & Hi). unfold set_equal, id_of in Hl. rewrite Ei in Hl. cbn [bind] in Hl.
        rewrite (rd_ok _ _ _ (mkInfo O None None None)) in Hl by (rewrite H1; lia). cbn [bind] in Hl. rewrite wr_ok in Hl by (rewrite H1; lia). cbn [bind] in Hl.
        injection Hl as <-.
        destruct (Gd (mkTrees (lev s1) (out s1) (upd (heap s1) i (mkInfo (iset (fld (heap s1) i)) (iprom (fld (heap s1) i)) (irem (fld (heap s1) i)) (Some (length (heap s)))))))
          as (D1 & D2 & D3); auto. { cbn [heap]. now rewrite upd_length. }
        split; auto. split; auto. split; auto. apply Op; auto. { cbn [heap]. now rewrite upd_length. }
        intros i'. rewrite Ei. cbn [heap id_eqb]. unfold fld at 1. rewrite nth_upd by lia.
        destruct (Nat.eqb_spec i i') as [->|N]; cbn [andb]; auto.
        destruct (same3_dec q item) as [_|N]; auto. exfalso. apply N. now apply Hb.
      * injection Hl as <-. destruct (Gd s1) as (D1 & D2 & D3); auto. split; auto. split; auto. split; auto. apply Op; auto.
        intros i. destruct (same3_dec q item) as [Sm|_]; [apply Hb in Sm; discriminate|]. now rewrite andb_false_r.
    + subst s'. destruct (Gd s1) as (D1 & D2 & D3); auto.
Qed.

(** ** The cursors *)
Definition cxy (c : cursor) : Z * Z := match c with At q => (nx q, ny q) | Cross x y _ _ => (x, y) end.
Definition cur_ok (t : list node) (E : Z) (c : cursor) : Prop :=
  let '(x, y) := cxy c in
  y < E /\ nx new <= x /\ (In (promoter_of c) t /\ nx (promoter_of c) <= x /\ ny (promoter_of c) = y) /\
  (forall r, In r t -> ny r < y -> x <= nx r) /\
  match c with At q => In q t | Cross _ _ q _ => x = nx new /\ first_below t y q /\ ny new < y end.
Definition handled (k : nat) (t tl : list node) (c : cursor) : Prop :=
  forall a b, A a b -> reg (T k) a b -> reg tl a b \/ (fst (cxy c) <= a /\ snd (cxy c) <= b) \/
    exists r, In r t /\ real r /\ below2 r a b /\ ny r < snd (cxy c).

Lemma cur_ok_agree : forall t t' Y E c, agree Y t t' -> E <= Y -> cur_ok t E c -> cur_ok t' E c.
Proof.
  intros t t' Y E c Ag L1 H. unfold cur_ok in *. destruct (cxy c) as [x y] eqn:Ec. destruct H as (H1 & H2 & (I & Xq & Yq) & H4 & H5).
  split; auto. split; auto. split. { repeat split; auto. apply Ag; auto. lia. }
  split. { intros r Hr Lr. apply H4; auto. apply Ag; auto. lia. }
  destruct c as [p|x' y' p p']; inversion Ec; subst.
  - apply Ag; auto. lia.
  - destruct H5 as (-> & F & N). split; auto. split; auto.
    eapply first_below_agree; [exact Ag| |exact F]. lia.
Qed.
Lemma handled_agree : forall k t t' tl Y c, agree Y t t' -> snd (cxy c) <= Y -> handled k t tl c -> handled k t' tl c.
Proof.
  intros k t t' tl Y c Ag Lc H a b HA R. destruct (H a b HA R) as [|[|(r & I & Rr & Br & Lr)]]; auto.
  right; right. exists r. repeat split; auto; try apply Rr; try apply Br. apply Ag; auto. lia.
Qed.

(** ** The set nodes: [w0] is the previous one and [w] the current one *)
Lemma new_in_A : A (nx new) (ny new).
Proof.
  pose proof Hin as [HinX HinY]. split. lia. split. lia. intros (q & I & R & [B1 B2]).
  destruct (find_left_ok lo hi St (nx new) HS) as (p & E & Ip & Lp & Fp). { destruct Hin. lia. }
  rewrite E in Hprev. inversion Hprev; subst p. destruct (Fp q I B1) as [->|[_ K]]; lia.
Qed.

(** the cursors of the levels k, k-1, ... *)
Fixpoint curs (E' : Z) (s : trees) (k : nat) (cs : list cursor) : Prop :=
  match cs with
  | [] => True
  | c :: cs => cur_ok (T k) E' c /\ handled k (T k) (L s (S k)) c /\ curs E' s (k - 1) cs
  end.

Lemma curs_ext : forall E' s s' cs k, (forall j, (j <= S k)%nat -> L s' j = L s j) -> curs E' s k cs -> curs E' s' k cs.
Proof.
  induction cs as [|c cs IH]; intros k H1 H; auto. destruct H as (Ha & Hb & Hc). split; auto. split.
  - rewrite H1; auto. - apply IH; auto. intros j Hj. apply H1. lia.
Qed.

Section Round.
Variables (w : node) (Ep E : Z).
Hypothesis Hw : first_below St Ep w.
Hypothesis HEp : ny new < Ep <= hi.
Hypothesis HE : E = Z.max (ny w) (ny new + 1).

Lemma in_S : forall a b, nx w <= a -> ny w <= b -> a < hi -> reg St a b.
Proof.
  intros a b Ha Hb La. exists w. destruct Hw as (I & Lw & _). repeat split; auto; lia.
Qed.
Lemma not_in_S : forall a b, a < nx w -> b < Ep -> ~ reg St a b.
Proof.
  intros a b La Lb (q & I & R & [B1 B2]). destruct Hw as (Iw & Lw & F).
  destruct (F q I) as [->|K]; [lia|lia|]. assert (nx w < nx q). { apply (stair_y St w q); auto. apply HS. } lia.
Qed.

Lemma promote_ok : forall k B, (k < nset)%nat -> B k = Ep -> B (S k) <= E ->
  forall fuel s c, Good s B -> cur_ok (L s k) Ep c -> handled k (L s k) (L s (S k)) c ->
  (countb (fun q => (ny q <? snd (cxy c))%Z) (L s k) < fuel)%nat ->
  exists s' c', promote fuel s k new sno w (Z.max (ny w) (ny new)) c = Ret (s', c') /\ Good s' B /\
    (forall j, j <> S k -> L s' j = L s j) /\ cur_ok (L s k) E c' /\ handled k (L s k) (L s' (S k)) c' /\ ops s s'.
Proof.
  intros k B Hk BK BK1. induction fuel as [|fuel IH]; intros s c G Cok Hc Hf. lia.
  assert (Wt : wft (L s k)) by apply (g_lok _ _ G k Hk).
  cbn [promote]. rewrite (rd_ok _ (lev s) k []) by (rewrite (g_len1 _ _ G); lia). cbn [bind]. fold (L s k).
  set (t := L s k) in *.
  assert (Exy : cursor_xy t c = Ret (cxy c)).
  { destruct c as [q|x y q q']; cbn; auto. destruct Cok as (_ & _ & _ & _ & I). replace (existsb (node_eqb q) t) with true; auto.
    symmetry. apply existsb_exists. exists q. split; auto. apply node_eqb_refl. }
  rewrite Exy. cbn [bind]. pose proof Cok as Cok0. unfold cur_ok in Cok. destruct (cxy c) as [x y] eqn:Ec. cbn [fst snd] in *.
  destruct Cok as (C1 & C2 & (Ip & Xp & Yp) & C4 & C5). remember (promoter_of c) as p eqn:Epc.
  assert (Cond : (Z.max (ny w) (ny new) <=? y) && ((Z.max (ny w) (ny new) <? y) || (ny new <? Z.max (ny w) (ny new))) = (E <=? y)).
  { subst E. destruct (Z.leb_spec (Z.max (ny w) (ny new)) y), (Z.ltb_spec (Z.max (ny w) (ny new)) y),
      (Z.ltb_spec (ny new) (Z.max (ny w) (ny new))), (Z.leb_spec (Z.max (ny w) (ny new + 1)) y); cbn; auto; lia. }
  rewrite Cond. destruct (Z.leb_spec E y) as [Ly|Ly].
  2:{ exists s, c. split; auto. split; auto. split; auto. split; [|split; [auto|apply ops_nil]].
      unfold cur_ok in *. rewrite Ec in *. rewrite <- Epc. repeat split; auto. }
  destruct Hin as [HinX HinY].
  assert (Lyn : ny new < y) by lia.
  destruct Wt as (Stt & _ & (l & Il & Xl & Yl) & Al).
  assert (Xhi : x < hi).
  { destruct c as [q|x' y' q q']; inversion Ec; subst; [|lia].
    destruct (Al q C5) as [[]|[[]|[[] _]]]; lia. }
  assert (Tk : reg (T k) x y).
  { exists p. split. apply (g_agree _ _ G k Hk); auto. rewrite BK. lia. split; [split; lia|split; lia]. }
  destruct (Z.leb_spec (nx w) x) as [Lw|Lw].
  - assert (Lyw : lo < ny w).
    { destruct HS as (_ & _ & _ & AlS). destruct (AlS w) as [[]|[[]|[]]]; try lia. apply Hw. }
    destruct (first_below_exists t (ny w) Stt) as (q' & Eq & Fq). { exists l. split; auto. lia. }
    rewrite Eq. cbn [bind]. destruct Fq as (Iq' & Lq' & Fq').
    assert (Xq' : x <= nx q') by (apply C4; auto; lia).
    apply IH; auto.
    + unfold cur_ok. cbn [cxy]. destruct Hw as (_ & ? & _). split. lia. split. lia. split. { cbn [promoter_of]. repeat split; auto. lia. } split; auto.
      intros r Hr Lr. assert (nx q' < nx r) by (apply (stair_y t q' r); auto). lia.
    + intros a b HA HR. destruct (Hc a b HA HR) as [|[K|(r & Ir & Rr & [Br1 Br2] & Lr)]]; auto; rewrite Ec in *; cbn [fst snd cxy] in *.
      * destruct HA as (_ & _ & HA).
        destruct (Z.lt_ge_cases a hi). { exfalso. apply HA. apply in_S; lia. }
        exfalso. apply HA. destruct Hw as (Iw & Lw' & _). exists w. repeat split; auto; lia.
      * assert (x <= nx r) by (apply C4; auto).
        destruct (Z.le_gt_cases (ny w) b) as [Lb|Lb].
        { exfalso. destruct HA as (_ & _ & HA). apply HA. destruct Hw as (Iw & Lw' & _). exists w. repeat split; auto; lia. }
        destruct (Fq' r Ir) as [->|K]. lia. { right; left. lia. }
        right; right. exists r. repeat split; auto; apply Rr.
    + cbn [cxy snd]. eapply Nat.lt_le_trans; [|apply Nat.lt_succ_r; exact Hf].
      eapply countb_lt with (x := q'); auto.
      * intros z _ Hz. apply Z.ltb_lt in Hz. apply Z.ltb_lt. lia.
      * apply Z.ltb_irrefl. * apply Z.ltb_lt. lia.
  - assert (HAxy : A x y). { split; auto. split. lia. apply not_in_S; auto. }
    pose proof (CA _ _ HAxy) as Cx. pose proof (proj1 (HT k Hk x y) Tk) as Ck. pose proof (Cmax x y) as Cm.
    assert (Rp : real p) by (split; lia).
    destruct (add_at_good s B (S k) (mkNode x y (nz new) None) (Some p) G) as (r0 & Ea & _ & Lk & Af); cbn [nx ny nz]; auto.
    { lia. } { split; cbn [nx ny]; lia. } { lia. } { lia. }
    { split. lia. split. replace (S k - 1)%nat with k by lia. apply (g_agree _ _ G k Hk); auto. rewrite BK. lia.
      split; auto. split; cbn [nx ny]; lia. }
    assert (Hb : (nz new =? nz p) && (x =? nx p) = true <-> same3 p (mkNode x y (nz new) None)).
    { rewrite andb_true_iff, !Z.eqb_eq. unfold same3. cbn [nx ny nz]. split; [intros []|intros (? & ? & ?)]; repeat split; auto; lia. }
    destruct (Lk p _ eq_refl Hb) as (s' & El').
    destruct (Af s') as (G' & Lo & Rg & Op1). { eexists. split; [exact Hb|exact El']. }
    assert (Elive : in_tree t p = Ret tt).
    { unfold in_tree. replace (existsb (node_eqb p) t) with true; auto. symmetry. apply existsb_exists. exists p. split; auto. apply node_eqb_refl. }
    rewrite Ea. cbn [bind]. rewrite Elive. cbn [bind]. rewrite El'. cbn [bind]. rewrite (rd_ok _ (lev s') k []) by (rewrite (g_len1 _ _ G'); lia). cbn [bind]. fold (L s' k).
    assert (EL : L s' k = t). { rewrite Lo by lia. reflexivity. }
    rewrite EL.
    assert (Nx : exists q', cursor_next t c = Ret (At q') /\ first_below t y q').
    { destruct c as [q|x' y' q q0]; inversion Ec; subst.
      - destruct (next_of_spec t q Stt C5) as (q' & En & Fn). { exists l. split; auto. lia. }
        exists q'. split; auto. cbn. now rewrite En.
      - exists q. split; auto. apply C5. }
    destruct Nx as (q' & En & (Iq' & Lq' & Fq')). rewrite En. cbn [bind].
    assert (Xq' : x <= nx q') by (apply C4; auto).
    destruct (IH s' (At q')) as (s2 & c2 & E2 & G2 & Lo2 & Ck2 & Hd2 & Op2); auto.
    + rewrite EL. unfold cur_ok. cbn [cxy]. split. lia. split. lia. split. { cbn [promoter_of]. repeat split; auto. lia. } split; auto.
      intros r Hr Lr. assert (nx q' < nx r) by (apply (stair_y t q' r); auto). lia.
    + rewrite EL. intros a b HA HR. destruct (Hc a b HA HR) as [K|[K|(r & Ir & Rr & [Br1 Br2] & Lr)]]; rewrite ?Ec in *; cbn [fst snd cxy] in *.
      * left. apply Rg. auto.
      * left. apply Rg. right. exact K.
      * destruct (Fq' r Ir Lr) as [->|K]. { right; left. lia. }
        right; right. exists r. repeat split; auto; apply Rr.
    + rewrite EL. cbn [cxy snd]. eapply Nat.lt_le_trans; [|apply Nat.lt_succ_r; exact Hf].
      eapply countb_lt with (x := q'); auto.
      * intros z _ Hz. apply Z.ltb_lt in Hz. apply Z.ltb_lt. lia.
      * apply Z.ltb_irrefl. * apply Z.ltb_lt. lia.
    + exists s2, c2. rewrite EL in *. split; auto. split; auto. split.
      { intros j Hj. rewrite Lo2, Lo; auto. } split; auto. split; auto. eapply ops_trans; eauto.
Qed.

(** ** One round over all the levels *)
Lemma E_le_Ep : E <= Ep.
Proof. destruct Hw as (_ & ? & _). lia. Qed.

Lemma promote_all_ok : forall cs k s, (k < nset)%nat -> (length cs <= S k)%nat ->
  Good s (fun j => if (j <=? k)%nat then Ep else E) -> curs Ep s k cs ->
  exists s' cs', promote_all s k new sno w (Z.max (ny w) (ny new)) cs = Ret (s', cs') /\
    length cs' = length cs /\ Good s' (fun _ => E) /\ (forall j, (S k < j)%nat -> L s' j = L s j) /\ curs E s' k cs' /\ ops s s'.
Proof.
  induction cs as [|c cs IH]; intros k s Hk Hl G Hc; cbn [promote_all].
  - exists s, []. split; auto. split; auto. split; [|split; [|split]]; auto.
    + eapply Good_weaken; eauto. intros j. pose proof E_le_Ep. cbn. destruct (j <=? k)%nat; lia.
    + apply ops_nil.
  - destruct Hc as (C1 & C2 & C3). cbn [length] in Hl.
    rewrite (rd_ok _ (lev s) k []) by (rewrite (g_len1 _ _ G); lia). cbn [bind]. fold (L s k).
    assert (Agk : agree Ep (T k) (L s k)).
    { intros q Lq. pose proof (g_agree _ _ G k Hk q) as X. cbn beta in X. rewrite Nat.leb_refl in X. symmetry. auto. }
    destruct (promote_ok k (fun j => if (j <=? k)%nat then Ep else E) Hk) with (fuel := (2 + length (L s k))%nat) (s := s) (c := c)
      as (s1 & c1 & E1 & G1 & Lo1 & Ck1 & Hd1 & Op1); auto.
    { now rewrite Nat.leb_refl. } { replace (S k <=? k)%nat with false by (symmetry; apply Nat.leb_gt; lia). lia. }
    { eapply cur_ok_agree; eauto. lia. }
    { eapply handled_agree; eauto. unfold cur_ok in C1. destruct (cxy c). cbn. lia. }
    { pose proof (countb_len _ (fun q => ny q <? snd (cxy c)) (L s k)). lia. }
    rewrite E1. cbn [bind fst snd].
    assert (Agk' : agree Ep (L s k) (T k)) by (intros q Lq; symmetry; auto).
    destruct cs as [|c2 cs].
    + cbn [promote_all bind fst snd]. exists s1, [c1]. split; auto. split; auto. split; [|split; [|split; [split; [|split]|auto]]].
      * eapply Good_weaken; eauto. intros j. pose proof E_le_Ep. cbn. destruct (j <=? k)%nat; lia.
      * intros j Hj. apply Lo1. lia.
      * eapply cur_ok_agree; eauto. apply E_le_Ep.
      * eapply handled_agree; eauto. unfold cur_ok in Ck1. destruct (cxy c1). cbn. pose proof E_le_Ep. lia.
      * exact I.
    + cbn [length] in Hl.
      destruct (IH (k - 1)%nat s1) as (s2 & cs2 & E2 & Len2 & G2 & Lo2 & Cu2 & Op2).
      { lia. } { cbn [length]. lia. }
      { eapply Good_weaken; eauto. intros j. pose proof E_le_Ep. cbn beta.
        destruct (Nat.leb_spec j (k - 1)), (Nat.leb_spec j k); lia. }
      { eapply curs_ext; [|exact C3]. intros j Hj. apply Lo1. lia. }
      rewrite E2. cbn [bind fst snd]. exists s2, (c1 :: cs2). split; auto. split. { cbn [length] in *. lia. }
      split; auto. split. { intros j Hj. rewrite Lo2 by lia. apply Lo1. lia. }
      split; [|eapply ops_trans; eauto]. split; [|split]; auto.
      * eapply cur_ok_agree; eauto. apply E_le_Ep.
      * assert (EL2 : L s2 (S k) = L s1 (S k)). { apply Lo2. lia. }
        rewrite EL2. eapply handled_agree; eauto. unfold cur_ok in Ck1. destruct (cxy c1). cbn. pose proof E_le_Ep. lia.
Qed.
End Round.

(** ** The second part *)
Lemma part2_ok : forall rest preS w0 s k cs, St = preS ++ w0 :: rest -> ny new < ny w0 -> (k < nset)%nat -> (length cs <= S k)%nat ->
  Good s (fun _ => ny w0) -> curs (ny w0) s k cs ->
  exists s' cs' w, part2 rest s k new sno cs = Ret (s', cs', w) /\ length cs' = length cs /\
    Good s' (fun _ => ny new + 1) /\ curs (ny new + 1) s' k cs' /\
    (exists Ep, ny new < Ep <= hi /\ first_below St Ep w) /\ ny w <= ny new /\ ops s s'.
Proof.
  induction rest as [|w rest IH]; intros preS w0 s k cs ES Lw0 Hk Hl G Hc; cbn [part2].
  - exfalso. destruct HS as (Ss & _ & (l & Il & Xl & Yl) & _). rewrite ES, in_app_iff in Il.
    rewrite ES in Ss. destruct (stair_app_inv _ _ Ss) as (_ & _ & K). destruct Hin.
    destruct Il as [Il|[->|[]]]. destruct (K l w0 Il (or_introl eq_refl)). lia. lia.
  - assert (Fw : first_below St (ny w0) w).
    { destruct HS as (Ss & _). rewrite ES in Ss. destruct (stair_app_inv _ _ Ss) as (_ & S2 & K).
      apply stair_inv in S2. destruct S2 as [S2 S3]. apply stair_inv in S2. destruct S2 as [S2 S4].
      split. rewrite ES, in_app_iff. right; right; now left. split. apply S3; now left.
      intros r Hr Lr. rewrite ES, in_app_iff in Hr. destruct Hr as [Hr|[->|[->|Hr]]]; auto.
      - destruct (K r w0 Hr (or_introl eq_refl)). lia. - lia. - right. apply S4; auto. }
    assert (HEp : ny new < ny w0 <= hi).
    { split; auto. assert (In w0 St) by (rewrite ES, in_app_iff; right; now left).
      destruct (wft_bounds lo hi St w0 HS H); lia. }
    destruct (promote_all_ok w (ny w0) (Z.max (ny w) (ny new + 1)) Fw HEp eq_refl cs k s Hk Hl) as (s1 & cs1 & E1 & Len & G1 & _ & C1 & Op1); auto.
    { eapply Good_weaken; eauto. intros j. cbn beta. destruct Fw as (_ & ? & _). destruct (j <=? k)%nat; lia. }
    rewrite E1. cbn [bind fst snd]. destruct (Z.ltb_spec (ny new) (ny w)).
    + replace (Z.max (ny w) (ny new + 1)) with (ny w) in * by lia.
      destruct (IH (preS ++ [w0]) w s1 k cs1) as (s' & cs' & w' & E2 & Len2 & R1 & R2 & R3 & R4 & R5); auto.
      { rewrite ES, <- app_assoc. auto. } { lia. }
      exists s', cs', w'. split; auto. split. lia. split; auto. split; auto. split; auto. split; auto. eapply ops_trans; eauto.
    + replace (Z.max (ny w) (ny new + 1)) with (ny new + 1) in * by lia.
      exists s1, cs1, w. split; auto. split; auto. split; auto. split; auto. split; eauto.
Qed.

(** ** The third part *)
Lemma part3_ok : forall w Ep, ny new < Ep <= hi -> first_below St Ep w -> ny w <= ny new ->
  forall cs k s, (k < nset)%nat -> (length cs <= S k)%nat ->
  Good s (fun j => if (j <=? k)%nat then ny new + 1 else ny new) -> curs (ny new + 1) s k cs ->
  exists s', part3 s k new sno w cs = Ret s' /\ Good s' (fun _ => ny new) /\ ops s s' /\
    (forall j, (S k < j)%nat -> L s' j = L s j) /\
    (forall k', (k' <= k)%nat -> (k < k' + length cs)%nat -> forall a b, A a b -> reg (T k') a b -> reg (L s' (S k')) a b).
Proof.
  intros w Ep HEp Hw Lw. induction cs as [|c cs IH]; intros k s Hk Hl G Hc; cbn [part3].
  - exists s. split; auto. split. { eapply Good_weaken; eauto. intros j. cbn. destruct (j <=? k)%nat; lia. }
    split. apply ops_nil. split; auto. intros k' H1 H2. cbn in H2. lia.
  - destruct Hc as (C1 & C2 & C3). cbn [length] in Hl.
    rewrite (rd_ok _ (lev s) k []) by (rewrite (g_len1 _ _ G); lia). cbn [bind]. fold (L s k).
    assert (Agk : agree (ny new + 1) (T k) (L s k)).
    { intros q Lq. pose proof (g_agree _ _ G k Hk q) as X. cbn beta in X. rewrite Nat.leb_refl in X. symmetry. auto. }
    pose proof (cur_ok_agree _ _ _ _ _ Agk (Z.le_refl _) C1) as C1'.
    destruct c as [q|x y q q0].
    2:{ unfold cur_ok in C1. cbn [cxy] in C1. destruct C1 as (? & _ & _ & _ & _ & _ & ?). lia. }
    unfold cur_ok in C1, C1'. cbn [cxy] in C1, C1'. destruct C1 as (D1 & D2 & _ & D4 & D5). destruct C1' as (_ & _ & _ & _ & D5').
    cbn [cursor_xy]. replace (existsb (node_eqb q) (L s k)) with true.
    2:{ symmetry. apply existsb_exists. exists q. split; auto. apply node_eqb_refl. }
    cbn [bind fst snd].
    assert (Step : exists s1, (if nx q <? nx w then
         r <- add_at s (S k) (mkNode (nx q) (ny new) (nz new) None) sno (Some (promoter_of (At q))) ;;
         link r (promoter_of (At q)) (z <- cursor_z (At q) ;; Ret ((nz new =? z) && (ny new =? ny q)))
       else Ret s) = Ret s1 /\
       Good s1 (fun j => if (j <=? k)%nat then ny new + 1 else ny new) /\ ops s s1 /\ (forall j, j <> S k -> L s1 j = L s j) /\
       (forall a b, A a b -> reg (T k) a b -> reg (L s1 (S k)) a b)).
    { destruct (Z.ltb_spec (nx q) (nx w)) as [Lx|Lx].
      - assert (Wh : nx w <= hi). { destruct (wft_bounds lo hi St w HS); try lia. apply Hw. }
        assert (HA : A (nx q) (ny new)). { destruct Hin. split. lia. split. lia. apply (not_in_S w Ep); auto. lia. }
        destruct (WT k Hk) as (_ & _ & _ & Al). assert (Rq : real q).
        { destruct HS as (_ & _ & _ & AlS). destruct (AlS w) as [[]|[[]|[]]]; try apply Hw; destruct Hin; split; lia. }
        assert (Tk : reg (T k) (nx q) (ny new)). { exists q. split; auto. split; auto. split; lia. }
        pose proof (CA _ _ HA) as Cx. pose proof (proj1 (HT k Hk _ _) Tk) as Ck. pose proof (Cmax (nx q) (ny new)) as Cm.
        destruct (add_at_good s (fun j => if (j <=? k)%nat then ny new + 1 else ny new) (S k) (mkNode (nx q) (ny new) (nz new) None) (Some q) G)
          as (r0 & Ea & _ & Lk & Af); cbn [nx ny nz]; auto.
        { lia. } { destruct Rq. destruct Hin. split; cbn [nx ny]; lia. }
        { replace (S k <=? k)%nat with false by (symmetry; apply Nat.leb_gt; lia). lia. } { lia. }
        { split. lia. split. replace (S k - 1)%nat with k by lia. auto. split; auto. split; cbn [nx ny]; lia. }
        cbn [promoter_of cursor_z bind].
        assert (Hbq : (nz new =? nz q) && (ny new =? ny q) = true <-> same3 q (mkNode (nx q) (ny new) (nz new) None)).
        { rewrite andb_true_iff, !Z.eqb_eq. unfold same3. cbn [nx ny nz]. split; [intros []|intros (? & ? & ?)]; repeat split; auto; lia. }
        destruct (Lk q _ eq_refl Hbq) as (s' & El').
        destruct (Af s') as (G' & Lo & Rg & Op1). { eexists. split; [exact Hbq|exact El']. }
        rewrite Ea. cbn [bind]. exists s'. split; auto. split; auto. split; auto. split; auto.
        intros a b HAb HR. apply Rg. destruct HAb as (Ha & Hb & Hn).
        destruct (C2 a b) as [K|[K|(r & Ir & Rr & [Br1 Br2] & Lr)]]; auto; cbn [cxy fst snd] in *. { split; auto. }
        + right. split; cbn [nx ny]; lia.
        + specialize (D4 r Ir Lr). right. split; cbn [nx ny]; lia.
      - exists s. split; auto. split; auto. split. apply ops_nil. split; auto. intros a b HAb HR.
        assert (NoA : a < nx w). { destruct HAb as (Ha & Hb & Hn). destruct (Z.lt_ge_cases a (nx w)); auto. exfalso.
          apply Hn. apply (in_S w Ep Hw HEp); lia. }
        destruct (C2 a b) as [K|[K|(r & Ir & Rr & [Br1 Br2] & Lr)]]; auto; cbn [cxy fst snd] in *. lia.
        specialize (D4 r Ir Lr). lia. }
    destruct Step as (s1 & E1 & G1 & Op1 & Lo1 & R1). rewrite E1. cbn [bind].
    destruct cs as [|c2 cs].
    + cbn [part3]. exists s1. split; auto. split. { eapply Good_weaken; eauto. intros j. cbn. destruct (j <=? k)%nat; lia. }
      split; auto. split. { intros j Hj. apply Lo1. lia. }
      intros k' H1 H2. cbn in H2. replace k' with k by lia. auto.
    + cbn [length] in Hl. destruct (IH (k - 1)%nat s1) as (s' & E2 & G2 & Op2 & Lo2 & R2).
      { lia. } { cbn [length]; lia. }
      { eapply Good_weaken; eauto. intros j. cbn beta. destruct (Nat.leb_spec j (k - 1)), (Nat.leb_spec j k); lia. }
      { eapply curs_ext; [|exact C3]. intros j Hj. apply Lo1. lia. }
      exists s'. split; auto. split; auto. split. eapply ops_trans; eauto. split. { intros j Hj. rewrite Lo2 by lia. apply Lo1. lia. }
      intros k' H1 H2 a b HA HR. cbn [length] in H2. destruct (Nat.eq_dec k' k) as [->|N].
      * rewrite Lo2 by lia. auto.
      * apply R2; auto; cbn [length]; lia.
Qed.

(** ** The first part *)
Lemma part1_ok : forall s k, (k < nset)%nat -> (forall j, (j < nset)%nat -> L s j = T j) -> length (lev s) = nset ->
  exists stop dom cs, part1 (lev s) new prev k = Ret (stop, dom, cs) /\ (stop + length cs = S k)%nat /\ curs (ny prev) s k cs /\
    prom_ok stop new dom.
Proof.
  intros s k Hk Hs Hl. destruct Hin as [HinX HinY].
  destruct (find_left_ok lo hi St (nx new) HS) as (p & Ep & Ip & Lp & Fp). { lia. }
  rewrite Hprev in Ep. inversion Ep; subst p. clear Ep.
  induction k as [|k IH].
  all: cbn [part1]; rewrite (rd_ok _ (lev s) _ []) by lia; cbn [bind]; fold (L s 0); try fold (L s (S k)).
  all: rewrite (Hs _ Hk).
  all: match goal with |- context [find_point_at_left ?t _] => pose proof (WT _ Hk) as W; set (t0 := t) in * end.
  all: destruct (find_left_ok lo hi t0 (nx new) W) as (left & El & Il & Ll & Fl); [lia|].
  all: rewrite El; cbn [bind]; destruct (Z.leb_spec (ny left) (ny new)) as [Ly|Ly].
  1,3: do 2 eexists; exists []; split; [reflexivity|]; cbn [length]; split; [lia|]; split; [exact I|]; split; [lia|].
  1,2: cbn [Nat.sub]; rewrite ?Nat.sub_0_r; fold t0; split; auto; split; split; lia.
  all: match goal with |- context [bind (if ?b then ?x else ?y) _] =>
    assert (Cc : exists c, (if b then x else y) = Ret c /\ cur_ok t0 (ny prev) c /\ forall k0 tl, T k0 = t0 -> handled k0 t0 tl c) end.
  1,3: destruct W as (Stt & _ & (l & Il' & Xl & Yl) & Al);
    destruct (Z.ltb_spec (ny left) (ny prev)) as [Lt|Ge].
  1,3: destruct (next_of_spec t0 left Stt Il) as (q & En & Fq); [exists l; split; auto; lia|];
    rewrite En; cbn [bind]; exists (Cross (nx new) (ny left) q left); split; auto; split;
    [unfold cur_ok; cbn [cxy]; split; [lia|]; split; [lia|]; split; [cbn [promoter_of]; auto|]; split;
      [intros r Hr Lr; destruct (Z.le_gt_cases (nx r) (nx new)) as [K|K]; [|lia]; destruct (Fl r Hr K) as [->|[]]; lia
      |split; [auto|split; auto]]
    |intros k0 tl Et a b (Ha & Hb & _) (r & Ir & Rr & [B1 B2]); rewrite Et in Ir; right; cbn [cxy fst snd];
     destruct (Z.le_gt_cases (nx r) (nx new)) as [K|K];
     [left; destruct (Fl r Ir K) as [->|[]]; lia
     |right; exists r; split; auto; split; auto; split; [split; auto|]; apply (stair_x t0 left r); auto; lia]].
  1,2: assert (Lpv : lo < ny prev) by lia;
    destruct (first_below_exists t0 (ny prev) Stt) as (q & En & (Iq & Lq & Fq)); [exists l; split; auto; lia|];
    rewrite En; cbn [bind]; exists (At q); split; auto;
    assert (Xq : nx new < nx q) by
     (assert (nx left < nx q) by (apply (stair_y t0 left q); auto; lia);
      destruct (Z.le_gt_cases (nx q) (nx new)) as [K|K]; auto; destruct (Fl q Iq K) as [->|[]]; lia); split;
    [unfold cur_ok; cbn [cxy]; split; [lia|]; split; [lia|]; split; [cbn [promoter_of]; repeat split; auto; lia|]; split; auto;
      intros r Hr Lr; assert (nx q < nx r) by (apply (stair_y t0 q r); auto); lia
    |intros k0 tl Et a b (Ha & Hb & Hn) (r & Ir & Rr & [B1 B2]); rewrite Et in Ir; right; cbn [cxy fst snd];
     assert (b < ny prev) by (destruct (Z.lt_ge_cases b (ny prev)); auto; exfalso; apply Hn; exists prev; repeat split; auto; lia);
     destruct (Fq r Ir) as [->|K]; [lia|left; lia|right; exists r; repeat split; auto; apply Rr]].
  all: destruct Cc as (c & Ec & Ck & Ch); rewrite Ec; cbn [bind fst snd].
  - exists O, None, [c]. split; auto. split; auto. split; [|reflexivity]. split; auto. split; auto. exact I.
  - destruct IH as (stop & dom & cs & E1 & Le & Cu & St1). lia. rewrite E1. cbn [bind fst snd].
    exists stop, dom, (c :: cs). split; auto. cbn [length]. split. lia. split; auto.
    split; auto. split; auto. replace (S k - 1)%nat with k by lia. auto.
Qed.

(** ** The whole step on the levels *)
Hypothesis Cless : forall a b, ~ A a b -> a < hi -> b < hi -> cnt' a b = cnt a b.
Hypothesis Cmono0 : forall a b a' b', a <= a' -> b <= b' -> (cnt a b <= cnt a' b')%nat.
Hypothesis Adec : forall a b, A a b \/ ~ A a b.

Lemma levels_step : forall s start preS rest, (start < nset)%nat -> Good s (fun _ => hi) -> (forall j, (j < nset)%nat -> L s j = T j) ->
  St = preS ++ prev :: rest -> (forall a b, cnt a b <= S start \/ nset <= S (S start))%nat ->
  exists stop dom cs s2 cs2 w s3 r s4,
    part1 (lev s) new prev start = Ret (stop, dom, cs) /\
    part2 rest s start new sno cs = Ret (s2, cs2, w) /\
    part3 s2 start new sno w cs2 = Ret s3 /\
    add_at s3 stop new sno dom = Ret r /\
    (if (0 <? stop)%nat then
       match dom with
       | None => match snd r with None => Ret (fst r) | Some _ => OutOfBounds end
       | Some q => link r q (Ret ((nz new =? nz q) && (ny new =? ny q) && (nx new =? nx q)))
       end
     else Ret (fst r)) = Ret s4 /\
    Good s4 (fun _ => ny new) /\ ops s s4 /\
    forall j, (j < nset)%nat -> forall a b, a < hi -> b < hi -> (j < cnt' a b)%nat -> reg (L s4 j) a b.
Proof.
  intros s start preS rest Hst G Hs ES HM.
  destruct (part1_ok s start Hst Hs (g_len1 _ _ G)) as (stop & dom & cs & E1 & Le & Cu & Hstop).
  assert (Hp : ny prev <= hi).
  { destruct (wft_bounds lo hi St prev HS); try lia. rewrite ES, in_app_iff. right; now left. }
  destruct (part2_ok rest preS prev s start cs ES Hd Hst) as (s2 & cs2 & w & E2 & Le2 & G2 & Cu2 & (Ep & HEp & Fw) & Lw & Op2).
  { lia. } { eapply Good_weaken; eauto. } { auto. }
  destruct (part3_ok w Ep HEp Fw Lw cs2 start s2 Hst) as (s3 & E3 & G3 & Op3 & _ & R3).
  { lia. } { eapply Good_weaken; eauto. intros j; cbn. destruct (j <=? start)%nat; lia. } { auto. }
  pose proof new_in_A as HA. pose proof (CA _ _ HA) as CAn.
  assert (Hcs : (stop <= cnt (nx new) (ny new))%nat).
  { destruct dom as [q|]; [|cbn in Hstop; lia]. destruct Hstop as (P1 & P2 & P3 & P4).
    assert (R : reg (T (stop - 1)%nat) (nx new) (ny new)) by (exists q; auto). apply HT in R; lia. }
  pose proof (Cmax (nx new) (ny new)) as Cm.
  destruct (add_at_good s3 (fun _ => ny new) stop new dom G3) as (r & E4 & Lk0 & Lk & Af); auto. lia. lia. lia.
  assert (Fin : exists s4, (if (0 <? stop)%nat then
       match dom with
       | None => match snd r with None => Ret (fst r) | Some _ => OutOfBounds end
       | Some q => link r q (Ret ((nz new =? nz q) && (ny new =? ny q) && (nx new =? nx q)))
       end
     else Ret (fst r)) = Ret s4 /\ linked dom r new s4).
  { destruct dom as [q|].
    - assert (Hb : (nz new =? nz q) && (ny new =? ny q) && (nx new =? nx q) = true <-> same3 q new).
      { rewrite !andb_true_iff, !Z.eqb_eq. unfold same3. split; [intros [[] ?]|intros (? & ? & ?)]; repeat split; auto; lia. }
      destruct (Lk q _ eq_refl Hb) as (s4 & El'). destruct Hstop as (P1 & _).
      exists s4. destruct (Nat.ltb_spec 0 stop); [|lia]. split; auto. eexists. split; [exact Hb|exact El'].
    - cbn in Hstop. subst stop. cbn. eauto. }
  destruct Fin as (s4 & E5 & Hl4). destruct (Af s4 Hl4) as (G4 & Lo4 & R4 & Op4).
  exists stop, dom, cs, s2, cs2, w, s3, r, s4. repeat (split; [assumption|]).
  split. { eapply ops_trans; [exact Op2|]. eapply ops_trans; eauto. }
  intros j Hj a b Ha Hb HC. destruct (Adec a b) as [Aab|Nab].
  2:{ rewrite Cless in HC by auto. apply (g_grow _ _ G4 j Hj). now apply HT. }
  rewrite (CA _ _ Aab) in HC. destruct (Nat.eq_dec j (cnt a b)) as [Ej|Nj].
  2:{ apply (g_grow _ _ G4 j Hj). apply HT; auto. lia. }
  assert (Hcn : (cnt (nx new) (ny new) <= cnt a b)%nat). { apply Cmono0; apply Aab. }
  destruct (Nat.eq_dec j stop) as [->|Ns].
  { apply R4. right. split; apply Aab. }
  rewrite Lo4 by auto. destruct j as [|j]. lia.
  apply R3; auto.
  - destruct (HM a b); lia.
  - lia.
  - apply HT; lia.
Qed.
End Step.
