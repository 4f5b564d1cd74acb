(** The fields set, promoter, remover and equal of the nodes of the 3-objective
    EAF sweep: the runs reached from a node are those that attain its point. *)
From Coq Require Import List ZArith Lia Bool Arith Sorted.
From Verif Require Import Base Eaf3dModel Eaf3dTrees Eaf3dProofs Eaf3dMain.
Import ListNotations.
Open Scope Z_scope.

(** ** The runs reached from a node *)
Section Reach.
Variable h : list info.

(** through equal *)
Inductive eset : nat -> nat -> Prop :=
| e_here : forall i e, ieq (fld h i) = Some e -> eset i (iset (fld h e))
| e_next : forall i e k, ieq (fld h i) = Some e -> eset e k -> eset i k.
(** the node itself, through promoter and remover *)
Inductive pset : nat -> nat -> Prop :=
| p_here : forall i, pset i (iset (fld h i))
| p_prom : forall i p k, iprom (fld h i) = Some p -> pset p k -> pset i k
| p_rem : forall i r k, irem (fld h i) = Some r -> pset r k -> pset i k
| p_remeq : forall i r k, irem (fld h i) = Some r -> eset r k -> pset i k.
Definition fset (i k : nat) : Prop := pset i k \/ eset i k.
End Reach.

(** the fields are only ever assigned once *)
Definition hle (h h' : list info) : Prop := (length h <= length h')%nat /\
  forall i, (i < length h)%nat -> iset (fld h' i) = iset (fld h i) /\ iprom (fld h' i) = iprom (fld h i) /\
    (irem (fld h i) <> None -> irem (fld h' i) = irem (fld h i)) /\
    (ieq (fld h i) <> None -> ieq (fld h' i) = ieq (fld h i)).
Lemma hle_refl : forall h, hle h h.
Proof. intros. split; auto. Qed.
Lemma hle_trans : forall a b c, hle a b -> hle b c -> hle a c.
Proof.
  intros a b c (L1 & H1) (L2 & H2). split. lia. intros i Hi.
  destruct (H1 i Hi) as (A1 & A2 & A3 & A4). destruct (H2 i) as (B1 & B2 & B3 & B4). lia.
  split. congruence. split. congruence. split.
  - intros N. rewrite B3; rewrite A3; auto.
  - intros N. rewrite B4; rewrite A4; auto.
Qed.

Definition gat (g : list (node * nat)) (i : nat) : node * nat := nth i g (mkNode 0 0 0 None, O).
Definition le3 (p q : node) : Prop := nx p <= nx q /\ ny p <= ny q /\ nz p <= nz q.

(** the graph of the fields; [g] records the point and the level of every node,
    [sn] tells which runs attain a point *)
Section Graph.
Variable nset : nat.
Record graph (sn : node -> nat -> Prop) (h : list info) (g : list (node * nat)) : Prop := mkGraph {
  gr_len : length g = length h;
  gr_lev : forall i, (i < length h)%nat -> (snd (gat g i) < nset)%nat;
  gr_set : forall i, (i < length h)%nat -> (iset (fld h i) < nset)%nat /\ sn (fst (gat g i)) (iset (fld h i));
  gr_prom : forall i p, (i < length h)%nat -> iprom (fld h i) = Some p ->
    (p < i)%nat /\ (snd (gat g p) < snd (gat g i))%nat /\ le3 (fst (gat g p)) (fst (gat g i));
  gr_rem : forall i r, (i < length h)%nat -> irem (fld h i) = Some r ->
    (i < r < length h)%nat /\ snd (gat g r) = snd (gat g i) /\ le3 (fst (gat g r)) (fst (gat g i));
  gr_eq : forall i e, (i < length h)%nat -> ieq (fld h i) = Some e ->
    (i < e < length h)%nat /\ le3 (fst (gat g e)) (fst (gat g i)) }.

Section Sound.
Variables (sn : node -> nat -> Prop) (h : list info) (g : list (node * nat)).
Hypothesis G : graph sn h g.
Hypothesis Mono : forall p q k, le3 p q -> sn p k -> sn q k.
Lemma eset_sound : forall i k, eset h i k -> (i < length h)%nat -> sn (fst (gat g i)) k.
Proof.
  induction 1; intros Hi; destruct (gr_eq _ _ _ G _ _ Hi H) as ([_ L1] & L2); eapply Mono; eauto. now apply (gr_set _ _ _ G).
Qed.
Lemma pset_sound : forall i k, pset h i k -> (i < length h)%nat -> sn (fst (gat g i)) k.
Proof.
  induction 1; intros Hi.
  - now apply (gr_set _ _ _ G).
  - destruct (gr_prom _ _ _ G _ _ Hi H) as (L1 & _ & L2). eapply Mono; eauto. apply IHpset. lia.
  - destruct (gr_rem _ _ _ G _ _ Hi H) as ([_ L1] & _ & L2). eapply Mono; eauto.
  - destruct (gr_rem _ _ _ G _ _ Hi H) as ([_ L1] & _ & L2). eapply Mono; eauto. now apply eset_sound.
Qed.
Lemma fset_sound : forall i k, fset h i k -> (i < length h)%nat -> sn (fst (gat g i)) k.
Proof. intros i k [H|H] Hi. now apply pset_sound. now apply eset_sound. Qed.

(** what is reached stays reached *)
Variable h' : list info.
Hypothesis HL : hle h h'.
Lemma eset_mono : forall i k, eset h i k -> (i < length h)%nat -> eset h' i k.
Proof.
  destruct HL as [_ F]. induction 1; intros Hi; destruct (gr_eq _ _ _ G _ _ Hi H) as ([_ L1] & _);
    destruct (F i Hi) as (_ & _ & _ & E); rewrite H in E.
  - destruct (F e L1) as (S & _). rewrite <- S. apply e_here. apply E. congruence.
  - eapply e_next; eauto. apply E. congruence.
Qed.
Lemma pset_mono : forall i k, pset h i k -> (i < length h)%nat -> pset h' i k.
Proof.
  destruct HL as [_ F]. induction 1; intros Hi; destruct (F i Hi) as (E1 & E2 & E3 & _).
  - rewrite <- E1. apply p_here.
  - destruct (gr_prom _ _ _ G _ _ Hi H) as (L1 & _). eapply p_prom. rewrite E2; eauto. apply IHpset. lia.
  - destruct (gr_rem _ _ _ G _ _ Hi H) as ([_ L1] & _). eapply p_rem; eauto. rewrite E3; [eauto|congruence].
  - destruct (gr_rem _ _ _ G _ _ Hi H) as ([_ L1] & _). eapply p_remeq. rewrite E3; [eauto|congruence]. now apply eset_mono.
Qed.
Lemma fset_mono : forall i k, fset h i k -> (i < length h)%nat -> fset h' i k.
Proof. intros i k [H|H] Hi. left; now apply pset_mono. right; now apply eset_mono. Qed.
End Sound.
End Graph.

Lemma gat_app : forall g0 g1 i, (i < length g0)%nat -> gat (g0 ++ g1) i = gat g0 i.
Proof. intros. unfold gat. now apply app_nth1. Qed.
Lemma gat_last : forall g e i, i = length g -> gat (g ++ [e]) i = e.
Proof. intros g e i ->. unfold gat. rewrite app_nth2, Nat.sub_diag by lia. reflexivity. Qed.

(** ** The insertions of one iteration *)
Section Mid.
Variables lo hi : Z.
Notation reg := (reg hi). Notation real := (real hi). Notation inside := (inside lo hi).
Variables (nset : nat) (new : node) (St : list node) (T O0 : nat -> list node) (cnt' : Z -> Z -> nat) (sno : nat).
Variables (H0 : list info) (g0 : list (node * nat)) (sn : node -> nat -> Prop).
Notation N0 := (length H0).
Notation Aq q := (A hi new St (nx q) (ny q)).
Hypothesis Hsno : (sno < nset)%nat.
Hypothesis Lg0 : length g0 = N0.
Hypothesis LT : forall j q, (j < nset)%nat -> In q (T j) -> real q -> exists i, nid q = Some i /\ (i < N0)%nat /\ gat g0 i = (q, j).
Hypothesis ZT : forall j q, (j < nset)%nat -> In q (T j) -> real q -> nz q <= nz new.
Hypothesis SA : forall q, Aq q -> nz q = nz new -> sn q sno.

Record mid (s : trees) (g : list (node * nat)) : Prop := mkMid {
  d_graph : graph nset sn (heap s) g;
  d_live : forall j q, (j < nset)%nat -> In q (L s j) \/ In q (O_ s j) -> real q ->
    exists i, nid q = Some i /\ (i < length (heap s))%nat /\ gat g i = (q, j);
  d_rem : forall j q i, (j < nset)%nat -> In q (L s j) -> real q -> nid q = Some i -> irem (fld (heap s) i) = None;
  d_hle : hle H0 (heap s);
  d_g : exists g1, g = g0 ++ g1;
  d_new : forall i, (N0 <= i < length (heap s))%nat ->
    let q := fst (gat g i) in let j := snd (gat g i) in
    (j < nset)%nat /\ nz q = nz new /\ Aq q /\ ~ reg (T j) (nx q) (ny q) /\ nid q = Some i /\
    iset (fld (heap s) i) = sno /\ ieq (fld (heap s) i) = None /\
    exists prom, prom_ok hi T j q prom /\ iprom (fld (heap s) i) = pid prom /\
      forall pr ip, prom = Some pr -> nid pr = Some ip -> same3 pr q -> ieq (fld (heap s) ip) = Some i;
  d_srcL : forall j q, (j < nset)%nat -> In q (L s j) -> In q (T j) \/ exists i, (N0 <= i)%nat /\ nid q = Some i;
  d_srcO : forall j q, (j < nset)%nat -> In q (O_ s j) -> In q (O0 j) \/ In q (T j) \/ exists i, (N0 <= i)%nat /\ nid q = Some i;
  d_cov : forall j q i, (j < nset)%nat -> In q (T j) -> real q -> nid q = Some i -> ieq (fld (heap s) i) <> None ->
    (S j < nset)%nat /\ reg (L s (S j)) (nx q) (ny q) }.

Lemma mid_op : forall s s' g, mid s g -> op lo hi nset new St T O0 cnt' sno N0 s s' -> exists g', mid s' g'.
Proof.
  intros s s' g M (B & j & it & prom & t' & o' & d & G & Hj & Hin & Hz & HA & Hid & Hp & Hi & EL & EO & Gr & Ln & Fn & Fo & Fe).
  destruct M as [MG ML MR MH (g1 & Eg) MN MS MSO MC]. destruct Hi as (It & NR & Tt & Oo & Dd).
  pose proof (gr_len _ _ _ _ MG) as Lg. set (n := length (heap s)) in *.
  assert (LN : (N0 <= n)%nat) by apply MH.
  assert (RI : real it) by (destruct Hin; split; lia).
  assert (GT : forall j q, (j < nset)%nat -> In q (T j) -> real q -> exists i, nid q = Some i /\ (i < N0)%nat /\ gat g i = (q, j)).
  { intros j0 q H1 H2 H3. destruct (LT j0 q H1 H2 H3) as (i & K1 & K2 & K3). exists i. split; auto. split; auto.
    rewrite Eg, gat_app by lia. auto. }
  (* the promoter *)
  assert (HP : forall pr, prom = Some pr -> exists ip, nid pr = Some ip /\ (ip < N0)%nat /\ gat g ip = (pr, (j - 1)%nat) /\ (1 <= j)%nat /\
            le3 pr it /\ In pr (T (j - 1)%nat) /\ real pr).
  { intros pr ->. cbn in Hp. destruct Hp as (J1 & I1 & R1 & [B1 B2]). destruct (GT (j - 1)%nat pr) as (ip & K1 & K2 & K3); auto. lia.
    exists ip. repeat split; auto; try apply R1. rewrite Hz. apply (ZT (j - 1)%nat); auto. lia. }
  assert (Gn : gat (g ++ [(it, j)]) n = (it, j)) by (apply gat_last; auto).
  assert (Go : forall i, (i < n)%nat -> gat (g ++ [(it, j)]) i = gat g i) by (intros; apply gat_app; lia).
  assert (ML' : forall j0 q, (j0 < nset)%nat -> In q (L s' j0) \/ In q (O_ s' j0) -> real q ->
    exists i, nid q = Some i /\ (i < S n)%nat /\ gat (g ++ [(it, j)]) i = (q, j0)).
  { intros j0 q H1 H2 H3. assert (K : q = it /\ j0 = j \/ In q (L s j0) \/ In q (O_ s j0)).
    { rewrite EL, EO in H2. destruct (Nat.eqb_spec j0 j) as [->|]; auto. destruct H2 as [H2|H2].
      destruct (Tt q H2); auto. destruct (Oo q H2); auto. }
    destruct K as [[-> ->]|K]. exists n. split; auto.
    destruct (ML j0 q H1 K H3) as (i & K1 & K2 & K3). exists i. split; auto. split. lia. rewrite Go; auto. }
  assert (Rem : forall i, (i < n)%nat -> irem (fld (heap s) i) <> None -> irem (fld (heap s') i) = irem (fld (heap s) i)).
  { intros i Hi Hr. destruct (Fo i Hi) as (_ & _ & [E|(E & q & Iq & Eq)] & _); auto. destruct (Dd q Iq) as (D1 & _ & D3 & _).
    exfalso. apply Hr. apply (MR j q); auto. }
  assert (Equ : forall i, (i < n)%nat -> ieq (fld (heap s) i) <> None -> ieq (fld (heap s') i) = ieq (fld (heap s) i)).
  { intros i Hi Hr. destruct (Fo i Hi) as (_ & _ & _ & [E|(E & q & Eq & Iq & Sq)]); auto. exfalso.
    destruct (HP q Eq) as (ip & P1 & P2 & P3 & P4 & _ & P5 & P6). assert (ip = i) by congruence; subst ip.
    destruct (MC (j - 1)%nat q i) as (_ & C); auto. lia. replace (S (j - 1)) with j in C by lia. apply NR.
    destruct Sq as (S1 & S2 & _). now rewrite <- S1, <- S2. }
  assert (HL1 : hle (heap s) (heap s')).
  { split. fold n. lia. intros i Hi. destruct (Fo i Hi) as (E1 & E2 & _). split; auto. }
  exists (g ++ [(it, j)]). constructor.
  - constructor; rewrite Ln.
    + rewrite app_length. cbn. lia.
    + intros i Hi. destruct (Nat.eq_dec i n) as [->|]. rewrite Gn; auto. rewrite Go by lia. apply (gr_lev _ _ _ _ MG). fold n; lia.
    + intros i Hi. destruct (Nat.eq_dec i n) as [->|].
      * rewrite Gn, Fn. cbn. auto.
      * rewrite Go by lia. destruct (Fo i ltac:(lia)) as (-> & _). apply (gr_set _ _ _ _ MG). fold n; lia.
    + intros i p Hi Ep. destruct (Nat.eq_dec i n) as [->|].
      * rewrite Fn in Ep. cbn in Ep. destruct prom as [pr|]; try discriminate. cbn in Ep.
        destruct (HP pr eq_refl) as (ip & P1 & P2 & P3 & P4 & P5 & _). assert (ip = p) by congruence; subst ip.
        rewrite Gn, Go, P3 by lia. cbn. split. lia. split; auto. lia.
      * destruct (Fo i ltac:(lia)) as (_ & E2 & _). rewrite E2 in Ep. destruct (gr_prom _ _ _ _ MG i p) as (K1 & K2). fold n; lia. auto.
        rewrite !Go by lia. auto.
    + intros i r Hi Er. destruct (Nat.eq_dec i n) as [->|]. rewrite Fn in Er; discriminate.
      assert (K : irem (fld (heap s) i) = Some r \/ r = n /\ exists q, In q d /\ nid q = Some i).
      { destruct (Fo i ltac:(lia)) as (_ & _ & [E|(E & q)] & _). left; congruence. right. split; auto. congruence. }
      destruct K as [K|(-> & q & Iq & Eq)].
      * destruct (gr_rem _ _ _ _ MG i r) as (K1 & K2 & K3); auto. fold n; lia. fold n in K1. rewrite !Go by lia. split; auto. lia.
      * destruct (Dd q Iq) as (D1 & D2 & D3 & D4 & [D5 D6]). destruct (ML j q Hj (or_introl D1) D3) as (i' & K1 & K2 & K3).
        assert (i' = i) by congruence; subst i'. rewrite Gn, Go, K3 by lia. cbn. split. lia. split; auto. split; auto. split; auto. lia.
    + intros i e Hi Er. destruct (Nat.eq_dec i n) as [->|]. rewrite Fn in Er; discriminate.
      assert (K : ieq (fld (heap s) i) = Some e \/ e = n /\ exists q, prom = Some q /\ nid q = Some i /\ same3 q it).
      { destruct (Fo i ltac:(lia)) as (_ & _ & _ & [E|(E & q)]). left; congruence. right. split; auto. congruence. }
      destruct K as [K|(-> & q & Eq & Iq & (Q1 & Q2 & Q3))].
      * destruct (gr_eq _ _ _ _ MG i e) as (K1 & K2); auto. fold n; lia. fold n in K1. rewrite !Go by lia. split; auto. lia.
      * destruct (HP q Eq) as (ip & P1 & P2 & P3 & _). assert (ip = i) by congruence; subst ip.
        rewrite Gn, Go, P3 by lia. cbn. split. lia. split; [|split]; lia.
  - rewrite Ln. auto.
  - intros j0 q i Hj0 Iq Rq Eq. destruct (ML' j0 q Hj0 (or_introl Iq) Rq) as (i' & K1 & K2 & K3). assert (i' = i) by congruence; subst i'.
    destruct (Nat.eq_dec i n) as [->|]. now rewrite Fn.
    assert (In q (L s j0)).
    { rewrite EL in Iq. destruct (Nat.eqb_spec j0 j) as [->|]; auto. destruct (Tt q Iq) as [| ->]; auto. exfalso; congruence. }
    assert (E0 : irem (fld (heap s) i) = None) by (apply (MR j0 q); auto).
    destruct (Fo i ltac:(lia)) as (_ & _ & [E|(E & q' & Iq' & Eq')] & _). congruence.
    destruct (Dd q' Iq') as (D1 & D2 & D3 & _). destruct (ML j q' Hj (or_introl D1) D3) as (i' & U1 & U2 & U3).
    assert (i' = i) by congruence; subst i'. rewrite Go in K3 by lia. rewrite K3 in U3. inversion U3; subst.
    exfalso. apply D2. rewrite EL, Nat.eqb_refl in Iq. auto.
  - eapply hle_trans; eauto.
  - exists (g1 ++ [(it, j)]). rewrite Eg. now rewrite app_assoc.
  - intros i Hi. rewrite Ln in Hi. destruct (Nat.eq_dec i n) as [->|].
    + rewrite Gn, Fn. cbn. split; auto. split; auto. split; auto. split.
      { intros R. apply NR. apply (g_grow _ _ _ _ _ _ _ _ _ _ G j Hj). auto. }
      split; auto. split; auto. split; auto. exists prom. split; auto.
    + rewrite Go by lia. destruct (MN i ltac:(fold n; lia)) as (N1 & N2 & N3 & N4 & N5 & N6 & N7 & pm & N8 & N9 & N10).
      destruct (Fo i ltac:(lia)) as (E1 & E2 & _ & E4). rewrite E1, E2.
      split; auto. split; auto. split; auto. split; auto. split; auto. split; auto. split.
      { destruct E4 as [E4|(E4 & q & Q1 & Q2 & _)]. congruence. destruct (HP q Q1) as (ip & P1 & P2 & _). assert (ip = i) by congruence. lia. }
      exists pm. split; auto. split; auto. intros pr ip Q1 Q2 Q3. rewrite Equ. apply (N10 pr); auto.
      subst pm. cbn in N8. destruct N8 as (J1 & J2 & J3 & _). destruct (GT (snd (gat g i) - 1)%nat pr ltac:(clear - N1; lia) J2 J3) as (ip' & ? & ? & _).
      assert (ip' = ip) by congruence. lia. rewrite (N10 pr ip); auto. discriminate.
  - intros j0 q Hj0 Iq. rewrite EL in Iq. destruct (Nat.eqb_spec j0 j) as [->|]; [|apply MS; auto].
    destruct (Tt q Iq) as [| ->]. apply MS; auto. right. exists n. auto.
  - intros j0 q Hj0 Iq. rewrite EO in Iq. destruct (Nat.eqb_spec j0 j) as [->|]; [|apply MSO; auto].
    destruct (Oo q Iq). apply MSO; auto. right. apply MS; auto.
  - intros j0 q i Hj0 Iq Rq Eq Ne. destruct (GT j0 q Hj0 Iq Rq) as (i' & U1 & U2 & U3). assert (i' = i) by congruence; subst i'.
    assert (K : ieq (fld (heap s) i) <> None \/ exists pr, prom = Some pr /\ nid pr = Some i /\ same3 pr it).
    { destruct (Fo i ltac:(lia)) as (_ & _ & _ & [E|(E & E')]). left; congruence. right; auto. }
    destruct K as [K|(pr & Q1 & Q2 & (Q3 & Q4 & _))].
    + destruct (MC j0 q i) as (C1 & C2); auto. split; auto. rewrite EL. destruct (Nat.eqb_spec (S j0) j) as [<-|]; auto.
    + destruct (HP pr Q1) as (ip & P1 & P2 & P3 & P4 & _). assert (ip = i) by congruence; subst ip. rewrite U3 in P3. inversion P3; subst.
      replace (S (j - 1)) with j by lia. split; auto. rewrite EL, Nat.eqb_refl. exists it. split; auto. split; auto. split; lia.
Qed.

Lemma mid_ops : forall s s', ops lo hi nset new St T O0 cnt' sno N0 s s' -> forall g, mid s g -> exists g', mid s' g'.
Proof. induction 1; intros g M. eauto. destruct (mid_op _ _ _ M H) as (g' & M'). eauto. Qed.
End Mid.

(** ** The invariant of the sweep *)
Section Meta.
Variables lo hi : Z.
Hypothesis LH : lo < hi.
Notation reg := (reg hi). Notation real := (real hi). Notation inside := (inside lo hi).
Variable nset : nat.
Notation INV := (INV lo hi nset). Notation cnt := (cnt hi nset).

Definition sn (P : list (node * nat)) (q : node) (k : nat) : Prop := seen P (nx q) (ny q) (nz q) k = true.
Lemma sn_mono : forall P p q k, le3 p q -> sn P p k -> sn P q k.
Proof.
  intros P p q k (X & Y & Z) H. unfold sn in *. apply seen_iff. apply seen_iff in H. destruct H as (r & I & [B1 B2] & B3).
  exists r. split; auto. split; [split|]; lia.
Qed.
Lemma sn_app : forall P P' q k, sn P q k -> sn (P ++ P') q k.
Proof.
  intros P P' q k H. unfold sn in *. apply seen_iff. apply seen_iff in H. destruct H as (r & I & B). exists r. rewrite in_app_iff. auto.
Qed.
Lemma sn_app_inv : forall P new k0 q k, sn (P ++ [(new, k0)]) q k -> sn P q k \/ k = k0 /\ le3 new q.
Proof.
  intros P new k0 q k H. unfold sn in *. apply seen_iff in H. destruct H as (r & I & [B1 B2] & B3).
  rewrite in_app_iff in I. destruct I as [I|[E|[]]].
  - left. apply seen_iff. exists r. split; auto. split; auto. split; auto.
  - right. inversion E; subst. split; auto. split; auto.
Qed.

Record META (P : list (node * nat)) (s : trees) (zn : Z) (g : list (node * nat)) : Prop := mkMETA {
  m_graph : graph nset (sn P) (heap s) g;
  m_live : forall j q, (j < nset)%nat -> In q (L s j) \/ In q (O_ s j) -> real q ->
    exists i, nid q = Some i /\ (i < length (heap s))%nat /\ gat g i = (q, j);
  m_rem : forall j q i, (j < nset)%nat -> In q (L s j) -> real q -> nid q = Some i -> irem (fld (heap s) i) = None;
  m_compl : forall j q i k, (j < nset)%nat -> In q (L s j) \/ In q (O_ s j) -> real q -> nid q = Some i ->
    sn P q k -> fset (heap s) i k;
  m_eqcov : forall j q i, (j < nset)%nat -> In q (L s j) -> real q -> nid q = Some i -> ieq (fld (heap s) i) <> None ->
    (S j < nset)%nat /\ reg (L s (S j)) (nx q) (ny q);
  m_eq : forall j q i, (S j < nset)%nat -> In q (L s j) -> real q -> nid q = Some i -> nz q = zn ->
    reg (L s (S j)) (nx q) (ny q) ->
    exists e r, ieq (fld (heap s) i) = Some e /\ In r (L s (S j)) /\ nid r = Some e /\ same3 r q }.

Lemma META_later : forall P st zn zn' g, INV P st zn -> META P (tr st) zn g -> zn <= zn' -> META P (tr st) zn' g.
Proof.
  intros P st zn zn' g I M Lz. destruct M. constructor; auto. intros j q i Hj Iq Rq Eq Hz R.
  apply (m_eq0 j q i); auto. pose proof (proj1 (proj2 (i_lok _ _ _ _ _ _ I j ltac:(lia))) q Iq Rq). lia.
Qed.

(** nodes of a level tree with one below the other are the same *)
Lemma stair_below : forall t p q, stair t -> In p t -> In q t -> below2 p (nx q) (ny q) -> p = q.
Proof. intros t p q S Hp Hq [B1 B2]. destruct (stair_cmp t p q S Hp Hq) as [|[[]|[]]]; auto; lia. Qed.

Lemma meta_step : forall P st zn new k st' g, INV P st zn -> META P (tr st) zn g -> zn <= nz new -> (k < nset)%nat -> inside new ->
  INV (P ++ [(new, k)]) st' (nz new) -> moved lo hi nset st st' new k ->
  exists g', META (P ++ [(new, k)]) (tr st') (nz new) g'.
Proof.
  intros P st zn new k st' g I M Lz Hk Hin I' Mv. pose proof (META_later _ _ _ _ _ I M Lz) as M0. clear M. rename M0 into M.
  assert (HPz : forall q i, In (q, i) P -> nz q <= zn) by (intros q i Iq; apply (i_P _ _ _ _ _ _ I q i Iq)).
  set (P' := P ++ [(new, k)]) in *.
  destruct Mv as [[E R]|[CA Ops]].
  - (* the point is dominated in its set *)
    rewrite E. exists g. apply (i_reg _ _ _ _ _ _ I k Hk) in R. destruct R as (q0 & I0 & [B1 B2]).
    assert (Sn : forall q i, sn P' q i <-> sn P q i).
    { intros q i. split; [|apply sn_app]. intros H. apply sn_app_inv in H. destruct H as [|[-> (X & Y & Z)]]; auto.
      apply seen_iff. exists q0. split; auto. specialize (HPz _ _ I0). split; [split|]; lia. }
    destruct M as [MG ML MR MC MV ME]. constructor; auto.
    + destruct MG. constructor; auto. intros i Hi. destruct (gr_set0 i Hi). split; auto. now apply Sn.
    + intros j q i k0 Hj Iq Rq Eq Hs. apply (MC j q); auto. now apply Sn.
  - set (St := nth k (sets st) []) in *. set (T := L (tr st)) in *. set (O0 := O_ (tr st)) in *. set (H0 := heap (tr st)) in *.
    destruct M as [MG ML MR MC MV ME].
    assert (LOK : forall j, (j < nset)%nat -> lok lo hi (nz new) (T j) (O0 j)).
    { intros j Hj. eapply lok_later. apply (i_lok _ _ _ _ _ _ I j Hj). auto. }
    assert (STr : forall j, (j < nset)%nat -> stair (T j)) by (intros j Hj; apply (LOK j Hj)).
    assert (ZT : forall j q, (j < nset)%nat -> In q (T j) -> real q -> nz q <= nz new) by (intros j q Hj; apply (LOK j Hj)).
    assert (LV : forall j, (j < nset)%nat -> forall a b, reg (T j) a b <-> (j < cnt (sets st) a b)%nat) by apply I.
    assert (LV' : forall j, (j < nset)%nat -> forall a b, reg (L (tr st') j) a b <-> (j < cnt (sets st') a b)%nat) by apply I'.
    assert (LOK' : forall j, (j < nset)%nat -> lok lo hi (nz new) (L (tr st') j) (O_ (tr st') j)) by apply I'.
    assert (SA : forall q, A hi new St (nx q) (ny q) -> nz q = nz new -> sn P' q k).
    { intros q (X & Y & _) Z. apply seen_iff. exists new. split. unfold P'. rewrite in_app_iff. right; now left. split; [split|]; lia. }
    assert (M0 : mid hi nset new St T O0 k H0 g (sn P') (tr st) g).
    { constructor; auto.
      - destruct MG. constructor; auto. intros i Hi. destruct (gr_set0 i Hi). split; auto. now apply sn_app.
      - apply hle_refl.
      - exists []. now rewrite app_nil_r.
      - intros i Hi. exfalso. fold H0 in Hi. lia. }
    destruct (mid_ops lo hi nset new St T O0 (cnt (sets st')) k H0 g (sn P') Hk (gr_len _ _ _ _ MG)
      (fun j q Hj Hq Rq => ML j q Hj (or_introl Hq) Rq) ZT SA _ _ Ops g M0) as (g' & [DG DL DR DH (g1 & Dg) DN DSL DSO DC]).
    set (s' := tr st') in *. exists g'.
    (* a node of the final trees is old or was inserted in this iteration *)
    assert (Old : forall j q i, (j < nset)%nat -> In q (L s' j) \/ In q (O_ s' j) -> real q -> nid q = Some i ->
      ((i < length H0)%nat /\ (In q (T j) \/ In q (O0 j) /\ In q (O_ s' j))) \/
      ((length H0 <= i < length (heap s'))%nat /\ gat g' i = (q, j))).
    { intros j q i Hj Iq Rq Eq. destruct (DL j q Hj Iq Rq) as (i' & K1 & K2 & K3). assert (i' = i) by congruence; subst i'.
      assert (K : In q (T j) \/ In q (O0 j) /\ In q (O_ s' j) \/ exists i, (length H0 <= i)%nat /\ nid q = Some i).
      { destruct Iq as [Iq|Iq]. destruct (DSL j q Hj Iq); auto. destruct (DSO j q Hj Iq) as [|[|]]; auto. }
      destruct K as [K|[K|(i' & U1 & U2)]].
      - left. destruct (ML j q Hj (or_introl K) Rq) as (i' & U1 & U2 & _). assert (i' = i) by congruence; subst. auto.
      - left. destruct (ML j q Hj (or_intror (proj1 K)) Rq) as (i' & U1 & U2 & _). assert (i' = i) by congruence; subst. auto.
      - right. assert (i' = i) by congruence; subst. auto. }
    (* a node inserted above a node of the level below *)
    assert (Ins : forall j q t it, (S j < nset)%nat -> real q -> nz q = nz new -> In t (T j) -> same3 t q -> nid t = Some it ->
      ~ reg (T (S j)) (nx q) (ny q) -> reg (L s' (S j)) (nx q) (ny q) ->
      exists r e, In r (L s' (S j)) /\ nid r = Some e /\ same3 r q /\ ieq (fld (heap s') it) = Some e /\ iset (fld (heap s') e) = k).
    { intros j q t it Hj Rq Hz It (S1 & S2 & S3) Et NR (r & Ir & Rr & [B1 B2]).
      destruct (DL (S j) r Hj (or_introl Ir) Rr) as (e & E1 & E2 & E3).
      destruct (Old (S j) r e Hj (or_introl Ir) Rr E1) as [[_ [K|[K _]]]|[K1 K2]].
      - exfalso. apply NR. exists r. split; auto. split; auto. split; auto.
      - exfalso. apply NR. destruct (LOK (S j) Hj) as (_ & _ & Zo & _). destruct (Zo r K) as (_ & _ & R). eapply reg_mono; eauto.
      - destruct (DN e K1) as (N1 & N2 & N3 & N4 & N5 & N6 & N7 & prom & N8 & N9 & N10). rewrite E3 in *. cbn [fst snd] in *.
        destruct prom as [pr|]; cbn in N8; [|lia]. destruct N8 as (J1 & J2 & J3 & [J4 J5]). rewrite Nat.sub_0_r in J2.
        assert (pr = t). { apply (stair_below (T j)); auto. apply STr; lia. split; lia. } subst pr.
        assert (Sr : same3 r q) by (split; [|split]; lia).
        exists r, e. split; auto. split; auto. split; auto. split; auto. apply (N10 t it); auto. split; [|split]; lia. }
    assert (Hc : forall q, nz q = nz new -> cnt3 nset P (nx q) (ny q) (nz q) = cnt (sets st) (nx q) (ny q)).
    { intros q Hz. apply (cnt3_high hi nset P (sets st) zn); auto. lia. apply I. }
    assert (NewCnt : forall i, (length H0 <= i < length (heap s'))%nat -> forall q j, gat g' i = (q, j) -> In q (L s' j) -> real q ->
       cnt (sets st) (nx q) (ny q) = j).
    { intros i Hi q j Eg Iq Rq. destruct (DN i Hi) as (N1 & N2 & N3 & N4 & _). rewrite Eg in *. cbn [fst snd] in *.
      rewrite LV in N4 by auto. assert (reg (L s' j) (nx q) (ny q)). { exists q. split; auto. split; auto. split; lia. }
      apply LV' in H; auto. rewrite CA in H by auto. lia. }
    constructor; auto.
    + (* completeness *)
      intros j q i k0 Hj Iq Rq Eq Hs. destruct (Old j q i Hj Iq Rq Eq) as [[Hi K]|[Hi Eg]].
      * (* an old node *)
        assert (Iq0 : In q (T j) \/ In q (O0 j)) by tauto.
        apply sn_app_inv in Hs as Hs'. destruct Hs' as [Hs'|[-> (X & Y & Z)]].
        { apply (fset_mono nset (sn P) H0 g MG (heap s') DH); auto. apply (MC j q); auto. }
        destruct (seen P (nx q) (ny q) (nz q) k) eqn:Es.
        { apply (fset_mono nset (sn P) H0 g MG (heap s') DH); auto. apply (MC j q); auto. }
        assert (Tq : In q (T j) /\ nz q = nz new).
        { destruct Iq0 as [Iq0|Iq0]. specialize (ZT j q Hj Iq0 Rq). split; auto. lia.
          destruct (LOK j Hj) as (_ & _ & Zo & _). destruct (Zo q Iq0) as (_ & Z' & _). lia. }
        destruct Tq as [Tq Hz].
        assert (NS : ~ reg St (nx q) (ny q)).
        { intros R. apply (i_reg _ _ _ _ _ _ I k Hk) in R. destruct R as (q0 & I0 & B0).
          assert (seen P (nx q) (ny q) (nz q) k = true); [|congruence]. apply seen_iff. exists q0. split; auto. split; auto.
          specialize (HPz _ _ I0). lia. }
        assert (Aq : A hi new St (nx q) (ny q)). { destruct Rq. split; [lia|]. split; [lia|]. auto. }
        assert (C1 : (j < cnt (sets st) (nx q) (ny q))%nat). { apply LV; auto. exists q. split; auto. split; auto. split; lia. }
        pose proof (CA _ _ Aq) as C2. pose proof (cnt_max hi nset (sets st') (nx q) (ny q)) as C3.
        assert (Chain : forall m j q i, In q (T j) -> real q -> nid q = Some i -> nz q = nz new ->
          S (j + m) = cnt (sets st) (nx q) (ny q) -> (S (j + m) < nset)%nat ->
          exists t it, In t (T (j + m)%nat) /\ nid t = Some it /\ same3 t q /\
            forall x, eset (heap s') it x -> eset (heap s') i x).
        { clear - ML ME LV DH. induction m as [|m IH]; intros j q i Iq Rq Eq Hz Hc Hn.
          - exists q, i. rewrite Nat.add_0_r. split; auto. split; auto. split; auto. split; auto.
          - destruct (ME j q i) as (e & r & E1 & E2 & E3 & (S1 & S2 & S3)); auto. lia. { apply LV; lia. }
            assert (Rr : real r) by (unfold Eaf3dTrees.real in *; lia).
            destruct (IH (S j) r e) as (t & it & T1 & T2 & (T3 & T4 & T5) & T6); auto. lia. rewrite S1, S2. lia. lia.
            exists t, it. replace (j + S m)%nat with (S j + m)%nat by lia. split; auto. split; auto. split. { split; [|split]; lia. }
            intros x Hx. apply e_next with (e := e); auto. destruct (ML j q ltac:(lia) (or_introl Iq) Rq) as (i' & U1 & U2 & _).
            assert (i' = i) by congruence; subst. destruct DH as [_ DH]. destruct (DH i U2) as (_ & _ & _ & Q). unfold H0 in *. rewrite Q; congruence. }
        destruct (Chain (cnt (sets st) (nx q) (ny q) - 1 - j)%nat j q i) as (t & it & T1 & T2 & T3 & T4); auto; try lia.
        set (c := (j + (cnt (sets st) (nx q) (ny q) - 1 - j))%nat) in *. assert (Ec : S c = cnt (sets st) (nx q) (ny q)) by (unfold c; lia).
        destruct (Ins c q t it) as (r & e & R1 & R2 & R3 & R4 & R5); auto. lia.
        { rewrite LV by lia. lia. } { rewrite LV' by lia. lia. }
        right. apply T4. rewrite <- R5. now apply e_here.
      * (* a new node *)
        destruct (DN i Hi) as (N1 & N2 & N3 & N4 & N5 & N6 & N7 & prom & N8 & N9 & N10). rewrite Eg in *. cbn [fst snd] in *.
        assert (IqL : In q (L s' j)).
        { destruct Iq as [|Iq]; auto. destruct (LOK' j Hj) as (_ & _ & Zo & _). destruct (Zo q Iq). lia. }
        pose proof (NewCnt i Hi q j Eg IqL Rq) as Cq.
        destruct (Nat.eq_dec k0 k) as [->|Nk]. { left. rewrite <- N6. apply p_here. }
        apply sn_app_inv in Hs. destruct Hs as [Hs|[? _]]; [|congruence].
        assert (K0 : (k0 < nset)%nat). { apply seen_iff in Hs. destruct Hs as (r & Ir & _). apply (i_P _ _ _ _ _ _ I r k0 Ir). }
        specialize (Hc q N2). rewrite Cq in Hc. unfold cnt3 in Hc.
        destruct prom as [pr|]; cbn in N8.
        2:{ exfalso. subst j. assert (countb (fun _ => false) (seq 0 nset) < countb (seen P (nx q) (ny q) (nz q)) (seq 0 nset))%nat.
            { apply countb_lt with (x := k0); auto. intros; discriminate. apply in_seq. lia. } lia. }
        destruct N8 as (J1 & J2 & J3 & [J4 J5]).
        assert (Hj1 : (j - 1 < nset)%nat) by lia. pose proof (ZT _ _ Hj1 J2 J3) as Zpr.
        assert (Lpr : le3 pr q) by (split; [|split]; lia).
        assert (Spr : sn P pr k0).
        { destruct (seen P (nx pr) (ny pr) (nz pr) k0) eqn:Ek; auto. exfalso.
          assert (Cv : covers hi (T (j - 1)%nat) (O0 (j - 1)%nat) (nx pr) (ny pr) (nz pr)).
          { exists pr. rewrite in_app_iff. split; auto. split; auto. split; [split|]; lia. }
          apply (i_cov _ _ _ _ _ _ I _ Hj1) in Cv. unfold cnt3 in Cv.
          assert (countb (seen P (nx pr) (ny pr) (nz pr)) (seq 0 nset) < countb (seen P (nx q) (ny q) (nz q)) (seq 0 nset))%nat; [|lia].
          apply countb_lt with (x := k0); auto. intros x _ Hx. apply (sn_mono P pr q x Lpr Hx). apply in_seq; lia. }
        destruct (ML _ _ Hj1 (or_introl J2) J3) as (ip & U1 & U2 & U3).
        pose proof (MC _ _ _ _ Hj1 (or_introl J2) J3 U1 Spr) as [F|F].
        -- left. apply p_prom with (p := ip). rewrite N9. exact U1. apply (pset_mono nset (sn P) H0 g MG (heap s') DH); auto.
        -- exfalso. destruct (MV _ _ ip Hj1 J2 J3 U1) as (V1 & V2). { intros NN. clear - F NN. inversion F; congruence. }
           apply N4. replace (S (j - 1)) with j in V2 by lia. eapply reg_mono; eauto.
    + (* equal is only set below a covered location *)
      intros j q i Hj Iq Rq Eq Ne. destruct (Old j q i Hj (or_introl Iq) Rq Eq) as [[Hi K]|[Hi Eg]].
      * apply (DC j q i); auto. destruct K as [|[K1 K2]]; auto. exfalso.
        destruct (LOK' j Hj) as (_ & _ & _ & ND & _). destruct (NoDup_app_elim _ _ _ ND) as (_ & _ & D). eauto.
      * exfalso. apply Ne. apply DN; auto.
    + (* equal is set when the next level reaches the location at the same height *)
      intros j q i Hj Iq Rq Eq Hz R. destruct (Old j q i ltac:(lia) (or_introl Iq) Rq Eq) as [[Hi K]|[Hi Eg]].
      * assert (Tq : In q (T j)).
        { destruct K as [|[K1 K2]]; auto. exfalso. destruct (LOK' j ltac:(lia)) as (_ & _ & _ & ND & _).
          destruct (NoDup_app_elim _ _ _ ND) as (_ & _ & D). eauto. }
        destruct (regb hi (T (S j)) (nx q) (ny q)) eqn:Er.
        -- apply regb_iff in Er. destruct (ME j q i Hj Tq Rq Eq Hz Er) as (e & r & E1 & E2 & E3 & (S1 & S2 & S3)).
           exists e, r. split. { destruct DH as [_ DH]. destruct (DH i Hi) as (_ & _ & _ & Q). unfold H0 in *. rewrite Q; congruence. }
           split; [|split; auto; split; auto].
           destruct R as (r' & Ir' & Rr' & [B1 B2]). destruct (DL (S j) r' Hj (or_introl Ir') Rr') as (e' & V1 & V2 & V3).
           destruct (Old (S j) r' e' Hj (or_introl Ir') Rr' V1) as [[_ [K'|[K' K'']]]|[K1 K2]].
           ++ assert (r' = r); [|congruence]. apply (stair_below (T (S j))); auto. split; lia.
           ++ exfalso. destruct (LOK' (S j) Hj) as (_ & _ & _ & ND & _). destruct (NoDup_app_elim _ _ _ ND) as (_ & _ & D). eauto.
           ++ exfalso. destruct (DN e' K1) as (N1 & N2 & N3 & N4 & N5 & N6 & N7 & prom & N8 & N9 & N10). rewrite V3 in *. cbn [fst snd] in *.
              destruct prom as [pr|]; cbn in N8; [|lia]. destruct N8 as (J1 & J2 & J3 & [J4 J5]). rewrite Nat.sub_0_r in J2.
              assert (pr = q). { apply (stair_below (T j)); auto. apply STr; lia. split; lia. } subst pr.
              apply N4. eapply reg_mono; [exact Er| |]; lia.
        -- apply regb_not in Er. destruct (Ins j q q i) as (r & e & R1 & R2 & R3 & R4 & _); auto. split; auto.
           exists e, r. auto.
      * exfalso. pose proof (NewCnt i Hi q j Eg Iq Rq) as Cq. apply LV' in R; auto.
        destruct (DN i Hi) as (N1 & N2 & N3 & _). rewrite Eg in N3. cbn [fst] in N3. rewrite CA in R by auto. lia.
Qed.

Lemma meta_first : forall new k s zn, (k < nset)%nat -> inside new -> heap s = [mkInfo k None None None] ->
  (forall j, O_ s j = []) ->
  (forall j q, (j < nset)%nat -> In q (L s j) -> real q -> j = O /\ q = with_id new 0) ->
  META [(new, k)] s zn [(with_id new 0, O)].
Proof.
  intros new k s zn Hk Hin Eh EO EL.
  assert (Hl : forall j q, (j < nset)%nat -> In q (L s j) \/ In q (O_ s j) -> real q -> j = O /\ q = with_id new 0).
  { intros j q Hj [Iq|Iq] Rq; auto. rewrite EO in Iq. contradiction. }
  constructor; rewrite ?Eh.
  - constructor; cbn [length]; auto; intros i; [| | | |]; intros; (replace i with O in * by lia); cbn in *; try discriminate.
    + lia. + split; auto. unfold sn. apply seen_iff. exists new. split. now left. unfold below2. cbn. lia.
  - intros j q Hj Iq Rq. destruct (Hl j q Hj Iq Rq) as [-> ->]. exists O. cbn. auto.
  - intros j q i Hj Iq Rq Eq. destruct (EL j q Hj Iq Rq) as [-> ->]. cbn in Eq. injection Eq as <-. reflexivity.
  - intros j q i k0 Hj Iq Rq Eq Hs. destruct (Hl j q Hj Iq Rq) as [-> ->]. cbn in Eq. injection Eq as <-.
    apply seen_iff in Hs. destruct Hs as (r & [E|[]] & _). inversion E; subst.
    left. apply (p_here [mkInfo k0 None None None] 0).
  - intros j q i Hj Iq Rq Eq. destruct (EL j q Hj Iq Rq) as [-> ->]. cbn in Eq. injection Eq as <-. cbn. congruence.
  - intros j q i Hj Iq Rq Eq _ (r & Ir & Rr & _). destruct (EL (S j) r Hj Ir Rr). discriminate.
Qed.

Lemma meta_loop : forall l P st zn g, INV P st zn -> META P (tr st) zn g -> StronglySorted (fun e f => nz (fst e) <= nz (fst f)) l ->
  (forall q k, In (q, k) l -> inside q /\ zn <= nz q /\ (k < nset)%nat) ->
  exists st' zn' g', eaf3df_loop nset st l = Ret st' /\ INV (P ++ l) st' zn' /\ META (P ++ l) (tr st') zn' g'.
Proof.
  induction l as [|[new k] l IH]; intros P st zn g I M S H; cbn [eaf3df_loop].
  - exists st, zn, g. rewrite app_nil_r. auto.
  - destruct (H new k (or_introl eq_refl)) as (H1 & H2 & H3). inversion S; subst. rewrite Forall_forall in H6.
    destruct (inv_step lo hi LH nset P st zn new k I H1 H2 H3) as (st' & E & I' & Mv). rewrite E. cbn [bind].
    destruct (meta_step P st zn new k st' g I M H2 H3 H1 I' Mv) as (g' & M').
    destruct (IH (P ++ [(new, k)]) st' (nz new) g' I' M' H5) as (st2 & z2 & g2 & E2 & I2 & M2).
    { intros q i Hq. destruct (H q i (or_intror Hq)) as (? & ? & ?). split; auto. split; auto. apply (H6 (q, i) Hq). }
    exists st2, z2, g2. split; auto. rewrite <- app_assoc in I2, M2. auto.
Qed.

(** ** find_all_promoters *)
Section Find.
Variables (P : list (node * nat)) (h : list info) (g : list (node * nat)).
Hypothesis G : graph nset (sn P) h g.
Notation N := (length h).
Definition marks (dom : list bool) (R : nat -> Prop) (dom' : list bool) : Prop :=
  length dom' = nset /\ forall k, nth k dom' false = true <-> nth k dom false = true \/ R k.

Lemma mark_one : forall dom k, length dom = nset -> (k < nset)%nat -> exists dom', wr dom k true = Ret dom' /\ marks dom (fun x => x = k) dom'.
Proof.
  intros dom k Hl Hk. exists (upd dom k true). split. apply wr_ok; lia. split. now rewrite upd_length.
  intros x. destruct (Nat.eq_dec k x) as [->|]. rewrite nth_upd_same by lia. tauto. rewrite nth_upd_other by lia. split; auto. intros [|]; auto; lia.
Qed.

Definition from (n : option nat) (R : nat -> Prop) : Prop := match n with Some i => R i | None => False end.

Lemma mark_equals_ok : forall fuel n dom, from n (fun i => (i < N <= fuel + i)%nat) \/ n = None -> length dom = nset ->
  exists dom', mark_equals fuel h n dom = Ret dom' /\
    marks dom (fun k => from n (fun i => k = iset (fld h i) \/ eset h i k)) dom'.
Proof.
  induction fuel as [|fuel IH]; intros [i|] dom Hn Hl; cbn [mark_equals].
  - destruct Hn as [Hn|]; [|discriminate]. cbn in Hn. lia.
  - exists dom. split; auto. split; auto. cbn. tauto.
  - destruct Hn as [Hn|]; [|discriminate]. cbn in Hn.
    rewrite (rd_ok _ h i (mkInfo O None None None)) by lia. cbn [bind]. fold (fld h i).
    destruct (mark_one dom (iset (fld h i)) Hl) as (d1 & E1 & L1 & M1). apply (gr_set _ _ _ _ G); lia.
    rewrite E1. cbn [bind].
    destruct (IH (ieq (fld h i)) d1) as (d2 & E2 & L2 & M2); auto.
    { destruct (ieq (fld h i)) as [e|] eqn:Ee; auto. left. destruct (gr_eq _ _ _ _ G i e ltac:(lia) Ee) as (K & _). cbn. lia. }
    exists d2. split; auto. split; auto. intros k. rewrite M2, M1. cbn [from].
    assert (K : from (ieq (fld h i)) (fun e => k = iset (fld h e) \/ eset h e k) <-> eset h i k); [|tauto].
    split.
    + destruct (ieq (fld h i)) as [e|] eqn:Ee; cbn; [|tauto]. intros [->|K]. now apply e_here. now apply e_next with (e := e).
    + intros K. inversion K as [? e Ee|? e ? Ee]; subst; rewrite Ee; cbn; auto.
  - exists dom. split; auto. split; auto. cbn. tauto.
Qed.

Lemma marks_equals : forall i dom, (i < N)%nat -> length dom = nset ->
  exists dom', mark_equals N h (ieq (fld h i)) dom = Ret dom' /\ marks dom (eset h i) dom'.
Proof.
  intros i dom Hi Hl. destruct (mark_equals_ok N (ieq (fld h i)) dom) as (d & E & L1 & M); auto.
  { destruct (ieq (fld h i)) as [e|] eqn:Ee; auto. left. destruct (gr_eq _ _ _ _ G i e Hi Ee) as (K & _). cbn. lia. }
  exists d. split; auto. split; auto. intros k. rewrite M.
  assert (K : from (ieq (fld h i)) (fun e => k = iset (fld h e) \/ eset h e k) <-> eset h i k); [|tauto]. split.
  - destruct (ieq (fld h i)) as [e|] eqn:Ee; cbn; [|tauto]. intros [->|K]. now apply e_here. now apply e_next with (e := e).
  - intros K. inversion K as [? e Ee|? e ? Ee]; subst; rewrite Ee; cbn; auto.
Qed.

Definition rank (i : nat) : nat := (snd (gat g i) * S N + (N - i))%nat.

Lemma mark_promoters_ok : forall fuel n dom, n = None \/ from n (fun i => (i < N)%nat /\ (rank i < fuel)%nat) -> length dom = nset ->
  exists dom', mark_promoters fuel h n dom = Ret dom' /\ marks dom (fun k => from n (fun i => pset h i k)) dom'.
Proof.
  induction fuel as [|fuel IH]; intros [i|] dom Hn Hl; cbn [mark_promoters].
  - destruct Hn as [|[_ Hn]]; [discriminate|]. lia.
  - exists dom. split; auto. split; auto. cbn. tauto.
  - destruct Hn as [|[Hi Hr]]; [discriminate|].
    rewrite (rd_ok _ h i (mkInfo O None None None)) by lia. cbn [bind]. fold (fld h i).
    destruct (mark_one dom (iset (fld h i)) Hl) as (d1 & E1 & L1 & M1). apply (gr_set _ _ _ _ G); lia.
    rewrite E1. cbn [bind].
    assert (R : exists d2, match irem (fld h i) with
                  | None => Ret d1
                  | Some r => dom0 <- mark_promoters fuel h (Some r) d1 ;;
                              g0 <- rd h r ;; mark_equals N h (ieq g0) dom0
                  end = Ret d2 /\ marks d1 (fun k => from (irem (fld h i)) (fun r => pset h r k \/ eset h r k)) d2).
    { destruct (irem (fld h i)) as [r|] eqn:Er.
      - destruct (gr_rem _ _ _ _ G i r Hi Er) as ([K1 K2] & K3 & _).
        destruct (IH (Some r) d1) as (d2 & E2 & L2 & M2); auto.
        { right. cbn. split; auto. unfold rank in *. rewrite K3. lia. }
        rewrite E2. cbn [bind]. rewrite (rd_ok _ h r (mkInfo O None None None)) by lia. cbn [bind]. fold (fld h r).
        destruct (marks_equals r d2 K2 L2) as (d3 & E3 & L3 & M3). exists d3. split; auto. split; auto.
        intros k. rewrite M3, M2. cbn. tauto.
      - exists d1. split; auto. split; auto. cbn. tauto. }
    destruct R as (d2 & E2 & L2 & M2). rewrite E2. cbn [bind].
    destruct (IH (iprom (fld h i)) d2) as (d3 & E3 & L3 & M3); auto.
    { destruct (iprom (fld h i)) as [p|] eqn:Ep; auto. right. cbn. destruct (gr_prom _ _ _ _ G i p Hi Ep) as (K1 & K2 & _).
      split. lia. unfold rank in *. nia. }
    exists d3. split; auto. split; auto. intros k. rewrite M3, M2, M1. cbn [from]. split.
    + intros [[[K| ->]|K]|K]; auto; right.
      * apply p_here.
      * destruct (irem (fld h i)) as [r|] eqn:Er; cbn in K; [|tauto]. destruct K; [eapply p_rem|eapply p_remeq]; eauto.
      * destruct (iprom (fld h i)) as [p|] eqn:Ep; cbn in K; [|tauto]. eapply p_prom; eauto.
    + intros [K|K]; auto. inversion K as [|? p ? Ep K'|? r ? Er K'|? r ? Er K']; subst; auto.
      * rewrite Ep. cbn. auto. * rewrite Er. cbn. auto. * rewrite Er. cbn. auto.
  - exists dom. split; auto. split; auto. cbn. tauto.
Qed.

Lemma find_all_promoters_ok : forall q i, nid q = Some i -> (i < N)%nat ->
  exists fl, find_all_promoters h nset q = Ret fl /\ length fl = nset /\ forall k, nth k fl false = true <-> fset h i k.
Proof.
  intros q i Eq Hi. unfold find_all_promoters, id_of. rewrite Eq. cbn [bind].
  destruct (mark_promoters_ok (S nset * S N) (Some i) (repeat false nset)) as (d1 & E1 & L1 & M1).
  { right. cbn [from]. split; auto. unfold rank. pose proof (gr_lev _ _ _ _ G i Hi). nia. }
  { now rewrite repeat_length. }
  rewrite E1. cbn [bind]. rewrite (rd_ok _ h i (mkInfo O None None None)) by lia. cbn [bind]. fold (fld h i).
  destruct (marks_equals i d1 Hi L1) as (d2 & E2 & L2 & M2). exists d2. split; auto. split; auto.
  intros k. rewrite M2, M1. cbn [from]. rewrite nth_repeat. unfold fset. split; [intros [[|]|]|intros []]; auto. discriminate.
Qed.
End Find.

(** the flags of the nodes of a level *)
Lemma flag_points_ok : forall P s zn g j o, META P s zn g -> (j < nset)%nat ->
  (forall q, In q o -> (In q (L s j) \/ In q (O_ s j)) /\ real q) ->
  exists fs, flag_points (heap s) nset o = Ret fs /\ map fst fs = map point_of o /\
    Forall2 (fun q pf => length (snd pf) = nset /\ forall k, nth k (snd pf) false = true <-> sn P q k) o fs.
Proof.
  intros P s zn g j o M Hj. induction o as [|q o IH]; intros H; cbn [flag_points].
  - exists []. auto.
  - destruct (H q (or_introl eq_refl)) as (Iq & Rq). destruct (m_live _ _ _ _ M j q Hj Iq Rq) as (i & K1 & K2 & K3).
    destruct (find_all_promoters_ok P (heap s) g (m_graph _ _ _ _ M) q i K1 K2) as (fl & E1 & L1 & F1).
    rewrite E1. cbn [bind]. destruct IH as (fs & E2 & M2 & F2). intros; apply H; now right.
    rewrite E2. cbn [bind]. eexists. split; [reflexivity|]. split. cbn [map]. now rewrite M2.
    constructor; auto. cbn [snd]. split; auto. intros k. rewrite F1. split.
    + intros F. pose proof (fset_sound nset (sn P) (heap s) g (m_graph _ _ _ _ M) (sn_mono P) i k F K2) as S. rewrite K3 in S. auto.
    + apply (m_compl _ _ _ _ M j q i k); auto.
Qed.
End Meta.
