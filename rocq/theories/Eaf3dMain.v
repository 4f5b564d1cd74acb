(** The loop of the 3-objective EAF sweep and its result. *)
From Coq Require Import List ZArith Lia Bool Arith Sorted Permutation.
From Verif Require Import Base Spec EafSpec EafModel EafProofs EafMain Eaf3dModel Eaf3dTrees Eaf3dProofs.
Import ListNotations.
Open Scope Z_scope.

Lemma countb_flip : forall n s k (f g : nat -> bool), (s <= k < s + n)%nat -> (forall i, i <> k -> f i = g i) ->
  f k = false -> g k = true -> countb g (seq s n) = S (countb f (seq s n)).
Proof.
  induction n as [|n IH]; intros s k f g Hk H Fk Gk. lia. cbn [seq countb].
  destruct (Nat.eq_dec s k) as [->|N].
  - rewrite Fk, Gk. cbn. f_equal. apply countb_ext. intros x Hx. apply in_seq in Hx. symmetry. apply H. lia.
  - rewrite (IH (S s) k f g) by (auto; lia). rewrite (H s N). destruct (g s); auto.
Qed.

Section Main.
Variables lo hi : Z.
Hypothesis LH : lo < hi.
Notation reg := (reg hi). Notation real := (real hi). Notation wft := (wft lo hi). Notation inside := (inside lo hi).
Notation lok := (lok lo hi). Notation covers := (covers hi).
Variable nset : nat.

Definition regb (t : list node) (a b : Z) : bool :=
  existsb (fun q => (nx q <? hi) && (ny q <? hi) && (nx q <=? a) && (ny q <=? b)) t.
Lemma regb_iff : forall t a b, regb t a b = true <-> reg t a b.
Proof.
  intros. unfold regb. rewrite existsb_exists. split.
  - intros (q & I & H). rewrite !andb_true_iff, !Z.ltb_lt, !Z.leb_le in H. exists q. unfold Eaf3dTrees.real, below2. tauto.
  - intros (q & I & [R1 R2] & [B1 B2]). exists q. split; auto. rewrite !andb_true_iff, !Z.ltb_lt, !Z.leb_le. auto.
Qed.
Lemma regb_not : forall t a b, regb t a b = false <-> ~ reg t a b.
Proof. intros. rewrite <- regb_iff. destruct (regb t a b); split; congruence. Qed.

Definition cnt (ss : list (list node)) (a b : Z) : nat := countb (fun k => regb (nth k ss []) a b) (seq 0 nset).
Definition seen (P : list (node * nat)) (a b c : Z) (k : nat) : bool :=
  existsb (fun e => (snd e =? k)%nat && (nx (fst e) <=? a) && (ny (fst e) <=? b) && (nz (fst e) <=? c)) P.
Definition cnt3 (P : list (node * nat)) (a b c : Z) : nat := countb (seen P a b c) (seq 0 nset).
Definition masked (m : list bool) : nat := countb (fun k => nth k m false) (seq 0 nset).

Lemma seen_iff : forall P a b c k, seen P a b c k = true <-> exists q, In (q, k) P /\ below2 q a b /\ nz q <= c.
Proof.
  intros. unfold seen. rewrite existsb_exists. split.
  - intros ([q i] & I & H). cbn [fst snd] in H. rewrite !andb_true_iff, !Z.leb_le, Nat.eqb_eq in H. destruct H as [[[-> H1] H2] H3].
    exists q. unfold below2. auto.
  - intros (q & I & [B1 B2] & H). exists (q, k). split; auto. cbn [fst snd]. rewrite !andb_true_iff, !Z.leb_le, Nat.eqb_eq. auto.
Qed.

Lemma cnt_mono : forall ss a b a' b', a <= a' -> b <= b' -> (cnt ss a b <= cnt ss a' b')%nat.
Proof. intros. apply countb_le. intros k _ R. apply regb_iff. apply regb_iff in R. eapply reg_mono; eauto. Qed.
Lemma cnt_max : forall ss a b, (cnt ss a b <= nset)%nat.
Proof. intros. unfold cnt. etransitivity; [apply countb_len|]. now rewrite seq_length. Qed.
Lemma reg_clamp : forall t a b, reg t a b <-> reg t (Z.min a (hi - 1)) (Z.min b (hi - 1)).
Proof.
  intros. split; intros (q & I & R & [B1 B2]); exists q; destruct R; repeat split; auto; lia.
Qed.
Lemma cnt_clamp : forall ss a b, cnt ss a b = cnt ss (Z.min a (hi - 1)) (Z.min b (hi - 1)).
Proof.
  intros. apply countb_ext. intros k _. apply eq_true_iff_eq. rewrite !regb_iff. apply reg_clamp.
Qed.

Record INV (P : list (node * nat)) (st : state) (zn : Z) : Prop := mkINV {
  i_len : length (sets st) = nset /\ length (mask st) = nset /\ length (lev (tr st)) = nset /\ length (out (tr st)) = nset;
  i_P : forall q k, In (q, k) P -> inside q /\ nz q <= zn /\ (k < nset)%nat;
  i_sets : forall k, (k < nset)%nat -> wft (nth k (sets st) []);
  i_reg : forall k, (k < nset)%nat -> forall a b, reg (nth k (sets st) []) a b <-> exists q, In (q, k) P /\ below2 q a b;
  i_mask : forall k, (k < nset)%nat -> (nth k (mask st) false = true <-> exists q, In (q, k) P);
  i_start : start_at st = Nat.min (masked (mask st) - 1) (nset - 2);
  i_m : (1 <= masked (mask st))%nat;
  i_lok : forall j, (j < nset)%nat -> lok zn (L (tr st) j) (O_ (tr st) j);
  i_lev : forall j, (j < nset)%nat -> forall a b, reg (L (tr st) j) a b <-> (j < cnt (sets st) a b)%nat;
  i_cov : forall j, (j < nset)%nat -> forall a b c, covers (L (tr st) j) (O_ (tr st) j) a b c <-> (j < cnt3 P a b c)%nat;
  i_ids : forall j q, (j < nset)%nat -> In q (L (tr st) j) -> real q -> exists i, nid q = Some i /\ (i < length (heap (tr st)))%nat }.

(** what one iteration does to the levels: nothing, or insertions *)
Definition moved (st st' : state) (new : node) (k : nat) : Prop :=
  (tr st' = tr st /\ reg (nth k (sets st) []) (nx new) (ny new)) \/
  ((forall a b, A hi new (nth k (sets st) []) a b -> cnt (sets st') a b = S (cnt (sets st) a b)) /\
   ops lo hi nset new (nth k (sets st) []) (L (tr st)) (O_ (tr st)) (cnt (sets st')) k (length (heap (tr st))) (tr st) (tr st')).

Lemma covers_high : forall z t o a b c, lok z t o -> z <= c -> (covers t o a b c <-> reg t a b).
Proof.
  intros z t o a b c (W & Zt & Zo & _) Lc. split.
  - intros (p & Ip & Rp & [B1 B2] & _). apply in_app_iff in Ip. destruct Ip as [Ip|Ip].
    + destruct (Zo p Ip) as (_ & _ & R). eapply reg_mono; eauto.
    + exists p. repeat split; auto; apply Rp.
  - intros (q & I & R & B). exists q. rewrite in_app_iff. split; auto. split; auto. split; auto.
    specialize (Zt q I R). lia.
Qed.

Lemma cnt3_high : forall P ss z a b c, (forall q k, In (q, k) P -> nz q <= z) -> z <= c ->
  (forall k, (k < nset)%nat -> forall a b, reg (nth k ss []) a b <-> exists q, In (q, k) P /\ below2 q a b) ->
  cnt3 P a b c = cnt ss a b.
Proof.
  intros P ss z a b c HP Lc HR. apply countb_ext. intros k Hk. apply in_seq in Hk. apply eq_true_iff_eq.
  rewrite regb_iff, seen_iff, HR by lia. split.
  - intros (q & I & B & _). eauto.
  - intros (q & I & B). exists q. split; auto. split; auto. specialize (HP q k I). lia.
Qed.
Lemma cnt3_low : forall P new k a b c, c < nz new -> cnt3 (P ++ [(new, k)]) a b c = cnt3 P a b c.
Proof.
  intros. apply countb_ext. intros i Hi. apply eq_true_iff_eq. rewrite !seen_iff. split; intros (q & I & B & Z).
  - rewrite in_app_iff in I. destruct I as [I|[E|[]]]; eauto. inversion E; subst. lia.
  - exists q. rewrite in_app_iff; auto.
Qed.

(** ** One step *)
Lemma inv_step : forall P st zn new k, INV P st zn -> inside new -> zn <= nz new -> (k < nset)%nat ->
  exists st', eaf3df_step nset st new k = Ret st' /\ INV (P ++ [(new, k)]) st' (nz new) /\ moved st st' new k.
Proof.
  intros P st zn new k I0 Hin Lz Hk. destruct I0 as [(Ls & Lm & Ll & Lo) IP IS IR IM IST Im ILK ILV ICV IID].
  set (St := nth k (sets st) []) in *.
  assert (HS : wft St) by (apply IS; auto).
  destruct Hin as [HinX HinY]. assert (Hin : inside new) by (split; auto).
  destruct (find_left_ok lo hi St (nx new) HS) as (prev & Ep & Ip & Lp & Fp). lia.
  unfold eaf3df_step. rewrite (rd_ok _ (sets st) k []) by lia. cbn [bind]. fold St. rewrite Ep. cbn [bind].
  assert (IP' : forall q i, In (q, i) (P ++ [(new, k)]) -> inside q /\ nz q <= nz new /\ (i < nset)%nat).
  { intros q i I. rewrite in_app_iff in I. destruct I as [I|[E|[]]]. destruct (IP q i I) as (? & ? & ?). repeat split; auto; try apply H; lia.
    inversion E; subst. repeat split; auto; lia. }
  assert (ILK' : forall j, (j < nset)%nat -> lok (nz new) (L (tr st) j) (O_ (tr st) j)).
  { intros j Hj. eapply lok_later; eauto. }
  assert (IM' : forall i, (exists q, In (q, i) (P ++ [(new, k)])) <-> (i = k \/ exists q, In (q, i) P)).
  { intros i. split.
    - intros (q & I). rewrite in_app_iff in I. destruct I as [I|[E|[]]]; eauto. inversion E; auto.
    - intros [->|(q & I)]. exists new. rewrite in_app_iff. right; now left. exists q. rewrite in_app_iff; auto. }
  destruct (Z.leb_spec (ny prev) (ny new)) as [Lpn|Lpn].
  - (* the new point is weakly dominated in its set *)
    assert (Rp : reg St (nx new) (ny new)). { exists prev. repeat split; auto; lia. }
    exists st. split; auto. split; [|left; auto].
    assert (IR' : forall i, (i < nset)%nat -> forall a b, reg (nth i (sets st) []) a b <-> exists q, In (q, i) (P ++ [(new, k)]) /\ below2 q a b).
    { intros i Hi a b. rewrite IR by auto. split.
      - intros (q & I & B). exists q. rewrite in_app_iff; auto.
      - intros (q & I & B). rewrite in_app_iff in I. destruct I as [I|[E|[]]]. eauto. inversion E; subst.
        apply IR; auto. fold St. destruct B. eapply reg_mono; eauto. }
    constructor; auto.
    + intros i Hi. rewrite IM', IM by auto. split; auto. intros [->|]; auto.
      apply (IR k Hk) in Rp. destruct Rp as (q & I & _). eauto.
    + intros j Hj a b c. destruct (Z.lt_ge_cases c (nz new)).
      * rewrite cnt3_low by auto. apply ICV; auto.
      * rewrite (covers_high (nz new)) by auto. rewrite (cnt3_high _ (sets st) (nz new)) by (auto; intros; apply (IP' q k0); auto).
        apply ILV; auto.
  - destruct (add2set_spec lo hi St prev new LH HS Hin Ep Lpn) as (t' & Es & W' & S1 & S2 & S3).
    set (sets' := upd (sets st) k t').
    assert (NR : ~ reg St (nx new) (ny new)).
    { intros (q & I & R & [B1 B2]). destruct (Fp q I B1) as [->|[_ K]]; lia. }
    assert (Rg : forall a b, reg t' a b <-> reg St a b \/ below2 new a b).
    { apply add2level_reg.
      - intros q I. destruct (S1 q I) as [|E]; auto.
      - intros q I. destruct (S2 q I) as [|[]]; auto.
      - exists new. split; auto. split; [split; lia|split; lia]. }
    assert (Nk : nth k sets' [] = t'). { apply nth_upd_same. lia. }
    assert (Nk' : forall i, i <> k -> nth i sets' [] = nth i (sets st) []). { intros. apply nth_upd_other. lia. }
    set (Anew := A hi new St).
    assert (CA : forall a b, Anew a b -> cnt sets' a b = S (cnt (sets st) a b)).
    { intros a b (Ha & Hb & Hn). unfold cnt. apply countb_flip with (k := k). lia.
      - intros i N. now rewrite Nk'. - apply regb_not. auto. - apply regb_iff. rewrite Nk. apply Rg. right. split; lia. }
    assert (Cless : forall a b, ~ Anew a b -> a < hi -> b < hi -> cnt sets' a b = cnt (sets st) a b).
    { intros a b NA La Lb. apply countb_ext. intros i _. destruct (Nat.eq_dec i k) as [->|N]; [|now rewrite Nk'].
      apply eq_true_iff_eq. rewrite !regb_iff, Nk. fold St. rewrite Rg. split; auto. intros [|[B1 B2]]; auto.
      destruct (regb St a b) eqn:Er. now apply regb_iff. apply regb_not in Er. exfalso. apply NA. unfold Anew, A. auto. }
    assert (Adec : forall a b, Anew a b \/ ~ Anew a b).
    { intros a b. unfold Anew, A. destruct (regb St a b) eqn:Er. { apply regb_iff in Er. right. tauto. } apply regb_not in Er.
      destruct (Z.le_gt_cases (nx new) a), (Z.lt_ge_cases a hi), (Z.le_gt_cases (ny new) b), (Z.lt_ge_cases b hi); try (right; lia).
      left. auto. }
    assert (Cgrow : forall a b, (cnt (sets st) a b <= cnt sets' a b)%nat).
    { intros a b. apply countb_le. intros i _ R. destruct (Nat.eq_dec i k) as [->|N]; [|now rewrite Nk'].
      rewrite Nk. apply regb_iff. apply Rg. left. now apply regb_iff. }
    destruct (cut_after_spec St prev Ip) as (pre & rest & Ec & ES).
    assert (G0 : Good lo hi nset new (L (tr st)) (O_ (tr st)) (cnt sets') (length (heap (tr st))) (tr st) (fun _ => hi)).
    { constructor; auto.
      - tauto. - intros. apply agree_refl. - intros j Hj a b R. apply ILV in R; auto. specialize (Cgrow a b). lia. - eauto. }
    assert (Hnset : (start_at st < nset)%nat) by lia.
    assert (HM : forall a b, (cnt (sets st) a b <= S (start_at st) \/ nset <= S (S (start_at st)))%nat).
    { intros a b. assert (cnt (sets st) a b <= masked (mask st))%nat; [|lia].
      apply countb_le. intros i Hi R. apply in_seq in Hi. apply regb_iff in R. apply IR in R; [|lia]. apply IM. lia.
      destruct R as (q & I & _). eauto. }
    destruct (levels_step lo hi LH nset new prev St Hin HS Ep Lpn (L (tr st)) (O_ (tr st)) (cnt (sets st)) (cnt sets')
      (fun j Hj => proj1 (ILK j Hj)) ILV CA (cnt_mono sets') (cnt_max sets') k (length (heap (tr st))) IID Cless (cnt_mono (sets st)) Adec
      (tr st) (start_at st) pre rest Hnset G0 (fun j _ => eq_refl) ES HM)
      as (stop & dom & cs & s2 & cs2 & w & s3 & r4 & s4 & E1 & E2 & E3 & E4 & E5 & G4 & Op4 & Cm).
    rewrite E1. cbn [bind fst snd]. rewrite Ec. cbn [bind fst snd]. rewrite E2. cbn [bind]. rewrite E3. cbn [bind].
    rewrite Es. cbn [bind]. rewrite (wr_ok _ (sets st) k) by lia. cbn [bind]. fold sets'. rewrite E4. cbn [bind]. rewrite E5. cbn [bind].
    rewrite (rd_ok _ (mask st) k false) by lia. cbn [bind].
    assert (IR' : forall i, (i < nset)%nat -> forall a b, reg (nth i sets' []) a b <-> exists q, In (q, i) (P ++ [(new, k)]) /\ below2 q a b).
    { intros i Hi a b. destruct (Nat.eq_dec i k) as [->|N].
      - rewrite Nk, Rg. unfold St. rewrite IR by auto. split.
        + intros [(q & I & B)|B]; [exists q|exists new]; rewrite in_app_iff; split; auto. right; now left.
        + intros (q & I & B). rewrite in_app_iff in I. destruct I as [I|[E|[]]]; eauto. right. assert (q = new) by congruence. subst q. auto.
      - rewrite Nk', IR by auto. split.
        + intros (q & I & B). exists q. rewrite in_app_iff; auto.
        + intros (q & I & B). rewrite in_app_iff in I. destruct I as [I|[E|[]]]; eauto. exfalso; apply N; congruence. }
    assert (IS' : forall i, (i < nset)%nat -> wft (nth i sets' [])).
    { intros i Hi. destruct (Nat.eq_dec i k) as [->|N]. rewrite Nk; auto. rewrite Nk'; auto. }
    assert (ILV' : forall j, (j < nset)%nat -> forall a b, reg (L s4 j) a b <-> (j < cnt sets' a b)%nat).
    { intros j Hj a b. split. apply (g_sound _ _ _ _ _ _ _ _ _ _ G4 j Hj).
      rewrite cnt_clamp. rewrite reg_clamp. apply Cm; auto; lia. }
    assert (ICV' : forall j, (j < nset)%nat -> forall a b c, covers (L s4 j) (O_ s4 j) a b c <-> (j < cnt3 (P ++ [(new, k)]) a b c)%nat).
    { intros j Hj a b c. destruct (Z.lt_ge_cases c (nz new)).
      - rewrite cnt3_low by auto. rewrite <- (g_cov _ _ _ _ _ _ _ _ _ _ G4 j Hj) by auto. apply ICV; auto.
      - rewrite (covers_high (nz new)) by (auto; apply (g_lok _ _ _ _ _ _ _ _ _ _ G4 j Hj)).
        rewrite (cnt3_high _ sets' (nz new)) by (auto; intros; apply (IP' q k0); auto). apply ILV'; auto. }
    assert (Len' : length sets' = nset) by (unfold sets'; now rewrite upd_length).
    destruct (nth k (mask st) false) eqn:Em.
    + eexists. split; [reflexivity|]. split; [|right; split; auto]. constructor; cbn [sets tr start_at mask]; auto.
      * split; auto. split; auto. split; apply G4.
      * intros i Hi. rewrite IM', IM by auto. split; auto. intros [->|]; auto. now apply IM.
      * apply G4.
      * intros j q Hj. apply (g_ids _ _ _ _ _ _ _ _ _ _ G4 j Hj q).
    + rewrite (wr_ok _ (mask st) k) by lia. cbn [bind].
      assert (Mk : masked (upd (mask st) k true) = S (masked (mask st))).
      { apply countb_flip with (k := k); auto. lia. intros i N. symmetry. apply nth_upd_other. lia. apply nth_upd_same. lia. }
      eexists. split; [reflexivity|]. split; [|right; split; auto]. constructor; cbn [sets tr start_at mask]; auto.
      * split; auto. split. now rewrite upd_length. split; apply G4.
      * intros i Hi. rewrite IM'. destruct (Nat.eq_dec i k) as [->|N].
        -- rewrite nth_upd_same by lia. split; auto.
        -- rewrite nth_upd_other by lia. rewrite IM by auto. split; auto. intros [->|]; auto. congruence.
      * rewrite Mk. destruct (Nat.ltb_spec (start_at st + 2) nset); lia.
      * lia.
      * apply G4.
      * intros j q Hj. apply (g_ids _ _ _ _ _ _ _ _ _ _ G4 j Hj q).
Qed.

(** ** The first point *)
Definition fresh (junk : nat -> Z) : list (list node) := map (fun i => sentinels lo hi (junk i) (junk i)) (seq 0 nset).
Definition first_state (junk : nat -> Z) : state := mkState (fresh junk) (mkTrees (fresh junk) (repeat [] nset) []) 0 (repeat false nset).

Lemma wft_single : forall z1 z2 new, inside new -> wft [mkNode lo hi z1 None; new; mkNode hi lo z2 None].
Proof.
  intros z1 z2 new [Hx Hy]. split; [|split; [|split]].
  - repeat constructor; cbn [nx ny]; try lia.
  - exists (mkNode lo hi z1 None). repeat split. now left.
  - exists (mkNode hi lo z2 None). repeat split. right; right; now left.
  - intros q [<-|[<-|[<-|[]]]]; cbn [nx ny]; auto. right; right. split; auto.
Qed.
Lemma wft_sentinels : forall z1 z2, wft (sentinels lo hi z1 z2).
Proof.
  intros. split; [|split; [|split]].
  - repeat constructor; cbn [nx ny]; try lia.
  - exists (mkNode lo hi z1 None). repeat split. now left.
  - exists (mkNode hi lo z2 None). repeat split. right; now left.
  - intros q [<-|[<-|[]]]; cbn [nx ny]; auto.
Qed.
Lemma reg_single : forall z1 z2 new a b, inside new -> (reg [mkNode lo hi z1 None; new; mkNode hi lo z2 None] a b <-> below2 new a b).
Proof.
  intros z1 z2 new a b [Hx Hy]. split.
  - intros (q & [<-|[<-|[<-|[]]]] & [R1 R2] & B); cbn [nx ny] in *; auto; lia.
  - intros B. exists new. split. right; now left. split; auto. split; lia.
Qed.
Lemma reg_sentinels : forall z1 z2 a b, ~ reg (sentinels lo hi z1 z2) a b.
Proof. intros z1 z2 a b (q & [<-|[<-|[]]] & [R1 R2] & B); cbn [nx ny] in *; lia. Qed.

Lemma fresh_length : forall junk, length (fresh junk) = nset.
Proof. intros. unfold fresh. now rewrite map_length, seq_length. Qed.
Lemma fresh_nth : forall junk i, (i < nset)%nat -> nth i (fresh junk) [] = sentinels lo hi (junk i) (junk i).
Proof.
  intros. unfold fresh. rewrite (nth_indep _ [] (sentinels lo hi (junk O) (junk O))) by (now rewrite map_length, seq_length).
  rewrite (map_nth (fun i => sentinels lo hi (junk i) (junk i))), seq_nth by auto. auto.
Qed.

Lemma inv_first : forall junk new k l, inside new -> (k < nset)%nat ->
  exists st, eaf3df nset (first_state junk) ((new, k) :: l) = eaf3df_loop nset st l /\ INV [(new, k)] st (nz new) /\
    heap (tr st) = [mkInfo k None None None] /\
    (forall j, O_ (tr st) j = []) /\
    (forall j q, (j < nset)%nat -> In q (L (tr st) j) -> real q -> j = O /\ q = with_id new 0).
Proof.
  intros junk new k l Hin Hk. unfold eaf3df, first_state. cbn [sets tr lev out mask].
  assert (Ins : forall i n, (i < nset)%nat -> insert_after_head (nth i (fresh junk) []) n = Ret [mkNode lo hi (junk i) None; n; mkNode hi lo (junk i) None]).
  { intros i n Hi. rewrite fresh_nth by auto. auto. }
  cbn [heap length app]. set (new0 := with_id new 0). assert (Hin0 : inside new0) by exact Hin.
  rewrite (rd_ok _ (fresh junk) k []) by (rewrite fresh_length; lia). cbn [bind]. rewrite Ins by auto. cbn [bind].
  rewrite (wr_ok _ (fresh junk) k) by (rewrite fresh_length; lia). cbn [bind].
  rewrite (rd_ok _ (fresh junk) 0 []) by (rewrite fresh_length; lia). cbn [bind]. rewrite Ins by lia. cbn [bind].
  rewrite (wr_ok _ (fresh junk) 0) by (rewrite fresh_length; lia). cbn [bind].
  rewrite (wr_ok _ (repeat false nset) k) by (rewrite repeat_length; lia). cbn [bind].
  eexists. split; [reflexivity|].
  set (tk := [mkNode lo hi (junk k) None; new; mkNode hi lo (junk k) None]).
  set (t0 := [mkNode lo hi (junk 0%nat) None; new0; mkNode hi lo (junk 0%nat) None]).
  set (ss := upd (fresh junk) k tk).
  assert (Sk : nth k ss [] = tk). { apply nth_upd_same. now rewrite fresh_length. }
  assert (Si : forall i, i <> k -> nth i ss [] = nth i (fresh junk) []). { intros. apply nth_upd_other. lia. }
  set (lv := upd (fresh junk) 0 t0).
  assert (T0 : nth 0 lv [] = t0). { apply nth_upd_same. rewrite fresh_length; lia. }
  assert (Ti : forall i, i <> O -> nth i lv [] = nth i (fresh junk) []). { intros. apply nth_upd_other. lia. }
  assert (Oj : forall j, nth j (repeat (@nil node) nset) [] = []). { intros j. apply nth_repeat. }
  assert (Lj : forall j, (j < nset)%nat -> wft (nth j lv []) /\ (forall q, In q (nth j lv []) -> real q -> j = O /\ q = new0) /\
             forall a b, reg (nth j lv []) a b <-> j = O /\ below2 new a b).
  { intros j Hj. destruct (Nat.eq_dec j 0) as [->|N].
    - rewrite T0. split. now apply wft_single. split.
      + intros q [<-|[<-|[<-|[]]]] [R1 R2]; cbn [nx ny] in *; auto; lia.
      + intros a b. unfold t0. rewrite (reg_single _ _ _ a b Hin0). unfold below2, new0. cbn [with_id nx ny]. tauto.
    - rewrite Ti, fresh_nth by auto. split. apply wft_sentinels. split.
      + intros q [<-|[<-|[]]] [R1 R2]; cbn [nx ny] in *; lia.
      + intros a b. split. intros R. now apply reg_sentinels in R. lia. }
  assert (Rs : forall i, (i < nset)%nat -> forall a b, reg (nth i ss []) a b <-> exists q, In (q, i) [(new, k)] /\ below2 q a b).
  { intros i Hi a b. destruct (Nat.eq_dec i k) as [->|N].
    - rewrite Sk. unfold tk. rewrite (reg_single _ _ _ a b Hin). split. intros B; exists new; split; auto. now left.
      intros (q & [E|[]] & B). inversion E; subst; auto.
    - rewrite Si, fresh_nth by auto. split. intros R. now apply reg_sentinels in R.
      intros (q & [E|[]] & B). inversion E; subst; lia. }
  assert (Cz : forall (f : nat -> bool), (forall i, i <> k -> f i = false) -> countb f (seq 0 nset) = if f k then 1%nat else 0%nat).
  { intros f Hf. assert (Z : countb (fun _ : nat => false) (seq 0 nset) = O).
    { generalize (seq 0 nset). induction l0; cbn; auto. }
    destruct (f k) eqn:E.
    - rewrite (countb_flip nset 0 k (fun _ => false) f); auto. lia. intros i N. symmetry; auto.
    - transitivity (countb (fun _ : nat => false) (seq 0 nset)); auto. apply countb_ext. intros i _. destruct (Nat.eq_dec i k) as [->|]; auto. }
  assert (Cs : forall a b, cnt ss a b = if regb tk a b then 1%nat else 0%nat).
  { intros a b. unfold cnt. rewrite (Cz (fun i => regb (nth i ss []) a b)). now rewrite Sk.
    intros i N. rewrite Si by auto. apply regb_not. destruct (Nat.lt_ge_cases i nset).
    rewrite fresh_nth by auto. apply reg_sentinels. rewrite nth_overflow by (rewrite fresh_length; lia). intros (q & [] & _). }
  assert (ILK : forall j, (j < nset)%nat -> lok (nz new) (nth j lv []) []).
  { intros j Hj. destruct (Lj j Hj) as (W & Rl & _). split; auto. split. { intros q I R. rewrite (proj2 (Rl q I R)). cbn. lia. }
    split. intros q []. split. cbn. apply stair_NoDup. apply W.
    cbn. intros p q Ip Iq Rp Rq _ _. rewrite (proj2 (Rl p Ip Rp)), (proj2 (Rl q Iq Rq)). auto. }
  assert (ILV : forall j, (j < nset)%nat -> forall a b, reg (nth j lv []) a b <-> (j < cnt ss a b)%nat).
  { intros j Hj a b. destruct (Lj j Hj) as (_ & _ & R). rewrite R, Cs.
    destruct (regb tk a b) eqn:Er.
    - apply regb_iff in Er. apply (reg_single _ _ _ a b Hin) in Er. split; [intros [-> _]; lia|]. split; auto. lia.
    - apply regb_not in Er. split; [|lia]. intros [-> B]. exfalso. apply Er. now apply (reg_single _ _ _ a b Hin). }
  split; [|split; [reflexivity|split]].
  2:{ intros j. unfold O_. cbn [tr out]. apply Oj. }
  2:{ intros j q Hj Hq Rq. unfold L in Hq. cbn [tr lev] in Hq. apply (proj1 (proj2 (Lj j Hj)) q Hq Rq). }
  constructor; cbn [sets tr start_at mask].
  - cbn [lev out]. unfold ss, lv. rewrite !upd_length, fresh_length, !repeat_length. auto.
  - intros q i [E|[]]. inversion E; subst. split; auto. split; auto. lia.
  - intros i Hi. destruct (Nat.eq_dec i k) as [->|N]. rewrite Sk. now apply wft_single. rewrite Si, fresh_nth by auto. apply wft_sentinels.
  - auto.
  - intros i Hi. destruct (Nat.eq_dec i k) as [->|N].
    + rewrite nth_upd_same by (now rewrite repeat_length). split; auto. intros _. exists new. now left.
    + rewrite nth_upd_other by lia. rewrite nth_repeat. split. discriminate. intros (q & [E|[]]). inversion E; subst; lia.
  - unfold masked. rewrite (Cz (fun i => nth i (upd (repeat false nset) k true) false)).
    rewrite nth_upd_same by (now rewrite repeat_length). lia.
    intros i N. rewrite nth_upd_other by lia. apply nth_repeat.
  - unfold masked. rewrite (Cz (fun i => nth i (upd (repeat false nset) k true) false)).
    rewrite nth_upd_same by (now rewrite repeat_length). lia.
    intros i N. rewrite nth_upd_other by lia. apply nth_repeat.
  - intros j Hj. unfold L, O_. cbn [lev out]. rewrite Oj. auto.
  - intros j Hj a b. unfold L. cbn [lev]. auto.
  - intros j Hj a b c. unfold L, O_. cbn [lev out]. rewrite Oj. destruct (Z.lt_ge_cases c (nz new)).
    + assert (cnt3 [(new, k)] a b c = O).
      { change [(new, k)] with ([] ++ [(new, k)]). rewrite cnt3_low by auto. unfold cnt3.
        rewrite (countb_ext _ _ (fun _ => false)) by auto. generalize (seq 0 nset). induction l0; cbn; auto. }
      rewrite H0. split; [|lia]. intros (p & Ip & Rp & _ & Lz). destruct (Lj j Hj) as (_ & Rl & _). cbn in Ip. rewrite (proj2 (Rl p Ip Rp)) in Lz. cbn in Lz. lia.
    + rewrite (covers_high (nz new)) by auto. rewrite (cnt3_high _ ss (nz new)); auto.
      intros q i [E|[]]. inversion E; lia.
  - intros j q Hj Hq Rq. unfold L in Hq. cbn [lev] in Hq. destruct (proj1 (proj2 (Lj j Hj)) q Hq Rq) as [_ ->].
    exists O. split; auto. 
Qed.
End Main.
