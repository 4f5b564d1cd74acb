(** Proofs about the Mersenne Twister model. *)
From Coq Require Import List ZArith Lia Bool Arith.
From Verif Require Import Base MtSpec MtModel.
Import ListNotations.
Open Scope Z_scope.

Lemma NN_n : NN = mt_n. Proof. reflexivity. Qed.
Lemma MM_m : MM = mt_m. Proof. reflexivity. Qed.
Lemma MM_lt_NN : (0 < MM < NN)%nat.
Proof. unfold MM, NN. lia. Qed.
Lemma two_lt_NN : (2 < NN)%nat.
Proof. unfold NN. lia. Qed.
Lemma m_gt_1 : (1 < mt_m)%nat.
Proof. unfold mt_m. lia. Qed.
Global Opaque NN MM mt_n mt_m.

(** ** words *)
Lemma word_testbit : forall x, word x -> forall i, 32 <= i -> Z.testbit x i = false.
Proof.
  intros x [H0 H1] i Hi.
  rewrite <- (Z.mod_small x (2 ^ 32)) by lia.
  apply Z.mod_pow2_bits_high. lia.
Qed.
Lemma testbit_word : forall x, 0 <= x -> (forall i, 32 <= i -> Z.testbit x i = false) -> word x.
Proof.
  intros x H0 H. split; [ exact H0 | ].
  assert (E : x = x mod 2 ^ 32).
  { apply Z.bits_inj'. intros n Hn.
    destruct (Z.ltb_spec n 32).
    - rewrite Z.mod_pow2_bits_low by lia. reflexivity.
    - rewrite Z.mod_pow2_bits_high by lia. apply H. lia. }
  rewrite E. apply Z.mod_pos_bound. lia.
Qed.
Lemma word_lxor : forall x y, word x -> word y -> word (Z.lxor x y).
Proof.
  intros x y Hx Hy. apply testbit_word.
  - apply Z.lxor_nonneg. destruct Hx, Hy. lia.
  - intros i Hi. rewrite Z.lxor_spec, (word_testbit x Hx), (word_testbit y Hy) by lia. reflexivity.
Qed.
Lemma word_land_r : forall x y, word y -> word (Z.land x y).
Proof.
  intros x y Hy. apply testbit_word.
  - apply Z.land_nonneg. right. apply Hy.
  - intros i Hi. rewrite Z.land_spec, (word_testbit y Hy) by lia. apply andb_false_r.
Qed.
Lemma word_shiftr : forall x k, 0 <= k -> word x -> word (Z.shiftr x k).
Proof.
  intros x k Hk Hx. apply testbit_word.
  - apply Z.shiftr_nonneg. apply Hx.
  - intros i Hi. rewrite Z.shiftr_spec by lia. apply word_testbit; [ exact Hx | lia ].
Qed.
Lemma word_w32 : forall x, word (w32 x).
Proof. intros. unfold w32, word. apply Z.mod_pos_bound. lia. Qed.
Lemma w32_small : forall x, word x -> w32 x = x.
Proof. intros x H. unfold w32. apply Z.mod_small. exact H. Qed.

Lemma land_w32 : forall x m, word m -> Z.land (w32 x) m = Z.land x m.
Proof.
  intros x m Hm. unfold w32. rewrite <- Z.land_ones by lia.
  rewrite <- Z.land_assoc. f_equal.
  rewrite Z.land_comm, Z.land_ones by lia. apply Z.mod_small. exact Hm.
Qed.

Lemma temper_spec : forall y, temper y = mt_temper y.
Proof.
  intros y. unfold temper, mt_temper.
  rewrite !land_w32 by (unfold word; lia). reflexivity.
Qed.

Lemma word_temper : forall y, word y -> word (temper y).
Proof.
  intros y Hy. unfold temper.
  repeat first [ apply word_lxor | apply word_shiftr; [ lia | ] | apply word_land_r; unfold word; lia
               | exact Hy ].
Qed.

Lemma concat_eq : forall u v, word u -> 
  Z.lor (Z.land u UPPER_MASK) (Z.land v LOWER_MASK) = concat_bits u v.
Proof.
  intros u v Hu. unfold concat_bits, UPPER_MASK, LOWER_MASK.
  assert (E1 : Z.land v 0x7fffffff = v mod 2 ^ 31).
  { change 0x7fffffff with (Z.ones 31). apply Z.land_ones. lia. }
  assert (E2 : Z.land u 0x80000000 = (u / 2 ^ 31) * 2 ^ 31).
  { rewrite <- Z.shiftr_div_pow2, <- Z.shiftl_mul_pow2 by lia.
    rewrite <- Z.ldiff_ones_r by lia.
    rewrite Z.ldiff_land.
    assert (E : Z.land u (Z.ones 32) = u).
    { rewrite Z.land_ones by lia. apply Z.mod_small. exact Hu. }
    rewrite <- E at 2. rewrite <- Z.land_assoc. reflexivity. }
  assert (D : Z.land (Z.land u 0x80000000) (Z.land v 0x7fffffff) = 0).
  { rewrite <- Z.land_assoc, (Z.land_assoc 0x80000000 v), (Z.land_comm 0x80000000 v).
    rewrite <- (Z.land_assoc v). change (Z.land 0x80000000 0x7fffffff) with 0.
    rewrite !Z.land_0_r. reflexivity. }
  rewrite <- Z.lxor_lor by exact D.
  rewrite <- Z.add_nocarry_lxor by exact D.
  rewrite E1, E2. reflexivity.
Qed.

Lemma word_concat : forall u v, word u -> word (concat_bits u v).
Proof.
  intros u v [H0 H1]. unfold concat_bits, word.
  pose proof (Z.mod_pos_bound v (2 ^ 31) ltac:(lia)).
  assert (0 <= u / 2 ^ 31 <= 1).
  { split; [ apply Z.div_pos; lia | ].
    apply Z.lt_succ_r. apply Z.div_lt_upper_bound; lia. }
  lia.
Qed.

Lemma times_A_eq : forall ks y,
  Z.lxor (Z.lxor ks (Z.shiftr y 1)) (Z.land (w32 (- Z.land y 1)) MATRIX_A)
  = Z.lxor ks (times_A y).
Proof.
  intros ks y. unfold times_A.
  rewrite (Z.shiftr_div_pow2 y 1) by lia. change (2 ^ 1) with 2.
  assert (E : Z.land y 1 = if Z.odd y then 1 else 0).
  { change 1 with (Z.ones 1) at 1. rewrite Z.land_ones by lia. rewrite Zmod_odd.
    reflexivity. }
  rewrite E. destruct (Z.odd y).
  - change (Z.land (w32 (- (1))) MATRIX_A) with mt_a. apply Z.lxor_assoc.
  - change (Z.land (w32 (- 0)) MATRIX_A) with 0. apply Z.lxor_0_r.
Qed.

Lemma word_times_A : forall y, word y -> word (times_A y).
Proof.
  intros y Hy. unfold times_A.
  assert (word (y / 2)).
  { change 2 with (2 ^ 1). rewrite <- Z.shiftr_div_pow2 by lia. now apply word_shiftr. }
  destruct (Z.odd y); [ apply word_lxor; [ assumption | unfold word, mt_a; lia ] | assumption ].
Qed.

(** ** the state array *)
Definition key_ok (key : list Z) : Prop := length key = NN /\ Forall word key.

Lemma key_ok_nth : forall key i, key_ok key -> (i < NN)%nat -> word (nth i key 0).
Proof.
  intros key i [HL HF] Hi. rewrite Forall_forall in HF. apply HF. apply nth_In. lia.
Qed.
Lemma Forall_nth_word : forall key, (forall i, (i < length key)%nat -> word (nth i key 0)) -> Forall word key.
Proof.
  intros key H. apply Forall_forall. intros x Hx.
  destruct (In_nth key x 0 Hx) as [i [Hi E]]. rewrite <- E. now apply H.
Qed.
Lemma key_ok_upd : forall key i x, key_ok key -> word x -> key_ok (upd key i x).
Proof.
  intros key i x [HL HF] Hx. split; [ now rewrite upd_length | ].
  apply Forall_nth_word. intros j Hj. rewrite upd_length in Hj.
  destruct (Nat.eq_dec i j).
  - subst j. rewrite nth_upd_same by assumption. exact Hx.
  - rewrite nth_upd_other by assumption. apply key_ok_nth; [ split; assumption | lia ].
Qed.

Lemma gen_step_ok : forall key i i1 src,
  key_ok key -> (i < NN)%nat -> (i1 < NN)%nat -> (src < NN)%nat ->
  gen_step key i i1 src =
    Ret (upd key i (Z.lxor (nth src key 0) (times_A (concat_bits (nth i key 0) (nth i1 key 0))))) /\
  word (Z.lxor (nth src key 0) (times_A (concat_bits (nth i key 0) (nth i1 key 0)))).
Proof.
  intros key i i1 src Hk Hi Hi1 Hs.
  pose proof Hk as [HL HF].
  split.
  - unfold gen_step.
    rewrite (rd_ok _ key i 0) by lia. cbn [bind].
    rewrite (rd_ok _ key i1 0) by lia. cbn [bind].
    rewrite (rd_ok _ key src 0) by lia. cbn [bind].
    rewrite concat_eq by (now apply key_ok_nth).
    rewrite times_A_eq. apply wr_ok. lia.
  - apply word_lxor; [ now apply key_ok_nth | ].
    apply word_times_A, word_concat. now apply key_ok_nth.
Qed.

Section Sequence.
Variable x : nat -> Z.
Hypothesis Hx : mt_sequence x.

(** the array holds x_{base+N} .. x_{base+N+i-1}, x_{base+i} .. x_{base+N-1} *)
Definition gen_inv (base i : nat) (key : list Z) : Prop :=
  key_ok key /\
  (forall j, (j < NN)%nat -> nth j key 0 = if (j <? i)%nat then x (base + NN + j) else x (base + j)).

Lemma gen_inv_step : forall base i i1 src key,
  gen_inv base i key -> (i < NN)%nat -> (i1 < NN)%nat -> (src < NN)%nat ->
  nth i1 key 0 = x (S (base + i)) -> nth src key 0 = x (base + i + MM)%nat ->
  exists key', gen_step key i i1 src = Ret key' /\ gen_inv base (S i) key'.
Proof.
  intros base i i1 src key [Hk Hn] Hi Hi1 Hs E1 Es.
  destruct (gen_step_ok key i i1 src Hk Hi Hi1 Hs) as [HR HW].
  eexists. split; [ exact HR | ]. split; [ now apply key_ok_upd | ].
  intros j Hj. destruct (Nat.eq_dec i j) as [<- | Hij].
  - rewrite nth_upd_same by (destruct Hk; lia).
    destruct (Nat.ltb_spec i (S i)); [ | lia ].
    replace (base + NN + i)%nat with ((base + i) + mt_n)%nat by (rewrite <- NN_n; lia).
    rewrite Hx. rewrite E1, Es. rewrite (Hn i Hi).
    destruct (Nat.ltb_spec i i); [ lia | ]. rewrite <- MM_m. reflexivity.
  - rewrite nth_upd_other by assumption. rewrite (Hn j Hj).
    destruct (Nat.ltb_spec j i), (Nat.ltb_spec j (S i)); try reflexivity; lia.
Qed.

Lemma gen_loop1_ok : forall k base i key,
  gen_inv base i key -> (i + k <= NN - MM)%nat ->
  exists key', gen_loop1 k i key = Ret key' /\ gen_inv base (i + k) key'.
Proof.
  pose proof MM_lt_NN as HM.
  induction k as [ | k IH ]; intros base i key Hinv Hik; cbn [gen_loop1].
  - exists key. rewrite Nat.add_0_r. auto.
  - destruct (gen_inv_step base i (i + 1) (i + MM) key Hinv) as [key' [E Hinv']]; try lia.
    + destruct Hinv as [_ Hn]. rewrite Hn by lia.
      destruct (Nat.ltb_spec (i + 1) i); [ lia | f_equal; lia ].
    + destruct Hinv as [_ Hn]. rewrite Hn by lia.
      destruct (Nat.ltb_spec (i + MM) i); [ lia | f_equal; lia ].
    + rewrite E. cbn [bind].
      destruct (IH base (S i) key' Hinv') as [key'' [E' H']]; [ lia | ].
      exists key''. split; [ exact E' | ]. now replace (i + S k)%nat with (S i + k)%nat by lia.
Qed.

Lemma gen_loop2_ok : forall k base i key,
  gen_inv base i key -> (NN - MM <= i)%nat -> (i + k <= NN - 1)%nat ->
  exists key', gen_loop2 k i key = Ret key' /\ gen_inv base (i + k) key'.
Proof.
  pose proof MM_lt_NN as HM.
  induction k as [ | k IH ]; intros base i key Hinv Hi Hik; cbn [gen_loop2].
  - exists key. rewrite Nat.add_0_r. auto.
  - destruct (gen_inv_step base i (i + 1) (i - (NN - MM)) key Hinv) as [key' [E Hinv']]; try lia.
    + destruct Hinv as [_ Hn]. rewrite Hn by lia.
      destruct (Nat.ltb_spec (i + 1) i); [ lia | f_equal; lia ].
    + destruct Hinv as [_ Hn]. rewrite Hn by lia.
      destruct (Nat.ltb_spec (i - (NN - MM)) i); [ f_equal; lia | lia ].
    + rewrite E. cbn [bind].
      destruct (IH base (S i) key' Hinv') as [key'' [E' H']]; [ lia | lia | ].
      exists key''. split; [ exact E' | ]. now replace (i + S k)%nat with (S i + k)%nat by lia.
Qed.

(** the state represents position [base] of the sequence *)
Definition represents (base : nat) (key : list Z) : Prop :=
  key_ok key /\ forall j, (j < NN)%nat -> nth j key 0 = x (base + j)%nat.

Lemma gen_ok : forall base st, represents base (mt_key st) ->
  exists key', mt_gen st = Ret (mkMt key' 0) /\ represents (base + NN) key'.
Proof.
  pose proof MM_lt_NN as HM.
  intros base st [Hk Hn].
  assert (H0 : gen_inv base 0 (mt_key st)).
  { split; [ exact Hk | ]. intros j Hj. rewrite Hn by assumption. reflexivity. }
  unfold mt_gen.
  destruct (gen_loop1_ok (NN - MM) base 0 (mt_key st) H0) as [k1 [E1 H1]]; [ lia | ].
  rewrite E1. cbn [bind]. rewrite Nat.add_0_l in H1.
  destruct (gen_loop2_ok (NN - 1 - (NN - MM)) base (NN - MM) k1 H1) as [k2 [E2 H2]]; [ lia | lia | ].
  rewrite E2. cbn [bind].
  replace (NN - MM + (NN - 1 - (NN - MM)))%nat with (NN - 1)%nat in H2 by lia.
  destruct (gen_inv_step base (NN - 1) 0 (MM - 1) k2 H2) as [k3 [E3 H3]]; try lia.
  - destruct H2 as [_ Hn2]. rewrite Hn2 by lia.
    destruct (Nat.ltb_spec 0 (NN - 1)); [ f_equal; lia | lia ].
  - destruct H2 as [_ Hn2]. rewrite Hn2 by lia.
    destruct (Nat.ltb_spec (MM - 1) (NN - 1)); [ f_equal; lia | lia ].
  - rewrite E3. cbn [bind]. exists k3. split; [ reflexivity | ].
    destruct H3 as [Hk3 Hn3]. split; [ exact Hk3 | ].
    intros j Hj. rewrite Hn3 by assumption.
    destruct (Nat.ltb_spec j (S (NN - 1))); [ reflexivity | lia ].
Qed.

(** the next output will be the tempered [x c] *)
Definition st_inv (c : nat) (st : mt_state) : Prop :=
  exists base, represents base (mt_key st) /\ (mt_pos st <= NN)%nat /\ c = (base + mt_pos st)%nat.

Lemma next_ok : forall c st, st_inv c st ->
  word (x c) /\
  exists st', mt_next st = Ret (mt_temper (x c), st') /\ st_inv (S c) st'.
Proof.
  pose proof MM_lt_NN as HM.
  intros c st [base [HR [HP ->]]].
  assert (G : exists base' st1,
    (if (mt_pos st =? NN)%nat then mt_gen st else Ret st) = Ret st1 /\
    represents base' (mt_key st1) /\ (mt_pos st1 < NN)%nat /\
    (base + mt_pos st = base' + mt_pos st1)%nat).
  { destruct (Nat.eqb_spec (mt_pos st) NN) as [E | E].
    - destruct (gen_ok base st HR) as [key' [Eg Hr]].
      exists (base + NN)%nat, (mkMt key' 0). cbn [mt_key mt_pos]. repeat split; auto; try lia; apply Hr.
    - exists base, st. repeat split; auto; try apply HR; lia. }
  destruct G as [base' [st1 [E1 [HR1 [HP1 EC]]]]].
  unfold mt_next. rewrite E1. cbn [bind].
  rewrite (rd_ok _ (mt_key st1) (mt_pos st1) 0) by (destruct HR1 as [[HL _] _]; lia).
  cbn [bind].
  destruct HR1 as [Hk1 Hn1]. rewrite (Hn1 (mt_pos st1)) by assumption.
  rewrite EC, temper_spec. split.
  - rewrite <- (Hn1 (mt_pos st1)) by assumption. now apply key_ok_nth.
  - eexists. split; [ reflexivity | ].
    exists base'. cbn [mt_key mt_pos]. repeat split; auto; try apply Hk1; lia.
Qed.

Lemma draws_ok : forall t c st, st_inv c st ->
  exists st', mt_draws t st = Ret (map (fun i => mt_temper (x (c + i)%nat)) (seq 0 t), st') /\
              st_inv (c + t) st'.
Proof.
  induction t as [ | t IH ]; intros c st H; cbn [mt_draws].
  - exists st. rewrite Nat.add_0_r. auto.
  - destruct (next_ok c st H) as [_ [st1 [E1 H1]]]. rewrite E1. cbn [bind fst snd].
    destruct (IH (S c) st1 H1) as [st2 [E2 H2]]. rewrite E2. cbn [bind fst snd].
    exists st2. split.
    + cbn [seq map]. rewrite Nat.add_0_r. f_equal. f_equal. f_equal.
      rewrite <- seq_shift, map_map. apply map_ext. intros i. do 2 f_equal. lia.
    + now replace (c + S t)%nat with (S c + t)%nat by lia.
Qed.
End Sequence.

(** ** existence of the sequence *)
Lemma mt_list_length : forall key k, length (mt_list key k) = (length key + k)%nat.
Proof.
  induction k; cbn [mt_list]; [ lia | ]. rewrite app_length, IHk. cbn [length]. lia.
Qed.
Lemma mt_list_stable : forall key k j i, (i < length key + k)%nat -> (k <= j)%nat ->
  nth i (mt_list key j) 0 = nth i (mt_list key k) 0.
Proof.
  intros key k j i Hi Hkj. induction Hkj as [ | j Hkj IH ]; [ reflexivity | ].
  cbn [mt_list]. rewrite app_nth1 by (rewrite mt_list_length; lia). exact IH.
Qed.
Lemma mt_seq_nth : forall key k j, (k < length key + j)%nat ->
  mt_seq key k = nth k (mt_list key j) 0.
Proof.
  intros key k j H. unfold mt_seq.
  destruct (Nat.le_ge_cases (S k) j).
  - symmetry. apply mt_list_stable; lia.
  - apply mt_list_stable; lia.
Qed.
Lemma mt_seq_init : forall key k, (k < length key)%nat -> mt_seq key k = nth k key 0.
Proof. intros. rewrite (mt_seq_nth key k 0) by lia. reflexivity. Qed.
Lemma mt_seq_is_sequence : forall key, length key = mt_n -> mt_sequence (mt_seq key).
Proof.
  pose proof MM_lt_NN as HM. rewrite NN_n, MM_m in HM.
  intros key HL k.
  rewrite (mt_seq_nth key (k + mt_n) (S k)) by lia.
  cbn [mt_list]. rewrite app_nth2 by (rewrite mt_list_length; lia).
  rewrite mt_list_length. replace (k + mt_n - (length key + k))%nat with O by lia. cbn [nth].
  rewrite (mt_seq_nth key (k + mt_m) k), (mt_seq_nth key k k), (mt_seq_nth key (S k) k) by lia.
  reflexivity.
Qed.

(** two sequences with the same first 624 words are equal *)
Lemma mt_sequence_unique : forall x y, mt_sequence x -> mt_sequence y ->
  (forall i, (i < mt_n)%nat -> x i = y i) -> forall k, x k = y k.
Proof.
  pose proof MM_lt_NN as HM. rewrite NN_n, MM_m in HM.
  intros x y Hx Hy H k. induction k as [ k IH ] using lt_wf_ind.
  destruct (Nat.lt_ge_cases k mt_n); [ now apply H | ].
  replace k with ((k - mt_n) + mt_n)%nat by lia.
  rewrite Hx, Hy. rewrite !IH by lia. reflexivity.
Qed.

(** ** seeding *)
Lemma knuth_word : forall s i, word s -> word (knuth s i).
Proof. intros s [ | i ] H; [ exact H | apply Z.mod_pos_bound; lia ]. Qed.

Lemma seed_loop_ok : forall k pos s key,
  word s -> length key = NN -> (pos + k = NN)%nat ->
  (forall j, (j < pos)%nat -> nth j key 0 = knuth s j) ->
  exists key', seed_loop k pos (knuth s pos) key = Ret key' /\ length key' = NN /\
    forall j, (j < NN)%nat -> nth j key' 0 = knuth s j.
Proof.
  induction k as [ | k IH ]; intros pos s key Hs HL Hk Hp; cbn [seed_loop].
  - exists key. repeat split; auto. intros j Hj. apply Hp. lia.
  - rewrite wr_ok by lia. cbn [bind].
    replace (w32 (1812433253 * Z.lxor (knuth s pos) (Z.shiftr (knuth s pos) 30) + Z.of_nat pos + 1))
      with (knuth s (S pos)).
    + apply IH; [ assumption | now rewrite upd_length | lia | ].
      intros j Hj. destruct (Nat.eq_dec pos j) as [<- | ].
      * apply nth_upd_same. lia.
      * rewrite nth_upd_other by assumption. apply Hp. lia.
    + cbn [knuth]. unfold w32. rewrite Z.shiftr_div_pow2 by lia. f_equal. lia.
Qed.

Lemma seed_ok : forall key0 s, length key0 = NN ->
  exists key, mt_seed key0 s = Ret (mkMt key NN) /\ key_ok key /\
    forall j, (j < NN)%nat -> nth j key 0 = knuth (s mod 2 ^ 32) j.
Proof.
  intros key0 s HL. unfold mt_seed.
  destruct (seed_loop_ok NN 0 (w32 s) key0 (word_w32 s) HL eq_refl) as [key [E [HLk Hn]]].
  - intros; lia.
  - cbn [knuth] in E. rewrite E. cbn [bind]. exists key.
    split; [ reflexivity | split; [ split; [ exact HLk | ] | exact Hn ] ].
    apply Forall_nth_word. intros i Hi. rewrite Hn by lia. apply knuth_word. apply word_w32.
Qed.

Lemma genrand_loop_ok : forall k mti s mt,
  word s -> length mt = NN -> (1 <= mti)%nat -> (mti + k = NN)%nat ->
  (forall j, (j < mti)%nat -> nth j mt 0 = knuth s j) ->
  exists mt', genrand_loop k mti mt = Ret mt' /\ length mt' = NN /\
    forall j, (j < NN)%nat -> nth j mt' 0 = knuth s j.
Proof.
  induction k as [ | k IH ]; intros mti s mt Hs HL H1 Hk Hp; cbn [genrand_loop].
  - exists mt. repeat split; auto. intros j Hj. apply Hp. lia.
  - rewrite (rd_ok _ mt (mti - 1) 0) by lia. cbn [bind].
    rewrite wr_ok by lia. cbn [bind].
    apply IH; [ assumption | now rewrite upd_length | lia | lia | ].
    intros j Hj. destruct (Nat.eq_dec mti j) as [<- | ].
    + rewrite nth_upd_same by lia. rewrite Hp by lia.
      destruct mti as [ | m ]; [ lia | ]. replace (S m - 1)%nat with m by lia.
      cbn [knuth]. unfold w32. rewrite Z.shiftr_div_pow2 by lia. reflexivity.
    + rewrite nth_upd_other by assumption. apply Hp. lia.
Qed.

(** the two initialisers agree *)
Lemma init_genrand_ok : forall key0 s, length key0 = NN ->
  exists key, init_genrand key0 s = Ret (mkMt key NN) /\ key_ok key /\
    forall j, (j < NN)%nat -> nth j key 0 = knuth (s mod 2 ^ 32) j.
Proof.
  pose proof MM_lt_NN as HM.
  intros key0 s HL. unfold init_genrand. rewrite wr_ok by lia. cbn [bind].
  destruct (genrand_loop_ok (NN - 1) 1 (w32 s) (upd key0 0 (w32 s)) (word_w32 s)) as [key [E [HLk Hn]]].
  - now rewrite upd_length.
  - lia.
  - lia.
  - intros j Hj. replace j with O by lia. rewrite nth_upd_same by lia. reflexivity.
  - rewrite E. cbn [bind]. exists key.
    split; [ reflexivity | split; [ split; [ exact HLk | ] | exact Hn ] ].
    apply Forall_nth_word. intros i Hi. rewrite Hn by lia. apply knuth_word. apply word_w32.
Qed.

Lemma wrap_ok : forall i1 mt, key_ok mt -> (1 <= i1 <= NN)%nat ->
  exists r, (if (NN <=? i1)%nat then
              last <- rd mt (NN - 1) ;; mt <- wr mt 0 last ;; Ret (1%nat, mt)
            else Ret (i1, mt)) = Ret r /\ key_ok (snd r) /\ (1 <= fst r < NN)%nat.
Proof.
  pose proof two_lt_NN as H2.
  intros i1 mt Hk Hi. destruct (Nat.leb_spec NN i1).
  - rewrite (rd_ok _ mt (NN - 1) 0) by (destruct Hk; lia). cbn [bind].
    rewrite wr_ok by (destruct Hk; lia). cbn [bind].
    eexists. split; [ reflexivity | ]. cbn [fst snd]. split; [ | lia ].
    apply key_ok_upd; [ exact Hk | apply key_ok_nth; [ exact Hk | lia ] ].
  - eexists. split; [ reflexivity | ]. cbn [fst snd]. split; [ exact Hk | lia ].
Qed.

Lemma array_loop1_ok : forall k init_key i j mt,
  key_ok mt -> (1 <= i < NN)%nat -> (j < length init_key)%nat ->
  exists r, array_loop1 k init_key i j mt = Ret r /\ key_ok (snd r) /\ (1 <= fst r < NN)%nat.
Proof.
  induction k as [ | k IH ]; intros init_key i j mt Hk Hi Hj; cbn [array_loop1].
  - eexists. split; [ reflexivity | ]. cbn [fst snd]. auto.
  - rewrite (rd_ok _ mt i 0) by (destruct Hk; lia). cbn [bind].
    rewrite (rd_ok _ mt (i - 1) 0) by (destruct Hk; lia). cbn [bind].
    rewrite (rd_ok _ init_key j 0) by lia. cbn [bind].
    rewrite wr_ok by (destruct Hk; lia). cbn [bind].
    match goal with |- context [ upd mt i ?v ] =>
      destruct (wrap_ok (S i) (upd mt i v)) as [r [E [Hk' Hi']]] end.
    + apply key_ok_upd; [ exact Hk | apply word_w32 ].
    + lia.
    + cbv zeta. rewrite E. cbn [bind].
      apply IH; [ exact Hk' | exact Hi' | ].
      destruct (Nat.leb_spec (length init_key) (S j)); lia.
Qed.

Lemma array_loop2_ok : forall k i mt,
  key_ok mt -> (1 <= i < NN)%nat ->
  exists r, array_loop2 k i mt = Ret r /\ key_ok (snd r) /\ (1 <= fst r < NN)%nat.
Proof.
  induction k as [ | k IH ]; intros i mt Hk Hi; cbn [array_loop2].
  - eexists. split; [ reflexivity | ]. cbn [fst snd]. auto.
  - rewrite (rd_ok _ mt i 0) by (destruct Hk; lia). cbn [bind].
    rewrite (rd_ok _ mt (i - 1) 0) by (destruct Hk; lia). cbn [bind].
    rewrite wr_ok by (destruct Hk; lia). cbn [bind].
    match goal with |- context [ upd mt i ?v ] =>
      destruct (wrap_ok (S i) (upd mt i v)) as [r [E [Hk' Hi']]] end.
    + apply key_ok_upd; [ exact Hk | apply word_w32 ].
    + lia.
    + cbv zeta. rewrite E. cbn [bind]. apply IH; assumption.
Qed.

Lemma init_by_array_ok : forall key0 init_key, length key0 = NN -> init_key <> [] ->
  exists key, mt_init_by_array key0 init_key = Ret (mkMt key NN) /\ key_ok key /\
    nth 0 key 0 = 2 ^ 31.
Proof.
  pose proof two_lt_NN as H2.
  intros key0 init_key HL Hne. unfold mt_init_by_array.
  destruct (init_genrand_ok key0 19650218 HL) as [k0 [E0 [Hk0 _]]].
  rewrite E0. cbn [bind mt_key mt_pos]. cbv zeta.
  destruct (array_loop1_ok (if (length init_key <? NN)%nat then NN else length init_key)
              init_key 1 0 k0 Hk0) as [r1 [E1 [Hk1 Hi1]]].
  - lia.
  - destruct init_key; [ congruence | cbn [length]; lia ].
  - rewrite E1. cbn [bind].
    destruct (array_loop2_ok (NN - 1) (fst r1) (snd r1) Hk1 Hi1) as [r2 [E2 [Hk2 _]]].
    rewrite E2. cbn [bind].
    rewrite wr_ok by (destruct Hk2; lia). cbn [bind].
    eexists. split; [ reflexivity | ]. split.
    + apply key_ok_upd; [ exact Hk2 | unfold word; lia ].
    + rewrite nth_upd_same by (destruct Hk2; lia). reflexivity.
Qed.

(** a fresh state stands for the sequence grown from its key *)
Lemma fresh_inv : forall key, key_ok key -> st_inv (mt_seq key) mt_n (mkMt key NN).
Proof.
  intros key Hk. exists 0%nat. cbn [mt_key mt_pos]. repeat split.
  - apply Hk. - apply Hk.
  - intros j Hj. rewrite Nat.add_0_l. symmetry. apply mt_seq_init. destruct Hk; lia.
  - lia.
Qed.

(** ** the state never collapses to zero *)
Definition nonzero_window (x : nat -> Z) (c : nat) : Prop :=
  ~ (x c / 2 ^ 31 = 0 /\ forall i, (0 < i < mt_n)%nat -> x (c + i)%nat = 0).

Lemma times_A_zero : forall y, word y -> times_A y = 0 -> y = 0.
Proof.
  intros y [H0 H1] H. unfold times_A in H. destruct (Z.odd y) eqn:E.
  - apply Z.lxor_eq in H.
    assert (y / 2 < 2 ^ 31) by (apply Z.div_lt_upper_bound; lia).
    unfold mt_a in H. lia.
  - pose proof (Z.div_mod y 2 ltac:(lia)) as D. rewrite Zmod_odd, E in D. lia.
Qed.

Lemma nonzero_step : forall x c, mt_sequence x -> (forall k, word (x k)) ->
  nonzero_window x c -> nonzero_window x (S c).
Proof.
  pose proof MM_lt_NN as HM. rewrite NN_n, MM_m in HM.
  pose proof two_lt_NN as H2. rewrite NN_n in H2.
  intros x c Hx Hw Hnz [Hu Hr]. apply Hnz.
  assert (Ez : forall i, (1 < i <= mt_n)%nat -> x (c + i)%nat = 0).
  { intros i Hi. replace (c + i)%nat with (S c + (i - 1))%nat by lia. apply Hr. lia. }
  assert (Em : x (c + mt_m)%nat = 0 \/ mt_m = 1%nat).
  { destruct (Nat.eq_dec mt_m 1); [ now right | left; apply Ez; lia ]. }
  destruct Em as [Em | Em]; [ | pose proof m_gt_1; lia ].
  pose proof (Hx c) as E. rewrite Em, (Ez mt_n) in E by lia.
  rewrite Z.lxor_0_l in E. symmetry in E. apply times_A_zero in E.
  2: { apply word_concat, Hw. }
  unfold concat_bits in E.
  pose proof (Hw c) as [Hc0 Hc1].
  pose proof (Z.mod_pos_bound (x (S c)) (2 ^ 31) ltac:(lia)).
  assert (0 <= x c / 2 ^ 31) by (apply Z.div_pos; lia).
  assert (Eu : x c / 2 ^ 31 = 0) by nia.
  assert (El : x (S c) mod 2 ^ 31 = 0) by lia.
  split; [ exact Eu | ].
  intros i Hi. destruct (Nat.eq_dec i 1) as [-> | ]; [ | apply Ez; lia ].
  replace (c + 1)%nat with (S c) by lia.
  pose proof (Z.div_mod (x (S c)) (2 ^ 31) ltac:(lia)). lia.
Qed.

(** ** tempering is a bijection on words *)
Lemma lxor_cancel : forall b c d : bool, xorb b d = xorb c d -> b = c.
Proof. intros [] [] []; cbn; congruence. Qed.

(** x xor (x >> k) determines the word x *)
Lemma shiftr_xor_inj : forall k x y, 0 < k -> word x -> word y ->
  Z.lxor x (Z.shiftr x k) = Z.lxor y (Z.shiftr y k) -> x = y.
Proof.
  intros k x y Hk Hx Hy H.
  assert (G : forall n i, 0 <= i -> 32 - Z.of_nat n <= i -> Z.testbit x i = Z.testbit y i).
  { induction n as [ | n IH ]; intros i H0 Hi.
    - rewrite (word_testbit x Hx), (word_testbit y Hy) by lia. reflexivity.
    - destruct (Z.leb_spec (32 - Z.of_nat n) i); [ now apply IH | ].
      assert (E : Z.testbit (Z.lxor x (Z.shiftr x k)) i = Z.testbit (Z.lxor y (Z.shiftr y k)) i)
        by now rewrite H.
      rewrite !Z.lxor_spec, !Z.shiftr_spec in E by lia.
      rewrite (IH (i + k)) in E by lia. now apply lxor_cancel in E. }
  apply Z.bits_inj'. intros i Hi. apply (G 32%nat); lia.
Qed.
(** x xor ((x << k) & m) determines x *)
Lemma shiftl_xor_inj : forall k m x y, 0 < k ->
  Z.lxor x (Z.land (Z.shiftl x k) m) = Z.lxor y (Z.land (Z.shiftl y k) m) -> x = y.
Proof.
  intros k m x y Hk H.
  assert (G : forall n i, 0 <= i < Z.of_nat n -> Z.testbit x i = Z.testbit y i).
  { induction n as [ | n IH ]; intros i Hi; [ lia | ].
    assert (E : Z.testbit (Z.lxor x (Z.land (Z.shiftl x k) m)) i =
                Z.testbit (Z.lxor y (Z.land (Z.shiftl y k) m)) i) by now rewrite H.
    rewrite !Z.lxor_spec, !Z.land_spec, !Z.shiftl_spec in E by lia.
    destruct (Z.ltb_spec (i - k) 0).
    - rewrite !(Z.testbit_neg_r _ (i - k)) in E by lia. now apply lxor_cancel in E.
    - rewrite (IH (i - k)) in E by lia. now apply lxor_cancel in E. }
  apply Z.bits_inj'. intros i Hi. apply (G (Z.to_nat (i + 1))). lia.
Qed.

Lemma temper_inj : forall x y, word x -> word y -> mt_temper x = mt_temper y -> x = y.
Proof.
  intros x y Hx Hy H. unfold mt_temper in H.
  apply (shiftr_xor_inj 11); [ lia | exact Hx | exact Hy | ].
  apply (shiftl_xor_inj 7 0x9d2c5680); [ lia | ].
  apply (shiftl_xor_inj 15 0xefc60000); [ lia | ].
  apply (shiftr_xor_inj 18) in H; [ exact H | lia | | ].
  all: repeat first [ apply word_lxor | apply word_shiftr; [ lia | ] | apply word_land_r; unfold word; lia
                    | assumption ].
Qed.
