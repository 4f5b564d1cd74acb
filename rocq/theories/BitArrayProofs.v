From Coq Require Import List ZArith Lia Bool Arith.
From Verif Require Import Base BitArrayModel.
Import ListNotations.
Open Scope Z_scope.

(** a word is a 64-bit value *)
Definition is_word (w : Z) : Prop := 0 <= w < 2 ^ 64.
Definition words (b : list Z) : Prop := Forall is_word b.

(** the value of bit [i] of the array starting at word [off] *)
Definition bit (b : list Z) (off i : nat) : bool :=
  Z.testbit (nth (off + i / 64) b 0) (Z.of_nat (i mod 64)).

Lemma is_word_bits : forall w, is_word w <-> 0 <= w /\ forall k, 64 <= k -> Z.testbit w k = false.
Proof.
  unfold is_word. split.
  - intros [H0 H1]. split; auto. intros. destruct (Z.eq_dec w 0). subst. apply Z.bits_0.
    apply Z.bits_above_log2; auto. apply Z.lt_le_trans with 64; auto.
    apply Z.log2_lt_pow2; lia.
  - intros [H0 H]. split; auto.
    destruct (Z_lt_le_dec w (2 ^ 64)); auto. exfalso.
    assert (64 <= Z.log2 w) by (apply Z.log2_le_pow2; lia).
    specialize (H _ H1). rewrite Z.bit_log2 in H; try discriminate. lia.
Qed.

Lemma mod64 : forall i, (i mod 64 < 64)%nat.
Proof. intros. apply Nat.mod_upper_bound. lia. Qed.

Lemma mask_val : forall k, (k < 64)%nat -> bitset_mask k = 2 ^ Z.of_nat k.
Proof.
  intros. unfold bitset_mask, wrap64. rewrite Z.shiftl_1_l. apply Z.mod_small. split. lia.
  apply Z.pow_lt_mono_r; lia.
Qed.

Lemma mask_bits : forall k j, (k < 64)%nat -> 0 <= j -> Z.testbit (bitset_mask k) j = (j =? Z.of_nat k).
Proof.
  intros. rewrite mask_val by auto. rewrite Z.pow2_bits_eqb by lia.
  apply Z.eqb_sym.
Qed.

Lemma not64_bits : forall x j, 0 <= j < 64 -> Z.testbit (not64 x) j = negb (Z.testbit x j).
Proof.
  intros. unfold not64, wrap64. rewrite Z.mod_pow2_bits_low by lia. apply Z.lnot_spec. lia.
Qed.

Lemma wrap64_word : forall x, is_word (wrap64 x).
Proof. intros. unfold is_word, wrap64. apply Z.mod_pos_bound. reflexivity. Qed.

Lemma lor_word : forall a b, is_word a -> is_word b -> is_word (Z.lor a b).
Proof.
  intros. apply is_word_bits in H. apply is_word_bits in H0. apply is_word_bits.
  split. apply Z.lor_nonneg; tauto. intros. rewrite Z.lor_spec.
  rewrite (proj2 H) by auto. now rewrite (proj2 H0).
Qed.
Lemma land_word : forall a b, is_word a -> is_word b -> is_word (Z.land a b).
Proof.
  intros. apply is_word_bits in H. apply is_word_bits in H0. apply is_word_bits.
  split. apply Z.land_nonneg; tauto. intros. rewrite Z.land_spec.
  now rewrite (proj2 H) by auto.
Qed.

Lemma words_upd : forall b i w, words b -> is_word w -> words (upd b i w).
Proof.
  unfold words. induction b; destruct i; simpl; intros; auto; inversion H; subst; constructor; auto.
Qed.

Lemma words_nth : forall b i, words b -> is_word (nth i b 0).
Proof.
  unfold words. induction b; destruct i; simpl; intros; try (split; [lia|reflexivity]).
  - now inversion H. - inversion H; auto.
Qed.

Lemma div_mod_64 : forall i j, (i / 64 = j / 64)%nat -> (i mod 64 = j mod 64)%nat -> i = j.
Proof. intros. rewrite (Nat.div_mod i 64), (Nat.div_mod j 64) by lia. congruence. Qed.

(** ** set and get *)
Lemma set_ok : forall b off i x, words b -> (off + i / 64 < length b)%nat ->
  exists b', bit_array_set b off i x = Ret b' /\ words b' /\ length b' = length b /\
    bit b' off i = x /\
    (forall off' j, ~ ((off' + j / 64)%nat = (off + i / 64)%nat /\ (j mod 64 = i mod 64)%nat) ->
       bit b' off' j = bit b off' j) /\
    (forall j, j <> (off + i / 64)%nat -> nth j b' 0 = nth j b 0).
Proof.
  intros b off i x W L. unfold bit_array_set, bit_array_set_one, bit_array_set_zero, bitset_word, bitset_index.
  change word_size with 64%nat.
  set (p := (off + i / 64)%nat). set (q := (i mod 64)%nat).
  assert (Q : (q < 64)%nat) by apply mod64.
  pose proof (words_nth b p W) as Wn.
  rewrite (rd_ok _ b p 0) by auto.
  set (w := nth p b 0) in *.
  set (w' := if x then Z.lor w (bitset_mask q) else Z.land w (not64 (bitset_mask q))).
  exists (upd b p w'). split.
  { unfold w'. destruct x; cbn [bind]; rewrite wr_ok by auto; reflexivity. }
  assert (W' : is_word w').
  { unfold w'. destruct x; [apply lor_word|apply land_word]; auto; apply wrap64_word. }
  split. apply words_upd; auto. split. apply upd_length.
  assert (B : forall k, (k < 64)%nat -> Z.testbit w' (Z.of_nat k) =
             if (k =? q)%nat then x else Z.testbit w (Z.of_nat k)).
  { intros. unfold w'. destruct x.
    - rewrite Z.lor_spec, mask_bits by lia.
      destruct (Nat.eqb_spec k q). subst. rewrite Z.eqb_refl. apply orb_true_r.
      destruct (Z.eqb_spec (Z.of_nat k) (Z.of_nat q)); try lia. apply orb_false_r.
    - rewrite Z.land_spec, not64_bits, mask_bits by lia.
      destruct (Nat.eqb_spec k q). subst. rewrite Z.eqb_refl. apply andb_false_r.
      destruct (Z.eqb_spec (Z.of_nat k) (Z.of_nat q)); try lia. apply andb_true_r. }
  split.
  { unfold bit. fold p q. rewrite nth_upd_same by auto. rewrite B by auto. now rewrite Nat.eqb_refl. }
  split.
  - intros off' j N. unfold bit. rewrite nth_upd by auto.
    destruct (Nat.eqb_spec p (off' + j / 64)); auto. rewrite B by apply mod64.
    destruct (Nat.eqb_spec (j mod 64) q).
    + exfalso. apply N. split; auto.
    + unfold w. now rewrite e.
  - intros j Hj. apply nth_upd_other. auto.
Qed.

Lemma get_ok : forall b off i, words b -> (off + i / 64 < length b)%nat ->
  bit_array_get b off i = Ret (if bit b off i then 1 else 0).
Proof.
  intros. unfold bit_array_get, bitset_word, bitset_index. change word_size with 64%nat.
  rewrite (rd_ok _ b _ 0) by auto. cbn [bind]. f_equal.
  unfold bit. set (w := nth (off + i / 64) b 0). set (q := Z.of_nat (i mod 64)).
  change 1 with (Z.ones 1) at 1. rewrite Z.land_ones by lia.
  change (2 ^ 1) with 2. rewrite Z.bit0_mod || rewrite <- Z.bit0_mod.
  rewrite Z.shiftr_spec by lia. simpl. destruct (Z.testbit w q); reflexivity.
Qed.

Lemma nwords_covers : forall n i, (i < n)%nat -> (i / 64 < bit_nwords n)%nat.
Proof.
  intros. unfold bit_nwords. change word_size with 64%nat.
  assert (64 * (i / 64) <= i)%nat by (apply Nat.mul_div_le; lia).
  pose proof (Nat.div_mod (n + 64 - 1) 64 ltac:(lia)).
  pose proof (mod64 (n + 64 - 1)). lia.
Qed.

Lemma nwords_tight : forall n, (n <= 64 * bit_nwords n < n + 64)%nat.
Proof.
  intros. unfold bit_nwords. change word_size with 64%nat.
  pose proof (Nat.div_mod (n + 64 - 1) 64 ltac:(lia)).
  pose proof (mod64 (n + 64 - 1)). lia.
Qed.

(** ** zeroing and copying *)
Lemma zero_words_ok : forall m b off, words b -> (off + m <= length b)%nat ->
  exists b', zero_words b off m = Ret b' /\ words b' /\ length b' = length b /\
    (forall j, nth j b' 0 = if ((off <=? j) && (j <? off + m))%nat then 0 else nth j b 0).
Proof.
  induction m; intros; simpl.
  - exists b. repeat split; auto. intros. rewrite Nat.add_0_r.
    destruct (Nat.leb_spec off j); destruct (Nat.ltb_spec j off); simpl; auto; lia.
  - rewrite wr_ok by lia. cbn [bind].
    destruct (IHm (upd b off 0) (S off)) as (b' & E & W & L & N).
    + apply words_upd; auto. split; [lia|reflexivity].
    + rewrite upd_length. lia.
    + exists b'. rewrite upd_length in L. repeat split; auto. intros j. rewrite N, nth_upd by lia.
      destruct (Nat.leb_spec (S off) j); destruct (Nat.ltb_spec j (S off + m));
      destruct (Nat.leb_spec off j); destruct (Nat.ltb_spec j (off + S m));
      destruct (Nat.eqb_spec off j); simpl; auto; lia.
Qed.

Lemma copy_words_ok : forall m dest doff src soff, words dest -> words src ->
  (doff + m <= length dest)%nat -> (soff + m <= length src)%nat ->
  exists b', copy_words dest doff src soff m = Ret b' /\ words b' /\ length b' = length dest /\
    (forall j, nth j b' 0 = if ((doff <=? j) && (j <? doff + m))%nat then nth (soff + (j - doff)) src 0 else nth j dest 0).
Proof.
  induction m; intros; simpl.
  - exists dest. repeat split; auto. intros. rewrite Nat.add_0_r.
    destruct (Nat.leb_spec doff j); destruct (Nat.ltb_spec j doff); simpl; auto; lia.
  - rewrite (rd_ok _ src soff 0) by lia. cbn [bind]. rewrite wr_ok by lia. cbn [bind].
    destruct (IHm (upd dest doff (nth soff src 0)) (S doff) src (S soff)) as (b' & E & W & L & N); auto; try lia.
    + apply words_upd; auto. now apply words_nth.
    + rewrite upd_length. lia.
    + exists b'. rewrite upd_length in L. repeat split; auto. intros j. rewrite N, nth_upd by lia.
      destruct (Nat.leb_spec (S doff) j); destruct (Nat.ltb_spec j (S doff + m));
      destruct (Nat.leb_spec doff j); destruct (Nat.ltb_spec j (doff + S m));
      destruct (Nat.eqb_spec doff j); simpl; auto; try lia; f_equal; lia.
Qed.
