(** The stored surfaces can be read back. *)
From Coq Require Import List ZArith Lia Bool Arith QArith Qround.
From Verif Require Import Base BitArrayModel BitArrayProofs EafModel EafStoreModel EafProofs.
Import ListNotations.
Open Scope Z_scope.

Section Store.
Variable junk : nat -> Z.
Variable grow : nat -> nat -> nat.
Hypothesis Hjunk : forall i, is_word (junk i).
Hypothesis Hgrow : forall m r, (m <= grow m r)%nat.

Lemma realloc_length : forall a n, length (realloc_ junk a n) = n.
Proof.
  intros. unfold realloc_. rewrite app_length, firstn_length, map_length, seq_length. lia.
Qed.
Lemma realloc_nth : forall a n j d, (j < length a)%nat -> (j < n)%nat ->
  nth j (realloc_ junk a n) d = nth j a d.
Proof.
  intros. unfold realloc_. rewrite app_nth1 by (rewrite firstn_length; lia).
  revert a n H H0. induction j; destruct a; destruct n; simpl; intros; auto; try lia.
  apply IHj; lia.
Qed.
Lemma words_firstn : forall a n, words a -> words (firstn n a).
Proof.
  unfold words. induction a; destruct n; simpl; intros; auto. inversion H; subst. constructor; auto.
Qed.
Lemma realloc_words : forall a n, words a -> words (realloc_ junk a n).
Proof.
  intros. unfold realloc_, words. apply Forall_app. split. now apply words_firstn.
  apply Forall_forall. intros x Hx. apply in_map_iff in Hx. destruct Hx as (i & <- & _). auto.
Qed.

(** what is stored *)
Definition holds (nobj nruns : nat) (e : eaf_t) (s : list (point * list bool)) : Prop :=
  e_nruns e = nruns /\ e_size e = length s /\ (e_size e <= e_maxsize e)%nat /\
  length (e_data e) = (nobj * e_maxsize e)%nat /\
  length (e_bits e) = (bit_nwords nruns * e_maxsize e)%nat /\ words (e_bits e) /\
  (forall i j, (i < length s)%nat -> (j < nobj)%nat ->
     nth (i * nobj + j) (e_data e) 0 = coord (fst (nth i s ([], []))) j) /\
  (forall i k, (i < length s)%nat -> (k < nruns)%nat ->
     bit (e_bits e) (i * bit_nwords nruns) k = nth k (snd (nth i s ([], []))) false).

Lemma slot_bound : forall i m n j, (i < m)%nat -> (j < n)%nat -> (i * n + j < n * m)%nat.
Proof. intros. nia. Qed.
Lemma slot_inj : forall i i' n j j', (j < n)%nat -> (j' < n)%nat ->
  (i * n + j = i' * n + j')%nat -> i = i' /\ j = j'.
Proof.
  intros. assert (i = i'); [|subst; split; [auto|lia]].
  destruct (lt_eq_lt_dec i i') as [[L|]|L]; auto; exfalso.
  - assert (S i * n <= i' * n)%nat by (apply Nat.mul_le_mono_r; lia). simpl in H2. lia.
  - assert (S i' * n <= i * n)%nat by (apply Nat.mul_le_mono_r; lia). simpl in H2. lia.
Qed.

Lemma realloc_holds : forall nobj nruns e s maxsize nr, holds nobj nruns e s ->
  (length s <= maxsize)%nat -> (1 <= maxsize)%nat ->
  exists e', eaf_realloc junk e nobj maxsize nr = Ret e' /\ holds nobj nruns e' s /\
    e_maxsize e' = maxsize.
Proof.
  intros nobj nruns e s maxsize nr (H1 & H2 & H3 & H4 & H5 & H6 & H7 & H8) Hs Hm.
  unfold eaf_realloc. destruct (Nat.eqb_spec maxsize 0); try lia. cbn [negb assert_ bind].
  eexists. split; [reflexivity|]. split; [|reflexivity].
  unfold holds. cbn [e_nruns e_size e_maxsize e_nreallocs e_bits e_data].
  split; auto. split; auto. split; [lia|]. split. apply realloc_length.
  split. rewrite H1. apply realloc_length. split. now apply realloc_words.
  split.
  - intros i j Hi Hj. rewrite realloc_nth. apply H7; auto.
    + rewrite H4. apply slot_bound; auto. lia.
    + apply slot_bound; auto. lia.
  - intros i k Hi Hk. rewrite <- H8 by auto. unfold bit. f_equal.
    pose proof (nwords_covers nruns k Hk). rewrite realloc_nth; auto.
    + rewrite H5. apply slot_bound; auto. lia.
    + rewrite H1. apply slot_bound; auto. lia.
Qed.

Lemma store_flags_ok : forall flags bits size nruns k m, words bits ->
  length bits = (bit_nwords nruns * m)%nat -> (size < m)%nat -> (k + length flags = nruns)%nat ->
  exists bits', store_flags bits size nruns k flags = Ret bits' /\ words bits' /\
    length bits' = length bits /\
    (forall i j, i <> size -> (j < nruns)%nat ->
       bit bits' (i * bit_nwords nruns) j = bit bits (i * bit_nwords nruns) j) /\
    (forall j, (j < k)%nat -> bit bits' (size * bit_nwords nruns) j = bit bits (size * bit_nwords nruns) j) /\
    (forall j, (k <= j < nruns)%nat -> bit bits' (size * bit_nwords nruns) j = nth (j - k) flags false).
Proof.
  induction flags as [|f flags]; intros bits size nruns k m W L Hs Hk; cbn [store_flags]; simpl in Hk.
  - exists bits. repeat split; auto. intros; lia.
  - unfold bit_array_offset at 1. cbn [Nat.add].
    assert (Hkn : (k < nruns)%nat) by lia. pose proof (nwords_covers nruns k Hkn) as Nk.
    destruct (set_ok bits (size * bit_nwords nruns) k f W) as (b1 & E & W1 & L1 & B1 & B2 & _).
    { rewrite L. apply slot_bound; auto. }
    rewrite E. cbn [bind].
    destruct (IHflags b1 size nruns (S k) m) as (b2 & E2 & W2 & L2 & C1 & C2 & C3); auto; try congruence; try lia.
    exists b2. split; auto. split; auto. split; [congruence|]. split; [|split].
    + intros i j Hi Hj. rewrite C1 by auto. apply B2. intros [F _].
      pose proof (nwords_covers nruns j Hj). apply slot_inj in F; tauto.
    + intros j Hj. rewrite C2 by lia. apply B2. intros [F1 F2].
      assert (j = k) by (apply div_mod_64; lia). lia.
    + intros j Hj. destruct (Nat.eq_dec j k).
      * subst j. rewrite C2 by lia. rewrite B1, Nat.sub_diag. reflexivity.
      * rewrite C3 by lia. replace (j - k)%nat with (S (j - S k)) by lia. reflexivity.
Qed.

Lemma store_coords_ok : forall p d i, (i + length p <= length d)%nat ->
  exists d', store_coords d i p = Ret d' /\ length d' = length d /\
    (forall j, (j < i)%nat \/ (i + length p <= j)%nat -> nth j d' 0 = nth j d 0) /\
    (forall j, (j < length p)%nat -> nth (i + j) d' 0 = nth j p 0).
Proof.
  induction p; intros d i H; cbn [store_coords]; simpl in H.
  - exists d. repeat split; auto. simpl; intros; lia.
  - rewrite wr_ok by lia. cbn [bind].
    destruct (IHp (upd d i a) (S i)) as (d' & E & L & A & B).
    { rewrite upd_length. lia. }
    exists d'. split; auto. rewrite upd_length in L. split; auto. split.
    + simpl. intros j Hj. rewrite A by lia. apply nth_upd_other. lia.
    + simpl. intros [|j] Hj.
      * rewrite A by lia. rewrite Nat.add_0_r. apply nth_upd_same. lia.
      * replace (i + S j)%nat with (S i + j)%nat by lia. apply B. lia.
Qed.

Lemma nth_snoc : forall A (l : list A) x d i, nth i (l ++ [x]) d = if (i =? length l)%nat then x else nth i l d.
Proof.
  induction l; simpl; intros; destruct i; simpl; auto. destruct i; auto.
Qed.

Lemma store_point_ok : forall nobj nruns e s (p : point) flags, holds nobj nruns e s ->
  length p = nobj -> length flags = nruns -> Z.of_nat (length s) < (2 ^ 31 - 1) / 2 ->
  exists e', eaf_store_point junk grow e nobj p flags = Ret e' /\ holds nobj nruns e' (s ++ [(p, flags)]).
Proof.
  intros nobj nruns e s p flags H Hp Hf Hs. unfold eaf_store_point, eaf_store_point_help.
  assert (R : exists e1, (if (e_size e =? e_maxsize e)%nat then
          _ <- assert_ (Z.of_nat (e_size e) <? (2 ^ 31 - 1) / 2) ;;
          eaf_realloc junk e nobj (grow (e_maxsize e) (e_nreallocs e) + 100) (S (e_nreallocs e))
        else Ret e) = Ret e1 /\ holds nobj nruns e1 s /\ (length s < e_maxsize e1)%nat).
  { pose proof H as (H1 & H2 & H3 & _). destruct (Nat.eqb_spec (e_size e) (e_maxsize e)).
    - rewrite H2. rewrite (proj2 (Z.ltb_lt _ _) Hs). cbn [assert_ bind].
      pose proof (Hgrow (e_maxsize e) (e_nreallocs e)).
      destruct (realloc_holds nobj nruns e s (grow (e_maxsize e) (e_nreallocs e) + 100) (S (e_nreallocs e)))
        as (e1 & E1 & Ho & Em); auto; try lia.
      exists e1. rewrite E1. split; auto. split; auto. lia.
    - exists e. split; auto. split; auto. lia. }
  destruct R as (e1 & E1 & (H1 & H2 & H3 & H4 & H5 & H6 & H7 & H8) & Hlt). rewrite E1. cbn [bind].
  clear e E1 H. rename e1 into e.
  destruct (store_flags_ok flags (e_bits e) (e_size e) nruns 0 (e_maxsize e))
    as (b & Eb & Wb & Lb & B1 & _ & B2); auto; try lia.
  rewrite H1, Eb. cbn [bind e_nruns e_size e_maxsize e_nreallocs e_bits e_data].
  destruct (store_coords_ok p (e_data e) (nobj * e_size e)) as (d & Ed & Ld & D1 & D2).
  { rewrite Hp, H4, H2. nia. }
  rewrite Ed. cbn [bind]. eexists. split; [reflexivity|].
  unfold holds. cbn [e_nruns e_size e_maxsize e_nreallocs e_bits e_data].
  rewrite app_length. cbn [length].
  split; auto. split; [lia|]. split; [lia|]. split; [congruence|]. split; [congruence|]. split; auto.
  split.
  - intros i j Hi Hj. rewrite nth_snoc.
    match goal with |- context [(i =? ?m)%nat] => destruct (Nat.eqb_spec i m) end.
    + subst i. unfold coord. cbn [fst]. transitivity (nth (nobj * e_size e + j) d 0).
      * f_equal. rewrite H2. lia.
      * apply D2. lia.
    + rewrite <- H7 by lia. apply D1. left. rewrite H2. nia.
  - intros i k Hi Hk. rewrite nth_snoc.
    match goal with |- context [(i =? ?m)%nat] => destruct (Nat.eqb_spec i m) end.
    + subst i. cbn [snd]. rewrite <- H2. rewrite B2 by lia. now rewrite Nat.sub_0_r.
    + rewrite <- H8 by lia. apply B1; lia.
Qed.

Lemma store_points_ok : forall nobj nruns s2 e s1, holds nobj nruns e s1 ->
  Forall (fun o : point * list bool => length (fst o) = nobj /\ length (snd o) = nruns) s2 ->
  Z.of_nat (length s1 + length s2) <= (2 ^ 31 - 1) / 2 ->
  exists e', store_points junk grow e nobj s2 = Ret e' /\ holds nobj nruns e' (s1 ++ s2).
Proof.
  induction s2 as [|[p fl] s2]; intros e s1 H F L; cbn [store_points fst snd].
  - exists e. now rewrite app_nil_r.
  - inversion F as [|? ? [F1 F2] F3]; clear H0 H1; cbn [length fst snd] in *.
    destruct (store_point_ok nobj nruns e s1 p fl) as (e1 & E1 & H1); auto; try lia.
    rewrite E1. cbn [bind].
    destruct (IHs2 e1 (s1 ++ [(p, fl)])) as (e2 & E2 & H2); auto.
    { rewrite app_length. cbn [length]. lia. }
    exists e2. split; auto. rewrite <- app_assoc in H2. exact H2.
Qed.

Lemma create_holds : forall nobj nruns npoints, holds nobj nruns (eaf_create junk nobj nruns npoints) [].
Proof.
  intros. unfold eaf_create, holds. cbn [e_nruns e_size e_maxsize e_nreallocs e_bits e_data length].
  split; auto. split; auto. split; [lia|]. split. apply realloc_length. split. apply realloc_length.
  split. apply realloc_words. constructor. split; intros; lia.
Qed.

Lemma store_surface_ok : forall nobj nruns npoints s, s <> [] ->
  Forall (fun o : point * list bool => length (fst o) = nobj /\ length (snd o) = nruns) s ->
  Z.of_nat (length s) <= (2 ^ 31 - 1) / 2 ->
  exists e, store_surface junk grow nobj nruns npoints s = Ret e /\ holds nobj nruns e s.
Proof.
  intros nobj nruns npoints s Hs F L. unfold store_surface.
  destruct (store_points_ok nobj nruns s (eaf_create junk nobj nruns npoints) []) as (e & E & H); auto.
  { apply create_holds. }
  rewrite E. cbn [bind]. simpl in H. unfold eaf_adjust_memory.
  pose proof H as (H1 & H2 & H3 & _).
  destruct (Nat.ltb_spec (e_size e) (e_maxsize e)).
  - destruct (realloc_holds nobj nruns e s (e_size e) (e_nreallocs e)) as (e' & E' & H' & _); auto; try lia.
    { destruct s; simpl in *; [congruence|lia]. }
    eauto.
  - eauto.
Qed.

Lemma store_surfaces_ok : forall nobj nruns npoints ss,
  Forall (fun s => s <> [] /\ Forall (fun o : point * list bool => length (fst o) = nobj /\ length (snd o) = nruns) s /\
            Z.of_nat (length s) <= (2 ^ 31 - 1) / 2) ss ->
  exists es, store_surfaces junk grow nobj nruns npoints ss = Ret es /\ Forall2 (holds nobj nruns) es ss.
Proof.
  induction ss; intros F; cbn [store_surfaces].
  - exists []. auto.
  - inversion F as [|? ? (F1 & F2 & F3) F4]. clear H H0.
    destruct (store_surface_ok nobj nruns npoints a) as (e & E & H); auto.
    destruct (IHss F4) as (es & Es & Hs). rewrite E. cbn [bind]. rewrite Es. cbn [bind].
    eexists. split. reflexivity. constructor; auto.
Qed.
End Store.

(** ** Reading *)
Lemma read_coords_ok : forall m d i, (i + m <= length d)%nat ->
  read_coords d i m = Ret (map (fun j => nth (i + j) d 0) (seq 0 m)).
Proof.
  induction m; intros; cbn [read_coords]; auto. rewrite (rd_ok _ d i 0) by lia. cbn [bind].
  rewrite IHm by lia. cbn [bind seq map]. rewrite Nat.add_0_r. do 2 f_equal.
  rewrite <- seq_shift, map_map. apply map_ext. intros. f_equal. lia.
Qed.

Lemma map_coord : forall (p : point), map (coord p) (seq 0 (length p)) = p.
Proof.
  intros. apply (list_ext _ 0). now rewrite map_length, seq_length.
  rewrite map_length, seq_length. intros i Hi.
  rewrite (nth_map_lt _ _ _ _ i 0 O) by (now rewrite seq_length). rewrite seq_nth by auto. reflexivity.
Qed.

Lemma read_point_ok : forall nobj nruns e s i, holds nobj nruns e s -> (i < length s)%nat ->
  length (fst (nth i s ([], []))) = nobj ->
  read_point e nobj i = Ret (fst (nth i s ([], []))).
Proof.
  intros nobj nruns e s i (H1 & H2 & H3 & H4 & H5 & H6 & H7 & H8) Hi Hl.
  unfold read_point. rewrite read_coords_ok by (rewrite H4, H2 in *; nia).
  f_equal. rewrite <- (map_coord (fst (nth i s ([], [])))), Hl.
  apply map_ext_in. intros j Hj. apply in_seq in Hj. apply H7; lia.
Qed.

Lemma count_bits_ok : forall m bits off k, words bits ->
  (forall j, (k <= j < k + m)%nat -> (off + j / 64 < length bits)%nat) ->
  count_bits bits off k m = Ret (Z.of_nat (countb (bit bits off) (seq k m))).
Proof.
  induction m; intros bits off k W H; cbn [count_bits]; auto.
  rewrite get_ok by (auto; apply H; lia). cbn [bind].
  rewrite IHm by (auto; intros; apply H; lia). cbn [bind seq countb].
  destruct (bit bits off k); cbn [Z.eqb]; f_equal; lia.
Qed.

Lemma attained_left_right_ok : forall nobj nruns e s i division, holds nobj nruns e s ->
  (i < length s)%nat -> (division < nruns)%nat ->
  attained_left_right (e_bits e) (bit_array_offset 0 i nruns) division nruns =
  Ret (Z.of_nat (countb (fun k => nth k (snd (nth i s ([], []))) false) (seq 0 division)),
       Z.of_nat (countb (fun k => nth k (snd (nth i s ([], []))) false) (seq division (nruns - division)))).
Proof.
  intros nobj nruns e s i division (H1 & H2 & H3 & H4 & H5 & H6 & H7 & H8) Hi Hd.
  unfold attained_left_right, bit_array_offset. cbn [Nat.add].
  rewrite (proj2 (Nat.ltb_lt _ _) Hd). cbn [assert_ bind].
  assert (Bd : forall j, (j < nruns)%nat -> (i * bit_nwords nruns + j / 64 < length (e_bits e))%nat).
  { intros j Hj. rewrite H5. apply slot_bound. lia. now apply nwords_covers. }
  rewrite !count_bits_ok by (auto; intros; apply Bd; lia). cbn [bind].
  f_equal. f_equal; apply f_equal; apply countb_ext; intros k Hk; apply in_seq in Hk; apply H8; lia.
Qed.

Lemma collect_ok : forall A (f : nat -> outcome A) (g : nat -> A) m i,
  (forall j, (i <= j < i + m)%nat -> f j = Ret (g j)) -> collect f i m = Ret (map g (seq i m)).
Proof.
  induction m; intros; cbn [collect]; auto. rewrite H by lia. cbn [bind].
  rewrite IHm by (intros; apply H; lia). reflexivity.
Qed.

Lemma map_nth_seq : forall A B (f : A -> B) (d : A) l, map (fun i => f (nth i l d)) (seq 0 (length l)) = map f l.
Proof.
  induction l; auto. cbn [length seq map nth]. f_equal. rewrite <- seq_shift, map_map. exact IHl.
Qed.
