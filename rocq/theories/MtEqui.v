(** Lemmas for C78: the step of MT19937 as a bijection on the 2^19937 states. *)
From Coq Require Import List ZArith Lia Bool Arith FinFun ListDec.
From Verif Require Import Base MtSpec MtModel MtProofs PropMt.
Import ListNotations.
Open Scope Z_scope.

Transparent NN mt_n mt_m.
Lemma mt_n_624 : Z.of_nat mt_n = 624.
Proof. unfold mt_n. lia. Qed.
Lemma mt_m_397 : Z.of_nat mt_m = 397.
Proof. unfold mt_m. lia. Qed.
Opaque NN mt_n mt_m.

(** ** the matrix A is invertible *)
Definition inv_A (z : Z) : Z := if 2 ^ 31 <=? z then 2 * Z.lxor z mt_a + 1 else 2 * z.

Lemma bit31 : forall x, word x -> Z.testbit x 31 = (2 ^ 31 <=? x).
Proof.
  intros x [H0 H1]. rewrite Z.testbit_eqb by lia.
  destruct (Z.leb_spec (2 ^ 31) x).
  - replace (x / 2 ^ 31) with 1; [ reflexivity | ].
    apply (Z.div_unique x (2 ^ 31) 1 (x - 2 ^ 31)); lia.
  - rewrite Z.div_small by lia. reflexivity.
Qed.
Lemma word_a : word mt_a. Proof. unfold word, mt_a. lia. Qed.
Lemma lxor_a_top : forall x, word x -> (2 ^ 31 <=? Z.lxor x mt_a) = negb (2 ^ 31 <=? x).
Proof.
  intros x Hx. rewrite <- bit31 by (apply word_lxor; [ exact Hx | apply word_a ]).
  rewrite Z.lxor_spec, (bit31 x Hx).
  change (Z.testbit mt_a 31) with true. now destruct (2 ^ 31 <=? x).
Qed.
Lemma lxor_a_a : forall x, Z.lxor (Z.lxor x mt_a) mt_a = x.
Proof. intros x. rewrite Z.lxor_assoc, Z.lxor_nilpotent. apply Z.lxor_0_r. Qed.

Lemma word_inv_A : forall z, word z -> word (inv_A z).
Proof.
  intros z Hz. unfold inv_A. destruct (Z.leb_spec (2 ^ 31) z) as [H | H].
  - pose proof (lxor_a_top z Hz) as E. rewrite (proj2 (Z.leb_le _ _) H) in E. cbn [negb] in E.
    apply Z.leb_gt in E. pose proof (word_lxor z mt_a Hz word_a) as [G _]. unfold word. lia.
  - unfold word in *. lia.
Qed.
Lemma times_inv_A : forall z, word z -> times_A (inv_A z) = z.
Proof.
  intros z Hz. unfold inv_A, times_A. destruct (Z.leb_spec (2 ^ 31) z) as [H | H].
  - rewrite Z.odd_add, Z.odd_mul. cbn [Z.odd andb xorb].
    replace ((2 * Z.lxor z mt_a + 1) / 2) with (Z.lxor z mt_a)
      by (apply (Z.div_unique _ 2 _ 1); lia).
    apply lxor_a_a.
  - rewrite Z.odd_mul. cbn [Z.odd andb].
    symmetry. apply (Z.div_unique _ 2 _ 0); lia.
Qed.
Lemma inv_times_A : forall y, word y -> inv_A (times_A y) = y.
Proof.
  intros y Hy. unfold times_A.
  pose proof (Z.div_mod y 2 ltac:(lia)) as D. rewrite Zmod_odd in D.
  assert (H2 : 0 <= y / 2 < 2 ^ 31).
  { destruct Hy. split; [ apply Z.div_pos; lia | apply Z.div_lt_upper_bound; lia ]. }
  assert (W2 : word (y / 2)) by (unfold word; lia).
  destruct (Z.odd y).
  - unfold inv_A. rewrite lxor_a_top by exact W2.
    rewrite (proj2 (Z.leb_gt _ _)) by lia. cbn [negb]. rewrite lxor_a_a. lia.
  - unfold inv_A. rewrite (proj2 (Z.leb_gt _ _)) by lia. lia.
Qed.

(** ** the top bit of a word *)
Definition top (x : Z) : Z := x / 2 ^ 31 * 2 ^ 31.

Lemma top_cases : forall x, word x -> top x = 0 \/ top x = 2 ^ 31.
Proof.
  intros x [H0 H1]. unfold top.
  assert (0 <= x / 2 ^ 31 < 2) by (split; [ apply Z.div_pos; lia | apply Z.div_lt_upper_bound; lia ]).
  lia.
Qed.
Lemma top_div : forall x, top x / 2 ^ 31 = x / 2 ^ 31.
Proof. intros. unfold top. apply Z.div_mul. lia. Qed.
Lemma top_idem : forall h, h = 0 \/ h = 2 ^ 31 -> top h = h.
Proof. intros h [-> | ->]; reflexivity. Qed.
Lemma concat_top : forall u v, concat_bits (top u) v = concat_bits u v.
Proof. intros. unfold concat_bits. now rewrite top_div. Qed.
Lemma concat_parts : forall u v, top (concat_bits u v) = top u /\ concat_bits u v mod 2 ^ 31 = v mod 2 ^ 31.
Proof.
  intros u v. unfold concat_bits, top.
  pose proof (Z.mod_pos_bound v (2 ^ 31) ltac:(lia)).
  split.
  - rewrite Z.add_comm, Z.div_add by lia. rewrite (Z.div_small (v mod 2 ^ 31)) by lia. f_equal.
  - rewrite Z.add_comm, Z.mod_add by lia. now rewrite Z.mod_mod by lia.
Qed.
Lemma parts_concat : forall h y, h = 0 \/ h = 2 ^ 31 ->
  top (h + y mod 2 ^ 31) = h /\ (h + y mod 2 ^ 31) mod 2 ^ 31 = y mod 2 ^ 31.
Proof.
  intros h y H. pose proof (Z.mod_pos_bound y (2 ^ 31) ltac:(lia)) as B. unfold top.
  destruct H as [-> | ->].
  - rewrite Z.add_0_l, Z.div_small, Z.mod_mod by lia. lia.
  - split.
    + rewrite <- (Z.mul_1_l (2 ^ 31)) at 1. rewrite Z.add_comm, Z.div_add by lia.
      rewrite Z.div_small by lia. reflexivity.
    + rewrite <- (Z.mul_1_l (2 ^ 31)) at 1. rewrite Z.add_comm, Z.mod_add by lia.
      now rewrite Z.mod_mod by lia.
Qed.
Lemma top_split : forall x, top x + x mod 2 ^ 31 = x.
Proof. intros x. unfold top. pose proof (Z.div_mod x (2 ^ 31) ltac:(lia)). lia. Qed.
Lemma concat_split : forall y, concat_bits (top y) (y mod 2 ^ 31) = y.
Proof.
  intros y. rewrite concat_top. unfold concat_bits. rewrite Z.mod_mod by lia. apply top_split.
Qed.

(** ** states and the step between them *)
Definition wst (key : list Z) : Prop :=
  length key = mt_n /\ Forall word key /\ (nth 0 key 0 = 0 \/ nth 0 key 0 = 2 ^ 31).

Definition fwd (key : list Z) : list Z :=
  top (nth 1 key 0) :: skipn 2 key ++
  [Z.lxor (nth mt_m key 0) (times_A (concat_bits (nth 0 key 0) (nth 1 key 0)))].
Definition bwd_y (key : list Z) : Z :=
  inv_A (Z.lxor (nth (mt_n - 1) key 0) (nth (mt_m - 1) key 0)).
Definition bwd (key : list Z) : list Z :=
  top (bwd_y key) :: (nth 0 key 0 + bwd_y key mod 2 ^ 31) :: firstn (mt_n - 2) (skipn 1 key).

Lemma wst_word : forall key i, wst key -> word (nth i key 0).
Proof.
  intros key i [_ [H _]]. destruct (Nat.lt_ge_cases i (length key)).
  - rewrite Forall_forall in H. apply H. now apply nth_In.
  - rewrite nth_overflow by assumption. unfold word. lia.
Qed.
Lemma wst_key_ok : forall key, wst key -> key_ok key.
Proof. intros key [HL [HF _]]. split; [ now rewrite NN_n | exact HF ]. Qed.

Lemma nth_eq_list : forall (l l' : list Z), length l = length l' ->
  (forall i, (i < length l)%nat -> nth i l 0 = nth i l' 0) -> l = l'.
Proof. intros. now apply (nth_ext l l' 0 0). Qed.

Lemma nth_skipn' : forall (l : list Z) n i, nth i (skipn n l) 0 = nth (n + i) l 0.
Proof.
  intros l n. revert l. induction n as [ | n IH ]; intros l i; [ reflexivity | ].
  destruct l; [ now destruct i | ]. cbn [skipn]. rewrite IH. reflexivity.
Qed.
Lemma nth_firstn' : forall (l : list Z) n i, (i < n)%nat -> nth i (firstn n l) 0 = nth i l 0.
Proof.
  induction l as [ | x l IH ]; intros [ | n ] [ | i ] H; cbn; try reflexivity; try lia.
  apply IH. lia.
Qed.

Lemma dims : (2 < mt_m /\ mt_m + 2 < mt_n)%nat.
Proof. pose proof mt_n_624. pose proof mt_m_397. lia. Qed.

Lemma fwd_length : forall key, length key = mt_n -> length (fwd key) = mt_n.
Proof.
  pose proof dims. intros key HL. unfold fwd. cbn [length].
  rewrite app_length, skipn_length. cbn [length]. lia.
Qed.
Lemma fwd_0 : forall key, nth 0 (fwd key) 0 = top (nth 1 key 0).
Proof. reflexivity. Qed.
Lemma fwd_mid : forall key i, length key = mt_n -> (0 < i < mt_n - 1)%nat ->
  nth i (fwd key) 0 = nth (S i) key 0.
Proof.
  intros key [ | i ] HL Hi; [ lia | ]. unfold fwd. cbn [nth].
  rewrite app_nth1 by (rewrite skipn_length; lia). now rewrite nth_skipn'.
Qed.
Lemma fwd_last : forall key, length key = mt_n ->
  nth (mt_n - 1) (fwd key) 0 =
  Z.lxor (nth mt_m key 0) (times_A (concat_bits (nth 0 key 0) (nth 1 key 0))).
Proof.
  pose proof dims. intros key HL. unfold fwd.
  replace (mt_n - 1)%nat with (S (mt_n - 2)) by lia. cbn [nth].
  rewrite app_nth2 by (rewrite skipn_length; lia). rewrite skipn_length.
  replace (mt_n - 2 - (length key - 2))%nat with O by lia. reflexivity.
Qed.

Lemma fwd_wst : forall key, wst key -> wst (fwd key).
Proof.
  intros key Hk. pose proof (wst_word key) as Hw. destruct Hk as [HL [HF H0]].
  assert (Hk : wst key) by (split; auto).
  split; [ now apply fwd_length | split ].
  - unfold fwd. constructor.
    + destruct (top_cases (nth 1 key 0) (Hw 1%nat Hk)) as [-> | ->]; unfold word; lia.
    + apply Forall_app. split.
      * rewrite <- (firstn_skipn 2 key) in HF. apply Forall_app in HF. apply HF.
      * constructor; [ | constructor ]. apply word_lxor; [ now apply Hw | ].
        apply word_times_A, word_concat. now apply Hw.
  - rewrite fwd_0. apply top_cases. now apply Hw.
Qed.

Lemma bwd_y_word : forall key, wst key -> word (bwd_y key).
Proof. intros. apply word_inv_A, word_lxor; now apply wst_word. Qed.
Lemma bwd_length : forall key, length key = mt_n -> length (bwd key) = mt_n.
Proof.
  pose proof dims. intros key HL. unfold bwd. cbn [length].
  rewrite firstn_length, skipn_length. lia.
Qed.
Lemma bwd_mid : forall key i, length key = mt_n -> (1 < i < mt_n)%nat ->
  nth i (bwd key) 0 = nth (i - 1) key 0.
Proof.
  intros key [ | [ | i ] ] HL Hi; [ lia | lia | ]. unfold bwd. cbn [nth].
  rewrite nth_firstn' by lia. rewrite nth_skipn'. now replace (1 + i)%nat with (S (S i) - 1)%nat by lia.
Qed.
Lemma bwd_wst : forall key, wst key -> wst (bwd key).
Proof.
  intros key Hk. pose proof (bwd_y_word key Hk) as Hy.
  assert (Hk' := Hk). destruct Hk' as [HL [HF H0]].
  split; [ now apply bwd_length | split ].
  - unfold bwd. constructor; [ | constructor ].
    + destruct (top_cases _ Hy) as [-> | ->]; unfold word; lia.
    + pose proof (Z.mod_pos_bound (bwd_y key) (2 ^ 31) ltac:(lia)).
      unfold word. lia.
    + rewrite Forall_forall in HF |- *. intros x Hx. apply HF.
      apply (In_nth _ _ 0) in Hx. destruct Hx as [i [Hi E]].
      rewrite firstn_length, skipn_length in Hi.
      rewrite nth_firstn', nth_skipn' in E by lia. rewrite <- E. apply nth_In. lia.
  - apply (top_cases _ Hy).
Qed.

Lemma lxor_swap : forall a b c, a = Z.lxor b c -> Z.lxor a b = c.
Proof.
  intros a b c ->. rewrite (Z.lxor_comm b c), Z.lxor_assoc, Z.lxor_nilpotent. apply Z.lxor_0_r.
Qed.

Lemma fwd_bwd : forall key, wst key -> fwd (bwd key) = key.
Proof.
  pose proof dims as D.
  intros key Hk. pose proof (bwd_y_word key Hk) as Hy. assert (Hk' := Hk).
  destruct Hk' as [HL [HF H0]].
  destruct (parts_concat _ (bwd_y key) H0) as [P1 P2].
  pose proof (bwd_length key HL) as HB.
  apply nth_eq_list; [ rewrite fwd_length; auto | ].
  rewrite fwd_length by exact HB. intros i Hi.
  destruct (Nat.eq_dec i 0) as [-> | N0]; [ exact P1 | ].
  destruct (Nat.eq_dec i (mt_n - 1)) as [-> | N1].
  - rewrite fwd_last by exact HB. rewrite bwd_mid by (exact HL || lia).
    change (nth 0 (bwd key) 0) with (top (bwd_y key)).
    change (nth 1 (bwd key) 0) with (nth 0 key 0 + bwd_y key mod 2 ^ 31).
    replace (concat_bits (top (bwd_y key)) (nth 0 key 0 + bwd_y key mod 2 ^ 31)) with (bwd_y key).
    + unfold bwd_y. rewrite times_inv_A by (apply word_lxor; now apply wst_word).
      rewrite Z.lxor_comm. apply lxor_swap. apply Z.lxor_comm.
    + rewrite concat_top. unfold concat_bits. rewrite P2. symmetry. apply top_split.
  - rewrite fwd_mid by (exact HB || lia). rewrite bwd_mid by (exact HL || lia). f_equal. lia.
Qed.

Lemma bwd_fwd : forall key, wst key -> bwd (fwd key) = key.
Proof.
  pose proof dims as D.
  intros key Hk. assert (Hk' := Hk). destruct Hk' as [HL [HF H0]].
  pose proof (fwd_length key HL) as HB.
  assert (E : bwd_y (fwd key) = concat_bits (nth 0 key 0) (nth 1 key 0)).
  { unfold bwd_y. rewrite fwd_last by exact HL. rewrite fwd_mid by (exact HL || lia).
    replace (S (mt_m - 1)) with mt_m by lia.
    rewrite (lxor_swap _ _ _ eq_refl). apply inv_times_A, word_concat. now apply wst_word. }
  destruct (concat_parts (nth 0 key 0) (nth 1 key 0)) as [P1 P2].
  apply nth_eq_list; [ rewrite bwd_length; auto | ].
  rewrite bwd_length by exact HB. intros i Hi.
  destruct i as [ | [ | i ] ].
  - change (top (bwd_y (fwd key)) = nth 0 key 0). rewrite E, P1. now apply top_idem.
  - change (nth 0 (fwd key) 0 + bwd_y (fwd key) mod 2 ^ 31 = nth 1 key 0).
    rewrite E, P2, fwd_0. apply top_split.
  - rewrite bwd_mid by (exact HB || lia). rewrite fwd_mid by (exact HL || lia).
    f_equal; lia.
Qed.

Fixpoint it (f : list Z -> list Z) (c : nat) (key : list Z) : list Z :=
  match c with O => key | S c' => f (it f c' key) end.
Lemma it_shift : forall f c key, it f c (f key) = f (it f c key).
Proof. induction c; intros; cbn [it]; [ reflexivity | now rewrite IHc ]. Qed.
Lemma it_add : forall f a b key, it f (a + b) key = it f a (it f b key).
Proof. induction a; intros; cbn [it Nat.add]; [ reflexivity | now rewrite IHa ]. Qed.
Lemma it_wst : forall f, (forall k, wst k -> wst (f k)) -> forall c key, wst key -> wst (it f c key).
Proof. intros f H. induction c; intros; cbn [it]; auto. Qed.
Lemma it_fb : forall c key, wst key -> it fwd c (it bwd c key) = key.
Proof.
  induction c as [ | c IH ]; intros key Hk; [ reflexivity | ].
  cbn [it]. rewrite <- it_shift, fwd_bwd; [ now apply IH | ].
  apply it_wst; [ apply bwd_wst | exact Hk ].
Qed.
Lemma it_bf : forall c key, wst key -> it bwd c (it fwd c key) = key.
Proof.
  induction c as [ | c IH ]; intros key Hk; [ reflexivity | ].
  cbn [it]. rewrite <- it_shift, bwd_fwd; [ now apply IH | ].
  apply it_wst; [ apply fwd_wst | exact Hk ].
Qed.

(** the state after [c] steps holds the words c, ..., c + 623 of the sequence *)
Lemma it_window : forall key, wst key -> forall c,
  nth 0 (it fwd c key) 0 = top (mt_seq key c) /\
  forall i, (0 < i < mt_n)%nat -> nth i (it fwd c key) 0 = mt_seq key (c + i).
Proof.
  pose proof dims as D.
  intros key Hk. assert (Hk' := Hk). destruct Hk' as [HL [_ H0]].
  induction c as [ | c [IH0 IH] ].
  - cbn [it]. split.
    + rewrite mt_seq_init by lia. symmetry. now apply top_idem.
    + intros i Hi. rewrite Nat.add_0_l. symmetry. apply mt_seq_init. lia.
  - assert (HLc : length (it fwd c key) = mt_n) by (apply it_wst; [ apply fwd_wst | exact Hk ]).
    cbn [it]. split.
    + rewrite fwd_0, IH by lia. f_equal. f_equal. lia.
    + intros i Hi. destruct (Nat.eq_dec i (mt_n - 1)) as [-> | N].
      * rewrite fwd_last by exact HLc. rewrite IH0, !IH by lia. rewrite concat_top.
        replace (S c + (mt_n - 1))%nat with (c + mt_n)%nat by lia.
        rewrite (mt_seq_is_sequence key HL c). repeat f_equal. lia.
      * rewrite fwd_mid by (exact HLc || lia). rewrite IH by lia. f_equal. lia.
Qed.

(** the low 31 bits of the first word have no effect *)
Lemma seq_low_bits : forall u v ks, length ks = (mt_n - 1)%nat -> top u = top v ->
  forall k, (0 < k)%nat -> mt_seq (u :: ks) k = mt_seq (v :: ks) k.
Proof.
  pose proof dims as D.
  intros u v ks HL E k. induction k as [ k IH ] using lt_wf_ind. intros Hk.
  assert (Lu : length (u :: ks) = mt_n) by (cbn [length]; lia).
  assert (Lv : length (v :: ks) = mt_n) by (cbn [length]; lia).
  destruct (Nat.lt_ge_cases k mt_n) as [Hn | Hn].
  - rewrite !mt_seq_init by lia. destruct k; [ lia | reflexivity ].
  - replace k with ((k - mt_n) + mt_n)%nat by lia.
    rewrite (mt_seq_is_sequence _ Lu), (mt_seq_is_sequence _ Lv).
    rewrite !(IH (k - mt_n + mt_m)%nat) by lia. rewrite (IH (S (k - mt_n))) by lia.
    do 2 f_equal.
    destruct (k - mt_n)%nat as [ | j ] eqn:Ej.
    + rewrite !(mt_seq_init _ 0) by lia. cbn [nth]. rewrite <- (concat_top u), <- (concat_top v).
      now rewrite E.
    + rewrite IH by lia. reflexivity.
Qed.

(** ** all lists of words *)
Lemma nW_sig : {n : nat | Z.of_nat n = 2 ^ 32}.
Proof. exists (Z.to_nat (2 ^ 32)). rewrite Z2Nat.id; [ reflexivity | ]. discriminate. Qed.
Definition nW : nat := proj1_sig nW_sig.
Lemma nW_eq : Z.of_nat nW = 2 ^ 32.
Proof. exact (proj2_sig nW_sig). Qed.
Global Opaque nW.
Definition all_words : list Z := map Z.of_nat (seq 0 nW).
Lemma in_all_words : forall w, In w all_words <-> word w.
Proof.
  intros w. unfold all_words. rewrite in_map_iff. pose proof nW_eq. split.
  - intros [i [<- Hi]]. apply in_seq in Hi. unfold word. lia.
  - intros [Ha Hb]. exists (Z.to_nat w). split; [ lia | ]. apply in_seq. lia.
Qed.
Lemma all_words_nodup : NoDup all_words.
Proof. apply FinFun.Injective_map_NoDup; [ intros a b; lia | apply seq_NoDup ]. Qed.
Lemma all_words_length : length all_words = nW.
Proof. unfold all_words. now rewrite map_length, seq_length. Qed.
Global Opaque all_words.

Definition cons_all (xs : list Z) (ls : list (list Z)) : list (list Z) :=
  flat_map (fun x => map (cons x) ls) xs.
Lemma in_cons_all : forall xs ls l, In l (cons_all xs ls) <->
  exists x r, l = x :: r /\ In x xs /\ In r ls.
Proof.
  intros. unfold cons_all. rewrite in_flat_map. split.
  - intros [x [Hx H]]. apply in_map_iff in H. destruct H as [r [<- Hr]]. eauto.
  - intros [x [r [-> [Hx Hr]]]]. exists x. split; [ exact Hx | now apply in_map ].
Qed.
Lemma cons_all_nodup : forall xs ls, NoDup xs -> NoDup ls -> NoDup (cons_all xs ls).
Proof.
  intros xs ls Hx Hl. induction Hx as [ | x xs Hn Hx IH ]; [ constructor | ].
  cbn [cons_all flat_map]. fold (cons_all xs ls).
  assert (A : forall (l1 l2 : list (list Z)), NoDup l1 -> NoDup l2 ->
            (forall a, In a l1 -> ~ In a l2) -> NoDup (l1 ++ l2)).
  { intros l1 l2 H1 H2 Hd. induction H1 as [ | a l1 Ha H1 IH1 ]; [ exact H2 | ].
    cbn [app]. constructor.
    - rewrite in_app_iff. intros [G | G]; [ now apply Ha | ]. apply (Hd a); [ now left | exact G ].
    - apply IH1. intros b Hb. apply Hd. now right. }
  apply A; [ apply FinFun.Injective_map_NoDup; [ intros a b E; congruence | exact Hl ] | exact IH | ].
  intros a Ha Hb. apply in_map_iff in Ha. destruct Ha as [r [<- _]].
  apply in_cons_all in Hb. destruct Hb as [x' [r' [E [Hx' _]]]]. congruence.
Qed.
Lemma cons_all_length : forall xs ls, length (cons_all xs ls) = (length xs * length ls)%nat.
Proof.
  intros xs ls. induction xs as [ | x xs IH ]; [ reflexivity | ].
  cbn [cons_all flat_map length Nat.mul]. rewrite app_length, map_length. fold (cons_all xs ls). lia.
Qed.

Fixpoint word_lists (n : nat) : list (list Z) :=
  match n with O => [[]] | S n' => cons_all all_words (word_lists n') end.
Lemma in_word_lists : forall n l, In l (word_lists n) <-> length l = n /\ Forall word l.
Proof.
  induction n as [ | n IH ]; intros l; cbn [word_lists].
  - split.
    + intros [<- | []]. auto.
    + intros [H _]. destruct l; [ now left | discriminate ].
  - rewrite in_cons_all. split.
    + intros [x [r [-> [Hx Hr]]]]. apply IH in Hr. apply in_all_words in Hx.
      destruct Hr as [Hr1 Hr2]. split; [ cbn [length]; lia | now constructor ].
    + intros [HL HF]. destruct l as [ | x r ]; [ discriminate | ].
      inversion_clear HF. exists x, r. split; [ reflexivity | split ].
      * now apply in_all_words.
      * apply IH. split; [ cbn [length] in HL; lia | assumption ].
Qed.
Lemma word_lists_nodup : forall n, NoDup (word_lists n).
Proof.
  induction n; cbn [word_lists]; [ repeat constructor; auto | ].
  apply cons_all_nodup; [ apply all_words_nodup | exact IHn ].
Qed.
Lemma word_lists_length : forall n, Z.of_nat (length (word_lists n)) = 2 ^ (32 * Z.of_nat n).
Proof.
  induction n as [ | n IH ]; [ reflexivity | ].
  cbn [word_lists]. rewrite cons_all_length, Nat2Z.inj_mul, IH, all_words_length, nW_eq.
  rewrite <- Z.pow_add_r by lia. f_equal. lia.
Qed.

(** tempering is onto the words *)
Lemma temper_surj : forall w, word w -> exists u, word u /\ mt_temper u = w.
Proof.
  assert (H : bSurjective nW (fun i => Z.to_nat (mt_temper (Z.of_nat i)))).
  { pose proof nW_eq as EW.
    assert (HW : forall i, (i < nW)%nat -> word (Z.of_nat i)) by (intros i Hi; unfold word; lia).
    assert (HT : forall i, (i < nW)%nat -> word (mt_temper (Z.of_nat i))).
    { intros i Hi. rewrite <- temper_spec. apply word_temper. now apply HW. }
    apply bInjective_bSurjective.
    - intros i Hi. destruct (HT i Hi). lia.
    - intros i j Hi Hj E. pose proof (HT i Hi) as [Ha _]. pose proof (HT j Hj) as [Hb _].
      assert (E' : mt_temper (Z.of_nat i) = mt_temper (Z.of_nat j)) by lia.
      apply temper_inj in E'; [ lia | now apply HW | now apply HW ]. }
  intros w Hw. pose proof nW_eq as EW.
  destruct (H (Z.to_nat w)) as [i [Hi E]]; [ unfold word in Hw; lia | ].
  assert (Wi : word (Z.of_nat i)) by (unfold word; lia).
  exists (Z.of_nat i). split; [ exact Wi | ].
  pose proof (word_temper _ Wi) as T. rewrite temper_spec in T. unfold word in *. lia.
Qed.
Lemma temper_surj_list : forall ws, Forall word ws ->
  exists us, length us = length ws /\ Forall word us /\ map mt_temper us = ws.
Proof.
  induction 1 as [ | w ws Hw _ [us [E1 [E2 E3]]] ]; [ exists []; auto | ].
  destruct (temper_surj w Hw) as [u [Hu Eu]].
  exists (u :: us). cbn [length map]. split; [ lia | split; [ now constructor | congruence ] ].
Qed.
Lemma temper_map_inj : forall us vs, Forall word us -> Forall word vs ->
  map mt_temper us = map mt_temper vs -> us = vs.
Proof.
  induction us as [ | u us IH ]; intros [ | v vs ] Hu Hv E; try discriminate; [ reflexivity | ].
  cbn [map] in E. injection E as E1 E2. inversion_clear Hu. inversion_clear Hv.
  f_equal; [ now apply temper_inj | now apply IH ].
Qed.

(** the draws t, t+1, ... as words of the state after t + 623 steps *)
Lemma draws_window : forall t k key vs ws st', wst key -> (k < mt_n)%nat -> length vs = t -> length ws = k ->
  mt_draws (t + k) (mkMt key NN) = Ret (vs ++ ws, st') ->
  map mt_temper (firstn k (skipn 1 (it fwd (mt_n - 1 + t) key))) = ws.
Proof.
  intros t k key vs ws st' Hk Hkn Hv Hw E.
  pose proof (wst_key_ok key Hk) as HO.
  assert (HL : length key = mt_n) by apply Hk.
  pose proof (mt_seq_is_sequence key HL) as Hx.
  destruct (draws_ok _ Hx (t + k) mt_n _ (fresh_inv key HO)) as [st1 [E1 _]].
  rewrite E in E1. injection E1 as E1 _.
  rewrite seq_app, map_app in E1. apply app_inv_head_iff in E1 || idtac.
  assert (Es : ws = map (fun i => mt_temper (mt_seq key (mt_n + i))) (seq (0 + t) k)).
  { apply (f_equal (skipn t)) in E1. rewrite !skipn_app in E1.
    rewrite map_length, seq_length in E1. rewrite (skipn_all2 vs) in E1 by lia.
    rewrite (skipn_all2 (map _ (seq 0 t))) in E1 by (rewrite map_length, seq_length; lia).
    rewrite Hv, Nat.sub_diag in E1. exact E1. }
  rewrite Es. destruct (it_window key Hk (mt_n - 1 + t)) as [_ HW].
  assert (HLi : length (it fwd (mt_n - 1 + t) key) = mt_n)
    by (apply it_wst; [ apply fwd_wst | exact Hk ]).
  apply (nth_ext _ _ (mt_temper 0) (mt_temper (mt_seq key (mt_n + 0)))).
  - rewrite !map_length, firstn_length, skipn_length, seq_length. lia.
  - rewrite map_length, firstn_length, skipn_length. intros i Hi.
    rewrite map_nth, nth_firstn', nth_skipn', HW by lia.
    rewrite (map_nth (fun i => mt_temper (mt_seq key (mt_n + i)))), seq_nth by lia.
    do 2 f_equal. lia.
Qed.
Lemma window_draws : forall t k key, wst key -> (k < mt_n)%nat ->
  exists vs st', length vs = t /\
  mt_draws (t + k) (mkMt key NN) =
    Ret (vs ++ map mt_temper (firstn k (skipn 1 (it fwd (mt_n - 1 + t) key))), st').
Proof.
  intros t k key Hk Hkn.
  pose proof (wst_key_ok key Hk) as HO.
  assert (HL : length key = mt_n) by apply Hk.
  pose proof (mt_seq_is_sequence key HL) as Hx.
  destruct (draws_ok _ Hx (t + k) mt_n _ (fresh_inv key HO)) as [st1 [E1 _]].
  rewrite seq_app, map_app in E1.
  assert (HLv : length (map (fun i => mt_temper (mt_seq key (mt_n + i))) (seq 0 t)) = t)
    by now rewrite map_length, seq_length.
  eexists _, st1. split; [ exact HLv | ].
  rewrite E1. f_equal. f_equal. f_equal. symmetry.
  eapply draws_window; [ exact Hk | exact Hkn | exact HLv | | ].
  2: rewrite E1; reflexivity. now rewrite map_length, seq_length.
Qed.
