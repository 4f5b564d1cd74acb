(** C78: the generator is equidistributed in 623 dimensions, and never falls
    into a cycle that leaves its start. *)
From Coq Require Import List ZArith Lia Bool Arith FinFun.
From Verif Require Import Base MtSpec MtModel MtProofs PropMt MtEqui.
Import ListNotations.
Open Scope Z_scope.

(** A state: 624 words, of which only the top bit of the first one is ever used
    (see [C78_low_bits_unused]), so 1 + 623 * 32 = 19937 bits. *)
Definition generator_state (key : list Z) : Prop :=
  length key = Z.to_nat 624 /\ Forall word key /\ (nth 0 key 0 = 0 \/ nth 0 key 0 = 2 ^ 31).

(** started from the state [key], the draws number t, t+1, ... are [ws] *)
Definition draws_are (key : list Z) (t : nat) (ws : list Z) : Prop :=
  exists vs st', length vs = t /\
    mt_draws (t + length ws) (mkMt key (Z.to_nat 624)) = Ret (vs ++ ws, st').

Lemma to_nat_n : Z.to_nat 624 = mt_n.
Proof. pose proof mt_n_624. lia. Qed.
Lemma to_nat_N : Z.to_nat 624 = NN.
Proof. rewrite NN_n. apply to_nat_n. Qed.
Lemma state_wst : forall key, generator_state key <-> wst key.
Proof. intros key. unfold generator_state, wst. now rewrite to_nat_n. Qed.

Lemma draws_are_window : forall key t ws, wst key -> (length ws < mt_n)%nat ->
  (draws_are key t ws <->
   map mt_temper (firstn (length ws) (skipn 1 (it fwd (mt_n - 1 + t) key))) = ws).
Proof.
  intros key t ws Hk Hw. unfold draws_are. rewrite to_nat_N. split.
  - intros [vs [st' [Hv E]]]. eapply draws_window; eauto.
  - intros E. destruct (window_draws t (length ws) key Hk Hw) as [vs [st' [Hv E']]].
    exists vs, st'. split; [ exact Hv | ]. rewrite E in E'. exact E'.
Qed.

(** Equidistribution: whatever the position t and the wanted values (at most
    623 words), the states from which the draws t, t+1, ... give exactly these
    values are 2^(19937 - 32 k) in number, the same for every choice of the k
    values and of t. *)
Theorem C78_equidistribution : forall (t : nat) (ws : list Z),
  (length ws <= Z.to_nat 623)%nat -> Forall word ws ->
  exists L : list (list Z),
    NoDup L /\
    (forall key, In key L <-> generator_state key /\ draws_are key t ws) /\
    Z.of_nat (length L) = 2 ^ (19937 - 32 * Z.of_nat (length ws)).
Proof.
  pose proof mt_n_624 as EN.
  intros t ws Hlen HF.
  destruct (temper_surj_list ws HF) as [us [HLu [HFu Eu]]].
  set (k := length ws) in *. set (c := (mt_n - 1 + t)%nat).
  set (rest := word_lists (mt_n - 1 - k)).
  set (heads := [0; 2 ^ 31]).
  set (T := cons_all heads (map (app us) rest)).
  assert (Hw : forall key, In key T <-> wst key /\ firstn k (skipn 1 key) = us).
  { intros key. unfold T. rewrite in_cons_all. split.
    - intros [h [r [-> [Hh Hr]]]]. apply in_map_iff in Hr. destruct Hr as [s [<- Hs]].
      apply in_word_lists in Hs. destruct Hs as [Hs1 Hs2]. split.
      + split; [ cbn [length]; rewrite app_length; lia | split ].
        * constructor; [ destruct Hh as [<- | [<- | []]]; unfold word; lia | now apply Forall_app ].
        * cbn [nth]. destruct Hh as [<- | [<- | []]]; auto.
      + cbn [skipn]. rewrite <- HLu, firstn_app, firstn_all, Nat.sub_diag. cbn [firstn]. apply app_nil_r.
    - intros [[HL [HFk H0]] E]. destruct key as [ | h r ]; [ cbn [length] in HL; lia | ].
      cbn [skipn] in E. cbn [nth] in H0. cbn [length] in HL. inversion_clear HFk.
      exists h, r. split; [ reflexivity | split ].
      + cbn. destruct H0; auto.
      + apply in_map_iff. exists (skipn k r). split.
        * rewrite <- E. apply firstn_skipn.
        * apply in_word_lists. rewrite skipn_length. split; [ lia | ].
          rewrite <- (firstn_skipn k r) in H1. apply Forall_app in H1. apply H1. }
  assert (NT : NoDup T).
  { apply cons_all_nodup.
    - repeat constructor; cbn; intuition lia.
    - apply FinFun.Injective_map_NoDup; [ intros a b E; now apply app_inv_head in E | ].
      apply word_lists_nodup. }
  exists (map (it bwd c) T). split; [ | split ].
  - assert (G : forall l, (forall key, In key l -> wst key) -> NoDup l -> NoDup (map (it bwd c) l)).
    { intros l Hl Hn. induction Hn as [ | x l Hx Hn IH ]; [ constructor | ].
      cbn [map]. constructor.
      - intros Hi. apply in_map_iff in Hi. destruct Hi as [y [E Hy]]. apply Hx.
        rewrite <- (it_fb c x), <- E, it_fb; [ exact Hy | apply Hl; now right | apply Hl; now left ].
      - apply IH. intros. apply Hl. now right. }
    apply G; [ intros key Hkey; now apply Hw | exact NT ].
  - intros key. rewrite state_wst, in_map_iff. split.
    + intros [y [<- Hy]]. apply Hw in Hy. destruct Hy as [Hy1 Hy2].
      assert (Wb : wst (it bwd c y)) by (apply it_wst; [ apply bwd_wst | exact Hy1 ]).
      split; [ exact Wb | ]. apply draws_are_window; [ exact Wb | fold k; lia | ].
      fold k c. rewrite it_fb by exact Hy1. rewrite Hy2. exact Eu.
    + intros [Hk Hd]. apply draws_are_window in Hd; [ | exact Hk | fold k; lia ].
      fold k c in Hd.
      assert (Wf : wst (it fwd c key)) by (apply it_wst; [ apply fwd_wst | exact Hk ]).
      exists (it fwd c key). split; [ now apply it_bf | ]. apply Hw. split; [ exact Wf | ].
      apply temper_map_inj; [ | exact HFu | congruence ].
      destruct Wf as [_ [Wf _]].
      rewrite <- (firstn_skipn 1 (it fwd c key)) in Wf. apply Forall_app in Wf. destruct Wf as [_ Wf].
      rewrite <- (firstn_skipn k (skipn 1 (it fwd c key))) in Wf. apply Forall_app in Wf. apply Wf.
  - rewrite map_length. unfold T. rewrite cons_all_length, map_length. unfold rest.
    rewrite Nat2Z.inj_mul, word_lists_length. change (Z.of_nat (length heads)) with (2 ^ 1).
    rewrite <- Z.pow_add_r by lia. f_equal. lia.
Qed.

(** In particular 623 consecutive draws can be any 623 words, and then exactly
    two states produce them. *)
Corollary C78_exactly_two : forall (t : nat) (ws : list Z),
  length ws = Z.to_nat 623 -> Forall word ws ->
  exists k0 k1, k0 <> k1 /\
    forall key, generator_state key -> (draws_are key t ws <-> key = k0 \/ key = k1).
Proof.
  intros t ws HL HF.
  destruct (C78_equidistribution t ws) as [L [ND [HI HC]]]; [ lia | exact HF | ].
  rewrite HL, Z2Nat.id in HC by lia. change (2 ^ (19937 - 32 * 623)) with 2 in HC.
  destruct L as [ | k0 [ | k1 [ | ] ] ]; cbn [length] in HC; try lia.
  exists k0, k1. split.
  - inversion_clear ND. intros ->. apply H. now left.
  - intros key Hk. specialize (HI key). cbn [In] in HI. split.
    + intros Hd. destruct (proj2 HI (conj Hk Hd)) as [E | [E | []]]; auto.
    + intros [-> | ->]; apply HI; auto.
Qed.

(** Two keys that differ in the low 31 bits of their first word produce the same
    draws for ever. *)
Theorem C78_low_bits_unused : forall u v ks t,
  word u -> word v -> Forall word ks -> length ks = Z.to_nat 623 -> u / 2 ^ 31 = v / 2 ^ 31 ->
  exists vs su sv, length vs = t /\
    mt_draws t (mkMt (u :: ks) (Z.to_nat 624)) = Ret (vs, su) /\
    mt_draws t (mkMt (v :: ks) (Z.to_nat 624)) = Ret (vs, sv).
Proof.
  pose proof mt_n_624 as EN.
  intros u v ks t Hu Hv Hks HL E.
  assert (Lu : length (u :: ks) = mt_n) by (cbn [length]; lia).
  assert (Lv : length (v :: ks) = mt_n) by (cbn [length]; lia).
  rewrite to_nat_N.
  destruct (draws_ok _ (mt_seq_is_sequence _ Lu) t mt_n _ (fresh_inv (u :: ks) ltac:(split; [ now rewrite NN_n | now constructor ])))
    as [su [Eu _]].
  destruct (draws_ok _ (mt_seq_is_sequence _ Lv) t mt_n _ (fresh_inv (v :: ks) ltac:(split; [ now rewrite NN_n | now constructor ])))
    as [sv [Ev _]].
  assert (G : map (fun i => mt_temper (mt_seq (v :: ks) (mt_n + i))) (seq 0 t) =
              map (fun i => mt_temper (mt_seq (u :: ks) (mt_n + i))) (seq 0 t)).
  { apply map_ext. intros i.
    rewrite (seq_low_bits v u ks); [ reflexivity | lia | unfold top; now rewrite E | lia ]. }
  rewrite G in Ev. clear G.
  eexists _, su, sv. split; [ | split; [ exact Eu | exact Ev ] ].
  now rewrite map_length, seq_length.
Qed.

(** ** fractions *)
(** Started from the state [key], the fractions number t, t+1, ... drawn by
    mt19937_next_double are ks/2^53 (whatever the order of evaluation of 64-bit
    draws, which are not used here). *)
Definition doubles_are (key : list Z) (t : nat) (ks : list Z) : Prop :=
  exists vs st', length vs = t /\
    mt_run (fun _ => true) (repeat DrawDouble (t + length ks)) (mkMt key (Z.to_nat 624)) =
    Ret (map (pair DrawDouble) (vs ++ ks), st').

Fixpoint pairs (ws : list Z) : list Z :=
  match ws with
  | a :: b :: r => (Z.shiftr a 5 * 67108864 + Z.shiftr b 6) :: pairs r
  | _ => []
  end.

Lemma run_doubles : forall lf k st ws st', mt_draws (2 * k) st = Ret (ws, st') ->
  mt_run lf (repeat DrawDouble k) st = Ret (map (pair DrawDouble) (pairs ws), st').
Proof.
  intros lf. induction k as [ | k IH ]; intros st ws st' E.
  - cbn [Nat.mul mt_draws] in E. injection E as <- <-. reflexivity.
  - replace (2 * S k)%nat with (S (S (2 * k))) in E by lia. cbn [mt_draws] in E.
    cbn [repeat mt_run mt_run_op]. unfold mt_next_double53.
    destruct (mt_next st) as [ [a s1] | | | ]; cbn [bind fst snd] in E |- *; try discriminate.
    destruct (mt_next s1) as [ [b s2] | | | ]; cbn [bind fst snd] in E |- *; try discriminate.
    destruct (mt_draws (2 * k) s2) as [ [r s3] | | | ] eqn:E3; cbn [bind fst snd] in E |- *; try discriminate.
    injection E as <- <-. rewrite (IH s2 r s3 E3). reflexivity.
Qed.
Lemma pairs_app : forall k vs ws, length vs = (2 * k)%nat -> pairs (vs ++ ws) = pairs vs ++ pairs ws.
Proof.
  induction k as [ | k IH ]; intros vs ws H.
  - destruct vs; [ reflexivity | discriminate ].
  - destruct vs as [ | a [ | b vs ] ]; cbn [length] in H; try lia.
    cbn [app pairs]. f_equal. apply IH. lia.
Qed.
Lemma pairs_length : forall k ws, length ws = (2 * k)%nat -> length (pairs ws) = k.
Proof.
  induction k as [ | k IH ]; intros ws H.
  - destruct ws; [ reflexivity | discriminate ].
  - destruct ws as [ | a [ | b ws ] ]; cbn [length] in H; try lia.
    cbn [pairs length]. f_equal. apply IH. lia.
Qed.

Lemma draws_are_total : forall key t k, wst key ->
  exists ws, length ws = k /\ Forall word ws /\ draws_are key t ws.
Proof.
  intros key t k Hk. pose proof (wst_key_ok key Hk) as HO.
  assert (HL : length key = mt_n) by apply Hk.
  destruct (draws_ok _ (mt_seq_is_sequence key HL) (t + k) mt_n _ (fresh_inv key HO)) as [st1 [E1 _]].
  rewrite seq_app, map_app in E1.
  exists (map (fun i => mt_temper (mt_seq key (mt_n + i))) (seq (0 + t) k)).
  split; [ now rewrite map_length, seq_length | split ].
  - apply Forall_forall. intros w Hw. apply in_map_iff in Hw. destruct Hw as [i [<- _]].
    rewrite <- temper_spec. apply word_temper. now apply seq_word.
  - unfold draws_are. rewrite to_nat_N, map_length, seq_length. eexists _, st1.
    split; [ | exact E1 ]. now rewrite map_length, seq_length.
Qed.
Lemma draws_are_fun : forall key t ws ws', length ws = length ws' ->
  draws_are key t ws -> draws_are key t ws' -> ws = ws'.
Proof.
  intros key t ws ws' HL [vs [st [Hv E]]] [vs' [st' [Hv' E']]].
  rewrite HL in E. rewrite E in E'. injection E' as E' _.
  apply (f_equal (skipn t)) in E'. rewrite !skipn_app in E'.
  rewrite (skipn_all2 vs), (skipn_all2 vs') in E' by lia.
  rewrite Hv, Hv', Nat.sub_diag in E'. exact E'.
Qed.

Lemma doubles_are_draws : forall key t ks, wst key ->
  (doubles_are key t ks <->
   exists ws, length ws = (2 * length ks)%nat /\ Forall word ws /\ pairs ws = ks /\
              draws_are key (2 * t) ws).
Proof.
  intros key t ks Hk. split.
  - intros [vs [st' [Hv E]]].
    destruct (draws_are_total key (2 * t) (2 * length ks) Hk) as [ws [HL [HF Hd]]].
    exists ws. split; [ exact HL | split; [ exact HF | split; [ | exact Hd ] ] ].
    destruct Hd as [us [st2 [Hu E2]]].
    replace (2 * t + length ws)%nat with (2 * (t + length ks))%nat in E2 by lia.
    apply (run_doubles (fun _ => true)) in E2. rewrite E2 in E. injection E as E _.
    rewrite (pairs_app t us ws Hu) in E.
    assert (E3 : pairs us ++ pairs ws = vs ++ ks).
    { apply (f_equal (map snd)) in E. rewrite !map_map in E. cbn [snd] in E. now rewrite !map_id in E. }
    apply (f_equal (skipn t)) in E3. rewrite !skipn_app in E3.
    rewrite (skipn_all2 (pairs us)) in E3 by (rewrite (pairs_length t us Hu); lia).
    rewrite (skipn_all2 vs) in E3 by lia.
    rewrite (pairs_length t us Hu), Hv, Nat.sub_diag in E3. exact E3.
  - intros [ws [HL [HF [Ep [us [st2 [Hu E2]]]]]]].
    replace (2 * t + length ws)%nat with (2 * (t + length ks))%nat in E2 by lia.
    apply (run_doubles (fun _ => true)) in E2.
    rewrite (pairs_app t us ws Hu), Ep in E2.
    exists (pairs us), st2. split; [ now apply pairs_length | exact E2 ].
Qed.

(** the pairs of words behind given fractions *)
Definition block (n b : Z) : list Z := map (fun i => n * b + Z.of_nat i) (seq 0 (Z.to_nat b)).
Lemma in_block : forall n b w, 0 < b -> (In w (block n b) <-> w / b = n).
Proof.
  intros n b w Hb. unfold block. rewrite in_map_iff. split.
  - intros [i [<- Hi]]. apply in_seq in Hi. symmetry.
    apply (Z.div_unique _ b n (Z.of_nat i)); lia.
  - intros <-. exists (Z.to_nat (w mod b)). pose proof (Z.mod_pos_bound w b Hb).
    pose proof (Z.div_mod w b ltac:(lia)).
    split; [ rewrite Z2Nat.id; lia | apply in_seq; lia ].
Qed.
Lemma block_nodup : forall n b, NoDup (block n b).
Proof. intros. apply FinFun.Injective_map_NoDup; [ intros i j; lia | apply seq_NoDup ]. Qed.
Lemma block_length : forall n b, 0 < b -> Z.of_nat (length (block n b)) = b.
Proof. intros. unfold block. rewrite map_length, seq_length. lia. Qed.

Fixpoint behind (ks : list Z) : list (list Z) :=
  match ks with
  | [] => [[]]
  | n :: ks' => cons_all (block (n / 2 ^ 26) 32) (cons_all (block (n mod 2 ^ 26) 64) (behind ks'))
  end.
Lemma in_behind : forall ks ws, Forall (fun n => 0 <= n < 2 ^ 53) ks ->
  (In ws (behind ks) <-> length ws = (2 * length ks)%nat /\ Forall word ws /\ pairs ws = ks).
Proof.
  intros ks ws H. revert ws. induction H as [ | n ks Hn _ IH ]; intros ws; cbn [behind].
  - split.
    + intros [<- | []]. auto.
    + intros [HL _]. destruct ws; [ now left | discriminate ].
  - rewrite in_cons_all. split.
    + intros [a [r [-> [Ha Hr]]]]. apply in_cons_all in Hr. destruct Hr as [b [r' [-> [Hb Hr]]]].
      apply IH in Hr. destruct Hr as [H1 [H2 H3]].
      apply in_block in Ha, Hb; try lia.
      pose proof (Z.div_mod n (2 ^ 26) ltac:(lia)) as Dn.
      pose proof (Z.mod_pos_bound n (2 ^ 26) ltac:(lia)) as Bn.
      assert (0 <= n / 2 ^ 26 < 2 ^ 27)
        by (split; [ apply Z.div_pos; lia | apply Z.div_lt_upper_bound; lia ]).
      pose proof (Z.div_mod a 32 ltac:(lia)). pose proof (Z.mod_pos_bound a 32 ltac:(lia)).
      pose proof (Z.div_mod b 64 ltac:(lia)). pose proof (Z.mod_pos_bound b 64 ltac:(lia)).
      split; [ cbn [length]; lia | split ].
      * constructor; [ unfold word; lia | constructor; [ unfold word; lia | exact H2 ] ].
      * cbn [pairs]. rewrite !Z.shiftr_div_pow2 by lia.
        change (2 ^ 5) with 32. change (2 ^ 6) with 64. f_equal; [ lia | exact H3 ].
    + intros [HL [HF Ep]]. destruct ws as [ | a [ | b r ] ]; cbn [length] in HL; try lia.
      cbn [pairs] in Ep. injection Ep as En Ep. rewrite !Z.shiftr_div_pow2 in En by lia.
      change (2 ^ 5) with 32 in En. change (2 ^ 6) with 64 in En.
      inversion_clear HF as [ | ? ? Wa HF' ]. inversion_clear HF' as [ | ? ? Wb HFr ].
      unfold word in Wa, Wb.
      assert (Bb : 0 <= b / 64 < 2 ^ 26)
        by (split; [ apply Z.div_pos; lia | apply Z.div_lt_upper_bound; lia ]).
      exists a, (b :: r). split; [ reflexivity | split ].
      * apply in_block; [ lia | ]. apply (Z.div_unique n (2 ^ 26) _ (b / 64)); lia.
      * apply in_cons_all. exists b, r. split; [ reflexivity | split ].
        -- apply in_block; [ lia | ]. apply (Z.mod_unique n (2 ^ 26) (a / 32)); lia.
        -- apply IH. split; [ lia | auto ].
Qed.
Lemma behind_nodup : forall ks, NoDup (behind ks).
Proof.
  induction ks; cbn [behind]; [ repeat constructor; auto | ].
  apply cons_all_nodup; [ apply block_nodup | apply cons_all_nodup; [ apply block_nodup | assumption ] ].
Qed.
Lemma behind_length : forall ks, Z.of_nat (length (behind ks)) = 2 ^ (11 * Z.of_nat (length ks)).
Proof.
  induction ks as [ | n ks IH ]; [ reflexivity | ].
  cbn [behind length]. rewrite !cons_all_length, !Nat2Z.inj_mul, !block_length, IH by lia.
  replace (11 * Z.of_nat (S (length ks))) with (5 + 6 + 11 * Z.of_nat (length ks)) by lia.
  rewrite !Z.pow_add_r by lia. change (2 ^ 5) with 32. change (2 ^ 6) with 64. lia.
Qed.

Lemma gather : forall t m n (P : list (list Z)), NoDup P ->
  (forall ws, In ws P -> length ws = m /\ exists L, NoDup L /\
     (forall key, In key L <-> generator_state key /\ draws_are key t ws) /\ Z.of_nat (length L) = n) ->
  exists L, NoDup L /\
    (forall key, In key L <-> generator_state key /\ exists ws, In ws P /\ draws_are key t ws) /\
    Z.of_nat (length L) = Z.of_nat (length P) * n.
Proof.
  intros t m n P HP. induction HP as [ | ws P Hn HP IH ]; intros H.
  - exists []. split; [ constructor | split; [ | reflexivity ] ].
    intros key. split; [ intros [] | intros [_ [ws [[] _]]] ].
  - destruct (H ws (or_introl eq_refl)) as [Lw [L1 [N1 [I1 C1]]]].
    destruct IH as [L2 [N2 [I2 C2]]]; [ intros; apply H; now right | ].
    exists (L1 ++ L2). split; [ | split ].
    + assert (D : forall key, In key L1 -> ~ In key L2).
      { intros key K1 K2. apply I1 in K1. apply I2 in K2.
        destruct K1 as [_ K1]. destruct K2 as [_ [ws' [Hw' K2]]].
        apply Hn. destruct (H ws' (or_intror Hw')) as [Lw' _].
        rewrite (draws_are_fun key t ws ws'); [ exact Hw' | lia | exact K1 | exact K2 ]. }
      clear -N1 N2 D. induction N1 as [ | a l1 Ha N1 IH1 ]; [ exact N2 | ].
      cbn [app]. constructor.
      * rewrite in_app_iff. intros [G | G]; [ now apply Ha | ]. apply (D a); [ now left | exact G ].
      * apply IH1. intros b Hb. apply D. now right.
    + intros key. rewrite in_app_iff, I1, I2. split.
      * intros [[K1 K2] | [K1 [ws' [Hw' K2]]]]; (split; [ exact K1 | ]).
        -- exists ws. split; [ now left | exact K2 ].
        -- exists ws'. split; [ now right | exact K2 ].
      * intros [K1 [ws' [[<- | Hw'] K2]]]; [ left; auto | right; split; [ exact K1 | eauto ] ].
    + rewrite app_length, Nat2Z.inj_add, C1, C2. cbn [length]. lia.
Qed.

(** Equidistribution of the fractions: up to 311 consecutive fractions drawn from
    [0,1) are jointly uniform over the multiples of 2^-53.  Every choice of the k
    values has the same number of states, 2^(19937 - 53 k). *)
Theorem C78_doubles_equidistribution : forall (t : nat) (ks : list Z),
  (length ks <= Z.to_nat 311)%nat -> Forall (fun n => 0 <= n < 2 ^ 53) ks ->
  exists L : list (list Z),
    NoDup L /\
    (forall key, In key L <-> generator_state key /\ doubles_are key t ks) /\
    Z.of_nat (length L) = 2 ^ (19937 - 53 * Z.of_nat (length ks)).
Proof.
  intros t ks Hlen HF.
  destruct (gather (2 * t) (2 * length ks) (2 ^ (19937 - 64 * Z.of_nat (length ks))) (behind ks))
    as [L [ND [HI HC]]].
  - apply behind_nodup.
  - intros ws Hws. apply in_behind in Hws; [ | exact HF ]. destruct Hws as [H1 [H2 _]].
    split; [ exact H1 | ].
    destruct (C78_equidistribution (2 * t) ws) as [L [N0 [I0 C0]]]; [ lia | exact H2 | ].
    exists L. split; [ exact N0 | split; [ exact I0 | ] ].
    rewrite C0, H1. f_equal. lia.
  - exists L. split; [ exact ND | split ].
    + intros key. rewrite HI. split; intros [Hk Hd]; (split; [ exact Hk | ]).
      * apply doubles_are_draws; [ now apply state_wst | ].
        destruct Hd as [ws [Hw Hd]]. apply in_behind in Hw; [ | exact HF ].
        destruct Hw as [H1 [H2 H3]]. exists ws. auto.
      * apply doubles_are_draws in Hd; [ | now apply state_wst ].
        destruct Hd as [ws [H1 [H2 [H3 H4]]]]. exists ws. split; [ | exact H4 ].
        apply in_behind; auto.
    + rewrite HC, behind_length. rewrite <- Z.pow_add_r by lia. f_equal. lia.
Qed.

(** ** periodicity *)
Lemma dup_split : forall (A : Type) (dec : forall a b : A, {a = b} + {a <> b}) (l : list A), ~ NoDup l ->
  exists a l1 l2 l3, l = l1 ++ a :: l2 ++ a :: l3.
Proof.
  intros A dec l. induction l as [ | x l IH ]; intros H; [ exfalso; apply H; constructor | ].
  destruct (in_dec dec x l) as [Hi | Hi].
  - apply in_split in Hi. destruct Hi as [l2 [l3 ->]]. exists x, [], l2, l3. reflexivity.
  - destruct IH as [a [l1 [l2 [l3 ->]]]].
    + intros Hn. apply H. now constructor.
    + exists a, (x :: l1), l2, l3. reflexivity.
Qed.
Lemma pigeon : forall (A : Type) (dec : forall a b : A, {a = b} + {a <> b}) (S0 : list A) (f : nat -> A),
  (forall i, In (f i) S0) -> exists i j, (i < j <= length S0)%nat /\ f i = f j.
Proof.
  intros A dec S0 f Hf. set (l := map f (seq 0 (S (length S0)))).
  assert (Hl : length l = S (length S0)) by (unfold l; now rewrite map_length, seq_length).
  assert (NN0 : ~ NoDup l).
  { intros Hn. apply (NoDup_incl_length (l' := S0)) in Hn; [ lia | ].
    intros a Ha. apply in_map_iff in Ha. destruct Ha as [i [<- _]]. apply Hf. }
  apply (dup_split A dec) in NN0.
  destruct NN0 as [a [l1 [l2 [l3 E]]]].
  assert (Hn : forall i, (i < S (length S0))%nat -> nth i l a = f i).
  { intros i Hi. rewrite (nth_indep l a (f 0%nat)) by lia.
    unfold l. rewrite map_nth, seq_nth by lia. reflexivity. }
  assert (Le : length l = (length l1 + S (length l2 + S (length l3)))%nat)
    by (rewrite E, app_length; cbn [length]; rewrite app_length; reflexivity).
  exists (length l1), (length l1 + S (length l2))%nat. split; [ lia | ].
  rewrite <- !Hn by lia. rewrite E.
  rewrite app_nth2 by lia. rewrite Nat.sub_diag. cbn [nth].
  rewrite app_nth2 by lia. replace (length l1 + S (length l2) - length l1)%nat with (S (length l2)) by lia.
  cbn [nth]. rewrite app_nth2 by lia. rewrite Nat.sub_diag. reflexivity.
Qed.

(** Every sequence of draws is purely periodic, with a period of at most
    2^19937: from the first draw on, the generator comes back to where it was.
    It has no transient part that is left for ever. *)
Theorem C78_purely_periodic : forall key, length key = Z.to_nat 624 -> Forall word key ->
  exists p : nat, (0 < p)%nat /\ Z.of_nat p <= 2 ^ 19937 /\
  forall t, exists vs st, mt_draws (t + 1 + p) (mkMt key (Z.to_nat 624)) = Ret (vs, st) /\
    nth (t + p) vs 0 = nth t vs 0 /\ length vs = (t + 1 + p)%nat.
Proof.
  pose proof mt_n_624 as EN. pose proof dims as D.
  intros key0 HL0 HF0. rewrite to_nat_n in HL0. rewrite to_nat_N.
  destruct key0 as [ | u ks ]; [ cbn [length] in HL0; lia | ].
  cbn [length] in HL0. inversion_clear HF0.
  set (key := top u :: ks).
  assert (Hk : wst key).
  { split; [ cbn [key length]; lia | split ].
    - constructor; [ destruct (top_cases u H) as [-> | ->]; unfold word; lia | assumption ].
    - cbn [key nth]. now apply top_cases. }
  destruct (C78_equidistribution 0 []) as [L [_ [HI HC]]]; [ cbn [length]; lia | constructor | ].
  cbn [length] in HC. change (19937 - 32 * Z.of_nat 0) with 19937 in HC.
  set (B := 2 ^ 19937) in *. clearbody B.
  assert (HLi : forall i, In (it fwd i key) L).
  { intros i. apply HI. split.
    - apply state_wst, it_wst; [ apply fwd_wst | exact Hk ].
    - exists [], (mkMt (it fwd i key) (Z.to_nat 624)). split; reflexivity. }
  destruct (pigeon _ (list_eq_dec Z.eq_dec) L (fun i => it fwd i key) HLi) as [i [j [Hij E]]].
  assert (Ep : it fwd (j - i) key = key).
  { apply (f_equal (it bwd i)) in E. rewrite it_bf in E by exact Hk.
    replace j with (i + (j - i))%nat in E by lia. rewrite it_add in E.
    rewrite it_bf in E; [ now symmetry | ]. apply it_wst; [ apply fwd_wst | exact Hk ]. }
  set (p := (j - i)%nat) in *.
  exists p. split; [ lia | split; [ lia | ] ].
  assert (HLu : length (u :: ks) = mt_n) by (cbn [length]; lia).
  assert (Hper : forall k, (0 < k)%nat -> mt_seq (u :: ks) (k + p) = mt_seq (u :: ks) k).
  { assert (Et : top u = top (top u)) by (unfold top at 2; now rewrite top_div).
    intros k Hk0. rewrite !(seq_low_bits u (top u) ks ltac:(lia) Et) by lia. fold key.
    destruct (it_window key Hk (k - 1 + p)) as [_ W1].
    destruct (it_window key Hk (k - 1)) as [_ W2].
    specialize (W1 1%nat ltac:(lia)). specialize (W2 1%nat ltac:(lia)).
    rewrite it_add, Ep in W1.
    replace (k - 1 + p + 1)%nat with (k + p)%nat in W1 by lia.
    replace (k - 1 + 1)%nat with k in W2 by lia. congruence. }
  intros t.
  destruct (draws_ok _ (mt_seq_is_sequence _ HLu) (t + 1 + p) mt_n _ (fresh_inv (u :: ks) ltac:(split; [ now rewrite NN_n | now constructor ])))
    as [st [Es _]].
  eexists _, st. split; [ exact Es | ]. split; [ | now rewrite map_length, seq_length ].
  set (g := fun i0 => mt_temper (mt_seq (u :: ks) (mt_n + i0))).
  assert (Hg : forall q, (q < t + 1 + p)%nat -> nth q (map g (seq 0 (t + 1 + p))) 0 = g q).
  { intros q Hq. rewrite (nth_indep _ 0 (g 0%nat)) by (rewrite map_length, seq_length; lia).
    rewrite map_nth, seq_nth by lia. reflexivity. }
  rewrite !Hg by lia. unfold g.
  replace (mt_n + (t + p))%nat with (mt_n + t + p)%nat by lia.
  rewrite Hper by lia. reflexivity.
Qed.

(** The hypotheses are met: 623 given words, and the state made from a seed. *)
Example C78_example :
  (length (repeat 12345 (Z.to_nat 623)) <= Z.to_nat 623)%nat /\ Forall word (repeat 12345 (Z.to_nat 623)) /\
  (exists st, mt_seed (repeat 0 (Z.to_nat 624)) 42 = Ret st /\
     length (mt_key st) = Z.to_nat 624 /\ Forall word (mt_key st)) /\
  draws_are (2 ^ 31 :: repeat 0 (Z.to_nat 623)) 226 [0; 1141379330].
Proof.
  split; [ now rewrite repeat_length | split; [ | split ] ].
  - apply Forall_forall. intros x Hx. apply repeat_spec in Hx. subst. unfold word. lia.
  - destruct (seed_ok (repeat 0 (Z.to_nat 624)) 42) as [key [E [[Hk1 Hk2] _]]].
    + rewrite repeat_length. apply to_nat_N.
    + exists (mkMt key NN). split; [ exact E | ]. cbn [mt_key]. rewrite to_nat_N. auto.
  - unfold draws_are. cbn [length].
    set (r := match mt_draws (226 + 2) (mkMt (2 ^ 31 :: repeat 0 (Z.to_nat 623)) (Z.to_nat 624)) with
              | Ret r => r | _ => ([], mkMt [] 0) end).
    exists (firstn 226 (fst r)), (snd r). split; vm_compute; reflexivity.
Qed.

Print Assumptions C78_equidistribution.
Print Assumptions C78_exactly_two.
Print Assumptions C78_doubles_equidistribution.
Print Assumptions C78_low_bits_unused.
Print Assumptions C78_purely_periodic.
