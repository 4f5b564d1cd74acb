(** C27: the random number generator MT19937. *)
From Coq Require Import List ZArith Lia Bool Arith.
From Verif Require Import Base MtSpec MtModel MtProofs.
Import ListNotations.
Open Scope Z_scope.

(** the published sequence exists and is determined by its first 624 words *)
Theorem C27_sequence_exists_unique : forall key, length key = Z.to_nat 624 ->
  exists x, mt_sequence x /\ (forall i, (i < Z.to_nat 624)%nat -> x i = nth i key 0) /\
    forall y, mt_sequence y -> (forall i, (i < Z.to_nat 624)%nat -> y i = nth i key 0) ->
      forall k, y k = x k.
Proof.
  intros key HL. exists (mt_seq key). change (Z.to_nat 624) with mt_n in *.
  split; [ now apply mt_seq_is_sequence | ].
  split; [ intros i Hi; apply mt_seq_init; lia | ].
  intros y Hy Hi. apply mt_sequence_unique; [ exact Hy | now apply mt_seq_is_sequence | ].
  intros i Hi'. rewrite Hi by assumption. symmetry. apply mt_seq_init. lia.
Qed.

(** For every seed, whatever the uninitialised array contains, and for any
    number of draws: no access out of bounds happens and the t-th value drawn is
    the tempered word 624 + t of the published recurrence started from the
    published initialisation. *)
Theorem C27_outputs_follow_recurrence : forall (key0 : list Z) (seed : Z) (t : nat) (x : nat -> Z),
  length key0 = Z.to_nat 624 ->
  mt_sequence x ->
  (forall i, (i < Z.to_nat 624)%nat -> x i = knuth (seed mod 2 ^ 32) i) ->
  exists st st',
    mt_seed key0 seed = Ret st /\
    mt_draws t st = Ret (map (fun i => mt_temper (x (Z.to_nat 624 + i)%nat)) (seq 0 t), st').
Proof.
  intros key0 seed t x HL Hx Hi.
  destruct (seed_ok key0 seed HL) as [key [E [Hk Hn]]].
  assert (HI : st_inv x NN (mkMt key NN)).
  { exists 0%nat. cbn [mt_key mt_pos]. split; [ split; [ exact Hk | ] | lia ].
    intros j Hj. rewrite (Hn j Hj), Nat.add_0_l. symmetry. now apply Hi. }
  destruct (draws_ok x Hx t NN _ HI) as [st' [E' _]].
  exists (mkMt key NN), st'. split; [ exact E | exact E' ].
Qed.

(** The wide draws: after any number t of 32-bit draws, a 64-bit draw is the next two
    outputs side by side, in the order the compiler chose, and a double is
    (a * 2^26 + b) / 2^53, with a the upper 27 bits of the next output and b the upper
    26 bits of the one after it. *)
Theorem C27_wide_draws : forall (key0 : list Z) (seed : Z) (t : nat) (x : nat -> Z),
  length key0 = Z.to_nat 624 ->
  mt_sequence x ->
  (forall i, (i < Z.to_nat 624)%nat -> x i = knuth (seed mod 2 ^ 32) i) ->
  let y i := mt_temper (x (Z.to_nat 624 + i)%nat) in
  exists st vs st',
    mt_seed key0 seed = Ret st /\ mt_draws t st = Ret (vs, st') /\
    (forall lf, exists st2, mt_next64 lf st' =
       Ret (if lf : bool then y t * 2 ^ 32 + y (S t) else y (S t) * 2 ^ 32 + y t, st2)) /\
    exists st2, mt_next_double53 st' = Ret (y t / 2 ^ 5 * 2 ^ 26 + y (S t) / 2 ^ 6, st2).
Proof.
  intros key0 seed t x HL Hx Hi y.
  destruct (seed_ok key0 seed HL) as [key [E [Hk Hn]]].
  assert (HI : st_inv x NN (mkMt key NN)).
  { exists 0%nat. cbn [mt_key mt_pos]. split; [ split; [ exact Hk | ] | lia ].
    intros j Hj. rewrite (Hn j Hj), Nat.add_0_l. symmetry. now apply Hi. }
  destruct (draws_ok x Hx t NN _ HI) as [st' [E' H]].
  destruct (next_ok x Hx _ st' H) as [Hw1 [st1 [E1 H1]]].
  destruct (next_ok x Hx _ st1 H1) as [Hw2 [st2 [E2 H2]]].
  assert (T1 : word (mt_temper (x (NN + t)%nat))) by (rewrite <- temper_spec; now apply word_temper).
  assert (T2 : word (mt_temper (x (S (NN + t))))) by (rewrite <- temper_spec; now apply word_temper).
  assert (Y1 : y t = mt_temper (x (NN + t)%nat)) by reflexivity.
  assert (Y2 : y (S t) = mt_temper (x (S (NN + t)))) by (unfold y; do 2 f_equal; apply Nat.add_succ_r).
  assert (R : forall hi lo, word hi -> word lo -> Z.lor (Z.shiftl hi 32) lo = hi * 2 ^ 32 + lo).
  { intros hi lo Hh Hl.
    assert (D : Z.land (Z.shiftl hi 32) lo = 0).
    { apply Z.bits_inj'. intros n Hn'. rewrite Z.land_spec, Z.bits_0.
      destruct (Z.ltb_spec n 32).
      - rewrite Z.shiftl_spec_low by lia. reflexivity.
      - rewrite (word_testbit lo Hl) by lia. apply andb_false_r. }
    rewrite <- Z.lxor_lor, <- Z.add_nocarry_lxor by exact D.
    rewrite Z.shiftl_mul_pow2 by lia. reflexivity. }
  exists (mkMt key NN). eexists _, st'. split; [ exact E | ]. split; [ exact E' | ]. rewrite Y1, Y2. split.
  - intros lf. exists st2. unfold mt_next64. rewrite E1. cbn [bind fst snd]. rewrite E2. cbn [bind fst snd].
    destruct lf; rewrite R by assumption; reflexivity.
  - exists st2. unfold mt_next_double53. rewrite E1. cbn [bind fst snd]. rewrite E2. cbn [bind fst snd].
    rewrite !Z.shiftr_div_pow2 by lia. reflexivity.
Qed.

(** the values that a state produced by either seeding function can yield *)
Definition op_range (o : mt_op) : Z :=
  match o with Draw32 => 2 ^ 32 | Draw64 => 2 ^ 64 | DrawDouble => 2 ^ 53 end.

Lemma run_op_range : forall x c st lf o, mt_sequence x -> st_inv x c st ->
  exists v st' c', mt_run_op lf o st = Ret (v, st') /\ 0 <= v < op_range o /\ st_inv x c' st'.
Proof.
  intros x c st lf o Hx H.
  destruct (next_ok x Hx c st H) as [Hw1 [st1 [E1 H1]]].
  destruct (next_ok x Hx (S c) st1 H1) as [Hw2 [st2 [E2 H2]]].
  assert (T1 : word (mt_temper (x c))) by (rewrite <- temper_spec; now apply word_temper).
  assert (T2 : word (mt_temper (x (S c)))) by (rewrite <- temper_spec; now apply word_temper).
  destruct o; cbn [mt_run_op op_range].
  - eauto 8.
  - unfold mt_next64. rewrite E1. cbn [bind fst snd]. rewrite E2. cbn [bind fst snd].
    assert (R : forall hi lo, word hi -> word lo -> 0 <= Z.lor (Z.shiftl hi 32) lo < 2 ^ 64).
    { intros hi lo Hh Hl.
      assert (D : Z.land (Z.shiftl hi 32) lo = 0).
      { apply Z.bits_inj'. intros n Hn. rewrite Z.land_spec, Z.bits_0.
        destruct (Z.ltb_spec n 32).
        - rewrite Z.shiftl_spec_low by lia. reflexivity.
        - rewrite (word_testbit lo Hl) by lia. apply andb_false_r. }
      rewrite <- Z.lxor_lor, <- Z.add_nocarry_lxor by exact D.
      rewrite Z.shiftl_mul_pow2 by lia. unfold word in *. lia. }
    destruct lf; eexists _, st2, _; (split; [ reflexivity | split; [ now apply R | exact H2 ] ]).
  - unfold mt_next_double53. rewrite E1. cbn [bind fst snd]. rewrite E2. cbn [bind fst snd].
    eexists _, st2, _. split; [ reflexivity | split; [ | exact H2 ] ].
    rewrite !Z.shiftr_div_pow2 by lia. unfold word in *.
    assert (0 <= mt_temper (x c) / 2 ^ 5 < 2 ^ 27)
      by (split; [ apply Z.div_pos | apply Z.div_lt_upper_bound ]; lia).
    assert (0 <= mt_temper (x (S c)) / 2 ^ 6 < 2 ^ 26)
      by (split; [ apply Z.div_pos | apply Z.div_lt_upper_bound ]; lia).
    lia.
Qed.

Lemma run_range : forall x os c st lf, mt_sequence x -> st_inv x c st ->
  exists vs st', mt_run lf os st = Ret (vs, st') /\ map fst vs = os /\
    Forall (fun p => 0 <= snd p < op_range (fst p)) vs.
Proof.
  intros x os. induction os as [ | o os IH ]; intros c st lf Hx H; cbn [mt_run].
  - exists [], st. auto.
  - destruct (run_op_range x c st (lf (length (o :: os))) o Hx H) as [v [st1 [c1 [E [Hv H1]]]]].
    rewrite E. cbn [bind fst snd].
    destruct (IH c1 st1 lf Hx H1) as [vs [st2 [E2 [Hm HF]]]].
    rewrite E2. cbn [bind fst snd]. eexists _, st2. split; [ reflexivity | ].
    cbn [map fst]. split; [ now f_equal | ]. constructor; [ exact Hv | exact HF ].
Qed.

(** For every seed, every history of draws of 32-bit words, 64-bit words and
    doubles, and every choice of evaluation order by the compiler: no access is
    out of bounds, words are below 2^32, double words below 2^64, and doubles
    are k/2^53 with 0 <= k < 2^53, so lie in [0,1). *)
Theorem C27_every_history_in_range : forall key0 seed os lf, length key0 = Z.to_nat 624 ->
  exists st vs st', mt_seed key0 seed = Ret st /\ mt_run lf os st = Ret (vs, st') /\
    map fst vs = os /\ Forall (fun p => 0 <= snd p < op_range (fst p)) vs.
Proof.
  intros key0 seed os lf HL.
  destruct (seed_ok key0 seed HL) as [key [E [Hk _]]].
  destruct (run_range (mt_seq key) os mt_n (mkMt key NN) lf) as [vs [st' [E' [Hm HF]]]].
  - apply mt_seq_is_sequence. rewrite <- NN_n. apply Hk.
  - now apply fresh_inv.
  - eauto 8.
Qed.

(** The same after initialisation from an array of words of any length >= 1. *)
Theorem C27_array_history_in_range : forall key0 init_key os lf,
  length key0 = Z.to_nat 624 -> init_key <> [] ->
  exists st vs st', mt_init_by_array key0 init_key = Ret st /\ mt_run lf os st = Ret (vs, st') /\
    map fst vs = os /\ Forall (fun p => 0 <= snd p < op_range (fst p)) vs.
Proof.
  intros key0 ik os lf HL Hne.
  destruct (init_by_array_ok key0 ik HL Hne) as [key [E [Hk _]]].
  destruct (run_range (mt_seq key) os mt_n (mkMt key NN) lf) as [vs [st' [E' [Hm HF]]]].
  - apply mt_seq_is_sequence. rewrite <- NN_n. apply Hk.
  - now apply fresh_inv.
  - eauto 8.
Qed.

(** ... an empty array is read out of bounds (the first word of init_key is
    fetched whatever key_length says) *)
Theorem C27_empty_key_array_refuted :
  mt_init_by_array (repeat 0 (Z.to_nat 624)) [] = OutOfBounds.
Proof. vm_compute. reflexivity. Qed.

(** The generator never collapses: after any seeding and any number of draws,
    the next 624 draws are not all zero. *)
Lemma seq_word : forall key, key_ok key -> forall k, word (mt_seq key k).
Proof.
  pose proof MM_lt_NN as HM. rewrite NN_n, MM_m in HM.
  intros key Hk.
  assert (HL : length key = mt_n) by (rewrite <- NN_n; apply Hk).
  intros k. induction k as [ k IH ] using lt_wf_ind.
  destruct (Nat.lt_ge_cases k mt_n).
  - rewrite mt_seq_init by lia. apply key_ok_nth; [ exact Hk | now rewrite NN_n ].
  - replace k with ((k - mt_n) + mt_n)%nat by lia.
    rewrite (mt_seq_is_sequence key HL).
    apply word_lxor; [ apply IH; lia | ]. apply word_times_A, word_concat, IH. lia.
Qed.

Lemma temper_zero : forall y, word y -> mt_temper y = 0 -> y = 0.
Proof. intros y Hy H. apply temper_inj; [ exact Hy | unfold word; lia | exact H ]. Qed.

Lemma never_zero : forall key t, key_ok key -> nonzero_window (mt_seq key) 0 ->
  exists vs st1 ws st2,
    mt_draws t (mkMt key NN) = Ret (vs, st1) /\
    mt_draws NN st1 = Ret (ws, st2) /\ length ws = NN /\ exists w, In w ws /\ w <> 0.
Proof.
  pose proof two_lt_NN as HM.
  intros key t Hk H0.
  assert (HL : length key = mt_n) by (rewrite <- NN_n; apply Hk).
  pose proof (mt_seq_is_sequence key HL) as Hx.
  pose proof (seq_word key Hk) as Hw.
  assert (HN : forall c, nonzero_window (mt_seq key) c).
  { induction c; [ exact H0 | now apply nonzero_step ]. }
  destruct (draws_ok _ Hx t mt_n _ (fresh_inv key Hk)) as [st1 [E1 H1]].
  destruct (draws_ok _ Hx NN _ st1 H1) as [st2 [E2 _]].
  eexists _, st1, _, st2. split; [ exact E1 | split; [ exact E2 | ] ].
  split; [ now rewrite map_length, seq_length | ].
  set (c := (mt_n + t)%nat) in *.
  destruct (Forall_Exists_dec (fun i => mt_seq key (c + i) = 0)
              (fun i => Z.eq_dec _ 0) (seq 0 NN)) as [HF | HE].
  - exfalso. apply (HN c). rewrite Forall_forall in HF. split.
    + replace c with (c + 0)%nat by lia. rewrite (HF 0%nat); [ reflexivity | ].
      apply in_seq. lia.
    + intros i Hi. apply HF. apply in_seq. rewrite NN_n. lia.
  - apply Exists_exists in HE. destruct HE as [i [Hin Hne]].
    exists (mt_temper (mt_seq key (c + i))). split.
    + apply (in_map (fun j => mt_temper (mt_seq key (c + j))) _ i Hin).
    + intros Z0. apply Hne. now apply temper_zero.
Qed.

Theorem C27_never_all_zero : forall key0 seed t, length key0 = Z.to_nat 624 ->
  exists st vs st1 ws st2,
    mt_seed key0 seed = Ret st /\
    mt_draws t st = Ret (vs, st1) /\
    mt_draws (Z.to_nat 624) st1 = Ret (ws, st2) /\
    length ws = Z.to_nat 624 /\ exists w, In w ws /\ w <> 0.
Proof.
  pose proof two_lt_NN as H2.
  intros key0 seed t HL.
  destruct (seed_ok key0 seed HL) as [key [E [Hk Hn]]].
  exists (mkMt key NN).
  destruct (never_zero key t Hk) as [vs [st1 [ws [s2 [E1 [E2 HE]]]]]].
  - intros [_ H].
    assert (E1 : mt_seq key 1 = 0) by (apply (H 1%nat); rewrite <- NN_n; lia).
    assert (E2 : mt_seq key 2 = 0) by (apply (H 2%nat); rewrite <- NN_n; lia).
    rewrite mt_seq_init in E1, E2 by (destruct Hk; lia).
    rewrite Hn in E1, E2 by lia.
    change (knuth (seed mod 2 ^ 32) 2) with
      ((1812433253 * Z.lxor (knuth (seed mod 2 ^ 32) 1) (knuth (seed mod 2 ^ 32) 1 / 2 ^ 30) + 2) mod 2 ^ 32) in E2.
    rewrite E1 in E2. discriminate.
  - exists vs, st1, ws, s2. split; [ exact E | split; [ exact E1 | split; [ exact E2 | exact HE ] ] ].
Qed.

Theorem C27_never_all_zero_array : forall key0 init_key t,
  length key0 = Z.to_nat 624 -> init_key <> [] ->
  exists st vs st1 ws st2,
    mt_init_by_array key0 init_key = Ret st /\
    mt_draws t st = Ret (vs, st1) /\
    mt_draws (Z.to_nat 624) st1 = Ret (ws, st2) /\
    length ws = Z.to_nat 624 /\ exists w, In w ws /\ w <> 0.
Proof.
  pose proof two_lt_NN as H2.
  intros key0 ik t HL Hne.
  destruct (init_by_array_ok key0 ik HL Hne) as [key [E [Hk Hn]]].
  exists (mkMt key NN).
  destruct (never_zero key t Hk) as [vs [st1 [ws [s2 [E1 [E2 HE]]]]]].
  - intros [H _]. rewrite mt_seq_init in H by (destruct Hk; lia).
    rewrite Hn in H. discriminate.
  - exists vs, st1, ws, s2. split; [ exact E | split; [ exact E1 | split; [ exact E2 | exact HE ] ] ].
Qed.

Lemma two_draws_differ : forall o1 o2 : outcome (Z * mt_state),
  match (r1 <- o1 ;; r2 <- o2 ;; Ret (fst r1, fst r2)) with Ret (a, b) => negb (a =? b) | _ => false end = true ->
  exists v1 v2 s1 s2, o1 = Ret (v1, s1) /\ o2 = Ret (v2, s2) /\ v1 <> v2.
Proof.
  intros [ [v1 s1] | | | ] [ [v2 s2] | | | ]; cbn; try discriminate.
  intros H. exists v1, v2, s1, s2. split; [ reflexivity | split; [ reflexivity | ] ].
  now apply negb_true_iff, Z.eqb_neq in H.
Qed.

(** mt19937_next64 is not determined by the state: the two orders of evaluation
    that C allows give different values already for the default seed. *)
Theorem C27_next64_order_refuted :
  exists key0 seed st, length key0 = Z.to_nat 624 /\ mt_seed key0 seed = Ret st /\
  exists v1 v2 s1 s2, mt_next64 true st = Ret (v1, s1) /\ mt_next64 false st = Ret (v2, s2) /\ v1 <> v2.
Proof.
  set (key0 := repeat 0 (Z.to_nat 624)).
  assert (HL : length key0 = Z.to_nat 624) by apply repeat_length.
  assert (V : match (st <- mt_seed key0 5489 ;; r1 <- mt_next64 true st ;; r2 <- mt_next64 false st ;;
               Ret (fst r1, fst r2)) with Ret (a, b) => negb (a =? b) | _ => false end = true)
    by (vm_compute; reflexivity).
  exists key0, 5489.
  destruct (seed_ok key0 5489 HL) as [key [E [Hk _]]].
  exists (mkMt key NN). split; [ exact HL | split; [ exact E | ] ].
  rewrite E in V. exact (two_draws_differ _ _ V).
Qed.

(** Sanity checks against the published reference outputs: the first output of
    seed 5489 is 3499211612, the 10000th (required by the C++ standard of
    std::mt19937) is 4123659995, and the first outputs of mt19937ar.out. *)
Example C27_reference_seed :
  (st <- mt_seed (repeat 7 (Z.to_nat 624)) 5489 ;; r <- mt_draws (Z.to_nat 10000) st ;;
   Ret (hd 0 (fst r), last (fst r) 0)) = Ret (3499211612, 4123659995).
Proof. vm_compute. reflexivity. Qed.
Example C27_reference_array :
  (st <- mt_init_by_array (repeat 7 (Z.to_nat 624)) [0x123; 0x234; 0x345; 0x456] ;;
   r <- mt_draws 5 st ;; Ret (fst r)) =
  Ret [1067595299; 955945823; 477289528; 4107218783; 4228976476].
Proof. vm_compute. reflexivity. Qed.

Print Assumptions C27_sequence_exists_unique.
Print Assumptions C27_outputs_follow_recurrence.
Print Assumptions C27_every_history_in_range.
Print Assumptions C27_array_history_in_range.
Print Assumptions C27_empty_key_array_refuted.
Print Assumptions C27_never_all_zero.
Print Assumptions C27_never_all_zero_array.
Print Assumptions C27_next64_order_refuted.
Print Assumptions C27_wide_draws.
