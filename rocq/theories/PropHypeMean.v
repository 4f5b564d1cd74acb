(** C79: averaged over the states of the generator, whv_hype with uniform weights
    returns the hypervolume. *)
From Coq Require Import List ZArith Lia Bool Arith FinFun Permutation QArith Qabs Qfield Lqa.
From Verif Require Import Base NormSpec NormModel HvSpec HypeSpec HypeModel MtSpec MtModel MtProofs PropMt PropHype
  MtEqui PropMtEqui.
Import ListNotations.
Open Scope Q_scope.

(** _moocore.py:1832-1872 and whv_hype.c:260-269 after the generator has been set to the
    state [key] *)
Definition whv_hype_from_state (data : list (list Q)) (ref ideal : list Q) (mx : list bool)
           (nsamples : nat) (key : list Z) : outcome Q :=
  samples <- uniform_dist_sample nsamples (mkMt key (Z.to_nat 624)) ;;
  py_whv_hype_value data ref ideal mx samples.

(** whv_hype is this function applied to the state made from the seed *)
Theorem C79_same_program : forall key0 data ref ideal mx nsamples seed, length key0 = Z.to_nat 624 ->
  exists key, length key = Z.to_nat 624 /\ Forall word key /\
    py_whv_hype_unif key0 data ref ideal mx nsamples seed =
    whv_hype_from_state data ref ideal mx nsamples key.
Proof.
  intros key0 data ref ideal mx n seed HL. rewrite to_nat_N in HL.
  destruct (seed_ok key0 seed HL) as [key [E [[Hk1 Hk2] _]]].
  exists key. split; [ now rewrite to_nat_N | split; [ exact Hk2 | ] ].
  unfold py_whv_hype_unif, whv_hype_unif, whv_hype_from_state, py_whv_hype_value.
  rewrite E, to_nat_N. reflexivity.
Qed.

(** the list of all states, in any order *)
Definition all_states (L : list (list Z)) : Prop :=
  NoDup L /\ forall key, In key L <-> generator_state key.
(** the sum of a list of rational numbers *)
Definition qsum (l : list Q) : Q := fold_right Qplus 0 l.
(** the sample of the unit square with numerators u and v *)
Definition grid_sample (g : Z * Z) : list Q := [Qmake (fst g) (2 ^ 53); Qmake (snd g) (2 ^ 53)].

(** ** the samples drawn from a state *)
Definition dbl (key : list Z) (i : nat) : Z :=
  (Z.shiftr (mt_temper (mt_seq key (mt_n + 2 * i))) 5 * 67108864 +
   Z.shiftr (mt_temper (mt_seq key (mt_n + 2 * i + 1))) 6)%Z.
Definition smp (key : list Z) (i : nat) : Z * Z := (dbl key (2 * i), dbl key (2 * i + 1)).

Lemma double_ok : forall key i st, length key = mt_n -> st_inv (mt_seq key) (mt_n + 2 * i) st ->
  exists st', mt_next_double53 st = Ret (dbl key i, st') /\ st_inv (mt_seq key) (mt_n + 2 * S i) st'.
Proof.
  intros key i st HL H. pose proof (mt_seq_is_sequence key HL) as Hx.
  destruct (next_ok _ Hx _ st H) as [_ [st1 [E1 H1]]].
  destruct (next_ok _ Hx _ st1 H1) as [_ [st2 [E2 H2]]].
  exists st2. split.
  - unfold mt_next_double53. rewrite E1. cbn [bind fst snd]. rewrite E2. cbn [bind fst snd].
    unfold dbl. replace (S (mt_n + 2 * i)) with (mt_n + 2 * i + 1)%nat by lia. reflexivity.
  - now replace (mt_n + 2 * S i)%nat with (S (S (mt_n + 2 * i))) by lia.
Qed.

Lemma samples_from : forall key, length key = mt_n -> forall n i st,
  st_inv (mt_seq key) (mt_n + 2 * (2 * i)) st ->
  uniform_dist_sample n st =
  Ret (map (fun j => [0 + Qmake (dbl key (2 * j)) 9007199254740992 * 1;
                      0 + Qmake (dbl key (2 * j + 1)) 9007199254740992 * 1]) (seq i n)).
Proof.
  intros key HL. induction n as [ | n IH ]; intros i st H; cbn [uniform_dist_sample seq map]; [ reflexivity | ].
  destruct (double_ok key (2 * i) st HL H) as [st1 [E1 H1]].
  destruct (double_ok key (S (2 * i)) st1 HL H1) as [st2 [E2 H2]].
  unfold rng_random. rewrite E1. cbn [bind fst snd]. rewrite E2. cbn [bind fst snd].
  rewrite (IH (S i) st2).
  - cbn [bind]. replace (2 * i + 1)%nat with (S (2 * i)) by lia. reflexivity.
  - now replace (2 * (2 * S i))%nat with (2 * S (S (2 * i)))%nat by lia.
Qed.

Lemma doubles_from : forall key, length key = mt_n -> forall n i st,
  st_inv (mt_seq key) (mt_n + 2 * i) st ->
  exists st', mt_run (fun _ => true) (repeat DrawDouble n) st =
              Ret (map (pair DrawDouble) (map (dbl key) (seq i n)), st').
Proof.
  intros key HL. induction n as [ | n IH ]; intros i st H; cbn [repeat mt_run seq map]; [ now exists st | ].
  destruct (double_ok key i st HL H) as [st1 [E1 H1]].
  destruct (IH (S i) st1 H1) as [st2 E2].
  cbn [mt_run_op]. rewrite E1. cbn [bind fst snd]. rewrite E2. cbn [bind fst snd].
  now exists st2.
Qed.

Lemma doubles_are_iff : forall key t ks, wst key ->
  (doubles_are key t ks <-> map (dbl key) (seq t (length ks)) = ks).
Proof.
  intros key t ks Hk.
  assert (HL : length key = mt_n) by apply Hk.
  assert (HI : st_inv (mt_seq key) (mt_n + 2 * 0) (mkMt key NN)).
  { replace (mt_n + 2 * 0)%nat with mt_n by lia. apply fresh_inv. now apply wst_key_ok. }
  destruct (doubles_from key HL (t + length ks) 0 _ HI) as [st' E].
  rewrite seq_app, map_app, Nat.add_0_l in E.
  assert (HLt : length (map (dbl key) (seq 0 t)) = t) by now rewrite map_length, seq_length.
  unfold doubles_are. rewrite to_nat_N. split.
  - intros [vs [st2 [Hv E2]]]. rewrite E in E2. injection E2 as E2 _.
    assert (E3 : map (dbl key) (seq 0 t) ++ map (dbl key) (seq t (length ks)) = vs ++ ks).
    { apply (f_equal (map snd)) in E2. rewrite !map_map in E2. cbn [snd] in E2. now rewrite !map_id in E2. }
    apply (f_equal (skipn t)) in E3. rewrite !skipn_app in E3.
    rewrite (skipn_all2 (map (dbl key) (seq 0 t))) in E3 by (rewrite HLt; apply Nat.le_refl).
    rewrite (skipn_all2 vs) in E3 by (rewrite Hv; apply Nat.le_refl).
    rewrite HLt, Hv, Nat.sub_diag in E3. exact E3.
  - intros Ek. rewrite Ek in E. exists (map (dbl key) (seq 0 t)), st'. split; [ exact HLt | exact E ].
Qed.

Lemma dbl_range : forall key i, wst key -> (0 <= dbl key i < 2 ^ 53)%Z.
Proof.
  intros key i Hk. unfold dbl.
  assert (W : forall j, word (mt_temper (mt_seq key j))).
  { intros j. rewrite <- temper_spec. apply word_temper, seq_word. now apply wst_key_ok. }
  rewrite !Z.shiftr_div_pow2 by lia.
  pose proof (W (mt_n + 2 * i)%nat) as W1. pose proof (W (mt_n + 2 * i + 1)%nat) as W2.
  unfold word in W1, W2.
  set (a := mt_temper (mt_seq key (mt_n + 2 * i))) in *.
  set (b := mt_temper (mt_seq key (mt_n + 2 * i + 1))) in *. clearbody a b.
  assert (0 <= a / 2 ^ 5 < 2 ^ 27)%Z by (split; [ apply Z.div_pos | apply Z.div_lt_upper_bound ]; lia).
  assert (0 <= b / 2 ^ 6 < 2 ^ 26)%Z by (split; [ apply Z.div_pos | apply Z.div_lt_upper_bound ]; lia).
  lia.
Qed.

(** ** which samples are attained *)
Definition att_b (mx : list bool) (data : list (list Q)) (ideal ref s : list Q) : bool :=
  existsb (fun p => forallb (fun d => if nth d mx false then Qle_bool (nth d (location ideal ref s) 0) (nth d p 0)
                                      else Qle_bool (nth d p 0) (nth d (location ideal ref s) 0)) (seq 0 2)) data.
Lemma att_b_iff : forall mx data ideal ref s, att_b mx data ideal ref s = true <-> attained mx data ideal ref s.
Proof.
  intros. unfold att_b, attained. rewrite existsb_exists.
  split; intros [p [Hp H]]; exists p; (split; [ exact Hp | ]).
  - rewrite forallb_forall in H. intros d Hd. specialize (H d ltac:(apply in_seq; lia)).
    destruct (nth d mx false); now apply Qle_bool_iff.
  - apply forallb_forall. intros d Hd. apply in_seq in Hd. specialize (H d ltac:(lia)).
    destruct (nth d mx false); now apply Qle_bool_iff.
Qed.
Lemma location_nth : forall ideal ref s d, (d < 2)%nat ->
  nth d (location ideal ref s) 0 = nth d ideal 0 + nth d s 0 * (nth d ref 0 - nth d ideal 0).
Proof. intros ideal ref s [ | [ | d ] ] H; [ reflexivity | reflexivity | lia ]. Qed.
Lemma attained_ext : forall mx data ideal ref s s', (forall d, (d < 2)%nat -> nth d s 0 == nth d s' 0) ->
  (attained mx data ideal ref s <-> attained mx data ideal ref s').
Proof.
  assert (G : forall mx data ideal ref s s', (forall d, (d < 2)%nat -> nth d s 0 == nth d s' 0) ->
    attained mx data ideal ref s -> attained mx data ideal ref s').
  { intros mx data ideal ref s s' H [p [Hp Hd]]. exists p. split; [ exact Hp | ].
    intros d Hd2. specialize (Hd d Hd2). specialize (H d Hd2).
    rewrite location_nth in Hd |- * by exact Hd2.
    assert (E : nth d ideal 0 + nth d s 0 * (nth d ref 0 - nth d ideal 0) ==
                nth d ideal 0 + nth d s' 0 * (nth d ref 0 - nth d ideal 0)) by (rewrite H; reflexivity).
    destruct (nth d mx false); rewrite <- E; exact Hd. }
  intros. split; apply G; [ assumption | ]. intros d Hd. symmetry. now apply H.
Qed.

Lemma holds_for_count : forall (A : Type) (P : A -> Prop) (f : A -> bool) l k,
  (forall x, f x = true <-> P x) -> holds_for P l k -> k = countb f l.
Proof.
  intros A P f l k Hf H. induction H as [ | x l k Hx H IH | x l k Hx H IH ]; cbn [countb]; [ reflexivity | | ].
  - rewrite (proj2 (Hf x) Hx). now f_equal.
  - destruct (f x) eqn:E; [ exfalso; apply Hx; now apply Hf | exact IH ].
Qed.
Lemma countb_map : forall (A B : Type) (g : A -> B) (f : B -> bool) l, countb f (map g l) = countb (fun a => f (g a)) l.
Proof. induction l; cbn [map countb]; [ reflexivity | now rewrite IHl ]. Qed.
Lemma countb_ext : forall (A : Type) (f g : A -> bool) l, (forall x, In x l -> f x = g x) -> countb f l = countb g l.
Proof.
  induction l as [ | a l IH ]; intros H; cbn [countb]; [ reflexivity | ].
  rewrite (H a (or_introl eq_refl)), IH by (intros; apply H; now right). reflexivity.
Qed.

(** the value from one state: the number of attained samples *)
Lemma value_from_state : forall data ref ideal mx n key, proper_box mx ideal ref -> (0 < n)%nat -> wst key ->
  exists v, whv_hype_from_state data ref ideal mx n key = Ret v /\
    v == Qabs (box_area ideal ref) *
         (inject_Z (Z.of_nat (countb (fun i => att_b mx data ideal ref (grid_sample (smp key i))) (seq 0 n)))
          / inject_Z (Z.of_nat n)).
Proof.
  intros data ref ideal mx n key HB Hn Hk.
  assert (HL : length key = mt_n) by apply Hk.
  assert (HI : st_inv (mt_seq key) (mt_n + 2 * (2 * 0)) (mkMt key NN)).
  { replace (mt_n + 2 * (2 * 0))%nat with mt_n by lia. apply fresh_inv. now apply wst_key_ok. }
  unfold whv_hype_from_state. rewrite to_nat_N, (samples_from key HL n 0 _ HI). cbn [bind].
  set (ss := map _ (seq 0 n)).
  assert (Hls : length ss = n) by (unfold ss; now rewrite map_length, seq_length).
  destruct (C26_counts_dominated_samples data ref ideal mx ss HB) as (v & k & R & H & W).
  { intros E. rewrite E in Hls. cbn in Hls. lia. }
  exists v. split; [ exact R | ]. rewrite Hls in W.
  rewrite W. apply (holds_for_count _ _ (att_b mx data ideal ref)) in H; [ | apply att_b_iff ].
  assert (Ek : k = countb (fun i => att_b mx data ideal ref (grid_sample (smp key i))) (seq 0 n)).
  { rewrite H. unfold ss. rewrite countb_map. apply countb_ext. intros i _.
    apply eq_true_iff_eq. rewrite !att_b_iff. apply attained_ext.
    intros [ | [ | d ] ] Hd; [ | | lia ]; unfold grid_sample, smp; cbn [nth fst snd];
      change (2 ^ 53)%positive with 9007199254740992%positive; ring. }
  rewrite <- Ek. reflexivity.
Qed.

(** ** counting *)
Lemma gather_gen : forall (A B : Type) (D : A -> B -> Prop) (n : Z) (P : list B), NoDup P ->
  (forall a b b', D a b -> D a b' -> b = b') ->
  (forall b, In b P -> exists L, NoDup L /\ (forall a, In a L <-> D a b) /\ Z.of_nat (length L) = n) ->
  exists L, NoDup L /\ (forall a, In a L <-> exists b, In b P /\ D a b) /\
            Z.of_nat (length L) = (Z.of_nat (length P) * n)%Z.
Proof.
  intros A B D n P HP HD. induction HP as [ | b P Hn HP IH ]; intros H.
  - exists []. split; [ constructor | split; [ | reflexivity ] ].
    intros a. split; [ intros [] | intros [b [[] _]] ].
  - destruct (H b (or_introl eq_refl)) as [L1 [N1 [I1 C1]]].
    destruct IH as [L2 [N2 [I2 C2]]]; [ intros; apply H; now right | ].
    exists (L1 ++ L2). split; [ | split ].
    + assert (Dj : forall a, In a L1 -> ~ In a L2).
      { intros a K1 K2. apply I1 in K1. apply I2 in K2. destruct K2 as [b' [Hb' K2]].
        apply Hn. now rewrite (HD a b b' K1 K2). }
      clear -N1 N2 Dj. induction N1 as [ | a l1 Ha N1 IH1 ]; [ exact N2 | ].
      cbn [app]. constructor.
      * rewrite in_app_iff. intros [G | G]; [ now apply Ha | ]. apply (Dj a); [ now left | exact G ].
      * apply IH1. intros c Hc. apply Dj. now right.
    + intros a. rewrite in_app_iff, I1, I2. split.
      * intros [K | [b' [Hb' K]]]; [ exists b; split; [ now left | exact K ] | exists b'; split; [ now right | exact K ] ].
      * intros [b' [[<- | Hb'] K]]; [ now left | right; eauto ].
    + rewrite app_length, Nat2Z.inj_add, C1, C2. cbn [length]. lia.
Qed.

Fixpoint natsum (l : list nat) : nat := match l with [] => O | x :: r => (x + natsum r)%nat end.
Lemma sum_swap : forall (A : Type) (f : A -> nat -> bool) L s,
  natsum (map (fun a => countb (f a) s) L) = natsum (map (fun i => length (filter (fun a => f a i) L)) s).
Proof.
  intros A f L s. induction s as [ | i s IH ].
  - cbn [map natsum]. induction L; [ reflexivity | exact IHL ].
  - cbn [map natsum]. rewrite <- IH. clear IH. induction L as [ | a L IH ]; [ reflexivity | ].
    cbn [map natsum filter]. rewrite IH.
    assert (E : countb (f a) (i :: s) = ((if f a i then 1 else 0) + countb (f a) s)%nat)
      by (cbn [countb]; now destruct (f a i)).
    rewrite E. destruct (f a i); cbn [length]; lia.
Qed.
Lemma natsum_const : forall (f : nat -> nat) c s, (forall i, f i = c) -> natsum (map f s) = (length s * c)%nat.
Proof. intros f c s H. induction s; cbn [map natsum length Nat.mul]; [ reflexivity | now rewrite H, IHs ]. Qed.

(** the attained points of the grid of 2^53 x 2^53 samples *)
Definition attained_grid (mx : list bool) (data : list (list Q)) (ideal ref : list Q) (G : list (Z * Z)) : Prop :=
  NoDup G /\ forall u v, In (u, v) G <->
    (0 <= u < 2 ^ 53)%Z /\ (0 <= v < 2 ^ 53)%Z /\ attained mx data ideal ref (grid_sample (u, v)).

Lemma list2_inj : forall a b c d : Z, [a; b] = [c; d] -> a = c /\ b = d.
Proof. intros a b c d E. injection E as -> ->. auto. Qed.
Lemma states_hitting : forall L mx data ideal ref G i, all_states L -> attained_grid mx data ideal ref G ->
  Z.of_nat (length (filter (fun key => att_b mx data ideal ref (grid_sample (smp key i))) L)) =
  (Z.of_nat (length G) * 2 ^ (19937 - 106))%Z.
Proof.
  intros L mx data ideal ref G i [NL IL] [NG IG].
  destruct (gather_gen (list Z) (Z * Z) (fun key g => generator_state key /\ doubles_are key (2 * i) [fst g; snd g])
              (2 ^ (19937 - 106)) G NG) as [L' [N' [I' C']]].
  - intros key [a b] [a' b'] [Hs Ha] [_ Hb]. cbn [fst snd] in *.
    apply state_wst in Hs. apply doubles_are_iff in Ha, Hb; try exact Hs. cbn [length seq map] in Ha, Hb. congruence.
  - intros [u v] Hg. cbn [fst snd]. apply IG in Hg. destruct Hg as [Hu [Hv _]].
    destruct (C78_doubles_equidistribution (2 * i) [u; v]) as [L0 [N0 [I0 C0]]].
    + cbn [length]. lia.
    + constructor; [ exact Hu | constructor; [ exact Hv | constructor ] ].
    + exists L0. split; [ exact N0 | split; [ exact I0 | ] ]. exact C0.
  - set (K := (2 ^ (19937 - 106))%Z) in *. clearbody K.
    rewrite <- C'. f_equal. apply Permutation_length. apply NoDup_Permutation.
    + now apply NoDup_filter.
    + exact N'.
    + intros key. rewrite filter_In, IL, I', att_b_iff. split.
      * intros [Hs Ha]. exists (smp key i). apply state_wst in Hs as Hw. split.
        -- unfold smp. apply IG. split; [ now apply dbl_range | split; [ now apply dbl_range | exact Ha ] ].
        -- split; [ exact Hs | ]. apply doubles_are_iff; [ exact Hw | ].
           cbn [length seq map smp fst snd]. now replace (S (2 * i)) with (2 * i + 1)%nat by lia.
      * intros [[u v] [Hg [Hs Hd]]]. split; [ exact Hs | ]. apply IG in Hg. destruct Hg as [_ [_ Ha]].
        apply state_wst in Hs. apply doubles_are_iff in Hd; [ | exact Hs ].
        cbn [length seq map fst snd] in Hd. apply list2_inj in Hd. destruct Hd as [<- <-].
        unfold smp. now replace (2 * i + 1)%nat with (S (2 * i)) by lia.
Qed.

Lemma all_states_count : forall L, all_states L -> Z.of_nat (length L) = (2 ^ 19937)%Z.
Proof.
  intros L [NL IL].
  destruct (C78_equidistribution 0 []) as [L' [N' [I' C']]]; [ cbn [length]; lia | constructor | ].
  cbn [length] in C'. change (19937 - 32 * Z.of_nat 0)%Z with 19937%Z in C'.
  rewrite <- C'. f_equal. apply Permutation_length. apply NoDup_Permutation; [ exact NL | exact N' | ].
  intros key. rewrite IL, I'. split; [ | tauto ]. intros H. split; [ exact H | ].
  exists [], (mkMt key (Z.to_nat 624)). split; reflexivity.
Qed.

Lemma values_exist : forall data ref ideal mx n L, proper_box mx ideal ref -> (0 < n)%nat ->
  (forall key, In key L -> wst key) ->
  exists vs, Forall2 (fun key v => whv_hype_from_state data ref ideal mx n key = Ret v) L vs /\
    qsum vs == Qabs (box_area ideal ref) *
      (inject_Z (Z.of_nat (natsum (map (fun key => countb (fun i => att_b mx data ideal ref (grid_sample (smp key i))) (seq 0 n)) L)))
       / inject_Z (Z.of_nat n)).
Proof.
  intros data ref ideal mx n L HB Hn. induction L as [ | key L IH ]; intros HW.
  - exists []. split; [ constructor | ]. cbn [map natsum qsum fold_right]. unfold Qdiv.
    change (inject_Z (Z.of_nat 0)) with 0. ring.
  - destruct IH as [vs [F E]]; [ intros; apply HW; now right | ].
    destruct (value_from_state data ref ideal mx n key HB Hn (HW key (or_introl eq_refl))) as [v [Rv Ev]].
    exists (v :: vs). split; [ constructor; assumption | ].
    cbn [qsum fold_right map natsum]. fold (qsum vs). rewrite E, Ev, Nat2Z.inj_add, inject_Z_plus.
    unfold Qdiv. ring.
Qed.

Lemma pow_split : (2 ^ 19937 = 2 ^ 106 * 2 ^ (19937 - 106))%Z.
Proof.
  assert (G : forall a b, (0 <= a -> 0 <= b -> 2 ^ (a + b) = 2 ^ a * 2 ^ b)%Z)
    by (intros; apply Z.pow_add_r; assumption).
  specialize (G 106 (19937 - 106))%Z. change (106 + (19937 - 106))%Z with 19937%Z in G.
  apply G; discriminate.
Qed.

(** C79 (1): the sum of the estimates over all states is the number of states times the
    area of the box times the fraction of the 2^106 possible samples that are attained,
    for any number of samples per estimate. *)
Theorem C79_mean : forall data ref ideal mx nsamples L G,
  proper_box mx ideal ref -> (0 < nsamples)%nat -> all_states L -> attained_grid mx data ideal ref G ->
  exists vs,
    Forall2 (fun key v => whv_hype_from_state data ref ideal mx nsamples key = Ret v) L vs /\
    qsum vs / inject_Z (Z.of_nat (length L)) ==
    Qabs (box_area ideal ref) * (inject_Z (Z.of_nat (length G)) / inject_Z (2 ^ 106)).
Proof.
  intros data ref ideal mx n L G HB Hn HL HG.
  destruct (values_exist data ref ideal mx n L HB Hn) as [vs [F E]].
  { intros key Hk. apply state_wst. now apply HL. }
  exists vs. split; [ exact F | ]. rewrite E. clear E F.
  rewrite sum_swap.
  rewrite (natsum_const _ (length (filter (fun key => att_b mx data ideal ref (grid_sample (smp key 0))) L))).
  - pose proof (states_hitting L mx data ideal ref G 0 HL HG) as C.
    rewrite seq_length, Nat2Z.inj_mul, C, (all_states_count L HL).
    rewrite pow_split.
    assert (P : (0 < 2 ^ (19937 - 106))%Z) by (apply Z.pow_pos_nonneg; [ reflexivity | discriminate ]).
    set (K := (2 ^ (19937 - 106))%Z) in *. clearbody K.
    set (a := Z.of_nat (length G)). clearbody a.
    assert (Pn : (0 < Z.of_nat n)%Z) by lia. set (m := Z.of_nat n) in *. clearbody m.
    set (A := Qabs (box_area ideal ref)). clearbody A.
    rewrite !inject_Z_mult. field.
    repeat split; unfold Qeq, inject_Z; cbn [Qnum Qden]; lia.
  - intros i. apply Nat2Z.inj. rewrite !(states_hitting L mx data ideal ref G) by assumption. reflexivity.
Qed.

(** ** the grid of samples and the unit cells *)
Lemma nodup_prod : forall (A B : Type) (l : list A) (m : list B), NoDup l -> NoDup m -> NoDup (list_prod l m).
Proof.
  intros A B l m Hl Hm. induction Hl as [ | a l Ha Hl IH ]; [ constructor | ].
  cbn [list_prod].
  assert (K1 : NoDup (map (fun y : B => (a, y)) m))
    by (apply FinFun.Injective_map_NoDup; [ intros x y E; congruence | exact Hm ]).
  assert (Dj : forall x, In x (map (fun y : B => (a, y)) m) -> ~ In x (list_prod l m)).
  { intros [x y] Hx H. apply in_map_iff in Hx. destruct Hx as [z [E _]]. injection E as <- <-.
    apply in_prod_iff in H. now apply Ha. }
  clear -K1 IH Dj. induction K1 as [ | c l1 Hc K1 IH1 ]; [ exact IH | ].
  cbn [app]. constructor.
  - rewrite in_app_iff. intros [G | G]; [ now apply Hc | ]. apply (Dj c); [ now left | exact G ].
  - apply IH1. intros b Hb. apply Dj. now right.
Qed.

(** all pairs of integers with given quotients by D0 and D1 *)
Lemma quotient_block : forall D0 D1 u0 u1, (0 < D0)%Z -> (0 < D1)%Z ->
  exists L, NoDup L /\ (forall w : Z * Z, In w L <-> (fst w / D0 = u0 /\ snd w / D1 = u1)%Z) /\
            Z.of_nat (length L) = (D0 * D1)%Z.
Proof.
  intros D0 D1 u0 u1 H0 H1. exists (list_prod (block u0 D0) (block u1 D1)).
  split; [ apply nodup_prod; apply block_nodup | split ].
  - intros [a b]. rewrite in_prod_iff, !in_block by assumption. reflexivity.
  - rewrite prod_length, Nat2Z.inj_mul, !block_length by assumption. reflexivity.
Qed.

Section Grid.
  Variables (S D0 D1 : Z).
  Hypotheses (HS : (0 < S)%Z) (HD0 : (0 < D0)%Z) (HD1 : (0 < D1)%Z).
  (** the data relative to the ideal point *)
  Variable P : Z -> Z -> Prop.
  Hypothesis HP : forall a b, P a b -> (0 <= a)%Z /\ (0 <= b)%Z.
  Variables G C : list (Z * Z).
  Hypothesis NG : NoDup G.
  Hypothesis NC : NoDup C.
  Hypothesis IG : forall u v, In (u, v) G <-> (0 <= u < S)%Z /\ (0 <= v < S)%Z /\
    exists a b, P a b /\ (a * S <= u * D0)%Z /\ (b * S <= v * D1)%Z.
  Hypothesis IC : forall x y, In (x, y) C <-> (x < D0)%Z /\ (y < D1)%Z /\
    exists a b, P a b /\ (a <= x)%Z /\ (b <= y)%Z.

  Lemma quot_fun : forall E0 E1 (w b b' : Z * Z),
    (fst w / E0 = fst b /\ snd w / E1 = snd b)%Z -> (fst w / E0 = fst b' /\ snd w / E1 = snd b')%Z -> b = b'.
  Proof. intros E0 E1 w [b0 b1] [c0 c1] [H1 H2] [H3 H4]. cbn [fst snd] in *. congruence. Qed.

  Lemma gather_quot : forall E0 E1 (Q : list (Z * Z)), (0 < E0)%Z -> (0 < E1)%Z -> NoDup Q ->
    exists L, NoDup L /\ (forall w : Z * Z, In w L <-> In (fst w / E0, snd w / E1)%Z Q) /\
              Z.of_nat (length L) = (Z.of_nat (length Q) * (E0 * E1))%Z.
  Proof.
    intros E0 E1 Q H0 H1 NQ.
    destruct (gather_gen (Z * Z) (Z * Z) (fun w b => (fst w / E0 = fst b /\ snd w / E1 = snd b)%Z) (E0 * E1)%Z Q NQ)
      as [L [N [I Ct]]].
    - intros w b b'. apply quot_fun.
    - intros [b0 b1] _. now apply quotient_block.
    - exists L. split; [ exact N | split; [ | exact Ct ] ].
      intros w. rewrite I. split.
      + intros [[b0 b1] [Hb [E0' E1']]]. cbn [fst snd] in E0', E1'. rewrite E0', E1'. exact Hb.
      + intros H. eexists. split; [ exact H | ]. split; reflexivity.
  Qed.

  Lemma grid_below : (D0 * D1 * Z.of_nat (length G) <= S * S * Z.of_nat (length C))%Z.
  Proof.
    destruct (gather_quot D0 D1 G HD0 HD1 NG) as [L1 [N1 [I1 C1]]].
    destruct (gather_quot S S C HS HS NC) as [L2 [N2 [I2 C2]]].
    assert (H : (length L1 <= length L2)%nat).
    { apply NoDup_incl_length; [ exact N1 | ]. intros [w0 w1] Hw. apply I1 in Hw. apply I2. cbn [fst snd] in *.
      apply IG in Hw. destruct Hw as [Hu [Hv [a [b [Hab [Ha Hb]]]]]].
      pose proof (Z.div_mod w0 D0 ltac:(lia)) as E0. pose proof (Z.mod_pos_bound w0 D0 HD0).
      pose proof (Z.div_mod w1 D1 ltac:(lia)) as E1. pose proof (Z.mod_pos_bound w1 D1 HD1).
      apply IC. split; [ apply Z.div_lt_upper_bound; nia | split; [ apply Z.div_lt_upper_bound; nia | ] ].
      exists a, b. split; [ exact Hab | split; apply Z.div_le_lower_bound; nia ]. }
    nia.
  Qed.

  Lemma grid_above : (S * S * Z.of_nat (length C) <= D0 * D1 * (Z.of_nat (length G) + 2 * S))%Z.
  Proof.
    set (G3 := map (fun g : Z * Z => (fst g - 1, snd g - 1)%Z) G ++
               map (fun y => (S - 1, y)%Z) (zrange 0 S) ++ map (fun x => (x, S - 1)%Z) (zrange 0 S)).
    assert (dec : forall a b : Z * Z, {a = b} + {a <> b}) by (repeat decide equality).
    assert (L3 : (Z.of_nat (length (nodup dec G3)) <= Z.of_nat (length G) + 2 * S)%Z).
    { assert (LE : (length (nodup dec G3) <= length G3)%nat).
      { apply NoDup_incl_length; [ apply NoDup_nodup | ]. intros x Hx. now apply nodup_In in Hx. }
      assert (E3 : Z.of_nat (length G3) = (Z.of_nat (length G) + 2 * S)%Z).
      { unfold G3. rewrite !app_length, !map_length, !Nat2Z.inj_add, zrange_length. lia. }
      lia. }
    destruct (gather_quot S S C HS HS NC) as [L1 [N1 [I1 C1]]].
    destruct (gather_quot D0 D1 (nodup dec G3) HD0 HD1 (NoDup_nodup dec G3)) as [L2 [N2 [I2 C2]]].
    assert (H : (length L1 <= length L2)%nat).
    { apply NoDup_incl_length; [ exact N1 | ]. intros [w0 w1] Hw. apply I1 in Hw. apply I2. cbn [fst snd] in *.
      apply IC in Hw. destruct Hw as [Hx [Hy [a [b [Hab [Ha Hb]]]]]].
      destruct (HP a b Hab) as [Pa Pb].
      pose proof (Z.div_mod w0 S ltac:(lia)) as E0. pose proof (Z.mod_pos_bound w0 S HS).
      pose proof (Z.div_mod w1 S ltac:(lia)) as E1. pose proof (Z.mod_pos_bound w1 S HS).
      pose proof (Z.div_mod w0 D0 ltac:(lia)) as F0. pose proof (Z.mod_pos_bound w0 D0 HD0).
      pose proof (Z.div_mod w1 D1 ltac:(lia)) as F1. pose proof (Z.mod_pos_bound w1 D1 HD1).
      assert (R0 : (0 <= w0 / D0 < S)%Z) by (split; [ apply Z.div_pos; nia | apply Z.div_lt_upper_bound; nia ]).
      assert (R1 : (0 <= w1 / D1 < S)%Z) by (split; [ apply Z.div_pos; nia | apply Z.div_lt_upper_bound; nia ]).
      apply nodup_In. unfold G3. rewrite !in_app_iff.
      destruct (Z.eq_dec (w0 / D0) (S - 1)) as [T0 | T0].
      - right; left. apply in_map_iff. exists (w1 / D1)%Z. split; [ now rewrite T0 | now apply in_zrange ].
      - destruct (Z.eq_dec (w1 / D1) (S - 1)) as [T1 | T1].
        + right; right. apply in_map_iff. exists (w0 / D0)%Z. split; [ now rewrite T1 | now apply in_zrange ].
        + left. apply in_map_iff. exists (w0 / D0 + 1, w1 / D1 + 1)%Z. cbn [fst snd]. split; [ f_equal; lia | ].
          apply IG. split; [ lia | split; [ lia | ] ].
          exists a, b. split; [ exact Hab | ]. split; nia. }
    nia.
  Qed.
End Grid.

(** the objectives turned into objectives to minimise *)
Definition as_minimised (mx : list bool) (p : list Z) : list Z :=
  map (fun d => if nth d mx false then - nth d p 0 else nth d p 0)%Z (seq 0 2).
Definition rat (p : list Z) : list Q := map inject_Z p.

Lemma rat_nth : forall p d, nth d (rat p) 0 = inject_Z (nth d p 0%Z).
Proof. intros p d. unfold rat. change 0 with (inject_Z 0). apply map_nth. Qed.
Lemma minimised_nth : forall mx p d, (d < 2)%nat ->
  nth d (as_minimised mx p) 0%Z = (if nth d mx false then - nth d p 0 else nth d p 0)%Z.
Proof. intros mx p [ | [ | d ] ] H; [ reflexivity | reflexivity | lia ]. Qed.

Lemma coord_attained : forall (i r p u : Z), 
  inject_Z p <= inject_Z i + Qmake u (2 ^ 53) * (inject_Z r - inject_Z i) <->
  ((p - i) * 2 ^ 53 <= u * (r - i))%Z.
Proof.
  intros i r p u. unfold Qle, Qminus, Qplus, Qmult, Qopp, inject_Z. cbn [Qnum Qden].
  rewrite !Pos.mul_1_l, !Pos.mul_1_r. change (Z.pos (2 ^ 53)) with (2 ^ 53)%Z. split; intros H; lia.
Qed.
Lemma coord_attained_max : forall (i r p u : Z), 
  inject_Z i + Qmake u (2 ^ 53) * (inject_Z r - inject_Z i) <= inject_Z p <->
  ((- p - - i) * 2 ^ 53 <= u * (- r - - i))%Z.
Proof.
  intros i r p u. unfold Qle, Qminus, Qplus, Qmult, Qopp, inject_Z. cbn [Qnum Qden].
  rewrite !Pos.mul_1_l, !Pos.mul_1_r. change (Z.pos (2 ^ 53)) with (2 ^ 53)%Z. split; intros H; lia.
Qed.

Lemma attained_grid_iff : forall mx data ideal ref u v,
  attained mx (map rat data) (rat ideal) (rat ref) (grid_sample (u, v)) <->
  exists p, In p data /\
    forall d, (d < 2)%nat ->
      ((nth d (as_minimised mx p) 0 - nth d (as_minimised mx ideal) 0) * 2 ^ 53 <=
       nth d [u; v] 0 * (nth d (as_minimised mx ref) 0 - nth d (as_minimised mx ideal) 0))%Z.
Proof.
  intros mx data ideal ref u v. unfold attained.
  assert (K : forall p, q_wdom 2 mx (rat p) (location (rat ideal) (rat ref) (grid_sample (u, v))) <->
    forall d, (d < 2)%nat ->
      ((nth d (as_minimised mx p) 0 - nth d (as_minimised mx ideal) 0) * 2 ^ 53 <=
       nth d [u; v] 0 * (nth d (as_minimised mx ref) 0 - nth d (as_minimised mx ideal) 0))%Z).
  { intros p. unfold q_wdom.
    assert (C : forall d, (d < 2)%nat ->
      ((if nth d mx false then nth d (location (rat ideal) (rat ref) (grid_sample (u, v))) 0 <= nth d (rat p) 0
        else nth d (rat p) 0 <= nth d (location (rat ideal) (rat ref) (grid_sample (u, v))) 0) <->
       ((nth d (as_minimised mx p) 0 - nth d (as_minimised mx ideal) 0) * 2 ^ 53 <=
        nth d [u; v] 0 * (nth d (as_minimised mx ref) 0 - nth d (as_minimised mx ideal) 0))%Z)).
    { intros d Hd. rewrite location_nth by exact Hd. rewrite !rat_nth, !minimised_nth by exact Hd.
      replace (nth d (grid_sample (u, v)) 0) with (Qmake (nth d [u; v] 0%Z) (2 ^ 53))
        by (destruct d as [ | [ | d ] ]; [ reflexivity | reflexivity | lia ]).
      destruct (nth d mx false); [ apply coord_attained_max | apply coord_attained ]. }
    split; intros H d Hd; [ apply (proj1 (C d Hd)) | apply (proj2 (C d Hd)) ]; exact (H d Hd). }
  split; intros [p [Hp H]].
  - apply in_map_iff in Hp. destruct Hp as [z [<- Hz]]. exists z. split; [ exact Hz | ]. now apply K.
  - exists (rat p). split; [ now apply in_map | ]. now apply K.
Qed.

Lemma grid_exists : forall mx data ideal ref, exists G, attained_grid mx data ideal ref G.
Proof.
  intros mx data ideal ref.
  assert (E : forall n : Z, exists G, NoDup G /\ forall u v, In (u, v) G <->
    (0 <= u < n)%Z /\ (0 <= v < n)%Z /\ attained mx data ideal ref (grid_sample (u, v))).
  { intros n. exists (filter (fun g => att_b mx data ideal ref (grid_sample g)) (list_prod (zrange 0 n) (zrange 0 n))).
    split; [ apply NoDup_filter, nodup_prod; apply zrange_nodup | ].
    intros u v. rewrite filter_In, in_prod_iff, !in_zrange, att_b_iff. tauto. }
  exact (E (2 ^ 53)%Z).
Qed.

(** C79 (2): whv_hype with uniform weights is unbiased.  For integer data (in some unit)
    none of which is better than the ideal point, the mean over all states of the
    generator of the estimate, for any number of samples, is the hypervolume of the data
    with respect to the reference point, except that it falls short of it by at most
    2^-52 times the area of the box. *)
Theorem C79_unbiased : forall (data : list (list Z)) (ref ideal : list Z) mx nsamples L v,
  proper_box mx (rat ideal) (rat ref) -> (0 < nsamples)%nat -> all_states L ->
  (forall p d, In p data -> (d < 2)%nat ->
     (nth d (as_minimised mx ideal) 0 <= nth d (as_minimised mx p) 0)%Z) ->
  hypervolume (map (as_minimised mx) data) (as_minimised mx ref) v ->
  exists vs,
    Forall2 (fun key x => whv_hype_from_state (map rat data) (rat ref) (rat ideal) mx nsamples key = Ret x) L vs /\
    inject_Z v - Qabs (box_area (rat ideal) (rat ref)) * (1 / inject_Z (2 ^ 52))
      <= qsum vs / inject_Z (Z.of_nat (length L)) <= inject_Z v.
Proof.
  intros data ref ideal mx n L v HB Hn HL Hid (CL & NCL & ICL & ->).
  destruct (grid_exists mx (map rat data) (rat ideal) (rat ref)) as [G HG].
  destruct (C79_mean (map rat data) (rat ref) (rat ideal) mx n L G HB Hn HL HG) as [vs [F E]].
  exists vs. split; [ exact F | ]. rewrite E. clear E F HL L vs Hn.
  set (i := as_minimised mx ideal) in *. set (r := as_minimised mx ref) in *.
  set (D0 := (nth 0 r 0 - nth 0 i 0)%Z). set (D1 := (nth 1 r 0 - nth 1 i 0)%Z).
  assert (HD : forall d, (d < 2)%nat -> (0 < nth d r 0 - nth d i 0)%Z).
  { intros d Hd. specialize (HB d Hd). unfold r, i. rewrite !minimised_nth by exact Hd. rewrite !rat_nth in HB.
    destruct (nth d mx false); unfold Qlt, inject_Z in HB; cbn [Qnum Qden] in HB; lia. }
  assert (EA : Qabs (box_area (rat ideal) (rat ref)) == inject_Z (D0 * D1)).
  { rewrite <- (volume_ok mx) by exact HB. unfold volume_between, qcoord. cbn [seq fold_left].
    rewrite !negate_nth, !rat_nth by lia. unfold D0, D1, r, i. rewrite !minimised_nth by lia.
    rewrite inject_Z_mult. unfold Zminus. rewrite !inject_Z_plus, !inject_Z_opp.
    destruct (nth 0 mx false), (nth 1 mx false); rewrite ?inject_Z_opp; ring. }
  rewrite EA. clear EA.
  set (S := (2 ^ 53)%Z) in *.
  set (P := fun a b => exists p, In p data /\
              a = (nth 0 (as_minimised mx p) 0 - nth 0 i 0)%Z /\ b = (nth 1 (as_minimised mx p) 0 - nth 1 i 0)%Z).
  set (C := map (fun z => (nth 0 z 0 - nth 0 i 0, nth 1 z 0 - nth 1 i 0)%Z) CL).
  assert (HPp : forall a b, P a b -> (0 <= a)%Z /\ (0 <= b)%Z).
  { intros a b [p [Hp [-> ->]]]. pose proof (Hid p 0%nat Hp ltac:(lia)). pose proof (Hid p 1%nat Hp ltac:(lia)). lia. }
  assert (IGG : forall u w, In (u, w) G <-> (0 <= u < S)%Z /\ (0 <= w < S)%Z /\
    exists a b, P a b /\ (a * S <= u * D0)%Z /\ (b * S <= w * D1)%Z).
  { intros u w. rewrite (proj2 HG u w). rewrite attained_grid_iff. fold i r S.
    split; intros [Hu [Hw K]]; (split; [ exact Hu | split; [ exact Hw | ] ]).
    - destruct K as [p [Hp K]]. pose proof (K 0%nat ltac:(lia)) as K0. pose proof (K 1%nat ltac:(lia)) as K1.
      cbn [nth] in K0, K1. do 2 eexists. split; [ exists p; split; [ exact Hp | split; reflexivity ] | ].
      split; [ exact K0 | exact K1 ].
    - destruct K as [a [b [[p [Hp [-> ->]]] [K0 K1]]]]. exists p. split; [ exact Hp | ].
      intros [ | [ | d ] ] Hd; [ exact K0 | exact K1 | lia ]. }
  pose proof (proj1 HG) as NGG. clear HG HB.
  assert (LR : length r = 2%nat) by reflexivity.
  clearbody r i.
  assert (ICC : forall x y, In (x, y) C <-> (x < D0)%Z /\ (y < D1)%Z /\
    exists a b, P a b /\ (a <= x)%Z /\ (b <= y)%Z).
  { intros x y. unfold C. rewrite in_map_iff. split.
    - intros [z [Ez Hz]]. apply ICL in Hz. destruct Hz as [HLz [[q [Hq Hle]] Hlt]].
      apply in_map_iff in Hq. destruct Hq as [p [<- Hp]]. rewrite LR in Hle, Hlt.
      pose proof (Hle 0%nat ltac:(lia)) as A0. pose proof (Hle 1%nat ltac:(lia)) as A1.
      pose proof (Hlt 0%nat ltac:(lia)) as B0. pose proof (Hlt 1%nat ltac:(lia)) as B1.
      unfold coord in *. injection Ez as <- <-. unfold D0, D1. split; [ lia | split; [ lia | ] ].
      do 2 eexists. split; [ exists p; split; [ exact Hp | split; reflexivity ] | ]. lia.
    - intros [Hx [Hy [a [b [[p [Hp [-> ->]]] [K0 K1]]]]]].
      exists [x + nth 0 i 0; y + nth 1 i 0]%Z. cbn [nth]. split; [ f_equal; lia | ].
      apply ICL. unfold dominated_cell. rewrite LR. split; [ reflexivity | split ].
      + exists (as_minimised mx p). split; [ now apply in_map | ]. unfold coord.
        intros [ | [ | d ] ] Hd; cbn [nth]; [ lia | lia | lia ].
      + unfold coord. unfold D0, D1 in Hx, Hy. intros [ | [ | d ] ] Hd; cbn [nth]; [ lia | lia | lia ]. }
  assert (NCC : NoDup C).
  { unfold C. clear ICC.
    assert (Hz2 : forall z, In z CL -> length z = 2%nat) by (intros z Hz; apply ICL in Hz; destruct Hz as [Hz _]; now rewrite Hz).
    clear ICL. induction NCL as [ | z CL Hz NCL IH ]; [ constructor | ]. cbn [map]. constructor.
    - intros Hi. apply in_map_iff in Hi. destruct Hi as [z' [Ez Hz']]. apply Hz.
      pose proof (Hz2 z (or_introl eq_refl)) as L1. pose proof (Hz2 z' (or_intror Hz')) as L2.
      destruct z as [ | z0 [ | z1 [ | ] ] ]; try discriminate. destruct z' as [ | z0' [ | z1' [ | ] ] ]; try discriminate.
      cbn [nth] in Ez. injection Ez as E0 E1.
      replace z0 with z0' by lia. replace z1 with z1' by lia. exact Hz'.
    - apply IH. intros. apply Hz2. now right. }
  assert (PS : (0 < S)%Z) by reflexivity.
  pose proof (HD 0%nat ltac:(lia)) as P0. pose proof (HD 1%nat ltac:(lia)) as P1. fold D0 in P0. fold D1 in P1.
  pose proof (grid_below S D0 D1 PS P0 P1 P G C NGG NCC IGG ICC) as B1.
  pose proof (grid_above S D0 D1 PS P0 P1 P HPp G C NCC IGG ICC) as B2.
  assert (EC : length C = length CL) by (unfold C; apply map_length). rewrite EC in B1, B2.
  set (N := Z.of_nat (length G)) in *. set (V := Z.of_nat (length CL)) in *. clearbody N V.
  clear - B1 B2. clearbody D0 D1. unfold S in B1, B2. clear S.
  assert (EQ : inject_Z (D0 * D1) * (inject_Z N / inject_Z (2 ^ 106)) == (D0 * D1 * N) # (2 ^ 106)).
  { unfold Qdiv, Qinv, Qmult, Qeq, inject_Z. cbn [Qnum Qden]. change (2 ^ 106)%Z with (Z.pos (2 ^ 106)). cbn [Qnum Qden].
    rewrite ?Pos.mul_1_l, ?Pos.mul_1_r, ?Pos2Z.inj_mul. ring. }
  assert (EQ2 : inject_Z V - inject_Z (D0 * D1) * (1 / inject_Z (2 ^ 52)) == (V * 2 ^ 52 - D0 * D1) # (2 ^ 52)).
  { unfold Qdiv, Qinv, Qminus, Qopp, Qplus, Qmult, Qeq, inject_Z. cbn [Qnum Qden].
    change (2 ^ 52)%Z with (Z.pos (2 ^ 52)). cbn [Qnum Qden].
    rewrite ?Pos.mul_1_l, ?Pos.mul_1_r, ?Pos2Z.inj_mul. ring. }
  rewrite EQ, EQ2. unfold Qle, inject_Z. cbn [Qnum Qden].
  change (Z.pos (2 ^ 106)) with (2 ^ 106)%Z. change (Z.pos (2 ^ 52)) with (2 ^ 52)%Z.
  split; lia.
Qed.

(** The hypotheses are met by two points in a box, one objective being maximised. *)
Example C79_example :
  exists L v, all_states L /\
    proper_box [false; true] (rat [0; 10]%Z) (rat [10; 0]%Z) /\
    (forall p d, In p [[2; 6]; [5; 9]]%Z -> (d < 2)%nat ->
       (nth d (as_minimised [false; true] [0; 10]%Z) 0 <= nth d (as_minimised [false; true] p) 0)%Z) /\
    hypervolume (map (as_minimised [false; true]) [[2; 6]; [5; 9]]%Z) (as_minimised [false; true] [10; 0]%Z) v /\ v = 63%Z.
Proof.
  destruct (C78_equidistribution 0 []) as [L [N [I _]]]; [ cbn [length]; lia | constructor | ].
  exists L, 63%Z. split; [ split; [ exact N | ] | split; [ | split; [ | split; [ | reflexivity ] ] ] ].
  - intros key. rewrite I. split; [ tauto | ]. intros H. split; [ exact H | ].
    exists [], (mkMt key (Z.to_nat 624)). split; reflexivity.
  - intros [ | [ | d ] ] H; [ reflexivity | reflexivity | lia ].
  - intros p [ | [ | d ] ] [<- | [<- | []]] Hd; cbn; lia.
  - set (box := list_prod (zrange 2 10) (zrange (-9) 0)).
    set (f := fun g : Z * Z => ((2 <=? fst g) && (-6 <=? snd g) || (5 <=? fst g) && (-9 <=? snd g))%Z%bool).
    exists (map (fun g => [fst g; snd g]) (filter f box)). split; [ | split ].
    + apply FinFun.Injective_map_NoDup; [ intros [a b] [c d] E; cbn in E; congruence | ].
      apply NoDup_filter, nodup_prod; apply zrange_nodup.
    + intros z. rewrite in_map_iff. unfold dominated_cell. split.
      * intros [[a b] [<- Hg]]. cbn [fst snd]. apply filter_In in Hg. destruct Hg as [Hb Hf].
        apply in_prod_iff in Hb. destruct Hb as [Ha Hb]. apply in_zrange in Ha, Hb. unfold f in Hf. cbn [fst snd] in Hf.
        split; [ reflexivity | split ].
        -- apply orb_true_iff in Hf. destruct Hf as [Hf | Hf]; apply andb_true_iff in Hf; destruct Hf as [F0 F1];
             apply Z.leb_le in F0, F1.
           ++ exists [2; -6]%Z. split; [ now left | ]. intros [ | [ | d ] ] Hd; cbn in *; lia.
           ++ exists [5; -9]%Z. split; [ right; now left | ]. intros [ | [ | d ] ] Hd; cbn in *; lia.
        -- intros [ | [ | d ] ] Hd; cbn in *; lia.
      * intros [HL [[p [Hp Hle]] Hlt]]. cbn [length as_minimised seq map] in HL, Hle, Hlt.
        destruct z as [ | a [ | b [ | ] ] ]; try discriminate.
        pose proof (Hle 0%nat ltac:(lia)) as A0. pose proof (Hle 1%nat ltac:(lia)) as A1.
        pose proof (Hlt 0%nat ltac:(lia)) as B0. pose proof (Hlt 1%nat ltac:(lia)) as B1.
        exists (a, b). split; [ reflexivity | ]. apply filter_In. unfold coord in *. cbn in A0, A1, B0, B1.
        destruct Hp as [<- | [<- | []]]; cbn in A0, A1.
        -- split; [ apply in_prod_iff; rewrite !in_zrange; lia | ]. unfold f. cbn [fst snd].
           apply orb_true_iff. left. apply andb_true_iff. split; apply Z.leb_le; lia.
        -- split; [ apply in_prod_iff; rewrite !in_zrange; lia | ]. unfold f. cbn [fst snd].
           apply orb_true_iff. right. apply andb_true_iff. split; apply Z.leb_le; lia.
    + vm_compute. reflexivity.
Qed.

Print Assumptions C79_same_program.
Print Assumptions C79_mean.
Print Assumptions C79_unbiased.
