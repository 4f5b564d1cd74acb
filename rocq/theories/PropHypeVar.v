(** C81: how far whv_hype with uniform weights is from its mean, over the states of the
    generator. *)
From Coq Require Import List ZArith Lia Bool Arith FinFun Permutation QArith Qabs Qfield Lqa.
From Verif Require Import Base NormSpec NormModel HvSpec HypeSpec HypeModel MtSpec MtModel MtProofs PropMt PropHype
  MtEqui PropMtEqui PropHypeMean.
Import ListNotations.
Open Scope Q_scope.

(** ** two samples *)
Lemma vecs : forall (R : Z) m, (0 <= R)%Z ->
  exists V, NoDup V /\ (forall v, In v V <-> length v = m /\ Forall (fun x => 0 <= x < R)%Z v) /\
            Z.of_nat (length V) = (R ^ Z.of_nat m)%Z.
Proof.
  intros R m HR. induction m as [ | m IH ].
  - exists [[]]. split; [ | split ].
    + constructor; [ intros [] | constructor ].
    + intros v. split.
      * intros [<- | []]. split; [ reflexivity | constructor ].
      * intros [H _]. destruct v; [ now left | discriminate ].
    + reflexivity.
  - destruct IH as [V [NV [IV CV]]].
    exists (map (fun x : Z * list Z => fst x :: snd x) (list_prod (zrange 0 R) V)). split; [ | split ].
    + apply FinFun.Injective_map_NoDup.
      * intros [a v] [b w] E. cbn [fst snd] in E. injection E as -> ->. reflexivity.
      * apply nodup_prod; [ apply zrange_nodup | exact NV ].
    + intros v. rewrite in_map_iff. split.
      * intros [[a w] [<- H]]. apply in_prod_iff in H. destruct H as [Ha Hw]. apply in_zrange in Ha. apply IV in Hw.
        destruct Hw as [Hl Hw]. cbn [fst snd length]. split; [ now rewrite Hl | constructor; [ lia | exact Hw ] ].
      * intros [Hl Hw]. destruct v as [ | a w ]; [ discriminate | ]. exists (a, w). split; [ reflexivity | ].
        inversion_clear Hw. apply in_prod_iff. split; [ apply in_zrange; lia | apply IV ].
        split; [ now injection Hl | assumption ].
    + rewrite map_length, prod_length, Nat2Z.inj_mul, CV, zrange_length, Nat2Z.inj_succ, Z.pow_succ_r by lia. f_equal. lia.
Qed.

Definition flat (b : (Z * Z) * list Z * (Z * Z)) : list Z :=
  fst (fst (fst b)) :: snd (fst (fst b)) :: snd (fst b) ++ [fst (snd b); snd (snd b)].
Lemma flat_length : forall b, length (flat b) = (length (snd (fst b)) + 4)%nat.
Proof. intros b. unfold flat. cbn [length]. rewrite app_length. cbn [length]. lia. Qed.
Lemma app_inj_len : forall (a b c d : list Z), length a = length b -> a ++ c = b ++ d -> a = b /\ c = d.
Proof.
  induction a as [ | x a IH ]; intros [ | y b ] c d H E; try discriminate; [ now split | ].
  cbn [app] in E. injection E as -> E. injection H as H. destruct (IH b c d H E) as [-> ->]. now split.
Qed.
Lemma flat_inj : forall b b', length (snd (fst b)) = length (snd (fst b')) -> flat b = flat b' -> b = b'.
Proof.
  intros [[[a0 a1] m] [c0 c1]] [[[a0' a1'] m'] [c0' c1']] H E. unfold flat in E. cbn [fst snd] in *.
  injection E as -> -> E. apply app_inj_len in E; [ | exact H ]. destruct E as [-> E]. apply list2_inj in E.
  destruct E as [-> ->]. reflexivity.
Qed.
Lemma pow_sum : forall a b c, (0 <= a -> 0 <= b -> a + b = c -> 2 ^ a * 2 ^ b = 2 ^ c)%Z.
Proof. intros a b c Ha Hb <-. symmetry. now apply Z.pow_add_r. Qed.
Lemma pow_mul : forall a b, (0 <= a -> 0 <= b -> (2 ^ a) ^ b = 2 ^ (a * b))%Z.
Proof. intros. symmetry. apply Z.pow_mul_r; assumption. Qed.

(** the doubles between two samples *)
Lemma window_split : forall key i k,
  map (dbl key) (seq (2 * i) (2 * k + 4)) =
  flat (smp key i, map (dbl key) (seq (2 * i + 2) (2 * k)), smp key (i + S k)).
Proof.
  intros key i k. replace (2 * k + 4)%nat with (2 + (2 * k + 2))%nat by lia. rewrite seq_app, map_app, seq_app, map_app.
  unfold flat, smp. cbn [fst snd seq map app].
  replace (S (2 * i)) with (2 * i + 1)%nat by lia.
  replace (2 * (i + S k))%nat with (2 * i + 2 + 2 * k)%nat by lia.
  replace (S (2 * i + 2 + 2 * k)) with (2 * i + 2 + 2 * k + 1)%nat by lia. reflexivity.
Qed.

Lemma pairs_hitting : forall L mx data ideal ref G i k, all_states L -> attained_grid mx data ideal ref G ->
  (k <= 153)%nat ->
  Z.of_nat (length (filter (fun key => att_b mx data ideal ref (grid_sample (smp key i)) &&
                                       att_b mx data ideal ref (grid_sample (smp key (i + S k)))) L)) =
  (Z.of_nat (length G) * Z.of_nat (length G) * 2 ^ (19937 - 212))%Z.
Proof.
  intros L mx data ideal ref G i k [NL IL] [NG IG] Hk.
  destruct (vecs (2 ^ 53) (2 * k)) as [V [NV [IV CV]]]; [ apply Z.pow_nonneg; discriminate | ].
  destruct (gather_gen (list Z) ((Z * Z) * list Z * (Z * Z))
              (fun key b => generator_state key /\ length (snd (fst b)) = (2 * k)%nat /\ doubles_are key (2 * i) (flat b))
              (2 ^ (19937 - 53 * Z.of_nat (2 * k + 4))) (list_prod (list_prod G V) G)) as [L' [N' [I' C']]].
  - apply nodup_prod; [ apply nodup_prod; assumption | exact NG ].
  - intros key b b' [Hs [Hl Ha]] [_ [Hl' Hb]]. apply state_wst in Hs.
    apply doubles_are_iff in Ha; [ | exact Hs ]. apply doubles_are_iff in Hb; [ | exact Hs ].
    rewrite flat_length, Hl in Ha. rewrite flat_length, Hl' in Hb.
    apply flat_inj; [ now rewrite Hl, Hl' | ]. rewrite <- Ha. exact Hb.
  - intros [[g m] h] Hb. apply in_prod_iff in Hb. destruct Hb as [Hb Hh]. apply in_prod_iff in Hb. destruct Hb as [Hg Hm].
    destruct g as [g0 g1]. destruct h as [h0 h1]. apply IG in Hg. apply IG in Hh. apply IV in Hm.
    destruct Hg as [Hg0 [Hg1 _]]. destruct Hh as [Hh0 [Hh1 _]]. destruct Hm as [Hl Hm].
    destruct (C78_doubles_equidistribution (2 * i) (flat (g0, g1, m, (h0, h1)))) as [L0 [N0 [I0 C0]]].
    + rewrite flat_length. cbn [fst snd]. rewrite Hl. lia.
    + unfold flat. cbn [fst snd]. constructor; [ exact Hg0 | constructor; [ exact Hg1 | ] ].
      apply Forall_app. split; [ exact Hm | ]. constructor; [ exact Hh0 | constructor; [ exact Hh1 | constructor ] ].
    + exists L0. split; [ exact N0 | split ].
      * intros key. rewrite I0. cbn [fst snd]. tauto.
      * rewrite flat_length in C0. cbn [fst snd] in C0. rewrite Hl in C0. exact C0.
  - assert (EK : ((2 ^ 53) ^ Z.of_nat (2 * k) * 2 ^ (19937 - 53 * Z.of_nat (2 * k + 4)) = 2 ^ (19937 - 212))%Z).
    { rewrite pow_mul by lia. apply pow_sum; lia. }
    rewrite !prod_length, !Nat2Z.inj_mul, CV in C'.
    set (K := (2 ^ (19937 - 212))%Z) in *.
    set (K1 := (2 ^ (19937 - 53 * Z.of_nat (2 * k + 4)))%Z) in *. set (K2 := ((2 ^ 53) ^ Z.of_nat (2 * k))%Z) in *.
    clearbody K K1 K2.
    assert (E : (Z.of_nat (length G) * Z.of_nat (length G) * K)%Z = Z.of_nat (length L')).
    { rewrite C', <- EK. ring. }
    rewrite E. f_equal. apply Permutation_length. apply NoDup_Permutation.
    + now apply NoDup_filter.
    + exact N'.
    + intros key. rewrite filter_In, andb_true_iff, IL, I', !att_b_iff. split.
      * intros [Hs [Ha Hb]]. apply state_wst in Hs as Hw.
        exists (smp key i, map (dbl key) (seq (2 * i + 2) (2 * k)), smp key (i + S k)). split.
        -- rewrite !in_prod_iff. split; [ split | ].
           ++ unfold smp. apply IG. split; [ now apply dbl_range | split; [ now apply dbl_range | exact Ha ] ].
           ++ apply IV. rewrite map_length, seq_length. split; [ reflexivity | ].
              apply Forall_forall. intros x Hx. apply in_map_iff in Hx. destruct Hx as [j [<- _]]. now apply dbl_range.
           ++ unfold smp. apply IG. split; [ now apply dbl_range | split; [ now apply dbl_range | exact Hb ] ].
        -- cbn [fst snd]. rewrite map_length, seq_length. split; [ exact Hs | split; [ reflexivity | ] ].
           apply doubles_are_iff; [ exact Hw | ]. rewrite flat_length. cbn [fst snd]. rewrite map_length, seq_length.
           apply window_split.
      * intros [[[g m] h] [Hb [Hs [Hl Hd]]]]. cbn [fst snd] in Hl. split; [ exact Hs | ].
        apply in_prod_iff in Hb. destruct Hb as [Hb Hh]. apply in_prod_iff in Hb. destruct Hb as [Hg Hm].
        apply state_wst in Hs. apply doubles_are_iff in Hd; [ | exact Hs ].
        rewrite flat_length in Hd. cbn [fst snd] in Hd. rewrite Hl, window_split in Hd.
        apply flat_inj in Hd; [ | cbn [fst snd]; rewrite map_length, seq_length; now rewrite Hl ].
        assert (Eg : smp key i = g) by (apply (f_equal (fun b => fst (fst b))) in Hd; exact Hd).
        assert (Eh : smp key (i + S k) = h) by (apply (f_equal snd) in Hd; exact Hd).
        rewrite Eg, Eh. destruct g as [g0 g1]. destruct h as [h0 h1].
        apply IG in Hg. apply IG in Hh. tauto.
Qed.

(** ** sums over the states *)
Definition sumQ {A : Type} (f : A -> Q) (l : list A) : Q := qsum (map f l).
Lemma sum_ext : forall (A : Type) (f g : A -> Q) l, (forall x, In x l -> f x == g x) -> sumQ f l == sumQ g l.
Proof.
  intros A f g l H. unfold sumQ. induction l as [ | a l IH ]; cbn [map qsum fold_right]; [ reflexivity | ].
  fold (qsum (map f l)) (qsum (map g l)). rewrite (H a (or_introl eq_refl)), IH by (intros; apply H; now right). reflexivity.
Qed.
Lemma sum_plus : forall (A : Type) (f g : A -> Q) l, sumQ (fun x => f x + g x) l == sumQ f l + sumQ g l.
Proof.
  intros A f g l. unfold sumQ. induction l as [ | a l IH ]; cbn [map qsum fold_right]; [ reflexivity | ].
  fold (qsum (map f l)) (qsum (map g l)) (qsum (map (fun x => f x + g x) l)). rewrite IH. ring.
Qed.
Lemma sum_scal : forall (A : Type) (f : A -> Q) c l, sumQ (fun x => c * f x) l == c * sumQ f l.
Proof.
  intros A f c l. unfold sumQ. induction l as [ | a l IH ]; cbn [map qsum fold_right]; [ ring | ].
  fold (qsum (map f l)) (qsum (map (fun x => c * f x) l)). rewrite IH. ring.
Qed.
Lemma sum_le : forall (A : Type) (f g : A -> Q) l, (forall x, In x l -> f x <= g x) -> sumQ f l <= sumQ g l.
Proof.
  intros A f g l H. unfold sumQ. induction l as [ | a l IH ]; cbn [map qsum fold_right]; [ apply Qle_refl | ].
  fold (qsum (map f l)) (qsum (map g l)). apply Qplus_le_compat; [ apply H; now left | apply IH; intros; apply H; now right ].
Qed.
Lemma sum_const : forall (A : Type) c (l : list A), sumQ (fun _ => c) l == inject_Z (Z.of_nat (length l)) * c.
Proof.
  intros A c l. unfold sumQ. induction l as [ | a l IH ]; [ change (inject_Z (Z.of_nat (length (@nil A)))) with 0; cbn; ring | ].
  cbn [map qsum fold_right length]. fold (qsum (map (fun _ : A => c) l)).
  rewrite IH, Nat2Z.inj_succ, <- Z.add_1_r, inject_Z_plus. change (inject_Z 1) with 1. ring.
Qed.
Definition ind (b : bool) : Q := if b then 1 else 0.
Lemma sum_ind : forall (A : Type) (b : A -> bool) l, sumQ (fun x => ind (b x)) l == inject_Z (Z.of_nat (length (filter b l))).
Proof.
  intros A b l. unfold sumQ. induction l as [ | a l IH ]; [ reflexivity | ].
  cbn [map qsum fold_right filter]. fold (qsum (map (fun x => ind (b x)) l)). rewrite IH.
  destruct (b a); cbn [ind length]; [ | ring ].
  rewrite Nat2Z.inj_succ, <- Z.add_1_r, inject_Z_plus. change (inject_Z 1) with 1. ring.
Qed.
Lemma ind_mul : forall a b, ind a * ind b == ind (a && b).
Proof. intros [] []; reflexivity. Qed.

Section Variance.
  Variable L : list (list Z).
  Variable hit : list Z -> nat -> bool.
  Variables N p : Q.
  Hypothesis HN : inject_Z (Z.of_nat (length L)) == N.
  Hypothesis H1 : forall i, sumQ (fun key => ind (hit key i)) L == N * p.
  Hypothesis H2 : forall i k, (k <= 153)%nat ->
    sumQ (fun key => ind (hit key i && hit key (i + S k))) L == N * (p * p).

  Let X (key : list Z) (i : nat) : Q := ind (hit key i) - p.
  Let S (key : list Z) (s m : nat) : Q := sumQ (X key) (seq s m).

  Lemma var_one : forall i, sumQ (fun key => X key i * X key i) L == N * (p * (1 - p)).
  Proof.
    intros i.
    rewrite (sum_ext _ _ (fun key => (1 - 2 * p) * ind (hit key i) + p * p)).
    2:{ intros key _. unfold X. pose proof (ind_mul (hit key i) (hit key i)) as E. rewrite andb_diag in E.
        transitivity (ind (hit key i) * ind (hit key i) - 2 * p * ind (hit key i) + p * p); [ ring | ]. rewrite E. ring. }
    rewrite sum_plus, sum_scal, sum_const, HN, H1. ring.
  Qed.
  Lemma cov_two : forall i k, (k <= 153)%nat -> sumQ (fun key => X key i * X key (i + Datatypes.S k)) L == 0.
  Proof.
    intros i k Hk.
    rewrite (sum_ext _ _ (fun key => ind (hit key i && hit key (i + Datatypes.S k)) +
      (- p * ind (hit key i) + (- p * ind (hit key (i + Datatypes.S k)) + p * p)))).
    2:{ intros key _. unfold X. rewrite <- ind_mul. ring. }
    rewrite !sum_plus, !sum_scal, sum_const, HN, !H1, H2 by exact Hk. ring.
  Qed.
  Lemma S_succ : forall key s m, S key s (Datatypes.S m) == S key s m + X key (s + m).
  Proof.
    intros key s m. unfold S, sumQ. rewrite seq_S, map_app. cbn [map].
    assert (E : forall l x, qsum (l ++ [x]) == qsum l + x).
    { induction l as [ | a l IH ]; intros x; cbn [app qsum fold_right]; [ ring | ].
      fold (qsum (l ++ [x])) (qsum l). rewrite IH. ring. }
    apply E.
  Qed.
  Lemma S_zero : forall key s, S key s 0 == 0.
  Proof. reflexivity. Qed.
  Lemma S_app : forall key s m n, S key s (m + n) == S key s m + S key (s + m) n.
  Proof.
    intros key s m n. induction n as [ | n IH ].
    - rewrite Nat.add_0_r, S_zero. ring.
    - rewrite Nat.add_succ_r, !S_succ, IH. replace (s + (m + n))%nat with (s + m + n)%nat by lia. ring.
  Qed.
  Lemma cov_sum : forall s m j, (forall i, (s <= i < s + m)%nat -> (i < j <= i + 154)%nat) ->
    sumQ (fun key => S key s m * X key j) L == 0.
  Proof.
    intros s m j. induction m as [ | m IH ]; intros H.
    - rewrite (sum_ext _ _ (fun _ => 0)) by (intros; rewrite S_zero; ring). rewrite sum_const. ring.
    - rewrite (sum_ext _ _ (fun key => S key s m * X key j + X key (s + m) * X key j))
        by (intros; rewrite S_succ; ring).
      rewrite sum_plus, IH by (intros; apply H; lia).
      specialize (H (s + m)%nat ltac:(lia)).
      replace j with (s + m + Datatypes.S (j - (s + m) - 1))%nat by lia.
      rewrite cov_two by lia. ring.
  Qed.
  (** up to 155 consecutive samples are pairwise uncorrelated *)
  Lemma var_sum : forall s m, (m <= 155)%nat ->
    sumQ (fun key => S key s m * S key s m) L == inject_Z (Z.of_nat m) * (N * (p * (1 - p))).
  Proof.
    intros s m. induction m as [ | m IH ]; intros Hm.
    - rewrite (sum_ext _ _ (fun _ => 0)) by (intros; rewrite S_zero; ring). rewrite sum_const.
      change (inject_Z (Z.of_nat 0)) with 0. ring.
    - rewrite (sum_ext _ _ (fun key => S key s m * S key s m + (2 * (S key s m * X key (s + m)) + X key (s + m) * X key (s + m))))
        by (intros; rewrite S_succ; ring).
      rewrite !sum_plus, sum_scal, var_one, IH, cov_sum by lia.
      rewrite Nat2Z.inj_succ, <- Z.add_1_r, inject_Z_plus. change (inject_Z 1) with 1. ring.
  Qed.

  Hypothesis Hv : 0 <= N * (p * (1 - p)).
  (** any number of samples, in blocks of 155 *)
  Lemma var_blocks : forall B s n, (n <= 155 * B)%nat ->
    sumQ (fun key => S key s n * S key s n) L <=
    inject_Z (Z.of_nat B) * (inject_Z (Z.of_nat n) * (N * (p * (1 - p)))).
  Proof.
    set (v := N * (p * (1 - p))) in *.
    induction B as [ | B IH ]; intros s n Hn.
    - replace n with 0%nat by lia.
      rewrite (sum_ext _ _ (fun _ => 0)) by (intros; rewrite S_zero; ring). rewrite sum_const.
      change (inject_Z (Z.of_nat 0)) with 0. rewrite !Qmult_0_l, Qmult_0_r. apply Qle_refl.
    - assert (PB : 0 <= inject_Z (Z.of_nat B)) by (unfold Qle, inject_Z; cbn [Qnum Qden]; lia).
      assert (Pn : 0 <= inject_Z (Z.of_nat n)) by (unfold Qle, inject_Z; cbn [Qnum Qden]; lia).
      assert (EB : inject_Z (Z.of_nat (Datatypes.S B)) == inject_Z (Z.of_nat B) + 1).
      { rewrite Nat2Z.inj_succ, <- Z.add_1_r, inject_Z_plus. reflexivity. }
      rewrite EB.
      destruct (le_lt_dec n (155 * B)) as [Hs | Hs].
      + eapply Qle_trans; [ apply IH; exact Hs | ].
        assert (0 <= inject_Z (Z.of_nat n) * v) by (apply Qmult_le_0_compat; assumption). lra.
      + destruct B as [ | B' ].
        * rewrite var_sum by lia. fold v. change (inject_Z (Z.of_nat 0)) with 0. lra.
        * set (b := inject_Z (Z.of_nat (Datatypes.S B'))) in *.
          assert (Pb : 1 <= b) by (unfold b, Qle, inject_Z; cbn [Qnum Qden]; lia).
          set (n1 := (155 * Datatypes.S B')%nat) in *. set (m := (n - n1)%nat).
          assert (Em : n = (n1 + m)%nat) by (unfold m; lia).
          assert (Hm : (m <= 155)%nat) by (unfold m, n1 in *; lia).
          specialize (IH s n1 (le_n _)). pose proof (var_sum (s + n1) m Hm) as Vm. fold v in Vm.
          assert (I : forall key, In key L -> S key s n * S key s n <=
            (1 + / b) * (S key s n1 * S key s n1) + (1 + b) * (S key (s + n1) m * S key (s + n1) m)).
          { intros key _. rewrite Em, S_app. set (x := S key s n1). set (y := S key (s + n1) m).
            assert (K : 0 <= / b * ((x - b * y) * (x - b * y))).
            { apply Qmult_le_0_compat; [ apply Qinv_le_0_compat; lra | ]. 
              destruct (Qlt_le_dec (x - b * y) 0) as [T | T]; [ | now apply Qmult_le_0_compat ].
              setoid_replace ((x - b * y) * (x - b * y)) with ((- (x - b * y)) * (- (x - b * y))) by ring.
              apply Qmult_le_0_compat; lra. }
            assert (K2 : / b * ((x - b * y) * (x - b * y)) == / b * (x * x) - 2 * (x * y) + b * (y * y)) by (field; lra).
            rewrite K2 in K. 
            setoid_replace ((x + y) * (x + y)) with (x * x + 2 * (x * y) + y * y) by ring.
            setoid_replace ((1 + / b) * (x * x) + (1 + b) * (y * y)) with (x * x + / b * (x * x) + y * y + b * (y * y)) by ring.
            lra. }
          apply sum_le in I. eapply Qle_trans; [ exact I | ].
          rewrite sum_plus, !sum_scal, Vm.
          assert (J : (1 + / b) * sumQ (fun key => S key s n1 * S key s n1) L <= (1 + / b) * (b * (inject_Z (Z.of_nat n1) * v))).
          { rewrite !(Qmult_comm (1 + / b)). apply Qmult_le_compat_r; [ exact IH | ]. assert (0 <= / b) by (apply Qinv_le_0_compat; lra). lra. }
          assert (J2 : (1 + / b) * (b * (inject_Z (Z.of_nat n1) * v)) == (b + 1) * (inject_Z (Z.of_nat n1) * v)) by (field; lra).
          rewrite J2 in J.
          assert (En : inject_Z (Z.of_nat n) == inject_Z (Z.of_nat n1) + inject_Z (Z.of_nat m)).
          { rewrite Em, Nat2Z.inj_add, inject_Z_plus. reflexivity. }
          rewrite En. setoid_replace ((b + 1) * ((inject_Z (Z.of_nat n1) + inject_Z (Z.of_nat m)) * v))
            with ((b + 1) * (inject_Z (Z.of_nat n1) * v) + (1 + b) * (inject_Z (Z.of_nat m) * v)) by ring.
          lra.
  Qed.
End Variance.

(** ** the estimates *)
(** the fraction of the 2^106 possible samples that are attained *)
Definition fraction (G : list (Z * Z)) : Q := inject_Z (Z.of_nat (length G)) / inject_Z (2 ^ 106).
(** the mean of the estimates, by C79_mean *)
Definition mean_estimate (ideal ref : list Q) (G : list (Z * Z)) : Q := Qabs (box_area ideal ref) * fraction G.

Section Estimates.
  Variables (L : list (list Z)) (mx : list bool) (data : list (list Q)) (ideal ref : list Q) (G : list (Z * Z)).
  Hypothesis HL : all_states L.
  Hypothesis HG : attained_grid mx data ideal ref G.
  Let hit (key : list Z) (i : nat) : bool := att_b mx data ideal ref (grid_sample (smp key i)).
  Let N : Q := inject_Z (Z.of_nat (length L)).
  Let p : Q := fraction G.

  Lemma N_split : forall a K, (2 ^ a * K = 2 ^ 19937)%Z -> N == inject_Z (2 ^ a) * inject_Z K.
  Proof. intros a K E. unfold N. rewrite (all_states_count L HL), <- E, inject_Z_mult. reflexivity. Qed.
  Lemma N_pos : 0 < N.
  Proof.
    unfold N. rewrite (all_states_count L HL).
    assert (P : (0 < 2 ^ 19937)%Z) by (apply Z.pow_pos_nonneg; [ reflexivity | discriminate ]).
    set (K := (2 ^ 19937)%Z) in *. clearbody K. unfold Qlt, inject_Z. cbn [Qnum Qden]. lia.
  Qed.
  Lemma hit_one : forall i, sumQ (fun key => ind (hit key i)) L == N * p.
  Proof.
    intros i. rewrite sum_ind. unfold hit. rewrite (states_hitting L mx data ideal ref G i HL HG).
    rewrite (N_split 106 (2 ^ (19937 - 106))) by (symmetry; apply pow_split).
    unfold p, fraction. set (K := (2 ^ (19937 - 106))%Z). clearbody K.
    rewrite inject_Z_mult. field. unfold Qeq, inject_Z; cbn [Qnum Qden]. discriminate.
  Qed.
  Lemma hit_two : forall i k, (k <= 153)%nat -> sumQ (fun key => ind (hit key i && hit key (i + S k))) L == N * (p * p).
  Proof.
    intros i k Hk. rewrite sum_ind. unfold hit. rewrite (pairs_hitting L mx data ideal ref G i k HL HG Hk).
    assert (E : (2 ^ 212 * 2 ^ (19937 - 212) = 2 ^ 19937)%Z) by (apply pow_sum; [ discriminate | discriminate | reflexivity ]).
    rewrite (N_split 212 (2 ^ (19937 - 212)) E). clear E.
    unfold p, fraction. set (K := (2 ^ (19937 - 212))%Z). clearbody K.
    assert (E : (2 ^ 212 = 2 ^ 106 * 2 ^ 106)%Z) by reflexivity. rewrite E.
    rewrite !inject_Z_mult. field. unfold Qeq, inject_Z; cbn [Qnum Qden]. discriminate.
  Qed.
  Lemma p_range : 0 <= p <= 1.
  Proof.
    split.
    - unfold p, fraction, Qdiv. apply Qmult_le_0_compat; [ unfold Qle, inject_Z; cbn [Qnum Qden]; lia | ].
      apply Qinv_le_0_compat. unfold Qle, inject_Z; cbn [Qnum Qden]. discriminate.
    - pose proof (hit_one 0) as H. pose proof N_pos as P.
      assert (I : sumQ (fun key => ind (hit key 0)) L <= sumQ (fun _ => 1) L).
      { apply sum_le. intros key _. destruct (hit key 0); cbn [ind]; lra. }
      rewrite sum_const, H in I. fold N in I. apply Qmult_le_l with (z := N); [ exact P | exact I ].
  Qed.
  Lemma v_nonneg : 0 <= N * (p * (1 - p)).
  Proof.
    pose proof p_range. pose proof N_pos. apply Qmult_le_0_compat; [ lra | apply Qmult_le_0_compat; lra ].
  Qed.

  Lemma count_sum : forall key n,
    inject_Z (Z.of_nat (countb (hit key) (seq 0 n))) == sumQ (fun i => ind (hit key i) - p) (seq 0 n) + inject_Z (Z.of_nat n) * p.
  Proof.
    intros key n.
    assert (E : forall l, inject_Z (Z.of_nat (countb (hit key) l)) ==
                sumQ (fun i => ind (hit key i) - p) l + inject_Z (Z.of_nat (length l)) * p).
    { induction l as [ | i l IH ]; [ reflexivity | ].
      unfold sumQ in *. cbn [map qsum fold_right countb length].
      fold (qsum (map (fun i => ind (hit key i) - p) l)).
      rewrite Nat2Z.inj_succ, <- Z.add_1_r, inject_Z_plus. change (inject_Z 1) with 1.
      destruct (hit key i) eqn:Eh; cbn [ind].
      - rewrite Nat2Z.inj_succ, <- Z.add_1_r, inject_Z_plus, IH. change (inject_Z 1) with 1. ring.
      - rewrite IH. ring. }
    rewrite E, seq_length. reflexivity.
  Qed.

  Let dev (n : nat) (key : list Z) : Q :=
    Qabs (box_area ideal ref) * (sumQ (fun i => ind (hit key i) - p) (seq 0 n) / inject_Z (Z.of_nat n)).
  Lemma value_dev : forall n key, proper_box mx ideal ref -> (0 < n)%nat -> generator_state key ->
    exists v, whv_hype_from_state data ref ideal mx n key = Ret v /\ v - mean_estimate ideal ref G == dev n key.
  Proof.
    intros n key HB Hn Hk. apply state_wst in Hk.
    destruct (value_from_state data ref ideal mx n key HB Hn Hk) as [v [R E]].
    exists v. split; [ exact R | ]. rewrite E. unfold mean_estimate, dev. fold p. fold (hit key).
    rewrite count_sum. field. unfold Qeq, inject_Z; cbn [Qnum Qden]. lia.
  Qed.
  Lemma dev_sq : forall n, (0 < n)%nat ->
    sumQ (fun key => dev n key * dev n key) L ==
    Qabs (box_area ideal ref) * Qabs (box_area ideal ref) / (inject_Z (Z.of_nat n) * inject_Z (Z.of_nat n)) *
    sumQ (fun key => sumQ (fun i => ind (hit key i) - p) (seq 0 n) * sumQ (fun i => ind (hit key i) - p) (seq 0 n)) L.
  Proof.
    intros n Hn. rewrite <- sum_scal. apply sum_ext. intros key _. unfold dev.
    field. unfold Qeq, inject_Z; cbn [Qnum Qden]. lia.
  Qed.
  Lemma values_dev : forall n l, proper_box mx ideal ref -> (0 < n)%nat -> (forall key, In key l -> generator_state key) ->
    exists vs, Forall2 (fun key v => whv_hype_from_state data ref ideal mx n key = Ret v) l vs /\
      qsum (map (fun v => (v - mean_estimate ideal ref G) * (v - mean_estimate ideal ref G)) vs) ==
      sumQ (fun key => dev n key * dev n key) l.
  Proof.
    intros n l HB Hn. induction l as [ | key l IH ]; intros H.
    - exists []. split; [ constructor | reflexivity ].
    - destruct IH as [vs [F E]]; [ intros; apply H; now right | ].
      destruct (value_dev n key HB Hn (H key (or_introl eq_refl))) as [v [R Ev]].
      exists (v :: vs). split; [ constructor; assumption | ]. unfold sumQ in *. cbn [map qsum fold_right].
      fold (qsum (map (fun v => (v - mean_estimate ideal ref G) * (v - mean_estimate ideal ref G)) vs))
           (qsum (map (fun key => dev n key * dev n key) l)). rewrite E, Ev. reflexivity.
  Qed.

  Lemma variance_exact : forall n, proper_box mx ideal ref -> (0 < n <= 155)%nat ->
    sumQ (fun key => dev n key * dev n key) L ==
    N * (Qabs (box_area ideal ref) * Qabs (box_area ideal ref) * (p * (1 - p)) / inject_Z (Z.of_nat n)).
  Proof.
    intros n HB Hn. rewrite dev_sq by lia.
    pose proof (var_sum L hit N p ltac:(reflexivity) hit_one hit_two 0 n ltac:(lia)) as V. cbv beta zeta in V. rewrite V.
    field. unfold Qeq, inject_Z; cbn [Qnum Qden]. lia.
  Qed.
  Lemma variance_le : forall n B, proper_box mx ideal ref -> (0 < n <= 155 * B)%nat ->
    sumQ (fun key => dev n key * dev n key) L <=
    N * (Qabs (box_area ideal ref) * Qabs (box_area ideal ref) * (p * (1 - p)) * (inject_Z (Z.of_nat B) / inject_Z (Z.of_nat n))).
  Proof.
    intros n B HB Hn. rewrite dev_sq by lia.
    pose proof (var_blocks L hit N p ltac:(reflexivity) hit_one hit_two v_nonneg B 0 n ltac:(lia)) as V. cbv beta zeta in V.
    set (A := Qabs (box_area ideal ref)) in *.
    assert (Pn : 0 < inject_Z (Z.of_nat n)) by (unfold Qlt, inject_Z; cbn [Qnum Qden]; lia).
    set (m := inject_Z (Z.of_nat n)) in *.
    assert (PA : 0 <= A) by apply Qabs_nonneg.
    assert (PC : 0 <= A * A / (m * m)).
    { unfold Qdiv. apply Qmult_le_0_compat; [ now apply Qmult_le_0_compat | ]. apply Qinv_le_0_compat.
      apply Qmult_le_0_compat; lra. }
    eapply Qle_trans.
    - rewrite Qmult_comm. apply Qmult_le_compat_r; [ exact V | exact PC ].
    - apply Qle_lteq. right. field. lra.
  Qed.
  Lemma bad_states : forall n B t bad, proper_box mx ideal ref -> (0 < n <= 155 * B)%nat -> 0 < t -> NoDup bad ->
    (forall key, In key bad -> generator_state key /\
       exists v, whv_hype_from_state data ref ideal mx n key = Ret v /\ t <= Qabs (v - mean_estimate ideal ref G)) ->
    inject_Z (Z.of_nat (length bad)) * (t * t) <=
    N * (Qabs (box_area ideal ref) * Qabs (box_area ideal ref) * (p * (1 - p)) * (inject_Z (Z.of_nat B) / inject_Z (Z.of_nat n))).
  Proof.
    intros n B t bad HB Hn Ht NB Hbad.
    eapply Qle_trans; [ | apply variance_le; [ exact HB | exact Hn ] ].
    set (b := fun key => Qle_bool (t * t) (dev n key * dev n key)).
    assert (LE : (length bad <= length (filter b L))%nat).
    { apply NoDup_incl_length; [ exact NB | ]. intros key Hk. destruct (Hbad key Hk) as [Hs [v [R T]]].
      apply filter_In. split; [ now apply HL | ]. unfold b. apply Qle_bool_iff.
      destruct (value_dev n key HB ltac:(lia) Hs) as [v' [R' E']]. rewrite R in R'. injection R' as <-.
      rewrite E' in T. set (d := dev n key) in *. 
      destruct (Qlt_le_dec d 0) as [Q | Q].
      - rewrite Qabs_neg in T by lra. setoid_replace (d * d) with ((- d) * (- d)) by ring.
        apply Qle_trans with ((- d) * t); [ apply Qmult_le_compat_r; lra | ].
        rewrite !(Qmult_comm (- d)). apply Qmult_le_compat_r; lra.
      - rewrite Qabs_pos in T by lra.
        apply Qle_trans with (d * t); [ apply Qmult_le_compat_r; lra | ].
        rewrite (Qmult_comm d t). apply Qmult_le_compat_r; lra. }
    apply Qle_trans with (inject_Z (Z.of_nat (length (filter b L))) * (t * t)).
    - apply Qmult_le_compat_r; [ unfold Qle, inject_Z; cbn [Qnum Qden]; lia | ]. apply Qmult_le_0_compat; lra.
    - rewrite <- sum_ind, Qmult_comm, <- sum_scal. apply sum_le. intros key _. unfold b.
      destruct (Qle_bool (t * t) (dev n key * dev n key)) eqn:E; cbn [ind].
      + apply Qle_bool_iff in E. lra.
      + set (d := dev n key). rewrite Qmult_0_r.
        destruct (Qlt_le_dec d 0) as [Q | Q]; [ | now apply Qmult_le_0_compat ].
        setoid_replace (d * d) with ((- d) * (- d)) by ring. apply Qmult_le_0_compat; lra.
  Qed.
End Estimates.

(** C81 (1): with up to 155 samples the mean over all states of the squared distance of
    the estimate from its mean is that of independent samples. *)
Theorem C81_variance : forall data ref ideal mx nsamples L G,
  proper_box mx ideal ref -> (0 < nsamples <= 155)%nat -> all_states L -> attained_grid mx data ideal ref G ->
  let area := Qabs (box_area ideal ref) in
  let p := inject_Z (Z.of_nat (length G)) / inject_Z (2 ^ 106) in
  exists vs,
    Forall2 (fun key v => whv_hype_from_state data ref ideal mx nsamples key = Ret v) L vs /\
    qsum (map (fun v => (v - area * p) * (v - area * p)) vs) / inject_Z (Z.of_nat (length L)) ==
    area * area * (p * (1 - p)) / inject_Z (Z.of_nat nsamples).
Proof.
  intros data ref ideal mx n L G HB Hn HL HG area p.
  destruct (values_dev mx data ideal ref G n L HB ltac:(lia)) as [vs [F E]].
  { intros key Hk. now apply HL. }
  exists vs. split; [ exact F | ].
  change (area * p) with (mean_estimate ideal ref G). rewrite E.
  rewrite (variance_exact L mx data ideal ref G HL HG n HB Hn).
  pose proof (N_pos L HL) as P. set (N := inject_Z (Z.of_nat (length L))) in *. clearbody N.
  change (fraction G) with p. fold area. field. split; [ unfold Qeq, inject_Z; cbn [Qnum Qden]; lia | lra ].
Qed.
Print Assumptions C81_variance.

(** C81 (2): for any number of samples it is at most that of 155 independent samples,
    about: [blocks] is the number of groups of 155 samples. *)
Theorem C81_variance_bound : forall data ref ideal mx nsamples blocks L G,
  proper_box mx ideal ref -> (0 < nsamples <= 155 * blocks)%nat -> all_states L -> attained_grid mx data ideal ref G ->
  let area := Qabs (box_area ideal ref) in
  let p := inject_Z (Z.of_nat (length G)) / inject_Z (2 ^ 106) in
  exists vs,
    Forall2 (fun key v => whv_hype_from_state data ref ideal mx nsamples key = Ret v) L vs /\
    qsum (map (fun v => (v - area * p) * (v - area * p)) vs) / inject_Z (Z.of_nat (length L)) <=
    area * area * (p * (1 - p)) * (inject_Z (Z.of_nat blocks) / inject_Z (Z.of_nat nsamples)).
Proof.
  intros data ref ideal mx n B L G HB Hn HL HG area p.
  destruct (values_dev mx data ideal ref G n L HB ltac:(lia)) as [vs [F E]].
  { intros key Hk. now apply HL. }
  exists vs. split; [ exact F | ].
  change (area * p) with (mean_estimate ideal ref G). rewrite E.
  pose proof (variance_le L mx data ideal ref G HL HG n B HB Hn) as V.
  pose proof (N_pos L HL) as P. set (N := inject_Z (Z.of_nat (length L))) in *. clearbody N.
  change (fraction G) with p in V. fold area in V.
  apply Qle_shift_div_r; [ exact P | ]. rewrite Qmult_comm. exact V.
Qed.
Print Assumptions C81_variance_bound.

(** C81 (3): the states from which the estimate is off by [t] or more are rare. *)
Theorem C81_deviation : forall data ref ideal mx nsamples blocks G t bad,
  proper_box mx ideal ref -> (0 < nsamples <= 155 * blocks)%nat -> attained_grid mx data ideal ref G ->
  let area := Qabs (box_area ideal ref) in
  let p := inject_Z (Z.of_nat (length G)) / inject_Z (2 ^ 106) in
  0 < t -> NoDup bad ->
  (forall key, In key bad -> generator_state key /\
     exists v, whv_hype_from_state data ref ideal mx nsamples key = Ret v /\ t * area <= Qabs (v - area * p)) ->
  inject_Z (Z.of_nat (length bad)) / inject_Z (2 ^ 19937) <=
  (inject_Z (Z.of_nat blocks) / inject_Z (Z.of_nat nsamples)) * / (4 * (t * t)).
Proof.
  intros data ref ideal mx n B G t bad HB Hn HG area p Ht NB Hbad.
  destruct (C78_equidistribution 0 []) as [L [NL [IL _]]]; [ cbn [length]; lia | constructor | ].
  assert (HL : all_states L).
  { split; [ exact NL | ]. intros key. rewrite IL. split; [ tauto | ]. intros H. split; [ exact H | ].
    exists [], (mkMt key (Z.to_nat 624)). split; reflexivity. }
  assert (PA : 0 < area).
  { unfold area. assert (K : ~ box_area ideal ref == 0).
    { unfold box_area. intros E. apply Qmult_integral in E. pose proof (HB 0%nat ltac:(lia)) as B0. pose proof (HB 1%nat ltac:(lia)) as B1.
      destruct E as [E | E]; [ destruct (nth 0 mx false) | destruct (nth 1 mx false) ]; lra. }
    destruct (Qlt_le_dec (box_area ideal ref) 0) as [Q | Q].
    - rewrite Qabs_neg by lra. lra.
    - rewrite Qabs_pos by lra. apply Qle_lteq in Q. destruct Q as [Q | Q]; [ exact Q | ]. exfalso. apply K. now symmetry. }
  assert (TA : 0 < t * area) by (apply Qmult_lt_0_compat; assumption).
  pose proof (bad_states L mx data ideal ref G HL HG n B (t * area) bad HB Hn TA NB Hbad) as V.
  pose proof (p_range L mx data ideal ref G HL HG) as PR. change (fraction G) with p in V, PR. fold area in V.
  rewrite (all_states_count L HL) in V.
  assert (PN : 0 < inject_Z (2 ^ 19937)).
  { pose proof (N_pos L HL) as P. now rewrite (all_states_count L HL) in P. }
  set (N := inject_Z (2 ^ 19937)) in *. clearbody N.
  set (x := inject_Z (Z.of_nat (length bad))) in *.
  assert (Pn : 0 < inject_Z (Z.of_nat n)) by (unfold Qlt, inject_Z; cbn [Qnum Qden]; lia).
  set (m := inject_Z (Z.of_nat n)) in *.
  assert (Pb : 0 <= inject_Z (Z.of_nat B)) by (unfold Qle, inject_Z; cbn [Qnum Qden]; lia).
  set (b := inject_Z (Z.of_nat B)) in *. clearbody x m b.
  assert (Q4 : p * (1 - p) <= 1 # 4).
  { assert (0 <= (p - (1 # 2)) * (p - (1 # 2))).
    { destruct (Qlt_le_dec (p - (1 # 2)) 0) as [Q | Q]; [ | now apply Qmult_le_0_compat ].
      setoid_replace ((p - (1 # 2)) * (p - (1 # 2))) with ((- (p - (1 # 2))) * (- (p - (1 # 2)))) by ring.
      apply Qmult_le_0_compat; lra. }
    assert (E : (p - (1 # 2)) * (p - (1 # 2)) == (1 # 4) - p * (1 - p)) by ring. rewrite E in H. lra. }
  set (q := p * (1 - p)) in *. clearbody q.
  assert (PB : 0 <= b / m) by (apply Qle_shift_div_l; lra).
  set (c := b / m) in *. clearbody c.
  apply Qle_shift_div_r; [ exact PN | ].
  assert (TT : 0 < t * t) by now apply Qmult_lt_0_compat.
  assert (AA : 0 < area * area) by now apply Qmult_lt_0_compat.
  apply Qmult_le_r with (z := t * area * (t * area)); [ now apply Qmult_lt_0_compat | ].
  eapply Qle_trans; [ exact V | ].
  setoid_replace (c * / (4 * (t * t)) * N * (t * area * (t * area))) with ((1 # 4) * (N * (area * area) * c)) by (field; lra).
  setoid_replace (N * (area * area * q * c)) with (q * (N * (area * area) * c)) by ring.
  apply Qmult_le_compat_r; [ exact Q4 | ].
  apply Qmult_le_0_compat; [ apply Qmult_le_0_compat; lra | exact PB ].
Qed.
Print Assumptions C81_deviation.

(** C81 (4): the same for the hypervolume of integer data (in some unit), none of which
    is better than the ideal point: the fraction of the states from which the estimate is
    off by (t + 2^-52) times the area of the box or more is at most
    blocks / (4 * nsamples * t^2). *)
Theorem C81_hypervolume : forall (data : list (list Z)) (ref ideal : list Z) mx nsamples blocks v t bad,
  proper_box mx (rat ideal) (rat ref) -> (0 < nsamples <= 155 * blocks)%nat ->
  (forall p d, In p data -> (d < 2)%nat ->
     (nth d (as_minimised mx ideal) 0 <= nth d (as_minimised mx p) 0)%Z) ->
  hypervolume (map (as_minimised mx) data) (as_minimised mx ref) v ->
  let area := Qabs (box_area (rat ideal) (rat ref)) in
  0 < t -> NoDup bad ->
  (forall key, In key bad -> generator_state key /\
     exists x, whv_hype_from_state (map rat data) (rat ref) (rat ideal) mx nsamples key = Ret x /\
               (t + 1 / inject_Z (2 ^ 52)) * area <= Qabs (x - inject_Z v)) ->
  inject_Z (Z.of_nat (length bad)) / inject_Z (2 ^ 19937) <=
  (inject_Z (Z.of_nat blocks) / inject_Z (Z.of_nat nsamples)) * / (4 * (t * t)).
Proof.
  intros data ref ideal mx n B v t bad HB Hn Hid HV area Ht NB Hbad.
  destruct (C78_equidistribution 0 []) as [L [NL [IL _]]]; [ cbn [length]; lia | constructor | ].
  assert (HL : all_states L).
  { split; [ exact NL | ]. intros key. rewrite IL. split; [ tauto | ]. intros H. split; [ exact H | ].
    exists [], (mkMt key (Z.to_nat 624)). split; reflexivity. }
  destruct (grid_exists mx (map rat data) (rat ideal) (rat ref)) as [G HG].
  destruct (C79_mean (map rat data) (rat ref) (rat ideal) mx n L G HB ltac:(lia) HL HG) as [vs [F E]].
  destruct (C79_unbiased data ref ideal mx n L v HB ltac:(lia) HL Hid HV) as [vs' [F' E']].
  assert (EV : vs = vs').
  { clear -F F'. revert vs' F'. induction F as [ | key x L vs H F IH ]; intros vs' F'; inversion_clear F'; [ reflexivity | ].
    assert (x = y) by congruence. subst. f_equal. now apply IH. }
  subst vs'. rewrite E in E'. clear E F F' NL IL HL. fold area in E'.
  apply (C81_deviation (map rat data) (rat ref) (rat ideal) mx n B G t bad HB Hn HG Ht NB).
  intros key Hk. destruct (Hbad key Hk) as [Hs [x [R T]]]. split; [ exact Hs | ]. exists x. split; [ exact R | ].
  fold area. set (m := area * (inject_Z (Z.of_nat (length G)) / inject_Z (2 ^ 106))) in *.
  set (e := 1 / inject_Z (2 ^ 52)) in *. clearbody m e.
  assert (T2 : Qabs (x - inject_Z v) <= Qabs (x - m) + Qabs (m - inject_Z v)).
  { setoid_replace (x - inject_Z v) with ((x - m) + (m - inject_Z v)) by ring. apply Qabs_triangle. }
  assert (T3 : Qabs (m - inject_Z v) <= area * e).
  { assert (Q : m - inject_Z v <= 0) by lra. rewrite (Qabs_neg _ Q). lra. }
  setoid_replace ((t + e) * area) with (t * area + area * e) in T by ring. lra.
Qed.
Print Assumptions C81_hypervolume.

(** The hypotheses are met: one point that attains part of the box; with 155 samples the
    estimate is off by half the box or more from less than one state in 155. *)
Example C81_example : exists G,
  attained_grid [false; false] [[1; 1]] [0; 0] [2; 2] G /\ proper_box [false; false] [0; 0] [2; 2] /\
  In (2 ^ 52, 2 ^ 52)%Z G /\ ~ In (0, 0)%Z G /\
  forall bad, NoDup bad ->
    (forall key, In key bad -> generator_state key /\
       exists v, whv_hype_from_state [[1; 1]] [2; 2] [0; 0] [false; false] 155 key = Ret v /\
         (1 # 2) * Qabs (box_area [0; 0] [2; 2]) <=
         Qabs (v - Qabs (box_area [0; 0] [2; 2]) * (inject_Z (Z.of_nat (length G)) / inject_Z (2 ^ 106)))) ->
    inject_Z (Z.of_nat (length bad)) / inject_Z (2 ^ 19937) <= 1 # 155.
Proof.
  destruct (grid_exists [false; false] [[1; 1]] [0; 0] [2; 2]) as [G HG].
  assert (HB : proper_box [false; false] [0; 0] [2; 2]).
  { intros [ | [ | d ] ] H; [ reflexivity | reflexivity | lia ]. }
  exists G. split; [ exact HG | split; [ exact HB | split; [ | split ] ] ].
  - apply HG. split; [ lia | split; [ lia | ] ]. exists [1; 1]. split; [ now left | ].
    intros [ | [ | d ] ] H; [ vm_compute; discriminate | vm_compute; discriminate | lia ].
  - intros H. apply HG in H. destruct H as [_ [_ [p [[<- | []] H]]]]. specialize (H 0%nat ltac:(lia)).
    vm_compute in H. now apply H.
  - intros bad NB Hbad.
    pose proof (C81_deviation [[1; 1]] [2; 2] [0; 0] [false; false] 155 1 G (1 # 2) bad HB ltac:(lia) HG ltac:(reflexivity) NB Hbad) as V.
    eapply Qle_trans; [ exact V | ]. vm_compute. discriminate.
Qed.
