(** Proofs about c/nondominated.h, part 3: the API functions against [Spec]. *)
From Coq Require Import List ZArith Lia Bool Arith Permutation Sorted.
From Verif Require Import Base Spec NondomModel NondomProofs NondomProofs2d.
Import ListNotations.
Open Scope Z_scope.

(** ** Specification of the two kinds of filter *)

Definition kept (nd : list bool) (i : nat) : Prop := nth i nd false = true.

(** keep_weakly = true: kept exactly when nondominated *)
Definition weak_filter_spec (mx : list bool) (pts : list point) (nd : list bool) : Prop :=
  length nd = length pts /\
  forall i, (i < length pts)%nat -> (kept nd i <-> ~ dominated_in mx pts i).

(** keep_weakly = false: a duplicate-free set of nondominated rows that covers all rows *)
Definition strict_filter_spec (mx : list bool) (pts : list point) (nd : list bool) : Prop :=
  length nd = length pts /\
  (forall i, (i < length pts)%nat -> kept nd i -> ~ dominated_in mx pts i) /\
  (forall i j, (i < length pts)%nat -> (j < length pts)%nat -> kept nd i -> kept nd j ->
     i <> j -> row pts i <> row pts j) /\
  (forall i, (i < length pts)%nat ->
     exists j, (j < length pts)%nat /\ kept nd j /\ wdom mx (row pts j) (row pts i)).

Definition filter_spec (kw : bool) mx pts nd : Prop :=
  if kw then weak_filter_spec mx pts nd else strict_filter_spec mx pts nd.

(** ** Link between minmax and maximise *)

Lemma coord_minmax : forall mx d, (d < length mx)%nat ->
  coord (minmax_from_bool mx) d = if nth d mx false then 1 else -1.
Proof.
  intros. unfold coord, minmax_from_bool.
  rewrite (nth_map_lt _ _ _ mx d 0 false) by auto.
  destruct (nth d mx false); reflexivity.
Qed.

Lemma wdomA_wdom : forall mx p q,
  wdomA AGREE_NONE (minmax_from_bool mx) (length mx) p q = true <-> wdom mx p q.
Proof.
  intros. unfold wdomA, wdom, as_good. rewrite forallb_forall. split; intros.
  - specialize (H d). rewrite in_seq in H. specialize (H ltac:(lia)).
    unfold goodA, AGREE_NONE in H. simpl in H. rewrite coord_minmax in H by auto.
    destruct (nth d mx false); simpl in H; now apply Z.leb_le.
  - rewrite in_seq in H0. specialize (H x ltac:(lia)).
    unfold goodA, AGREE_NONE. simpl. rewrite coord_minmax by lia.
    destruct (nth x mx false); simpl; now apply Z.leb_le.
Qed.

Lemma negate_max_coord : forall mx p d, length p = length mx -> (d < length mx)%nat ->
  coord (negate_max (minmax_from_bool mx) p) d
  = if nth d mx false then - coord p d else coord p d.
Proof.
  induction mx; simpl; intros; try lia.
  destruct p; simpl in *; try lia.
  destruct d; simpl.
  - destruct a; reflexivity.
  - unfold coord in *. simpl. apply IHmx; lia.
Qed.

Lemma negate_max_length : forall mm p, length (negate_max mm p) = length p.
Proof. induction mm; destruct p; simpl; auto. Qed.

Lemma nomax_false : forall mx d, existsb (fun m => 0 <? m) (minmax_from_bool mx) = false ->
  nth d mx false = false.
Proof.
  induction mx; simpl; intros; destruct d; auto.
  - destruct a; simpl in H; auto; discriminate.
  - destruct a; simpl in H; try discriminate. auto.
Qed.

Lemma wf_row_length : forall dim pts i, wf_points dim pts -> (i < length pts)%nat ->
  length (row pts i) = dim.
Proof.
  intros. unfold wf_points in H. rewrite Forall_forall in H. apply H. now apply In_row.
Qed.

(** [force_agree_minimize] succeeds and yields negated columns. *)
Lemma force_agree_ok : forall mx pts, wf_points (length mx) pts ->
  exists pts', force_agree_minimize pts (minmax_from_bool mx) AGREE_NONE = Ret pts' /\
    length pts' = length pts /\
    forall i d, (i < length pts)%nat -> (d < length mx)%nat ->
      coord (row pts' i) d = if nth d mx false then - coord (row pts i) d else coord (row pts i) d.
Proof.
  intros. unfold force_agree_minimize. simpl.
  destruct (existsb (fun m => 0 <? m) (minmax_from_bool mx)) eqn:E.
  - assert (A : forallb (fun m => negb (m =? 0)) (minmax_from_bool mx) = true).
    { clear. induction mx; simpl; auto. destruct a; auto. }
    rewrite A. simpl. eexists. split; [reflexivity|].
    split. now rewrite map_length.
    intros. rewrite row_map by auto. apply negate_max_coord; auto.
    eapply wf_row_length; eauto.
  - exists pts. split; auto. split; auto. intros.
    now rewrite (nomax_false mx d E).
Qed.

Lemma wdom2_iff : forall mx p q p' q',
  length mx = 2%nat ->
  (forall d, (d < length mx)%nat -> coord p' d = if nth d mx false then - coord p d else coord p d) ->
  (forall d, (d < length mx)%nat -> coord q' d = if nth d mx false then - coord q d else coord q d) ->
  (wdom mx p q <-> coord p' 0 <= coord q' 0 /\ coord p' 1 <= coord q' 1).
Proof.
  intros. unfold wdom, as_good. rewrite !H0, !H1 by lia. split.
  - intros K. pose proof (K 0%nat ltac:(lia)). pose proof (K 1%nat ltac:(lia)).
    destruct (nth 0 mx false), (nth 1 mx false); lia.
  - intros K d Hd. assert (d = 0 \/ d = 1)%nat as [->| ->] by lia;
    destruct (nth 0 mx false), (nth 1 mx false); lia.
Qed.

Section Main.
  Variable sort2d : list point -> list nat.
  Hypothesis Hsort : valid_sort2d sort2d.
  Variable mx : list bool.
  Variable pts : list point.
  Hypothesis Hwf : wf_points (length mx) pts.
  Let n := length pts.

  Lemma dec_wdom : forall p q, wdom mx p q \/ ~ wdom mx p q.
  Proof.
    intros. destruct (wdomA AGREE_NONE (minmax_from_bool mx) (length mx) p q) eqn:E.
    - left. now apply wdomA_wdom.
    - right. intro C. apply wdomA_wdom in C. congruence.
  Qed.

  (** the beaten relation of the double loop, in terms of [Spec] *)
  Lemma beats_spec : forall kw a b,
    beats (fun a b => wdomA AGREE_NONE (minmax_from_bool mx) (length mx) (row pts a) (row pts b)) kw a b = true
    <-> wdom mx (row pts a) (row pts b) /\
        (~ wdom mx (row pts b) (row pts a) \/ (kw = false /\ (b < a)%nat)).
  Proof.
    intros. unfold beats. rewrite andb_true_iff, orb_true_iff, andb_true_iff, !negb_true_iff.
    rewrite wdomA_wdom, Nat.ltb_lt.
    rewrite <- not_true_iff_false, wdomA_wdom. tauto.
  Qed.

  Lemma filter_from_unbeaten : forall kw nd,
    length nd = n ->
    (forall i, (i < n)%nat -> (nth i nd false = true <-> forall b, (b < n)%nat ->
       beats (fun a b => wdomA AGREE_NONE (minmax_from_bool mx) (length mx) (row pts a) (row pts b)) kw b i = false)) ->
    filter_spec kw mx pts nd.
  Proof.
    intros kw nd HL H.
    assert (NB : forall b i, beats (fun a b => wdomA AGREE_NONE (minmax_from_bool mx) (length mx) (row pts a) (row pts b)) kw b i = false <->
       ~ (wdom mx (row pts b) (row pts i) /\
        (~ wdom mx (row pts i) (row pts b) \/ (kw = false /\ (i < b)%nat)))).
    { intros. rewrite <- beats_spec. now rewrite not_true_iff_false. }
    unfold filter_spec. destruct kw.
    - split; auto. intros i Hi. unfold kept. rewrite H by auto. split.
      + intros K (j & Hj & D). specialize (K j Hj). rewrite NB in K. apply K.
        rewrite dom_iff in D. tauto.
      + intros K b Hb. rewrite NB. intros [W [W'|[C _]]]; [|discriminate].
        apply K. exists b. split; auto. rewrite dom_iff. auto.
    - split; auto. split; [|split].
      + intros i Hi K (j & Hj & D). unfold kept in K. rewrite H in K by auto.
        specialize (K j Hj). rewrite NB in K. apply K. rewrite dom_iff in D. tauto.
      + intros i j Hi Hj Ki Kj Hne Heq. unfold kept in *. rewrite H in Ki, Kj by auto.
        destruct (Nat.lt_ge_cases i j).
        * specialize (Ki j Hj). rewrite NB in Ki. apply Ki. rewrite Heq.
          split. apply wdom_refl. right. auto.
        * specialize (Kj i Hi). rewrite NB in Kj. apply Kj. rewrite Heq.
          split. apply wdom_refl. right. split; auto. lia.
      + intros i Hi.
        set (B := beats (fun a b => wdomA AGREE_NONE (minmax_from_bool mx) (length mx) (row pts a) (row pts b)) false) in *.
        destruct (nth i nd false) eqn:E.
        { exists i. split; [auto|]. split; [exact E|]. apply wdom_refl. }
        assert (EX : exists a, (a < n)%nat /\ B a i = true).
        { destruct (existsb (fun a => B a i) (seq 0 n)) eqn:EB.
          - apply existsb_exists in EB. destruct EB as (a & Ha & EB). apply in_seq in Ha.
            exists a. split; [lia|auto].
          - exfalso. assert (nth i nd false = true); [|congruence].
            apply H; auto. intros b Hb. destruct (B b i) eqn:Q; auto.
            assert (existsb (fun a => B a i) (seq 0 n) = true).
            { apply existsb_exists. exists b. split; auto. apply in_seq. lia. }
            congruence. }
        destruct (unbeaten_exists n B) with (x := i) as (a & Ha & HBa & HU); auto.
        * intros. apply B_irr.
        * intros a b c _ _ _. apply B_trans.
        * exists a. split; auto. split. apply H; auto.
          apply beats_spec in HBa. tauto.
  Qed.

  Lemma filter_from_dead : forall kw nd pts',
    length mx = 2%nat -> (2 <= n)%nat ->
    length pts' = n ->
    (forall i d, (i < n)%nat -> (d < length mx)%nat ->
      coord (row pts' i) d = if nth d mx false then - coord (row pts i) d else coord (row pts i) d) ->
    length nd = n ->
    (forall j, (j < n)%nat -> (nth (nth j (sort2d pts') O) nd false = false
                               <-> dead pts' (sort2d pts') kw j)) ->
    filter_spec kw mx pts nd.
  Proof.
    intros kw nd pts' Hmx Hn HL' HC HL HD.
    set (pp := sort2d pts') in *.
    pose proof (Hsort pts') as HS. fold pp in HS.
    pose proof (pp_range pts' pp HS) as Rg. rewrite HL' in Rg.
    pose proof (pp_surj pts' pp HS) as Sj. rewrite HL' in Sj.
    assert (W : forall i j, (i < n)%nat -> (j < n)%nat ->
      (wdom mx (row pts i) (row pts j) <->
       coord (row pts' i) 0 <= coord (row pts' j) 0 /\
       coord (row pts' i) 1 <= coord (row pts' j) 1)).
    { intros. apply wdom2_iff; auto. }
    assert (ND : forall j, (j < n)%nat -> (kept nd (nth j pp O) <-> ~ dead pts' pp kw j)).
    { intros j Hj. rewrite <- HD by auto. unfold kept. now rewrite not_false_iff_true. }
    unfold filter_spec. destruct kw.
    - split; auto. intros i Hi. destruct (Sj i Hi) as (j & Hj & <-).
      rewrite ND by auto.
      pose proof (dead_keep pts' pp true HS eq_refl j) as DK. rewrite HL' in DK.
      rewrite DK by auto. clear DK. split; intros K C; apply K; clear K.
      + destruct C as (i' & Hi' & D). destruct (Sj i' Hi') as (j' & Hj' & <-).
        exists j'. split; auto. rewrite dom_iff in D. rewrite !W in D by auto. lia.
      + destruct C as (j' & Hj' & C1 & C2 & C3). exists (nth j' pp O).
        split; auto. rewrite dom_iff. rewrite !W by auto. lia.
    - split; auto. split; [|split].
      + intros i Hi K (i' & Hi' & D).
        destruct (Sj i Hi) as (j & Hj & <-). destruct (Sj i' Hi') as (j' & Hj' & <-).
        rewrite ND in K by auto.
        pose proof (alive_delete pts' pp false HS eq_refl j) as AD. rewrite HL' in AD.
        rewrite dom_iff in D. rewrite !W in D by auto.
        destruct (AD Hj K j' Hj') as (A1 & A2 & _); try tauto. lia.
      + intros i i' Hi Hi' K K' Hne Heq.
        destruct (Sj i Hi) as (j & Hj & <-). destruct (Sj i' Hi') as (j' & Hj' & <-).
        rewrite ND in K, K' by auto.
        assert (E1 : coord (row pts' (nth j pp O)) 0 = coord (row pts' (nth j' pp O)) 0)
          by (rewrite !HC by (auto; lia); now rewrite Heq).
        assert (E2 : coord (row pts' (nth j pp O)) 1 = coord (row pts' (nth j' pp O)) 1)
          by (rewrite !HC by (auto; lia); now rewrite Heq).
        pose proof (alive_delete pts' pp false HS eq_refl j) as A1. rewrite HL' in A1.
        pose proof (alive_delete pts' pp false HS eq_refl j') as A2. rewrite HL' in A2.
        destruct (A1 Hj K j' Hj') as (_ & _ & A3); try lia.
        destruct (A2 Hj' K' j Hj) as (_ & _ & A4); try lia.
        apply Hne. f_equal. lia.
      + intros i Hi. destruct (Sj i Hi) as (j & Hj & <-).
        pose proof (alive_cover pts' pp false HS eq_refl j) as AC. rewrite HL' in AC.
        destruct (AC Hj) as (j' & Hj' & A1 & A2 & A3).
        exists (nth j' pp O). split; auto. rewrite ND by auto. split; auto.
        rewrite W by auto. lia.
  Qed.

  (** ** find_nondominated_set_ in filter mode *)
  Lemma find_nd_filter_ok : forall kw,
    exists nd r,
      find_nondominated_set_ sort2d pts (length mx) (minmax_from_bool mx) AGREE_NONE
         (nondom_init n) false kw = Ret (nd, r) /\
      filter_spec kw mx pts nd /\
      r = if (n <? 2)%nat then Z.of_nat n
          else if (length mx =? 2)%nat then Z.of_nat (countb negb nd)
          else Z.of_nat (countb (fun b => b) nd).
  Proof.
    intros kw. unfold find_nondominated_set_. fold n.
    destruct (Nat.ltb_spec n 2) as [Hn|Hn].
    { exists (nondom_init n), (Z.of_nat n). split; auto. split; auto.
      assert (L1 : length (nondom_init n) = n) by apply repeat_length.
      assert (K : forall i, (i < n)%nat -> kept (nondom_init n) i)
        by (intros; apply nondom_init_nth; auto).
      assert (D : forall i, (i < n)%nat -> ~ dominated_in mx pts i).
      { intros i Hi (j & Hj & DD). fold n in Hj. replace j with i in DD by lia.
        rewrite dom_iff in DD. tauto. }
      unfold filter_spec. destruct kw.
      - split; auto. intros. split; auto.
      - split; auto. split; [|split]; auto.
        + intros i j Hi Hj _ _ Hne. fold n in Hi, Hj. lia.
        + intros i Hi. exists i. split; auto. split; auto. apply wdom_refl. }
    destruct (Nat.eqb_spec (length mx) 2) as [E2|E2].
    - rewrite E2 in *.
      destruct (force_agree_ok mx pts) as (pts' & EF & HL' & HC); [now rewrite E2|].
      rewrite EF. cbn [bind].
      destruct (find_nondominated_set_2d_ok pts' (sort2d pts') kw (Hsort pts') sort2d eq_refl)
        as (nd & EN & HL & HD). { rewrite HL'. auto. }
      rewrite HL' in EN. fold n in EN. rewrite EN. cbn [bind fst snd].
      exists nd, (Z.of_nat (countb negb nd)). split; auto. split; auto.
      rewrite HL' in *. eapply filter_from_dead; eauto.
    - destruct (nd_outer_ok pts (length mx) (minmax_from_bool mx) AGREE_NONE false kw
                 (n - 1) 0 (nondom_init n)) as (nd & r & E & _ & E1 & E3).
      { reflexivity. } { fold n. lia. }
      { apply nd_init_inv. }
      fold n in E. rewrite E. cbn [bind].
      rewrite (E1 eq_refl) in *.
      exists nd, (Z.of_nat (countb (fun b => b) nd)). split; auto. split; auto.
      apply filter_from_unbeaten.
      + destruct E3; auto.
      + intros i Hi. eapply inv_final; eauto.
  Qed.

  (** For three or more objectives the kept duplicate is the last one. *)
  Lemma find_nd_last_ok : length mx <> 2%nat -> forall nd r,
      find_nondominated_set_ sort2d pts (length mx) (minmax_from_bool mx) AGREE_NONE
         (nondom_init n) false false = Ret (nd, r) ->
    forall i j, (i < j < n)%nat -> row pts i = row pts j -> nth i nd false = false.
  Proof.
    intros Hd nd r E i j Hij Heq.
    unfold find_nondominated_set_ in E. fold n in E.
    destruct (Nat.ltb_spec n 2); try lia.
    destruct (Nat.eqb_spec (length mx) 2); try contradiction.
    destruct (nd_outer_ok pts (length mx) (minmax_from_bool mx) AGREE_NONE false false
                 (n - 1) 0 (nondom_init n)) as (nd' & r' & E' & _ & E1 & E3).
    { reflexivity. } { fold n. lia. }
    { apply nd_init_inv. }
    fold n in E'. rewrite E' in E. cbn [bind] in E.
    rewrite (E1 eq_refl) in *. inversion E; subst nd'.
    destruct (nth i nd false) eqn:Q; auto.
    rewrite (inv_final pts (length mx) (minmax_from_bool mx) AGREE_NONE false nd E3 i) in Q
      by (fold n; lia).
    specialize (Q j ltac:(fold n; lia)).
    rewrite <- not_true_iff_false in Q. exfalso. apply Q.
    apply beats_spec. rewrite Heq. split. apply wdom_refl. right. split; auto. lia.
  Qed.

  (** ** find_dominated_point *)
  Lemma find_dominated_ok : (2 <= n)%nat ->
    exists r, find_dominated_point sort2d pts (length mx) (minmax_from_bool mx) = Ret r /\
      ((r = -1 /\ forall i j, (i < n)%nat -> (j < n)%nat -> i <> j ->
           ~ wdom mx (row pts i) (row pts j)) \/
       exists i j, (i < n)%nat /\ (j < n)%nat /\ i <> j /\
           wdom mx (row pts i) (row pts j) /\ r = Z.of_nat j).
  Proof.
    intros Hn. unfold find_dominated_point, find_nondominated_set_. fold n.
    destruct (Nat.ltb_spec n 2); try lia.
    destruct (Nat.eqb_spec (length mx) 2) as [E2|E2].
    - rewrite E2 in *.
      destruct (force_agree_ok mx pts) as (pts' & EF & HL' & HC); [now rewrite E2|].
      rewrite EF. cbn [bind].
      destruct (find_dominated_2d_ok pts' (sort2d pts') false (Hsort pts') sort2d eq_refl)
        as (r & EN & HD). { rewrite HL'. auto. }
      rewrite EN. cbn [bind snd]. exists r. split; auto.
      set (pp := sort2d pts') in *.
      pose proof (Hsort pts') as HS. fold pp in HS.
      pose proof (pp_range pts' pp HS) as Rg. rewrite HL' in Rg.
      pose proof (pp_surj pts' pp HS) as Sj. rewrite HL' in Sj.
      assert (W : forall i j, (i < n)%nat -> (j < n)%nat ->
        (wdom mx (row pts i) (row pts j) <->
         coord (row pts' i) 0 <= coord (row pts' j) 0 /\
         coord (row pts' i) 1 <= coord (row pts' j) 1)).
      { intros. apply wdom2_iff; auto; intros; apply HC; auto; lia. }
      rewrite HL' in HD.
      destruct HD as [[-> HD]|(m & Hm & HD & ->)].
      + left. split; auto. intros i i' Hi Hi' Hne Wd.
        destruct (Sj i Hi) as (j & Hj & <-). destruct (Sj i' Hi') as (j' & Hj' & <-).
        rewrite W in Wd by auto.
        pose proof (alive_delete pts' pp false HS eq_refl j') as A1. rewrite HL' in A1.
        destruct (A1 Hj' (HD j' Hj') j Hj) as (B1 & B2 & A3); try tauto.
        pose proof (alive_delete pts' pp false HS eq_refl j) as A2. rewrite HL' in A2.
        destruct (A2 Hj (HD j Hj) j' Hj') as (_ & _ & A4); try lia.
        apply Hne. f_equal. lia.
      + right. pose proof (dead_delete_wdom pts' pp false HS eq_refl m) as DD.
        rewrite HL' in DD. destruct (DD Hm HD) as (i & Hi & Hne & A1 & A2).
        exists (nth i pp O), (nth m pp O). split; auto. split; auto. split.
        * intro C. apply Hne.
          pose proof (pp_nodup pts' pp HS) as ND. rewrite (NoDup_nth pp O) in ND.
          apply ND in C; auto; rewrite (pp_length pts' pp HS), HL'; auto.
        * split; auto. rewrite W by auto. auto.
    - destruct (nd_outer_ok pts (length mx) (minmax_from_bool mx) AGREE_NONE true false
                 (n - 1) 0 (nondom_init n)) as (nd & r & E & E0 & _ & E3).
      { reflexivity. } { fold n. lia. }
      { apply nd_init_inv. }
      fold n in E, E0. rewrite E. cbn [bind].
      destruct r as [pos|].
      + cbn [bind snd]. eexists. split; [reflexivity|]. right.
        destruct E3 as (Hp & b & Hb & HB).
        assert (b <> pos) by (intro; subst; rewrite B_irr in HB; discriminate).
        apply beats_spec in HB.
        exists b, pos. split; auto. split; auto. split; auto. tauto.
      + cbn [bind snd]. eexists. split; [reflexivity|]. left. split; auto.
        specialize (E0 eq_refl (fun i H => nondom_init_nth i n H) eq_refl).
        assert (U : forall i b, (i < n)%nat -> (b < n)%nat -> beats (fun a b => wdomA AGREE_NONE (minmax_from_bool mx) (length mx) (row pts a) (row pts b)) false b i = false).
        { intros i b Hi Hb.
          apply (inv_final pts (length mx) (minmax_from_bool mx) AGREE_NONE false nd E3 i Hi); auto. }
        intros i j Hi Hj Hne Wd.
        pose proof (U j i Hj Hi) as U1. pose proof (U i j Hi Hj) as U2.
        rewrite <- not_true_iff_false, beats_spec in U1.
        rewrite <- not_true_iff_false, beats_spec in U2.
        destruct (dec_wdom (row pts j) (row pts i)); [|tauto].
        destruct (Nat.lt_ge_cases i j).
        * apply U2. split; auto.
        * apply U1. split; auto. right. split; auto. lia.
  Qed.
End Main.

(** ** get_nondominated_set *)

Fixpoint select (pts : list point) (nd : list bool) : list point :=
  match pts, nd with
  | p :: pts', b :: nd' => if b then p :: select pts' nd' else select pts' nd'
  | _, _ => []
  end.

Lemma select_length : forall nd pts, length nd = length pts ->
  length (select pts nd) = countb (fun b => b) nd.
Proof.
  induction nd; destruct pts; simpl; intros; try lia.
  destruct a; simpl; rewrite IHnd; lia.
Qed.

Lemma copy_flagged_ok : forall nd pts cap k, length nd = length pts ->
  (k + countb (fun b => b) nd <= cap)%nat ->
  copy_flagged pts nd cap k = Ret (select pts nd).
Proof.
  induction nd; destruct pts; simpl; intros; try lia; auto.
  destruct a; simpl.
  - destruct (Nat.ltb_spec k cap); try lia. rewrite IHnd by lia. reflexivity.
  - apply IHnd; lia.
Qed.

Lemma countb_le : forall (nd : list bool) f, (countb f nd <= length nd)%nat.
Proof. induction nd; simpl; intros; auto. specialize (IHnd f). destruct (f a); lia. Qed.

Lemma get_nondominated_set_ok : forall sort2d mx pts,
  valid_sort2d sort2d -> wf_points (length mx) pts ->
  length mx <> 2%nat \/ (length pts < 2)%nat ->
  exists nd, strict_filter_spec mx pts nd /\
    get_nondominated_set sort2d pts (length mx) (minmax_from_bool mx)
      = Ret (select pts nd, Z.of_nat (length (select pts nd))).
Proof.
  intros sort2d mx pts Hs Hwf Hd.
  destruct (find_nd_filter_ok sort2d Hs mx pts Hwf false) as (nd & r & E & HF & Hr).
  exists nd. split; auto. unfold get_nondominated_set, find_nondominated_set.
  rewrite E. cbn [bind].
  assert (HL : length nd = length pts) by (destruct HF; auto).
  assert (Hr' : r = Z.of_nat (countb (fun b => b) nd)).
  { rewrite Hr. destruct (Nat.ltb_spec (length pts) 2).
    - destruct HF as (_ & _ & _ & HF). f_equal.
      destruct pts as [|p [|]]; simpl in *; try lia; destruct nd as [|b [|]]; simpl in *; try lia; auto.
      destruct (HF 0%nat ltac:(lia)) as (j & Hj & K & _).
      assert (j = 0)%nat by lia. subst. unfold kept in K. simpl in K. subst. reflexivity.
    - destruct (Nat.eqb_spec (length mx) 2); auto. lia. }
  rewrite Hr'. pose proof (countb_le nd (fun b => b)) as CL. rewrite HL in CL.
  destruct (Z.leb_spec (Z.of_nat (countb (fun b => b) nd)) (Z.of_nat (length pts))); try lia.
  cbn [assert_ bind]. rewrite Nat2Z.id. rewrite copy_flagged_ok by (auto; lia).
  cbn [bind]. rewrite select_length by auto. rewrite Z.eqb_refl. reflexivity.
Qed.
