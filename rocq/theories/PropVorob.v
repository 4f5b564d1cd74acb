(** Properties C40, C48, C49: Vorob'ev threshold, expectation and deviation.

    Specification: VorobSpec.v, EafSpec.v, HvSpec.v.  Model: VorobModel.v. *)
From Coq Require Import List ZArith Lia Bool Arith Permutation Sorted QArith Lqa.
From Verif Require Import Base Spec EafSpec EafModel EafMain EafStoreModel EafTop PropEaf
  NondomModel NondomProofs2d HvSpec Hv2dModel Hv2dProofs PropHv GroupModel GroupSpec GroupProofs PropGroup
  PyEafModel PyEafSpec PyEafProofs PropPyEaf VorobModel VorobSpec.
Import ListNotations.
Open Scope Z_scope.

(** ** The mean of the hypervolumes of the sets *)
Lemma mean_hv_ok : forall argsort sort2d (f : list point -> list point) data labels ref,
  valid_argsort le argsort -> valid_sort2d sort2d -> data <> [] -> length labels = length data ->
  length ref = 2%nat ->
  exists vs, apply_within_sets argsort (fun g => h <- hv2d sort2d (f g) ref ;; Ret [h]) data labels = Ret vs /\
    Forall2 (fun S v => hypervolume (f S) ref v) (sets_of data labels) vs.
Proof.
  intros argsort sort2d f data labels ref HA HS Hne HL Hr.
  set (h := fun g => match hv2d sort2d (f g) ref with Ret v => v | _ => 0 end).
  assert (Hh : forall g, hv2d sort2d (f g) ref = Ret (h g) /\ hypervolume (f g) ref (h g)).
  { intros g. destruct (C08_hv2d_exact sort2d (f g) ref HS Hr) as (v & E & V). unfold h. rewrite E. auto. }
  exists (map (fun v => h (rows_with data labels v)) (in_order_of_appearance labels)). split.
  - apply (C38_one_result_per_set _ _ argsort _ h); auto.
    intros v Hv. destruct (Hh (rows_with data labels v)) as [E _]. rewrite E. reflexivity.
  - unfold sets_of. induction (in_order_of_appearance labels); simpl; constructor; auto. apply Hh.
Qed.

Theorem C48_mean_hypervolume : forall argsort sort2d data labels ref,
  valid_argsort le argsort -> valid_sort2d sort2d -> data <> [] -> length labels = length data ->
  length ref = 2%nat ->
  exists m, mean_hv argsort sort2d data labels ref = Ret m /\
    mean_over (sets_of data labels) (fun S v => hypervolume S ref v) m.
Proof.
  intros. destruct (mean_hv_ok argsort sort2d (fun g => g) data labels ref) as (vs & E & F); auto.
  exists (np_mean vs). unfold mean_hv. rewrite E. split; auto. exists vs. split; auto.
  unfold np_mean. replace (length vs) with (length (sets_of data labels)). reflexivity.
  clear - F. induction F; simpl; auto.
Qed.
Print Assumptions C48_mean_hypervolume.

(** ** The loop.  Doubles in [0, 100] are multiples of 2^-1074 and are
    represented by integers; [rep] tells which integers are doubles, and [mid] is
    any midpoint computation whose result is a double between its arguments
    (PropVorobFloat.v shows that IEEE 754 arithmetic is such a computation). *)
Definition valid_mid (rep : Z -> Prop) (mid : Z -> Z -> Z) : Prop :=
  forall a b, rep a -> rep b -> a <= b -> a <= mid a b <= b /\ rep (mid a b).

Definition above {V} (H : Z -> outcome (V * Z)) (avg : Q) (c : Z) : Prop :=
  exists s v, H c = Ret (s, v) /\ (avg < inject_Z v)%Q.
Definition not_above {V} (H : Z -> outcome (V * Z)) (avg : Q) (c : Z) : Prop :=
  exists s v, H c = Ret (s, v) /\ (inject_Z v <= avg)%Q.

Lemma Qgtb_spec : forall x y, Qgtb x y = true <-> (y < x)%Q.
Proof.
  intros. unfold Qgtb. rewrite negb_true_iff. split; intros.
  - destruct (Qlt_le_dec y x); auto. apply Qle_bool_iff in q. congruence.
  - apply not_true_is_false. rewrite Qle_bool_iff. lra.
Qed.

Section LOOP.
Context {V : Type}.
Variable rep : Z -> Prop.
Variable mid : Z -> Z -> Z.
Variable H : Z -> outcome (V * Z).
Variable avg : Q.
Variables zero hundred : Z.
Hypothesis Hmid : valid_mid rep mid.
Hypothesis Htot : forall c, zero <= c <= hundred -> (exists s v, H c = Ret (s, v)) \/ H c = AssertFailed.

(** the result of the loop *)
Definition loop_result (r : outcome (Z * V)) : Prop :=
  exists c s v lo hi, r = Ret (c, s) /\ H c = Ret (s, v) /\
    zero <= lo <= hi /\ hi <= hundred /\ (c = lo \/ c = hi) /\
    (lo = zero \/ above H avg lo) /\ (hi = hundred \/ not_above H avg hi).

Lemma loop_step : forall fuel a b prev s v, H (mid a b) = Ret (s, v) ->
  vorob_loop mid H avg (S fuel) a b prev =
  let ab := if Qgtb (inject_Z v) avg then (mid a b, b) else (a, mid a b) in
  if match prev with Some p => p =? v | None => false end then Ret (mid a b, s)
  else vorob_loop mid H avg fuel (fst ab) (snd ab) (Some v).
Proof. intros. cbn [vorob_loop]. rewrite H0. reflexivity. Qed.

Definition inv (a b : Z) : Prop := rep a /\ rep b /\ zero <= a <= b /\ b <= hundred /\
  (a = zero \/ above H avg a) /\ (b = hundred \/ not_above H avg b).

(** state after evaluating the midpoint *)
Lemma inv_step : forall a b s v, inv a b -> H (mid a b) = Ret (s, v) ->
  let ab := if Qgtb (inject_Z v) avg then (mid a b, b) else (a, mid a b) in
  inv (fst ab) (snd ab) /\ (mid a b = fst ab \/ mid a b = snd ab).
Proof.
  intros a b s v (Ra & Rb & I1 & I2 & I3 & I4) E ab. destruct (Hmid a b Ra Rb ltac:(lia)) as [[M1 M2] Rm].
  unfold ab, inv. destruct (Qgtb (inject_Z v) avg) eqn:G; cbn [fst snd].
  - split; auto. repeat split; try lia; auto. right. exists s, v. split; auto. now apply Qgtb_spec.
  - split; auto. repeat split; try lia; auto. right. exists s, v. split; auto.
    destruct (Qlt_le_dec avg (inject_Z v)); auto. apply Qgtb_spec in q. congruence.
Qed.

Lemma loop_stop_now : forall fuel a b v s, inv a b -> H (mid a b) = Ret (s, v) ->
  loop_result (vorob_loop mid H avg (S fuel) a b (Some v)).
Proof.
  intros fuel a b v s I E. rewrite (loop_step fuel a b _ s v E). cbv zeta. rewrite Z.eqb_refl.
  destruct (inv_step a b s v I E) as [(Ja & Jb & J1 & J2 & J3 & J4) J5]. cbv zeta in *.
  exists (mid a b), s, v. do 2 eexists. split; [reflexivity|]. split; [exact E|].
  split; [exact J1|]. split; [exact J2|]. auto.
Qed.

Lemma loop_ok_or : forall n a b prev fuel, inv a b -> b - a <= Z.of_nat n -> (n + 2 <= fuel)%nat ->
  loop_result (vorob_loop mid H avg fuel a b prev) \/
  vorob_loop mid H avg fuel a b prev = AssertFailed /\ exists c, zero <= c <= hundred /\ H c = AssertFailed.
Proof.
  induction n as [n IH] using (well_founded_induction lt_wf); intros a b prev fuel I Hn Hf.
  destruct fuel as [|fuel]; [lia|].
  pose proof I as (Ra & Rb & I1 & I2 & I3 & I4). destruct (Hmid a b Ra Rb ltac:(lia)) as [[M1 M2] Rm].
  destruct (Htot (mid a b)) as [(s & v & E)|E]. lia.
  2:{ right. cbn [vorob_loop]. rewrite E. split; auto. exists (mid a b). split; auto. lia. }
  assert (D : (exists p, prev = Some p /\ p = v) \/
              match prev with Some p => p =? v | None => false end = false).
  { destruct prev as [p|]; auto. destruct (Z.eqb_spec p v); eauto. }
  destruct D as [(p & -> & ->)|D]. { left. now apply loop_stop_now with (s := s). }
  rewrite (loop_step fuel a b prev s v E). cbv zeta. rewrite D.
  destruct (inv_step a b s v I E) as [J J5]. cbv zeta in J, J5.
  destruct (Z.eq_dec (mid a b) a) as [Ea|Ea].
  { (* midpoint = a *)
    destruct fuel as [|fuel]; [lia|]. left. apply loop_stop_now with (s := s); auto.
    assert (Maa : mid a a = a) by (destruct (Hmid a a Ra Ra ltac:(lia)); lia).
    rewrite Ea in E. destruct (Qgtb (inject_Z v) avg); cbn [fst snd]; rewrite ?Ea, ?Maa, ?Ea; exact E. }
  destruct (Z.eq_dec (mid a b) b) as [Eb|Eb].
  { destruct fuel as [|fuel]; [lia|]. left. apply loop_stop_now with (s := s); auto.
    assert (Mbb : mid b b = b) by (destruct (Hmid b b Rb Rb ltac:(lia)); lia).
    rewrite Eb in E. destruct (Qgtb (inject_Z v) avg); cbn [fst snd]; rewrite ?Eb, ?Mbb, ?Eb; exact E. }
  destruct (Qgtb (inject_Z v) avg); cbn [fst snd] in *.
  - apply (IH (Z.to_nat (b - mid a b))); auto; lia.
  - apply (IH (Z.to_nat (mid a b - a))); auto; lia.
Qed.
End LOOP.
Lemma loop_ok : forall {V} rep mid (H : Z -> outcome (V * Z)) avg zero hundred, valid_mid rep mid ->
  (forall c, zero <= c <= hundred -> exists s v, H c = Ret (s, v)) ->
  forall n a b prev fuel, inv rep H avg zero hundred a b -> b - a <= Z.of_nat n -> (n + 2 <= fuel)%nat ->
  loop_result H avg zero hundred (vorob_loop mid H avg fuel a b prev).
Proof.
  intros V rep mid H avg zero hundred Hm Ht n a b prev fuel I Hn Hf.
  destruct (loop_ok_or rep mid H avg zero hundred Hm (fun c Hc => or_introl (Ht c Hc)) n a b prev fuel I Hn Hf) as [R|(_ & c & Hc & E)]; auto.
  destruct (Ht c Hc) as (s & v & E'). congruence.
Qed.

Lemma loop_more_fuel : forall C V mid (H : C -> outcome (V * Z)) avg fuel fuel' (a b : C) prev r, (fuel <= fuel')%nat ->
  vorob_loop mid H avg fuel a b prev = Ret r -> vorob_loop mid H avg fuel' a b prev = Ret r.
Proof.
  induction fuel; intros fuel' a b prev r Hf E; [discriminate|]. destruct fuel' as [|fuel']; [lia|].
  cbn [vorob_loop] in *. destruct (H (mid a b)) as [[s v]| | |]; cbn [bind] in *; try discriminate.
  destruct (match prev with Some p => p =? snd (s, v) | None => false end); auto.
  apply IHfuel; auto. lia.
Qed.

(** [l] is the level used for percentile [p] of [n] sets (C23) *)
Definition level_of (n : nat) (p : Q) (l : nat) : Prop :=
  (1 <= l <= n)%nat /\
  forall m : nat, ((l <= m)%nat <->
     (1 <= m)%nat /\ (inject_Z (Z.of_nat n) * p / 100 - tolerance <= inject_Z (Z.of_nat m))%Q).

Lemma level_of_unique : forall n p l l', level_of n p l -> level_of n p l' -> l = l'.
Proof.
  intros n p l l' [A B] [A' B'].
  pose proof (proj2 (B l') (proj1 (B' l') (le_n l'))). pose proof (proj2 (B' l) (proj1 (B l) (le_n l))). lia.
Qed.

Lemma eaf_hv_ok : forall C (toQ : C -> Q) sort2d sortx sorty junk grow data labels ref c,
  data <> [] -> length labels = length data -> wf_points 2 data -> StronglySorted Z.le labels ->
  valid_sort2d sort2d -> length ref = 2%nat ->
  is_datax data (sortx data) -> is_datay data (sorty data) ->
  (forall i, 0 <= junk i < 2 ^ 64) -> (forall m r, (m <= grow m r)%nat) ->
  Z.of_nat (length data) <= (2 ^ 31 - 1) / 2 -> (0 <= toQ c <= 100)%Q ->
  exists s v l, eaf_hv toQ sort2d sortx sorty junk grow data labels ref c = Ret (s, v) /\
    level_of (length (sets_of data labels)) (toQ c) l /\
    is_surface2d (sets_of data labels) l s /\ hypervolume s ref v.
Proof.
  intros C toQ sort2d sortx sorty junk grow data labels ref c Hne HL HW HS Hs Hr Hx Hy Hj Hg Hn Hc.
  destruct (C39_eaf_sorted_labels_partial sortx sorty junk grow data labels [toQ c]) as (ls & ss & E & F & G); auto.
  discriminate. cbv zeta in *. change (np_unique_q [toQ c]) with [toQ c] in *.
  inversion F as [|? l ? ? L1 F']; subst. inversion F'; subst. inversion G as [|? s ? ? S1 G']; subst. inversion G'; subst.
  destruct (C08_hv2d_exact sort2d s ref Hs Hr) as (v & Ev & V).
  exists s, v, l. split; [|split; [|split]]; auto.
  unfold eaf_hv. rewrite E. cbn [bind combine map concat fst snd]. rewrite app_nil_r, map_map. cbn [fst].
  rewrite map_id, Ev. reflexivity.
Qed.

(** vorobT terminates.  It returns the mean hypervolume of the sets, and the
    attainment surface of the returned threshold; the threshold is one end of
    an interval [lo, hi] whose lower end has a surface of more than the mean
    hypervolume and whose upper end has a surface of at most the mean.
    Missing (and refuted below): that no surface between lo and hi differs from
    those of lo and hi. *)
Theorem C48_vorobT_partial :
  forall (rep : Z -> Prop) (mid : Z -> Z -> Z) (toQ : Z -> Q) zero hundred argsort sort2d sortx sorty junk grow data labels ref,
  valid_mid rep mid -> rep zero -> rep hundred -> zero <= hundred -> (forall c, zero <= c <= hundred -> (0 <= toQ c <= 100)%Q) ->
  valid_argsort le argsort -> valid_sort2d sort2d ->
  is_datax data (sortx data) -> is_datay data (sorty data) ->
  (forall i, 0 <= junk i < 2 ^ 64) -> (forall m r, (m <= grow m r)%nat) ->
  data <> [] -> length labels = length data -> wf_points 2 data -> length ref = 2%nat ->
  StronglySorted Z.le labels -> Z.of_nat (length data) <= (2 ^ 31 - 1) / 2 ->
  let sets := sets_of data labels in
  exists N c VE avg l lo hi,
    (forall fuel, (N <= fuel)%nat ->
       vorobT mid toQ zero hundred argsort sort2d sortx sorty junk grow fuel data labels ref
         = Ret (c, VE, avg)) /\
    mean_over sets (fun S v => hypervolume S ref v) avg /\
    level_of (length sets) (toQ c) l /\ is_surface2d sets l VE /\
    zero <= lo <= hi /\ hi <= hundred /\ (c = lo \/ c = hi) /\
    (lo = zero \/ forall l s v, level_of (length sets) (toQ lo) l -> is_surface2d sets l s ->
                    hypervolume s ref v -> (avg < inject_Z v)%Q) /\
    (hi = hundred \/ forall l s v, level_of (length sets) (toQ hi) l -> is_surface2d sets l s ->
                    hypervolume s ref v -> (inject_Z v <= avg)%Q).
Proof.
  intros rep mid toQ zero hundred argsort sort2d sortx sorty junk grow data labels ref
    Hmid Rz Rh Hzh HtoQ HA Hs Hx Hy Hj Hg Hne HL HW Hr HS Hn sets.
  destruct (C48_mean_hypervolume argsort sort2d data labels ref HA Hs Hne HL Hr) as (avg & Eavg & Mavg).
  set (H := eaf_hv toQ sort2d sortx sorty junk grow data labels ref).
  assert (HH : forall c, zero <= c <= hundred -> exists s v l, H c = Ret (s, v) /\
    level_of (length sets) (toQ c) l /\ is_surface2d sets l s /\ hypervolume s ref v).
  { intros c Hc. apply eaf_hv_ok; auto. }
  destruct (loop_ok rep mid H avg zero hundred Hmid) with (n := Z.to_nat (hundred - zero)) (a := zero) (b := hundred)
    (prev := @None Z) (fuel := (Z.to_nat (hundred - zero) + 2)%nat)
    as (c & s & v & lo & hi & E & Ec & B1 & B2 & B3 & B4 & B5).
  { intros c Hc. destruct (HH c Hc) as (s & v & l & E & _). eauto. }
  { unfold inv. repeat split; auto; lia. }
  { rewrite Z2Nat.id; lia. } { apply le_n. }
  destruct (HH c) as (s' & v' & l & E' & Lv & Sf & Hv). { destruct B3; lia. }
  rewrite Ec in E'. inversion E'; subst s' v'.
  exists (Z.to_nat (hundred - zero) + 2)%nat, c, s, avg, l, lo, hi.
  split; [|split; [|split; [|split; [|split; [|split; [|split; [|split]]]]]]]; auto.
  - intros fuel Hf. unfold vorobT. rewrite Eavg. cbn [bind]. fold H.
    rewrite (loop_more_fuel _ _ _ _ _ _ _ _ _ _ _ Hf E). reflexivity.
  - destruct B4 as [B4|(s1 & v1 & E1 & G1)]; auto. right. intros l2 s2 v2 L2 S2 V2.
    destruct (HH lo ltac:(lia)) as (s3 & v3 & l3 & E3 & L3 & S3 & V3). rewrite E1 in E3. inversion E3; subst s3 v3.
    pose proof (level_of_unique _ _ _ _ L2 L3). subst l3.
    assert (s2 = s1) by (destruct L2 as [[L2 _] _]; apply (C20_surface_unique sets l2); auto). subst s2.
    now rewrite (hypervolume_unique _ _ _ _ V2 V3).
  - destruct B5 as [B5|(s1 & v1 & E1 & G1)]; auto. right. intros l2 s2 v2 L2 S2 V2.
    destruct (HH hi ltac:(lia)) as (s3 & v3 & l3 & E3 & L3 & S3 & V3). rewrite E1 in E3. inversion E3; subst s3 v3.
    pose proof (level_of_unique _ _ _ _ L2 L3). subst l3.
    assert (s2 = s1) by (destruct L2 as [[L2 _] _]; apply (C20_surface_unique sets l2); auto). subst s2.
    now rewrite (hypervolume_unique _ _ _ _ V2 V3).
Qed.
Print Assumptions C48_vorobT_partial.

(** ** Termination does not need sorted labels: the sets seen by C may be
    wrong (C39), but the loop still ends. *)
Fixpoint split_by (sizes : list nat) (data : list point) : list (list point) :=
  match sizes with [] => [] | k :: sizes' => firstn k data :: split_by sizes' (skipn k data) end.

Lemma split_by_ok : forall sizes data, fold_right Nat.add 0%nat sizes = length data ->
  concat (split_by sizes data) = data /\ map (@length point) (split_by sizes data) = sizes.
Proof.
  induction sizes; cbn [split_by concat map fold_right]; intros data H.
  - destruct data; [auto|discriminate].
  - destruct (IHsizes (skipn a data)) as [E1 E2]. rewrite skipn_length. lia.
    rewrite E1, E2. split. apply firstn_skipn. f_equal. rewrite firstn_length. lia.
Qed.

Lemma counts_sum : forall l (vs : list Z), NoDup vs -> (forall v, In v l -> In v vs) ->
  fold_right Nat.add 0%nat (map (fun v => countb (Z.eqb v) l) vs) = length l.
Proof.
  induction l; intros vs N I.
  - clear. induction vs; simpl; auto.
  - assert (E : fold_right Nat.add 0%nat (map (fun v => countb (Z.eqb v) (a :: l)) vs) =
               (fold_right Nat.add 0%nat (map (fun v => countb (Z.eqb v) l) vs) + countb (Z.eqb a) vs)%nat).
    { clear. induction vs; cbn [map fold_right]; auto. rewrite IHvs. cbn [countb].
      rewrite (Z.eqb_sym a a0). destruct (a0 =? a); lia. }
    rewrite E, IHl; auto. 2: { intros; apply I; now right. }
    assert (C : countb (Z.eqb a) vs = 1%nat).
    { specialize (I a (or_introl eq_refl)). clear - N I. induction N; [contradiction|]. cbn [countb].
      destruct (Z.eqb_spec a x).
      - subst. assert (countb (Z.eqb x) l = 0%nat).
        { clear - H. induction l; cbn [countb]; auto. destruct (Z.eqb_spec x a). subst. exfalso; apply H; now left.
          cbn. apply IHl. intro; apply H; now right. } lia.
      - destruct I; [congruence|]. cbn. auto. }
    rewrite C. simpl. lia.
Qed.

Lemma unsorted_labels_runs : forall data labels, length labels = length data ->
  exists runs, concat runs = data /\ np_cumsum (unique_counts labels) = cumsizes runs /\
    length (np_cumsum (unique_counts labels)) = length runs /\ (forall r, In r runs -> r <> []).
Proof.
  intros data labels HL. exists (split_by (unique_counts labels) data).
  assert (S : fold_right Nat.add 0%nat (unique_counts labels) = length data).
  { unfold unique_counts. rewrite counts_sum; auto. apply np_unique_NoDup. intros. now apply np_unique_In. }
  destruct (split_by_ok _ _ S) as [E1 E2].
  assert (E : np_cumsum (unique_counts labels) = cumsizes (split_by (unique_counts labels) data)).
  { unfold cumsizes, np_cumsum. rewrite cumsizes_cumsum, E2. reflexivity. }
  split; auto. split; auto. split.
  - rewrite E. unfold cumsizes. generalize 0%nat. generalize (split_by (unique_counts labels) data).
    induction l; intros; cbn [cumsizes_from length]; auto.
  - intros r Hr ->. apply (in_map (@length point)) in Hr. rewrite E2 in Hr. unfold unique_counts in Hr.
    apply in_map_iff in Hr. destruct Hr as (v & E0 & Hv). apply (proj1 (np_unique_In _ _)) in Hv. cbn [length] in E0. clear - E0 Hv.
    induction labels as [|a labels IH]; [contradiction|]. cbn [countb] in E0. destruct (Z.eqb_spec v a); [discriminate E0|].
    destruct Hv as [Hv|Hv]; [congruence|]. auto.
Qed.

Lemma eaf_hv_total : forall C (toQ : C -> Q) sort2d sortx sorty junk grow data labels ref c,
  data <> [] -> length labels = length data -> wf_points 2 data ->
  valid_sort2d sort2d -> length ref = 2%nat ->
  is_datax data (sortx data) -> is_datay data (sorty data) ->
  (forall i, 0 <= junk i < 2 ^ 64) -> (forall m r, (m <= grow m r)%nat) ->
  Z.of_nat (length data) <= (2 ^ 31 - 1) / 2 -> (0 <= toQ c <= 100)%Q ->
  exists s v, eaf_hv toQ sort2d sortx sorty junk grow data labels ref c = Ret (s, v).
Proof.
  intros C toQ sort2d sortx sorty junk grow data labels ref c Hne HL HW Hs Hr Hx Hy Hj Hg Hn Hc.
  destruct (unsorted_labels_runs data labels HL) as (runs & Ec & E & L & N).
  destruct (C20_eaf_matrix_exact runs sortx sorty junk grow [toQ c]) as (ls & ss & E1 & F & G); rewrite ?Ec; auto.
  - intros ->. simpl in Ec. congruence.
  - unfold eaf_hv, py_eaf. rewrite L. rewrite E. change (np_unique_q [toQ c]) with [toQ c]. rewrite Ec in E1. rewrite E1.
    cbn [bind]. match goal with |- context [hv2d sort2d ?m ref] =>
      destruct (C08_hv2d_exact sort2d m ref Hs Hr) as (v & Ev & V) end.
    rewrite Ev. cbn [bind]. eauto.
Qed.

Theorem C40_vorobT_terminates_gen :
  forall (rep : Z -> Prop) (mid : Z -> Z -> Z) (toQ : Z -> Q) zero hundred argsort sort2d sortx sorty junk grow data labels ref,
  valid_mid rep mid -> rep zero -> rep hundred -> zero <= hundred ->
  (forall c, zero <= c <= hundred -> (0 <= toQ c <= 100)%Q) ->
  valid_argsort le argsort -> valid_sort2d sort2d ->
  is_datax data (sortx data) -> is_datay data (sorty data) ->
  (forall i, 0 <= junk i < 2 ^ 64) -> (forall m r, (m <= grow m r)%nat) ->
  data <> [] -> length labels = length data -> wf_points 2 data -> length ref = 2%nat ->
  Z.of_nat (length data) <= (2 ^ 31 - 1) / 2 ->
  exists N c VE avg, forall fuel, (N <= fuel)%nat ->
       vorobT mid toQ zero hundred argsort sort2d sortx sorty junk grow fuel data labels ref
         = Ret (c, VE, avg).
Proof.
  intros rep mid toQ zero hundred argsort sort2d sortx sorty junk grow data labels ref
    Hmid Rz Rh Hzh HtoQ HA Hs Hx Hy Hj Hg Hne HL HW Hr Hn.
  destruct (C48_mean_hypervolume argsort sort2d data labels ref HA Hs Hne HL Hr) as (avg & Eavg & Mavg).
  destruct (loop_ok rep mid (eaf_hv toQ sort2d sortx sorty junk grow data labels ref) avg zero hundred Hmid)
    with (n := Z.to_nat (hundred - zero)) (a := zero) (b := hundred)
    (prev := @None Z) (fuel := (Z.to_nat (hundred - zero) + 2)%nat)
    as (c & s & v & lo & hi & E & Ec & B1 & B2 & B3 & B4 & B5).
  { intros c Hc. apply eaf_hv_total; auto. }
  { unfold inv. repeat split; auto; lia. }
  { rewrite Z2Nat.id; lia. } { apply le_n. }
  exists (Z.to_nat (hundred - zero) + 2)%nat, c, s, avg. intros fuel Hf.
  unfold vorobT. rewrite Eavg. cbn [bind].
  rewrite (loop_more_fuel _ _ _ _ _ _ _ _ _ _ _ Hf E). reflexivity.
Qed.
Print Assumptions C40_vorobT_terminates_gen.

(** ** The loop may stop too early.  Eight sets: six attain everything (volume
    20), one has volume 19 and one volume 0; the mean is 139/8.  The surface of
    level 7 has volume 19 and that of level 8 has volume 0, so the Vorob'ev
    threshold is at level 7.  The loop tries 50% (level 4) and 75% (level 6),
    sees twice the volume 20 and stops: it returns the surface of level 6. *)
Definition qmid (a b : Q) : Q := Qred ((a + b) / 2).
Definition early_data : list point := [[0;0];[0;0];[0;0];[0;0];[0;0];[0;0];[1;0];[20;1]].
Definition early_labels : list Z := [1;2;3;4;5;6;7;8].
Theorem C48_early_stop_refuted :
  let sets := sets_of early_data early_labels in
  let ref := [20; 1] in
  vorobT qmid (fun c => c) 0%Q (100 # 1) argsort_exec sort2d_exec sortx_exec sorty_exec junk0 grow_exec 5
    early_data early_labels ref = Ret ((75 # 1)%Q, [[0; 0]], (139 # 8)%Q) /\
  (* a deeper surface with a smaller volume, still above the mean *)
  is_surface2d sets 6 [[0; 0]] /\ is_surface2d sets 7 [[1; 0]] /\
  hypervolume [[0; 0]] ref 20 /\ hypervolume [[1; 0]] ref 19 /\ (139 # 8 < inject_Z 19)%Q.
Proof.
  cbv zeta. set (sets := sets_of early_data early_labels).
  destruct (C20_eaf2d_surfaces_exact sets sortx_exec sorty_exec [6; 7]%nat) as (out & E & F).
  { discriminate. }
  { intros r Hr. vm_compute in Hr. intuition (subst; discriminate). }
  { vm_compute. repeat constructor. }
  { apply sortx_exec_ok. } { apply sorty_exec_ok. } { repeat constructor; lia. }
  vm_compute in E. inversion E; subst out; clear E. cbn [map fst] in F.
  inversion F as [|? ? ? ? S6 F']; subst. inversion F' as [|? ? ? ? S7 _]; subst.
  split. vm_compute. reflexivity.
  split; auto. split; auto.
  destruct (C08_hv2d_exact sort2d_exec [[0; 0]] [20; 1] sort2d_exec_valid eq_refl) as (v & Ev & V).
  vm_compute in Ev. inversion Ev; subst v.
  destruct (C08_hv2d_exact sort2d_exec [[1; 0]] [20; 1] sort2d_exec_valid eq_refl) as (w & Ew & W).
  vm_compute in Ew. inversion Ew; subst w.
  repeat split; auto.
Qed.
Print Assumptions C48_early_stop_refuted.

(** ** vorobDev is the mean volume of the symmetric difference *)
Lemma dominated_cell_dec : forall S ref, exists f, forall z, f z = true <-> dominated_cell S ref z.
Proof.
  intros.
  exists (fun z => (length z =? length ref)%nat &&
     existsb (fun p => forallb (fun i => coord p i <=? coord z i) (seq 0 (length ref))) S &&
     forallb (fun i => coord z i <? coord ref i) (seq 0 (length ref))).
  intros z. unfold dominated_cell. rewrite !andb_true_iff, Nat.eqb_eq, existsb_exists, forallb_forall.
  split.
  - intros ((H1 & p & Hp & Hc) & H2). rewrite forallb_forall in Hc. split; auto. split.
    + exists p. split; auto. intros i Hi. apply Z.leb_le, Hc, in_seq. lia.
    + intros i Hi. apply Z.ltb_lt, H2, in_seq. lia.
  - intros (H1 & (p & Hp & Hc) & H2). split; [split|]; auto.
    + exists p. split; auto. rewrite forallb_forall. intros i Hi. apply in_seq in Hi. apply Z.leb_le, Hc. lia.
    + intros i Hi. apply in_seq in Hi. apply Z.ltb_lt, H2. lia.
Qed.

Lemma sym_diff_volume : forall ref A B va vb vu,
  hypervolume A ref va -> hypervolume B ref vb -> hypervolume (A ++ B) ref vu ->
  symmetric_difference ref A B (2 * vu - va - vb).
Proof.
  intros ref A B va vb vu (LA & NA & IA & ->) (LB & NB & IB & ->) (LU & NU & IU & ->).
  assert (U : forall z, dominated_cell (A ++ B) ref z <-> dominated_cell A ref z \/ dominated_cell B ref z).
  { intros z. unfold dominated_cell. split.
    - intros (H1 & (p & Hp & Hc) & H2). apply in_app_iff in Hp. destruct Hp; [left|right]; eauto.
    - intros [(H1 & (p & Hp & Hc) & H2)|(H1 & (p & Hp & Hc) & H2)];
        (split; [auto|split; [exists p; split; [apply in_app_iff; auto|auto]|auto]]). }
  destruct (dominated_cell_dec A ref) as (da & Hda). destruct (dominated_cell_dec B ref) as (db & Hdb).
  exists (filter (fun z => xorb (da z) (db z)) LU). split; [|split].
  - now apply NoDup_filter.
  - intros z. rewrite filter_In, IU, U, <- Hda, <- Hdb. destruct (da z), (db z); cbn [xorb]; intuition congruence.
  - assert (EA : length LA = length (filter da LU)).
    { apply Permutation_length, NoDup_Permutation; auto. now apply NoDup_filter.
      intros z. rewrite filter_In, IA, IU, U, Hda. tauto. }
    assert (EB : length LB = length (filter db LU)).
    { apply Permutation_length, NoDup_Permutation; auto. now apply NoDup_filter.
      intros z. rewrite filter_In, IB, IU, U, Hdb. tauto. }
    rewrite EA, EB. assert (C : forall z, In z LU -> da z || db z = true).
    { intros z Hz. apply IU, U in Hz. rewrite <- Hda, <- Hdb in Hz. apply orb_true_iff. exact Hz. }
    clear - C. induction LU as [|z L IH]; simpl filter; simpl length; auto.
    assert (IH' := IH (fun y Hy => C y (or_intror Hy))). specialize (C z (or_introl eq_refl)).
    destruct (da z), (db z); cbn [xorb] in *; try discriminate; simpl length; lia.
Qed.

Lemma zsum_lin : forall vs us c, length vs = length us ->
  zsum (map (fun p => 2 * fst p - snd p - c) (combine vs us)) = 2 * zsum vs - zsum us - c * Z.of_nat (length vs).
Proof.
  induction vs; destruct us; intros; try discriminate. cbn. lia.
  cbn [combine map fst snd]. change (zsum (2 * a - z - c :: map (fun p => 2 * fst p - snd p - c) (combine vs us)))
    with (2 * a - z - c + zsum (map (fun p => 2 * fst p - snd p - c) (combine vs us))).
  rewrite IHvs by (simpl in H; lia). unfold zsum. cbn [fold_right length]. lia.
Qed.

Theorem C49_vorobDev_exact : forall argsort sort2d x labels ref VE,
  valid_argsort le argsort -> valid_sort2d sort2d -> x <> [] -> length labels = length x ->
  length ref = 2%nat ->
  exists d, vorobDev argsort sort2d x labels ref VE = Ret d /\
    mean_over (sets_of x labels) (fun S v => symmetric_difference ref S VE v) d.
Proof.
  intros argsort sort2d x labels ref VE HA HS Hne HL Hr.
  destruct (C08_hv2d_exact sort2d VE ref HS Hr) as (h2 & E2 & V2).
  destruct (mean_hv_ok argsort sort2d (fun g => g) x labels ref) as (us & Eu & Fu); auto.
  destruct (mean_hv_ok argsort sort2d (fun g => g ++ VE) x labels ref) as (vs & Ev & Fv); auto.
  exists (2 * np_mean vs - np_mean us - inject_Z h2)%Q. split.
  - unfold vorobDev, mean_hv. rewrite E2, Eu, Ev. reflexivity.
  - exists (map (fun p => 2 * fst p - snd p - h2) (combine vs us)).
    assert (Lv : length vs = length (sets_of x labels)) by (clear - Fv; induction Fv; simpl; auto).
    assert (Lu : length us = length (sets_of x labels)) by (clear - Fu; induction Fu; simpl; auto).
    split.
    + clear - Fu Fv V2. revert vs Fv. induction Fu; intros vs Fv; inversion Fv; subst; constructor; auto.
      cbn [fst snd]. eapply sym_diff_volume; eauto.
    + rewrite zsum_lin by lia. unfold np_mean. rewrite Lv, Lu.
      assert (0 < length (sets_of x labels))%nat.
      { unfold sets_of. rewrite map_length. destruct labels; destruct x; try discriminate; try contradiction.
        cbn [in_order_of_appearance length]. lia. }
      assert (~ inject_Z (Z.of_nat (length (sets_of x labels))) == 0)%Q.
      { intro K0. unfold Qeq in K0. simpl in K0. lia. }
      unfold Zminus. rewrite !inject_Z_plus, !inject_Z_opp, !inject_Z_mult. change (inject_Z 2) with 2%Q.
      field. auto.
Qed.
Print Assumptions C49_vorobDev_exact.

(** ** Non-vacuity *)
Example C40_nonvacuous :
  vorobT qmid (fun c => c) 0%Q (100 # 1) argsort_exec sort2d_exec sortx_exec sorty_exec junk0 grow_exec 100
    [[1;3];[2;2];[0;5];[3;1]] [1;1;2;2] [6;6] = Ret ((125 # 2)%Q, [[1;5];[3;2]], (37 # 2)%Q) /\
  vorobDev argsort_exec sort2d_exec [[1;3];[2;2];[0;5];[3;1]] [1;1;2;2] [6;6] [[1;5];[3;2]] = Ret (18 # 4)%Q /\
  valid_mid (fun _ => True) (fun a b => (a + b) / 2) /\
  (forall c, 0 <= c <= 100 -> (0 <= inject_Z c <= 100)%Q).
Proof.
  split. vm_compute. reflexivity. split. vm_compute. reflexivity. split.
  - intros a b _ _ Hab. split; auto. split. apply Z.div_le_lower_bound; lia. apply Z.div_le_upper_bound; lia.
  - intros c Hc. change 0%Q with (inject_Z 0). change 100%Q with (inject_Z 100). rewrite <- !Zle_Qle. exact Hc.
Qed.
