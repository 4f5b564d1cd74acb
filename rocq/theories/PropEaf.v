(** Properties C20-C23, C28, C41: empirical attainment functions of two
    objectives, percentiles, and the bit arrays holding the attainment flags.

    Specification: EafSpec.v.  Model: EafModel.v (sweep), EafStoreModel.v
    (storage, percentiles, matrices), BitArrayModel.v. *)
From Coq Require Import List ZArith Lia Bool Arith QArith Qround Lqa.
From Verif Require Import Base Spec EafSpec EafModel EafProofs EafMain BitArrayModel BitArrayProofs
  EafStoreModel EafStoreProofs EafTop.
Import ListNotations.
Open Scope Z_scope.

(** ** C20: the surfaces are exact *)

(** For every collection of non-empty sets, every list of levels and every valid
    result of the two qsort calls, eaf2d returns one surface per level and each is
    the exact attainment surface. *)
Theorem C20_eaf2d_surfaces_exact : forall runs sortx sorty levels,
  runs <> [] -> (forall r, In r runs -> r <> []) -> wf_points 2 (concat runs) ->
  is_datax (concat runs) (sortx (concat runs)) -> is_datay (concat runs) (sorty (concat runs)) ->
  Forall (fun l => (1 <= l)%nat) levels ->
  exists out,
    eaf2d sortx sorty (concat runs) (cumsizes runs) (length runs) (map Z.of_nat levels) = Ret out /\
    Forall2 (is_surface2d runs) levels (map (map fst) out).
Proof.
  intros. destruct (eaf2d_levels_ok runs sortx sorty H H0 H1 H2 H3 levels H4) as (out & E & F).
  exists out. split; auto. clear - F. induction F; cbn [map]; constructor; auto.
  now apply surface_ok_surface.
Qed.

(** The surfaces are minimal: no two points comparable; they use only
    coordinates of the data, have at most as many points as the data, and are
    non-empty up to level n. *)
Theorem C20_surface_minimal : forall runs l s, (1 <= l)%nat ->
  (forall r, In r runs -> r <> []) -> is_surface2d runs l s ->
  (forall p q, In p s -> In q s -> wdom (minimise 2) p q -> p = q) /\
  (forall p c, In p s -> (c < 2)%nat -> exists q, In q (concat runs) /\ coord q c = coord p c) /\
  (length s <= length (concat runs))%nat /\
  ((l <= length runs)%nat -> s <> []).
Proof.
  intros runs l s Hl Hne Sf. split; [|split; [|split]].
  - intros p q Hp Hq W. destruct Sf as (_ & St & _). eapply staircase_incomparable; eauto.
  - intros p c Hp Hc. now apply (surface_coord runs l s).
  - now apply (surface_length runs l).
  - intros. now apply (surface_nonempty runs l).
Qed.

(** The attainment surface of a level is unique, so the output does not depend on
    how qsort orders ties. *)
Theorem C20_surface_unique : forall runs l s s', (1 <= l)%nat ->
  is_surface2d runs l s -> is_surface2d runs l s' -> s = s'.
Proof.
  assert (Inc : forall runs l s s' p, is_surface2d runs l s -> is_surface2d runs l s' -> In p s -> In p s').
  { intros runs l s s' p Sf Sf' Hp. pose proof Sf as (W & St & Ex). pose proof Sf' as (W' & St' & Ex').
    unfold wf_points in *. rewrite Forall_forall in W, W'.
    pose proof (surface_points_attained runs l s p Sf Hp) as A.
    destruct (proj2 (Ex' p (W p Hp)) A) as (q & Hq & Wq).
    pose proof (surface_points_attained runs l s' q Sf' Hq) as B.
    destruct (proj2 (Ex q (W' q Hq)) B) as (p' & Hp' & Wp').
    assert (p' = p). { apply (staircase_incomparable s); auto. apply (wdom_trans _ p' q p); auto. }
    subst p'. apply wdom2_iff in Wq. apply wdom2_iff in Wp'.
    assert (p = q); [|congruence].
    rewrite (point2 p (W p Hp)), (point2 q (W' q Hq)). f_equal; [lia|f_equal; lia]. }
  intros runs l s s' Hl Sf Sf'.
  (* two staircases with the same elements *)
  assert (Srt : forall s s', staircase s -> staircase s' -> (forall p, In p s <-> In p s') -> s = s').
  { clear. induction s as [|p s IH]; intros s' St St' Eq.
    - destruct s' as [|q s']; auto. destruct (proj2 (Eq q) (or_introl eq_refl)).
    - destruct s' as [|q s']. { destruct (proj1 (Eq p) (or_introl eq_refl)). }
      assert (Tl : forall (a : point) t, staircase (a :: t) -> staircase t /\
                forall b, In b t -> coord a 0 < coord b 0).
      { clear. intros a t St. split.
        - intros i j Hij. apply (St (S i) (S j)). simpl. lia.
        - intros b Hb. apply In_nth with (d := []) in Hb. destruct Hb as (j & Hj & E).
          destruct (St 0%nat (S j)) as [A _]. simpl; lia. unfold row in A. simpl in A. rewrite E in A. auto. }
      destruct (Tl p s St) as [T1 O1]. destruct (Tl q s' St') as [T2 O2].
      assert (p = q).
      { destruct (proj1 (Eq p) (or_introl eq_refl)) as [|Ip]; auto.
        destruct (proj2 (Eq q) (or_introl eq_refl)) as [|Iq]; auto.
        specialize (O1 q Iq). specialize (O2 p Ip). lia. }
      subst q. f_equal. apply IH; auto. intros r. split; intros Hr.
      + destruct (proj1 (Eq r) (or_intror Hr)); auto. subst r. specialize (O1 p Hr). lia.
      + destruct (proj2 (Eq r) (or_intror Hr)); auto. subst r. specialize (O2 p Hr). lia. }
  apply Srt. apply Sf. apply Sf'. intros p. split; eapply Inc; eauto.
Qed.

(** The matrix returned to the user: rows (point, percentile) in the order of the
    percentiles, where the points for percentile p are the surface of level l, the
    smallest l >= 1 with l >= n*p/100 - 2^-26.  This covers percentile conversion,
    the sweep, the bit-packed growing storage (any junk in fresh memory, any growth
    of at least the current size), shrinking and reading back. *)
Theorem C20_eaf_matrix_exact : forall runs sortx sorty junk grow ps,
  runs <> [] -> (forall r, In r runs -> r <> []) -> wf_points 2 (concat runs) ->
  is_datax (concat runs) (sortx (concat runs)) -> is_datay (concat runs) (sorty (concat runs)) ->
  (forall i, 0 <= junk i < 2 ^ 64) -> (forall m r, (m <= grow m r)%nat) ->
  Z.of_nat (length (concat runs)) <= (2 ^ 31 - 1) / 2 ->
  Forall (fun p => (0 <= p <= 100)%Q) ps ->
  exists ls ss,
    eaf_compute_matrix_2d sortx sorty junk grow (concat runs) (cumsizes runs) (length runs) (Some ps) (length ps) =
      Ret (concat (map (fun sp => map (fun x => (x, snd sp)) (fst sp)) (combine ss ps))) /\
    Forall2 (fun p (l : nat) => (1 <= l <= length runs)%nat /\
       forall m : nat, ((l <= m)%nat <->
         (1 <= m)%nat /\ (inject_Z (Z.of_nat (length runs)) * p / 100 - tolerance <= inject_Z (Z.of_nat m))%Q)) ps ls /\
    Forall2 (is_surface2d runs) ls ss.
Proof. intros. apply eaf_matrix_ok; auto. Qed.

(** ** C21: the flags *)
Theorem C21_flags_exact : forall runs sortx sorty levels,
  runs <> [] -> (forall r, In r runs -> r <> []) -> wf_points 2 (concat runs) ->
  is_datax (concat runs) (sortx (concat runs)) -> is_datay (concat runs) (sorty (concat runs)) ->
  Forall (fun l => (1 <= l)%nat) levels ->
  exists out,
    eaf2d sortx sorty (concat runs) (cumsizes runs) (length runs) (map Z.of_nat levels) = Ret out /\
    Forall2 (fun (l : nat) s => forall p flags, In (p, flags) s ->
      length flags = length runs /\
      (forall k, (k < length runs)%nat ->
         (nth k flags false = true <-> attains 2 (nth k runs []) p)) /\
      (l <= countb (fun f => f) flags)%nat) levels out.
Proof.
  intros. destruct (eaf2d_levels_ok runs sortx sorty H H0 H1 H2 H3 levels H4) as (out & E & F).
  exists out. split; auto. clear - F. induction F as [|l s ls ss S1 F IH]; constructor; auto.
  intros p flags Hin. pose proof (surface_ok_surface _ _ _ S1) as Sf. destruct S1 as (_ & Fl & _).
  destruct (Fl _ Hin) as (_ & L & K). cbn [fst snd] in *. split; auto. split; auto.
  destruct (surface_points_attained runs l (map fst s) p Sf) as (ks & N & Lk & Hk).
  { apply in_map_iff. exists (p, flags). auto. }
  assert (Cs : countb (fun f => f) flags = countb (fun k => nth k flags false) (seq 0 (length flags))).
  { clear. induction flags; auto. cbn [countb length seq nth]. rewrite <- seq_shift.
    assert (M : forall f (l : list nat), countb f (map S l) = countb (fun k => f (S k)) l)
      by (induction l; simpl; auto; rewrite IHl; auto).
    rewrite M. cbn [nth]. rewrite <- IHflags. reflexivity. }
  rewrite Cs, L. apply countb_ge_iff. exists ks. split; auto. split; auto.
  intros k Hin'. destruct (Hk k Hin') as [A B]. split; auto. apply K; auto.
Qed.

(** eafdiff: every surface of every level is returned, and the value attached to
    a point is the difference between the fraction of the first half of the sets
    and the fraction of the second half that attain it, times [intervals]. *)
Theorem C21_eafdiff_exact : forall runs sortx sorty junk grow intervals,
  (2 <= length runs)%nat -> (forall r, In r runs -> r <> []) -> wf_points 2 (concat runs) ->
  is_datax (concat runs) (sortx (concat runs)) -> is_datay (concat runs) (sorty (concat runs)) ->
  (forall i, 0 <= junk i < 2 ^ 64) -> (forall m r, (m <= grow m r)%nat) ->
  Z.of_nat (length (concat runs)) <= (2 ^ 31 - 1) / 2 ->
  exists rs,
    eafdiff_compute_matrix_2d sortx sorty junk grow (concat runs) (cumsizes runs) (length runs) intervals
      = Ret (concat rs) /\
    Forall2 (is_surface2d runs) (seq 1 (length runs)) (map (map fst) rs) /\
    Forall (Forall (fun r => diff_value runs intervals (fst r) (snd r))) rs.
Proof.
  intros. apply eafdiff_matrix_ok; auto. intros ->. simpl in H. lia.
Qed.

(** ** C22: nesting *)
Theorem C22_levels_nested : forall runs l l' s s', (l <= l')%nat ->
  is_surface2d runs l s -> is_surface2d runs l' s' ->
  forall p', In p' s' -> exists p, In p s /\ wdom (minimise 2) p p'.
Proof.
  intros runs l l' s s' Hl Sf Sf' p' Hp'.
  pose proof Sf' as (W' & _). unfold wf_points in W'. rewrite Forall_forall in W'.
  destruct Sf as (_ & _ & Ex). apply Ex; auto.
  apply (attained_le 2 l l'); auto. now apply (surface_points_attained runs l' s').
Qed.

(** the surfaces returned by one call for increasing levels never cross *)
Theorem C22_eaf2d_nested : forall runs sortx sorty l l',
  runs <> [] -> (forall r, In r runs -> r <> []) -> wf_points 2 (concat runs) ->
  is_datax (concat runs) (sortx (concat runs)) -> is_datay (concat runs) (sorty (concat runs)) ->
  (1 <= l <= l')%nat ->
  exists s s', eaf2d sortx sorty (concat runs) (cumsizes runs) (length runs) [Z.of_nat l; Z.of_nat l'] = Ret [s; s'] /\
    forall p' f', In (p', f') s' -> exists p f, In (p, f) s /\ wdom (minimise 2) p p'.
Proof.
  intros runs sortx sorty l l' H H0 H1 H2 H3 Hl.
  destruct (eaf2d_levels_ok runs sortx sorty H H0 H1 H2 H3 [l; l']) as (out & E & F).
  { repeat constructor; lia. }
  inversion F as [|? s ? ? S1 F1]; subst. inversion F1 as [|? s' ? ? S2 F2]; subst. inversion F2; subst.
  exists s, s'. split; auto. intros p' f' Hin.
  destruct (C22_levels_nested runs l l' (map fst s) (map fst s')) with (p' := p') as (p & Hp & W); auto.
  - lia. - now apply surface_ok_surface. - now apply surface_ok_surface.
  - apply in_map_iff. exists (p', f'). auto.
  - apply in_map_iff in Hp. destruct Hp as ((q & f) & Eq & Hq). cbn in Eq. subst q. eauto.
Qed.

(** ** C23: percentiles and levels (exact arithmetic) *)
Theorem C23_level_in_range : forall p n, 1 <= n -> (0 <= p <= 100)%Q ->
  exists l, percentile2level p n = Ret l /\ 1 <= l <= n /\
    forall m, (l <= m <-> 1 <= m /\ (inject_Z n * p / 100 - tolerance <= inject_Z m)%Q).
Proof.
  intros p n Hn Hp. destruct (percentile2level_ok p n Hn Hp) as [E R]. eexists. split; [exact E|].
  split; auto. intros m. change (inject_Z n * p / 100)%Q with (pct_x p n). rewrite <- round_level_iff. lia.
Qed.

(** Any p for which n*p/100 lies within (k - 1 + 2^-26, k + 2^-26] gives level k.
    In particular a rounding error of up to 2^-26 in n*p/100 is harmless. *)
Theorem C23_level_robust : forall p n k, 1 <= k <= n ->
  (inject_Z k - 1 + tolerance < inject_Z n * p / 100)%Q ->
  (inject_Z n * p / 100 <= inject_Z k + tolerance)%Q ->
  percentile2level p n = Ret k.
Proof.
  intros p n k Hk A B. change (inject_Z n * p / 100)%Q with (pct_x p n) in *.
  assert (R : round_level (pct_x p n) = k).
  { apply Z.le_antisymm. apply round_level_iff. lra.
    destruct (Z_le_gt_dec k (round_level (pct_x p n))) as [|G]; auto. exfalso.
    assert (G' : round_level (pct_x p n) <= k - 1) by lia. apply round_level_iff in G'.
    unfold Zminus in G'. rewrite inject_Z_plus in G'. change (inject_Z (-(1))) with (-(1))%Q in G'. lra. }
  unfold percentile2level. fold (pct_x p n). fold (round_level (pct_x p n)). rewrite R.
  rewrite (proj2 (Z.leb_le k n)) by lia. rewrite (proj2 (Z.leb_le 0 k)) by lia. cbn [assert_ bind].
  destruct (Z.ltb_spec k 1); [lia|reflexivity].
Qed.

Lemma inject_nz : forall n, 1 <= n -> ~ (inject_Z n == 0)%Q.
Proof. intros n Hn E. change 0%Q with (inject_Z 0) in E. rewrite inject_Z_injective in E. lia. Qed.

Theorem C23_roundtrip : forall k n, 1 <= k <= n -> percentile2level (level2percentile k n) n = Ret k.
Proof.
  intros k n Hk. assert (X : (inject_Z n * level2percentile k n / 100 == inject_Z k)%Q).
  { unfold level2percentile. destruct (Z.eqb_spec k n).
    - subst. change (inject_Z 100) with 100%Q. field.
    - change (inject_Z 100) with 100%Q. field. apply inject_nz. lia. }
  pose proof tol_pos. pose proof tol_lt1. apply C23_level_robust; auto; rewrite X; lra.
Qed.

(** all_percentiles lists the percentiles of the levels 1, ..., n *)
Theorem C23_all_percentiles : forall n, (1 <= n)%nat ->
  length (all_percentiles n) = n /\
  percentiles2levels (all_percentiles n) (Z.of_nat n) = Ret (map Z.of_nat (seq 1 n)).
Proof.
  intros n Hn. unfold all_percentiles. rewrite map_length, seq_length. split; auto.
  assert (G : forall l, (forall k, In k l -> (1 <= k <= n)%nat) ->
    percentiles2levels (map (fun i => (inject_Z (Z.of_nat i) * (inject_Z 100 / inject_Z (Z.of_nat n)))%Q) l) (Z.of_nat n)
      = Ret (map Z.of_nat l)).
  { induction l as [|k l IH]; intros H; cbn [map percentiles2levels]; auto.
    rewrite (C23_level_robust _ _ (Z.of_nat k)).
    - cbn [bind]. rewrite IH by (intros; apply H; now right). reflexivity.
    - pose proof (H k (or_introl eq_refl)). lia.
    - setoid_replace (inject_Z (Z.of_nat n) * (inject_Z (Z.of_nat k) * (inject_Z 100 / inject_Z (Z.of_nat n))) / 100)%Q
        with (inject_Z (Z.of_nat k)).
      pose proof tol_lt1. lra. change (inject_Z 100) with 100%Q. field. apply inject_nz. lia.
    - setoid_replace (inject_Z (Z.of_nat n) * (inject_Z (Z.of_nat k) * (inject_Z 100 / inject_Z (Z.of_nat n))) / 100)%Q
        with (inject_Z (Z.of_nat k)).
      pose proof tol_pos. lra. change (inject_Z 100) with 100%Q. field. apply inject_nz. lia. }
  apply G. intros k Hk. apply in_seq in Hk. lia.
Qed.

Theorem C23_monotone : forall p q n l l', 1 <= n -> (0 <= p <= q)%Q -> (q <= 100)%Q ->
  percentile2level p n = Ret l -> percentile2level q n = Ret l' -> l <= l'.
Proof.
  intros p q n l l' Hn [Hp Hpq] Hq E E'.
  destruct (percentile2level_ok p n Hn) as [F _]. split; auto; lra.
  destruct (percentile2level_ok q n Hn) as [F' _]. split; auto; lra.
  rewrite E in F. rewrite E' in F'. inversion F. inversion F'.
  assert (R : round_level (pct_x p n) <= round_level (pct_x q n)).
  { apply round_level_mono. unfold pct_x. apply Qmult_le_compat_r.
    - rewrite !(Qmult_comm (inject_Z n)). apply Qmult_le_compat_r; auto.
      change 0%Q with (inject_Z 0). rewrite <- Zle_Qle. lia.
    - discriminate. }
  lia.
Qed.

(** ** C28: bit arrays *)
(** a 64-bit word array; flag [i] of the array starting at word [off] as the
    user reads it *)
Theorem C28_set_get : forall b off n i x,
  Forall (fun w => 0 <= w < 2 ^ 64) b -> (off + bit_nwords n <= length b)%nat -> (i < n)%nat ->
  exists b', bit_array_set b off i x = Ret b' /\
    Forall (fun w => 0 <= w < 2 ^ 64) b' /\ length b' = length b /\
    bit_array_get b' off i = Ret (if x then 1 else 0) /\
    (forall j, (j < n)%nat -> j <> i -> bit_array_get b' off j = bit_array_get b off j) /\
    (forall w, (w < off)%nat \/ (off + bit_nwords n <= w)%nat -> nth w b' 0 = nth w b 0).
Proof.
  intros b off n i x W L Hi. pose proof (nwords_covers n i Hi) as Ci.
  destruct (set_ok b off i x W ltac:(lia)) as (b' & E & W' & L' & B & O & Wd).
  exists b'. split; auto. split; auto. split; auto. split; [|split].
  - rewrite get_ok by (auto; lia). now rewrite B.
  - intros j Hj Hn. pose proof (nwords_covers n j Hj).
    rewrite !get_ok by (auto; lia). rewrite O; auto. intros [F1 F2]. apply Hn.
    apply div_mod_64; lia.
  - intros w Hw. apply Wd. lia.
Qed.

(** the number of words allocated for n flags is the least that holds them *)
Theorem C28_allocation_covers : forall n, (n <= 64 * bit_nwords n < n + 64)%nat /\
  forall i, (i < n)%nat -> (bitset_word i < bit_nwords n)%nat.
Proof. intros. split. apply nwords_tight. intros. now apply nwords_covers. Qed.

(** flags of different rows of a packed matrix do not share words *)
Theorem C28_rows_disjoint : forall r r' nbits i j, r <> r' -> (i < nbits)%nat -> (j < nbits)%nat ->
  (bit_array_offset 0 r nbits + bitset_word i <> bit_array_offset 0 r' nbits + bitset_word j)%nat.
Proof.
  intros r r' nbits i j H Hi Hj E. unfold bit_array_offset in E. cbn [Nat.add] in E.
  apply slot_inj in E; [tauto| |]; now apply nwords_covers.
Qed.

Theorem C28_copy : forall dest doff src soff n,
  Forall (fun w => 0 <= w < 2 ^ 64) dest -> Forall (fun w => 0 <= w < 2 ^ 64) src ->
  (doff + bit_nwords n <= length dest)%nat -> (soff + bit_nwords n <= length src)%nat ->
  exists b', bit_array_copy dest doff src soff n = Ret b' /\ length b' = length dest /\
    (forall i, (i < n)%nat -> bit_array_get b' doff i = bit_array_get src soff i) /\
    (forall w, (w < doff)%nat \/ (doff + bit_nwords n <= w)%nat -> nth w b' 0 = nth w dest 0).
Proof.
  intros dest doff src soff n W1 W2 L1 L2.
  destruct (copy_words_ok (bit_nwords n) dest doff src soff W1 W2 L1 L2) as (b' & E & W' & L' & Nt).
  exists b'. split; auto. split; auto. split.
  - intros i Hi. pose proof (nwords_covers n i Hi). rewrite !get_ok by (auto; lia).
    unfold bit. rewrite Nt.
    assert (((doff <=? doff + i / 64) && (doff + i / 64 <? doff + bit_nwords n))%nat = true) as ->.
    { apply andb_true_intro. split. apply Nat.leb_le; lia. apply Nat.ltb_lt; lia. }
    replace (doff + i / 64 - doff)%nat with (i / 64)%nat by lia. reflexivity.
  - intros w Hw. rewrite Nt.
    destruct (Nat.leb_spec doff w); destruct (Nat.ltb_spec w (doff + bit_nwords n)); cbn [andb]; auto; lia.
Qed.

Theorem C28_zero_all : forall b off n,
  Forall (fun w => 0 <= w < 2 ^ 64) b -> (off + bit_nwords n <= length b)%nat ->
  exists b', bit_array_zero_all b off n = Ret b' /\ length b' = length b /\
    forall i, (i < n)%nat -> bit_array_get b' off i = Ret 0.
Proof.
  intros b off n W L. destruct (zero_words_ok (bit_nwords n) b off W L) as (b' & E & W' & L' & Nt).
  exists b'. split; auto. split; auto. intros i Hi. pose proof (nwords_covers n i Hi).
  rewrite get_ok by (auto; lia). unfold bit. rewrite Nt.
  assert (((off <=? off + i / 64) && (off + i / 64 <? off + bit_nwords n))%nat = true) as ->.
  { apply andb_true_intro. split. apply Nat.leb_le; lia. apply Nat.ltb_lt; lia. }
  now rewrite Z.bits_0.
Qed.

(** ** C41: association of points to runs *)
Theorem C41_run_of_point : forall runs, (forall r, In r runs -> r <> []) ->
  exists rt, runtab_loop (cumsizes runs) (length (concat runs)) 0 0 = Ret rt /\
    length rt = length (concat runs) /\
    forall k i, (k < length runs)%nat ->
      (length (concat (firstn k runs)) <= i < length (concat (firstn (S k) runs)))%nat ->
      nth i rt O = k.
Proof.
  intros runs Hne. exists (runtab_spec 0 runs). split. now apply runtab_cumsizes.
  split. apply runtab_spec_length.
  assert (G : forall runs k0 k i, (k < length runs)%nat ->
      (length (concat (firstn k runs)) <= i < length (concat (firstn (S k) runs)))%nat ->
      nth i (runtab_spec k0 runs) O = (k0 + k)%nat).
  { clear. induction runs as [|r runs IH]; intros k0 k i Hk Hi; [simpl in Hk; lia|].
    destruct k.
    - cbn [firstn concat] in Hi. rewrite app_length in Hi. simpl in Hi.
      cbn [runtab_spec]. rewrite app_nth1 by (rewrite repeat_length; lia).
      rewrite nth_repeat_lt by lia. lia.
    - rewrite !firstn_cons in Hi. cbn [concat] in Hi. rewrite !app_length in Hi.
      cbn [runtab_spec]. rewrite app_nth2 by (rewrite repeat_length; lia). rewrite repeat_length.
      rewrite (IH (S k0) k) by (simpl in Hk; lia). lia. }
  intros. now apply (G runs 0%nat k i).
Qed.

(** With an empty run in the middle the association is wrong and the surface of
    level 3 is lost although three of the four sets attain (3,3). *)
Theorem C41_empty_run_refuted :
  let runs := [[[1; 1]]; []; [[2; 2]]; [[3; 3]]] in
  runtab_loop (cumsizes runs) (length (concat runs)) 0 0 = Ret [0; 1; 1]%nat /\
  eaf2d sortx_exec sorty_exec (concat runs) (cumsizes runs) (length runs) [3] = Ret [[]] /\
  attained_by_at_least 2 3 runs [3; 3].
Proof.
  cbv zeta. split; [reflexivity|]. split; [vm_compute; reflexivity|].
  exists [0; 2; 3]%nat. split. repeat constructor; simpl; intuition lia. split; auto.
  intros k Hk. simpl in Hk. destruct Hk as [<-|[<-|[<-|[]]]]; (split; [simpl; lia|]);
    eexists; (split; [left; reflexivity|apply wdom2_iff; unfold coord; simpl; lia]).
Qed.

(** ** Non-vacuity: three runs with ties and duplicates *)
Definition ex_runs : list (list point) :=
  [[[1; 5]; [3; 2]]; [[2; 4]; [3; 2]]; [[1; 5]; [4; 1]; [4; 4]]].

Example ex_hypotheses :
  ex_runs <> [] /\ (forall r, In r ex_runs -> r <> []) /\ wf_points 2 (concat ex_runs) /\
  is_datax (concat ex_runs) (sortx_exec (concat ex_runs)) /\
  is_datay (concat ex_runs) (sorty_exec (concat ex_runs)) /\
  (forall i, 0 <= 17 * (Z.of_nat i mod 1000) < 2 ^ 64) /\ (forall m r, (m <= grow_exec m r)%nat) /\
  Z.of_nat (length (concat ex_runs)) <= (2 ^ 31 - 1) / 2 /\ (2 <= length ex_runs)%nat.
Proof.
  split. discriminate. split. { intros r H. simpl in H. destruct H as [<-|[<-|[<-|[]]]]; discriminate. }
  split. repeat constructor. split. apply sortx_exec_ok. split. apply sorty_exec_ok.
  split. { intros i. pose proof (Z.mod_pos_bound (Z.of_nat i) 1000 ltac:(lia)). split. lia.
           apply Z.le_lt_trans with 17000. lia. reflexivity. }
  split. { intros. unfold grow_exec. lia. }
  split. vm_compute; discriminate. simpl; lia.
Qed.

Example ex_eaf : eaf2d sortx_exec sorty_exec (concat ex_runs) (cumsizes ex_runs) 3 [1; 2; 3] =
  Ret [[([1; 5], [true; false; true]); ([2; 4], [false; true; false]); ([3; 2], [true; true; false]);
        ([4; 1], [false; false; true])];
       [([1; 5], [true; false; true]); ([3; 2], [true; true; false])];
       [([2; 5], [true; true; true]); ([4; 2], [true; true; true])]].
Proof. vm_compute. reflexivity. Qed.

Example ex_matrix :
  eaf_compute_matrix_2d sortx_exec sorty_exec (fun i => 17 * (Z.of_nat i mod 1000)) grow_exec
    (concat ex_runs) (cumsizes ex_runs) 3 (Some [50 # 1; 100 # 1])%Q 2 =
  Ret [([1; 5], 50 # 1); ([3; 2], 50 # 1); ([2; 5], 100 # 1); ([4; 2], 100 # 1)].
Proof. vm_compute. reflexivity. Qed.

Example ex_percentile : percentile2level (50 # 1) 3 = Ret 2 /\ percentile2level (0 # 1) 7 = Ret 1 /\
  percentile2level (100 # 1) 7 = Ret 7 /\ percentile2level (100 # 7) 7 = Ret 1.
Proof. repeat split. Qed.

Print Assumptions C20_eaf2d_surfaces_exact.
Print Assumptions C20_surface_minimal.
Print Assumptions C20_surface_unique.
Print Assumptions C20_eaf_matrix_exact.
Print Assumptions C21_flags_exact.
Print Assumptions C21_eafdiff_exact.
Print Assumptions C22_levels_nested.
Print Assumptions C22_eaf2d_nested.
Print Assumptions C23_level_in_range.
Print Assumptions C23_level_robust.
Print Assumptions C23_roundtrip.
Print Assumptions C23_all_percentiles.
Print Assumptions C23_monotone.
Print Assumptions C28_set_get.
Print Assumptions C28_allocation_covers.
Print Assumptions C28_rows_disjoint.
Print Assumptions C28_copy.
Print Assumptions C28_zero_all.
Print Assumptions C41_run_of_point.
Print Assumptions C41_empty_run_refuted.
