(** Properties C15-C17 (epsilon indicators) and C34 (dominatedsets). *)
From Coq Require Import List ZArith QArith Lia Bool Arith.
From Verif Require Import Base Spec NondomModel NondomMain IndSpec EpsModel EpsProofs.
Import ListNotations.
Open Scope Z_scope.

Lemma add_term_Q : forall mx a r d (z : Z), (d < length mx)%nat ->
  (eps_temp_add (minmax_from_bool mx) a r d <= z <->
   if nth d mx false
   then (inject_Z (coord r d) <= inject_Z (coord a d) + inject_Z z)%Q
   else (inject_Z (coord a d) - inject_Z z <= inject_Z (coord r d))%Q).
Proof.
  intros. rewrite eps_temp_min_max by auto.
  destruct (nth d mx false).
  - rewrite <- inject_Z_plus, <- Zle_Qle. reflexivity.
  - unfold Qminus. rewrite <- inject_Z_opp, <- inject_Z_plus, <- Zle_Qle. reflexivity.
Qed.

Lemma add_term_ge : forall mx a r d (z : Z) (e : Q), (d < length mx)%nat ->
  z <= eps_temp_add (minmax_from_bool mx) a r d ->
  (if nth d mx false
   then (inject_Z (coord r d) <= inject_Z (coord a d) + e)%Q
   else (inject_Z (coord a d) - e <= inject_Z (coord r d))%Q) ->
  (inject_Z z <= e)%Q.
Proof.
  unfold eps_temp_add. intros. rewrite coord_minmax in H0 by auto.
  rewrite Zle_Qle in H0. eapply Qle_trans; eauto.
  destruct (nth d mx false); simpl.
  - unfold Zminus. rewrite inject_Z_plus, inject_Z_opp.
    setoid_replace e with ((inject_Z (coord a d) + e) + - inject_Z (coord a d))%Q by ring.
    apply Qplus_le_compat; auto. apply Qle_refl.
  - unfold Zminus. rewrite inject_Z_plus, inject_Z_opp.
    setoid_replace (inject_Z (coord a d) + - inject_Z (coord r d))%Q
      with ((inject_Z (coord a d) - e) + (e - inject_Z (coord r d)))%Q by ring.
    setoid_replace e with (inject_Z (coord r d) + (e - inject_Z (coord r d)))%Q at 3 by ring.
    apply Qplus_le_compat; auto. apply Qle_refl.
Qed.

(** ** C15: the additive epsilon indicator is the smallest shift *)
Theorem C15_additive_epsilon_is_least_shift :
  forall (mx : list bool) (A R : list point),
  mx <> [] -> A <> [] -> R <> [] ->
  exists v, epsilon_additive A R mx = Fin v /\
    covers_add mx A R (inject_Z v) /\
    forall e : Q, covers_add mx A R e -> (inject_Z v <= e)%Q.
Proof.
  intros mx A R Hm HA HR. unfold epsilon_additive.
  assert (Hd : (1 <= length mx)%nat) by (destruct mx; simpl; [tauto|lia]).
  destruct (eps_add_finite (length mx) (minmax_from_bool mx) A R HA HR Hd) as (v & E).
  exists v. split; auto.
  pose proof (eps_add_le (length mx) (minmax_from_bool mx) A R v) as L.
  pose proof (eps_add_ge (length mx) (minmax_from_bool mx) A R v) as G.
  rewrite E in *. simpl in L, G. rewrite Z.leb_refl in *.
  apply proj1 in L. apply proj1 in G. specialize (L eq_refl). specialize (G eq_refl).
  split.
  - intros r Hr. destruct (L r Hr) as (a & Ha & K). exists a. split; auto.
    intros d Hd'. now apply add_term_Q; auto.
  - intros e C. destruct G as (r & Hr & G). destruct (C r Hr) as (a & Ha & K).
    destruct (G a Ha) as (d & Hd' & K'). exact (add_term_ge mx a r d v e Hd' K' (K d Hd')).
Qed.
Print Assumptions C15_additive_epsilon_is_least_shift.

Theorem C15_nonpositive_iff_weakly_dominates :
  forall (mx : list bool) (A R : list point) v,
  epsilon_additive A R mx = Fin v -> (v <= 0 <-> set_wdom mx A R).
Proof.
  intros. rewrite <- eps_le0_iff. unfold epsilon_additive in H. rewrite H. simpl.
  now rewrite Z.leb_le.
Qed.
Print Assumptions C15_nonpositive_iff_weakly_dominates.

Theorem C15_zero_on_itself :
  forall (mx : list bool) (A : list point), mx <> [] -> A <> [] ->
  epsilon_additive A A mx = Fin 0.
Proof.
  intros mx A Hm HA. unfold epsilon_additive.
  assert (Hd : (1 <= length mx)%nat) by (destruct mx; simpl; [tauto|lia]).
  destruct (eps_add_finite (length mx) (minmax_from_bool mx) A A HA HA Hd) as (v & E).
  assert (L : eleb Z.leb (epsilon_additive_minmax (length mx) (minmax_from_bool mx) A A) (Fin 0) = true).
  { apply eps_le0_iff. intros a Ha. exists a. split; auto. apply wdom_refl. }
  assert (G : eleb Z.leb (Fin 0) (epsilon_additive_minmax (length mx) (minmax_from_bool mx) A A) = true).
  { apply eps_add_ge.
    destruct (list_min_ex _ (fun a => if nth 0 mx false then - coord a 0 else coord a 0) A HA)
      as (b & Hb & K).
    exists b. split; auto. intros a Ha. exists 0%nat. split; [lia|].
    specialize (K a Ha). unfold eps_temp_add. rewrite coord_minmax by lia.
    destruct (nth 0 mx false); simpl; lia. }
  rewrite E in *. simpl in *. f_equal. lia.
Qed.
Print Assumptions C15_zero_on_itself.

(** Degenerate inputs: an empty reference set gives -infinity, an empty
    approximation set +infinity. *)
Theorem C15_empty_sets :
  forall (mx : list bool) (A R : list point),
  epsilon_additive A [] mx = NegInf /\ (R <> [] -> epsilon_additive [] R mx = PosInf).
Proof.
  intros. split. reflexivity. unfold epsilon_additive, epsilon_additive_minmax.
  intros HR. destruct R as [|r R]; [tauto|]. clear HR. cbn [fold_left eps_min_add emax eleb].
  change (emax Z.leb NegInf PosInf) with (@PosInf Z).
  induction R; simpl; auto.
Qed.
Print Assumptions C15_empty_sets.

Example C15_nonvacuous :
  epsilon_additive [[9;2];[5;5];[2;9]] [[10;1];[6;1];[2;2];[1;6];[1;10]] [false;false] = Fin 3 /\
  epsilon_additive [[9;2];[5;5]] [[10;1];[6;1]] [true;false] = Fin 1 /\
  epsilon_additive [[1;2];[5;0]] [[3;4];[6;3]] [false;false] = Fin (-1).
Proof. repeat split; vm_compute; reflexivity. Qed.

(** ** C16: the multiplicative epsilon indicator *)

Lemma inj_pos : forall z, 0 < z -> (0 < inject_Z z)%Q.
Proof. intros. unfold Qlt. simpl. lia. Qed.

Lemma mult_term : forall mx a r d (e : Q), (d < length mx)%nat ->
  0 < coord a d -> 0 < coord r d -> (0 < e)%Q ->
  ((eps_temp_mult (minmax_from_bool mx) a r d <= e)%Q <->
   if nth d mx false
   then (inject_Z (coord r d) <= inject_Z (coord a d) * e)%Q
   else (inject_Z (coord a d) / e <= inject_Z (coord r d))%Q).
Proof.
  intros mx a r d e Hd Ha Hr He. apply inj_pos in Ha. apply inj_pos in Hr.
  assert (P : forall x y z : Q, (0 < y -> x / y <= z <-> x <= z * y)%Q).
  { intros x y z Hy. split; intros.
    - apply (Qmult_le_r _ _ y) in H; auto.
      rewrite <- (Qdiv_mult_l x y) at 1.
      2:{ intro C. rewrite C in Hy. now apply Qlt_irrefl in Hy. }
      unfold Qdiv in *. eapply Qle_trans; [|exact H]. apply Qle_lteq. right. ring.
    - apply Qle_shift_div_r; auto. }
  unfold eps_temp_mult. rewrite coord_minmax by auto.
  destruct (nth d mx false); simpl.
  - rewrite P by auto. rewrite (Qmult_comm e). reflexivity.
  - rewrite !P by auto. rewrite (Qmult_comm e). reflexivity.
Qed.

Lemma mult_temp_pos : forall mx a r d, (d < length mx)%nat -> 0 < coord a d -> 0 < coord r d ->
  (0 < eps_temp_mult (minmax_from_bool mx) a r d)%Q.
Proof.
  intros. apply inj_pos in H0. apply inj_pos in H1.
  unfold eps_temp_mult. rewrite coord_minmax by auto.
  destruct (nth d mx false); simpl; apply Qlt_shift_div_l; auto; now rewrite Qmult_0_l.
Qed.

Theorem C16_multiplicative_epsilon_is_least_factor :
  forall (mx : list bool) (A R : list point),
  mx <> [] -> A <> [] -> R <> [] ->
  (forall a, In a A -> pos_point (length mx) a) ->
  (forall r, In r R -> pos_point (length mx) r) ->
  exists v, epsilon_mult A R mx = Ret (Fin v) /\
    covers_mult mx A R v /\
    forall e : Q, covers_mult mx A R e -> (v <= e)%Q.
Proof.
  intros mx A R Hm HA HR PA PR. unfold epsilon_mult, epsilon_mult_minmax.
  rewrite eps_loop_mult_eq by auto.
  destruct (eps_mult_finite (length mx) (minmax_from_bool mx) A R HA) as (v & E & Hv).
  pose proof (eps_mult_le (length mx) (minmax_from_bool mx) A R) as L.
  rewrite E in *. exists v. split; auto.
  assert (C : forall r, In r R -> exists a, In a A /\
     forall d, (d < length mx)%nat -> (eps_temp_mult (minmax_from_bool mx) a r d <= v)%Q).
  { apply L; auto. simpl. apply Qle_bool_iff. apply Qle_refl. }
  assert (V : (0 < v)%Q).
  { destruct R as [|r R]; try tauto. destruct (C r (or_introl eq_refl)) as (a & Ha & K).
    assert (0 < length mx)%nat by (destruct mx; simpl; [tauto|lia]).
    eapply Qlt_le_trans; [|apply (K 0%nat); auto].
    apply mult_temp_pos; auto. apply (PA a Ha); auto. apply (PR r (or_introl eq_refl)); auto. }
  split.
  - split; auto. intros r Hr. destruct (C r Hr) as (a & Ha & K). exists a. split; auto.
    intros d Hd. apply mult_term; auto. apply PA; auto. apply PR; auto.
  - intros e [He Ce].
    assert (G : eleb Qle_bool (Fin v) (Fin e) = true).
    { apply L. now apply Qlt_le_weak. intros r Hr. destruct (Ce r Hr) as (a & Ha & K).
      exists a. split; auto. intros d Hd.
      apply (mult_term mx a r d e Hd (PA a Ha d Hd) (PR r Hr d Hd) He). exact (K d Hd). }
    simpl in G. now apply Qle_bool_iff.
Qed.
Print Assumptions C16_multiplicative_epsilon_is_least_factor.

Theorem C16_at_most_one_iff_weakly_dominates :
  forall (mx : list bool) (A R : list point) v,
  mx <> [] -> A <> [] -> R <> [] ->
  (forall a, In a A -> pos_point (length mx) a) ->
  (forall r, In r R -> pos_point (length mx) r) ->
  epsilon_mult A R mx = Ret (Fin v) -> ((v <= 1)%Q <-> set_wdom mx A R).
Proof.
  intros mx A R v Hm HA HR PA PR E. unfold epsilon_mult, epsilon_mult_minmax in E.
  rewrite eps_loop_mult_eq in E by auto. inversion E as [E']. clear E.
  pose proof (eps_mult_le (length mx) (minmax_from_bool mx) A R 1%Q) as L.
  rewrite E' in L. simpl in L. rewrite Qle_bool_iff in L. rewrite L by discriminate.
  assert (T : forall a r d, In a A -> In r R -> (d < length mx)%nat ->
    ((eps_temp_mult (minmax_from_bool mx) a r d <= 1)%Q <-> as_good mx a r d)).
  { intros a r d Ha Hr Hd.
    rewrite (mult_term mx a r d 1%Q Hd (PA a Ha d Hd) (PR r Hr d Hd) eq_refl). unfold as_good. destruct (nth d mx false).
    rewrite Qmult_1_r, <- Zle_Qle. reflexivity.
    setoid_replace (inject_Z (coord a d) / 1)%Q with (inject_Z (coord a d)) by field.
    rewrite <- Zle_Qle. reflexivity. }
  split; intros H r Hr; destruct (H r Hr) as (a & Ha & K); exists a; split; auto;
    intros d Hd; apply T; auto.
Qed.
Print Assumptions C16_at_most_one_iff_weakly_dominates.

(** A value is returned only if all data are positive; otherwise the call ends
    in the fatal error. *)
Theorem C16_nonpositive_data_is_an_error :
  forall (mx : list bool) (A R : list point) a d,
  A <> [] -> R <> [] -> (In a A \/ In a R) -> (d < length mx)%nat -> coord a d <= 0 ->
  epsilon_mult A R mx = AssertFailed.
Proof.
  intros mx A R a d HA HR Ha Hd N. unfold epsilon_mult, epsilon_mult_minmax.
  destruct (eps_loop_mult_inv (length mx) (minmax_from_bool mx) A R (Fin 0%Q)) as [K|K]; auto.
  exfalso. destruct A as [|a0 A]; try tauto. destruct R as [|r0 R]; try tauto.
  assert (0 < coord a d); [|lia]. destruct Ha as [Ha|Ha].
  - apply (K a r0); auto. now left.
  - apply (K a0 a); auto. now left.
Qed.
Print Assumptions C16_nonpositive_data_is_an_error.

Example C16_nonvacuous :
  pos_point 2 [9;2] /\
  epsilon_mult [[9;2];[5;5];[2;9]] [[10;1];[6;1];[2;2];[1;6];[1;10]] [false;false]
    = Ret (Fin (5 # 2)%Q) /\
  epsilon_mult [[9;2];[5;5]] [[10;0]] [false;false] = AssertFailed.
Proof.
  split; [|split; vm_compute; reflexivity].
  intros d Hd. destruct d as [|[|d]]; [reflexivity|reflexivity|lia].
Qed.

(** ** C17: weak Pareto compliance *)
Theorem C17_additive_epsilon_weakly_compliant :
  forall (mx : list bool) (A B R : list point) va vb,
  set_wdom mx A B ->
  epsilon_additive A R mx = Fin va -> epsilon_additive B R mx = Fin vb ->
  va <= vb.
Proof.
  intros mx A B R va vb W EA EB. unfold epsilon_additive in *.
  pose proof (eps_add_le (length mx) (minmax_from_bool mx) A R vb) as LA.
  pose proof (eps_add_le (length mx) (minmax_from_bool mx) B R vb) as LB.
  rewrite EA in LA. rewrite EB in LB. simpl in *. rewrite Z.leb_refl in LB.
  apply Z.leb_le. apply LA. apply proj1 in LB. intros r Hr.
  destruct (LB eq_refl r Hr) as (b & Hb & K). destruct (W b Hb) as (a & Ha & D).
  exists a. split; auto. intros d Hd. specialize (K d Hd). specialize (D d Hd).
  rewrite eps_temp_min_max in * by auto. unfold as_good in D.
  destruct (nth d mx false); lia.
Qed.
Print Assumptions C17_additive_epsilon_weakly_compliant.

Theorem C17_multiplicative_epsilon_weakly_compliant :
  forall (mx : list bool) (A B R : list point) va vb,
  mx <> [] -> A <> [] -> B <> [] -> R <> [] ->
  (forall p, In p A \/ In p B \/ In p R -> pos_point (length mx) p) ->
  set_wdom mx A B ->
  epsilon_mult A R mx = Ret (Fin va) -> epsilon_mult B R mx = Ret (Fin vb) ->
  (va <= vb)%Q.
Proof.
  intros mx A B R va vb Hm HA HB HR P W EA EB.
  destruct (C16_multiplicative_epsilon_is_least_factor mx A R) as (v & E & CA & LA); auto.
  destruct (C16_multiplicative_epsilon_is_least_factor mx B R) as (v' & E' & CB & LB); auto.
  rewrite EA in E. rewrite EB in E'. inversion E; inversion E'; subst v v'.
  apply LA. destruct CB as [C0 CB]. split; auto.
  intros r Hr. destruct (CB r Hr) as (b & Hb & K). destruct (W b Hb) as (a & Ha & D).
  exists a. split; auto. intros d Hd. specialize (K d Hd). specialize (D d Hd).
  unfold as_good in D.
  assert (N : (0 <= vb)%Q) by now apply Qlt_le_weak.
  destruct (nth d mx false); rewrite Zle_Qle in D.
  - eapply Qle_trans; eauto. apply Qmult_le_compat_r; auto.
  - eapply Qle_trans; eauto. unfold Qdiv. apply Qmult_le_compat_r; auto.
    apply Qinv_le_0_compat; auto.
Qed.
Print Assumptions C17_multiplicative_epsilon_weakly_compliant.

Example C17_nonvacuous :
  set_wdom [false;false] [[1;2];[2;1]] [[3;2];[2;1]] /\
  epsilon_additive [[1;2];[2;1]] [[1;1]] [false;false] = Fin 1 /\
  epsilon_additive [[3;2]] [[1;1]] [false;false] = Fin 2 /\
  epsilon_mult [[1;2];[2;1]] [[1;1]] [false;false] = Ret (Fin 2%Q) /\
  epsilon_mult [[3;2]] [[1;1]] [false;false] = Ret (Fin 3%Q).
Proof.
  split; [|repeat split; vm_compute; reflexivity].
  intros b [<-|[<-|[]]]; [exists [1;2]|exists [2;1]]; (split; [simpl; tauto|]);
  intros d Hd; destruct d as [|[|d]]; unfold as_good, coord; simpl; try lia; simpl in Hd; lia.
Qed.

(** ** C34: dominatedsets *)

(** For non-empty nondominated sets the comparison never reaches abort(); it
    returns -1 when A is better (A weakly dominates B but not conversely), 1 when
    B is better, and 0 when they are equal or incomparable. *)
Theorem C34_set_comparison_exact :
  forall (mx : list bool) (A B : list point),
  nondominated_set mx A -> nondominated_set mx B -> A <> [] -> B <> [] ->
  exists r, pareto_better (length mx) (minmax_from_bool mx) A B = Ret r /\
    (r = -1 \/ r = 0 \/ r = 1) /\
    (r = -1 <-> set_wdom mx A B /\ ~ set_wdom mx B A) /\
    (r = 1 <-> set_wdom mx B A /\ ~ set_wdom mx A B).
Proof.
  intros. destruct (pareto_better_ok mx A B) as (r & E & K); auto.
  exists r. split; auto.
  destruct K as [(-> & K)|[(-> & K)|(-> & K)]]; (split; [tauto|]); split; split;
    try tauto; try discriminate; try (intros; exfalso; tauto).
Qed.
Print Assumptions C34_set_comparison_exact.

(** ... and "better" means: every row of B is weakly dominated and the sets differ. *)
Theorem C34_better_iff_covers_and_differs :
  forall (mx : list bool) (A B : list point),
  nondominated_set mx A -> nondominated_set mx B -> A <> [] -> B <> [] ->
  (pareto_better (length mx) (minmax_from_bool mx) A B = Ret (-1) <->
   set_wdom mx A B /\ ~ (forall p, In p A <-> In p B)).
Proof.
  intros mx A B HA HB NA NB.
  destruct (C34_set_comparison_exact mx A B HA HB NA NB) as (r & E & _ & K & _).
  assert (Q : set_wdom mx A B -> (set_wdom mx B A <-> (forall p, In p A <-> In p B))).
  { intros W. split.
    - intros W' p. split; intros Hp.
      + destruct (W' p Hp) as (b & Hb & D). destruct (W b Hb) as (a & Ha & D').
        assert (a = p) by (apply (nds_wdom_eq mx A); auto; apply (wdom_trans mx a b p); auto).
        subst a. assert (p = b); [|subst; auto].
        apply wdom_antisym with (mx := mx); auto.
        apply (wf_points_In _ A); auto; apply HA. apply (wf_points_In _ B); auto; apply HB.
      + destruct (W p Hp) as (b & Hb & D). destruct (W' b Hb) as (a & Ha & D').
        assert (a = p) by (apply (nds_wdom_eq mx B); auto; apply (wdom_trans mx a b p); auto).
        subst a. assert (p = b); [|subst; auto].
        apply wdom_antisym with (mx := mx); auto.
        apply (wf_points_In _ B); auto; apply HB. apply (wf_points_In _ A); auto; apply HA.
    - intros H a Ha. exists a. split. now apply H. apply wdom_refl. }
  rewrite E. split.
  - intro H. inversion H as [H']. destruct (proj1 K H') as [W W']. split; auto.
    intro C. apply W'. now apply Q.
  - intros [W W']. f_equal. apply K. split; auto. intro C. apply W'. now apply Q.
Qed.
Print Assumptions C34_better_iff_covers_and_differs.

Theorem C34_antisymmetric :
  forall (mx : list bool) (A B : list point),
  nondominated_set mx A -> nondominated_set mx B -> A <> [] -> B <> [] ->
  exists r, pareto_better (length mx) (minmax_from_bool mx) A B = Ret r /\
            pareto_better (length mx) (minmax_from_bool mx) B A = Ret (- r).
Proof.
  intros mx A B HA HB NA NB.
  destruct (pareto_better_ok mx A B) as (r & E & K); auto.
  destruct (pareto_better_ok mx B A) as (r' & E' & K'); auto.
  exists r. split; auto. rewrite E'. f_equal.
  destruct K as [(-> & K)|[(-> & K)|(-> & K)]];
  destruct K' as [(-> & K')|[(-> & K')|(-> & K')]]; try reflexivity; exfalso; tauto.
Qed.
Print Assumptions C34_antisymmetric.

(** The win counters of two files: numbers of pairs of runs (a, b) in which the
    run of the first (second) file is better. *)
Theorem C34_win_counters :
  forall (mx : list bool) (As Bs : list (list point)),
  (forall S, In S As \/ In S Bs -> nondominated_set mx S /\ S <> []) ->
  exists wins_a wins_b : list (list point * list point),
    cmpparetos (length mx) (minmax_from_bool mx) As Bs 0 0
      = Ret (Z.of_nat (length wins_a), Z.of_nat (length wins_b)) /\
    wins_a = filter (fun ab => match pareto_better (length mx) (minmax_from_bool mx) (fst ab) (snd ab)
                               with Ret r => r =? -1 | _ => false end) (list_prod As Bs) /\
    wins_b = filter (fun ab => match pareto_better (length mx) (minmax_from_bool mx) (fst ab) (snd ab)
                               with Ret r => r =? 1 | _ => false end) (list_prod As Bs) /\
    (forall a b, In (a, b) wins_a <-> In a As /\ In b Bs /\ set_wdom mx a b /\ ~ set_wdom mx b a) /\
    (forall a b, In (a, b) wins_b <-> In a As /\ In b Bs /\ set_wdom mx b a /\ ~ set_wdom mx a b).
Proof.
  intros mx As Bs H.
  set (fa := fun ab : list point * list point =>
     match pareto_better (length mx) (minmax_from_bool mx) (fst ab) (snd ab)
     with Ret r => r =? -1 | _ => false end).
  set (fb := fun ab : list point * list point =>
     match pareto_better (length mx) (minmax_from_bool mx) (fst ab) (snd ab)
     with Ret r => r =? 1 | _ => false end).
  exists (filter fa (list_prod As Bs)), (filter fb (list_prod As Bs)).
  assert (R : forall a b, In a As -> In b Bs ->
    exists r, pareto_better (length mx) (minmax_from_bool mx) a b = Ret r /\
      (r = -1 \/ r = 0 \/ r = 1) /\
    (r = -1 <-> set_wdom mx a b /\ ~ set_wdom mx b a) /\
    (r = 1 <-> set_wdom mx b a /\ ~ set_wdom mx a b)).
  { intros a b Ha Hb. destruct (H a) as [K1 K2]; auto. destruct (H b) as [K3 K4]; auto.
    apply C34_set_comparison_exact; auto. }
  split; [|split; [reflexivity|split; [reflexivity|split]]].
  - assert (B1 : forall a bs na nb, In a As -> incl bs Bs ->
      cmp_bs (length mx) (minmax_from_bool mx) a bs na nb =
      Ret (na + Z.of_nat (length (filter fa (map (fun y => (a, y)) bs))),
           nb + Z.of_nat (length (filter fb (map (fun y => (a, y)) bs))))).
    { induction bs; intros na nb Ha Hi.
      - cbn [cmp_bs map filter length]. do 2 f_equal; lia.
      - destruct (R a a0) as (r & E & C & _); auto. apply Hi; now left.
        assert (Hi' : incl bs Bs) by (intros x Hx; apply Hi; now right).
        cbn [cmp_bs map filter]. unfold fa at 1, fb at 1. cbn [fst snd]. rewrite E. cbn [bind].
        destruct C as [-> | [-> | ->]]; cbn [Z.ltb Z.compare Z.eqb Pos.eqb];
          rewrite IHbs by auto; cbn [length]; do 2 f_equal; lia. }
    assert (A1 : forall as_ na nb, incl as_ As ->
      cmpparetos (length mx) (minmax_from_bool mx) as_ Bs na nb =
      Ret (na + Z.of_nat (length (filter fa (list_prod as_ Bs))),
           nb + Z.of_nat (length (filter fb (list_prod as_ Bs))))).
    { induction as_; intros na nb Hi.
      - cbn [cmpparetos list_prod filter length]. do 2 f_equal; lia.
      - cbn [cmpparetos list_prod]. rewrite B1; [|apply Hi; now left|intros x; auto].
        cbn [bind fst snd]. rewrite IHas_ by (intros x Hx; apply Hi; now right).
        rewrite !filter_app, !app_length. do 2 f_equal; lia. }
    rewrite A1 by (intros x; auto). reflexivity.
  - intros a b. rewrite filter_In, in_prod_iff. split.
    + intros [[Ha Hb] F]. destruct (R a b Ha Hb) as (r & E & _ & K & _).
      unfold fa in F. cbn [fst snd] in F. rewrite E in F. apply Z.eqb_eq in F.
      apply K in F. tauto.
    + intros (Ha & Hb & W). destruct (R a b Ha Hb) as (r & E & _ & K & _).
      split; auto. unfold fa. cbn [fst snd]. rewrite E. apply Z.eqb_eq. now apply K.
  - intros a b. rewrite filter_In, in_prod_iff. split.
    + intros [[Ha Hb] F]. destruct (R a b Ha Hb) as (r & E & _ & _ & K).
      unfold fb in F. cbn [fst snd] in F. rewrite E in F. apply Z.eqb_eq in F.
      apply K in F. tauto.
    + intros (Ha & Hb & W). destruct (R a b Ha Hb) as (r & E & _ & _ & K).
      split; auto. unfold fb. cbn [fst snd]. rewrite E. apply Z.eqb_eq. now apply K.
Qed.
Print Assumptions C34_win_counters.

Example C34_nonvacuous :
  nondominated_set [false;false] [[1;2];[2;1]] /\ nondominated_set [false;false] [[1;3];[2;1]] /\
  pareto_better 2 [-1;-1] [[1;2];[2;1]] [[1;3];[2;1]] = Ret (-1) /\
  pareto_better 2 [-1;-1] [[1;2];[2;1]] [[2;1]] = Ret (-1) /\
  pareto_better 2 [-1;-1] [[2;1];[1;2]] [[1;2];[2;1]] = Ret 0 /\
  pareto_better 2 [-1;-1] [[2;1]] [[1;2]] = Ret 0.
Proof.
  assert (N : forall x y, x = [1;2] \/ x = [1;3] -> y = [2;1] -> nondominated_set [false;false] [x;y]).
  { intros x y Hx ->. split; [|split].
    - destruct Hx; subst; repeat constructor.
    - destruct Hx; subst; repeat constructor; simpl; intuition discriminate.
    - intros p q Hp Hq [W (d & Hd & B)].
      pose proof (W 0%nat ltac:(simpl; lia)) as W0. pose proof (W 1%nat ltac:(simpl; lia)) as W1.
      unfold as_good, better in *. simpl in *.
      destruct Hx; subst; destruct Hp as [<-|[<-|[]]]; destruct Hq as [<-|[<-|[]]];
      destruct d as [|[|d]]; unfold coord in *; simpl in *; lia. }
  split; [apply N; auto|]. split; [apply N; auto|]. repeat split; vm_compute; reflexivity.
Qed.

(** Outside its precondition the self-check does abort: a set with a repeated
    row against the same set without it, and an empty set against a non-empty
    one. *)
Theorem C34_duplicate_rows_refuted :
  pareto_better 2 [-1;-1] [[1;2];[1;2]] [[1;2]] = AssertFailed.
Proof. vm_compute. reflexivity. Qed.
Theorem C34_dominated_rows_refuted :
  pareto_better 2 [-1;-1] [[1;1];[2;2]] [[1;1]] = AssertFailed.
Proof. vm_compute. reflexivity. Qed.
Theorem C34_empty_set_refuted :
  pareto_better 2 [-1;-1] [] [[1;2]] = AssertFailed.
Proof. vm_compute. reflexivity. Qed.
Print Assumptions C34_duplicate_rows_refuted.
