(** C32 and C33: normalisation. *)
From Coq Require Import List ZArith Lia Bool Arith QArith Qfield Lqa.
From Verif Require Import Base NormSpec NormModel.
Import ListNotations.
Open Scope Q_scope.

(** the value that agree_normalise writes for a value [v] of objective [d] *)
Lemma agree_normalise_nth : forall dim mx lo hi lb ub pts k d,
  (k < length pts)%nat -> (d < dim)%nat -> length mx = dim ->
  let v := nth d (nth k pts []) 0 in
  let out := nth d (nth k (agree_normalise dim mx lo hi lb ub pts) []) 0 in
  let diff := norm_diff lb ub d in
  out == if nth d mx false then lo + (hi - lo) * (nth d ub 0 - v) / diff
         else lo + (hi - lo) * (v - nth d lb 0) / diff.
Proof.
  intros dim mx lo hi lb ub pts k d Hk Hd HL v out diff.
  assert (Hdiff : ~ diff == 0).
  { unfold diff, norm_diff. cbv zeta. destruct (Qeq_bool (qcoord ub d - qcoord lb d) 0) eqn:E.
    - discriminate.
    - now apply Qeq_bool_neq. }
  unfold out, agree_normalise, c_normalise. cbv zeta. rewrite map_map.
  rewrite (nth_map_lt _ _ _ pts k [] []) by exact Hk.
  unfold normalise_row. cbv zeta.
  rewrite (nth_map_lt _ _ _ (seq 0 dim) d 0 0%nat) by (now rewrite seq_length).
  rewrite seq_nth by exact Hd. cbn [Nat.add].
  assert (EF : must_flip (minmax_from_bool mx) AGREE_MINIMISE d = nth d mx false).
  { unfold must_flip, minmax_from_bool, AGREE_MINIMISE.
    rewrite (nth_map_lt _ _ _ mx d 0%Z false) by lia.
    destruct (nth d mx false); reflexivity. }
  rewrite EF.
  assert (EA : qcoord (agree_row dim (minmax_from_bool mx) AGREE_MINIMISE (nth k pts [])) d
               = if nth d mx false then - v else v).
  { unfold qcoord, agree_row. rewrite (nth_map_lt _ _ _ (seq 0 dim) d 0 0%nat) by (now rewrite seq_length).
    rewrite seq_nth by exact Hd. cbn [Nat.add]. rewrite EF. reflexivity. }
  rewrite EA. unfold qcoord. fold diff.
  destruct (nth d mx false); field; exact Hdiff.
Qed.

Lemma diff_regular : forall lb ub d, ~ nth d lb 0 == nth d ub 0 ->
  norm_diff lb ub d = nth d ub 0 - nth d lb 0.
Proof.
  intros lb ub d H. unfold norm_diff, qcoord. cbv zeta.
  destruct (Qeq_bool (nth d ub 0 - nth d lb 0) 0) eqn:E; [ | reflexivity ].
  apply Qeq_bool_eq in E. exfalso. apply H. lra.
Qed.
Lemma diff_zero : forall lb ub d, nth d lb 0 == nth d ub 0 -> norm_diff lb ub d = 1.
Proof.
  intros lb ub d H. unfold norm_diff, qcoord. cbv zeta.
  destruct (Qeq_bool (nth d ub 0 - nth d lb 0) 0) eqn:E; [ reflexivity | ].
  apply Qeq_bool_neq in E. exfalso. apply E. lra.
Qed.

Definition out_of dim mx lo hi lb ub (pts : list (list Q)) (k d : nat) : Q :=
  nth d (nth k (agree_normalise dim mx lo hi lb ub pts) []) 0.

(** C32 (1): on a column with different bounds every value goes through the affine
    map that sends the bounds to the ends of the range; the ends are swapped for a
    maximised objective.  (No order between the bounds is assumed.) *)
Theorem C32_affine : forall dim mx lo hi lb ub pts d,
  (d < dim)%nat -> length mx = dim -> ~ nth d lb 0 == nth d ub 0 ->
  exists f,
    (forall k, (k < length pts)%nat ->
       nth d (nth k (agree_normalise dim mx lo hi lb ub pts) []) 0 == f (nth d (nth k pts []) 0)) /\
    if nth d mx false
    then affine_map (nth d lb 0) (nth d ub 0) hi lo f
    else affine_map (nth d lb 0) (nth d ub 0) lo hi f.
Proof.
  intros dim mx lo hi lb ub pts d Hd HL Hne.
  exists (fun v => if nth d mx false then hi + (lo - hi) * ((v - nth d lb 0) / (nth d ub 0 - nth d lb 0))
                   else lo + (hi - lo) * ((v - nth d lb 0) / (nth d ub 0 - nth d lb 0))).
  split.
  - intros k Hk. rewrite agree_normalise_nth by assumption.
    rewrite diff_regular by exact Hne.
    destruct (nth d mx false); field; intros E; apply Hne; lra.
  - destruct (nth d mx false); intros v; reflexivity.
Qed.

(** C32 (2): bounds map to the ends of the range. *)
Theorem C32_bounds_to_ends : forall dim mx lo hi lb ub pts k d,
  (k < length pts)%nat -> (d < dim)%nat -> length mx = dim -> ~ nth d lb 0 == nth d ub 0 ->
  (nth d (nth k pts []) 0 == nth d lb 0 ->
     out_of dim mx lo hi lb ub pts k d == if nth d mx false then hi else lo) /\
  (nth d (nth k pts []) 0 == nth d ub 0 ->
     out_of dim mx lo hi lb ub pts k d == if nth d mx false then lo else hi).
Proof.
  intros dim mx lo hi lb ub pts k d Hk Hd HL Hne. unfold out_of.
  rewrite agree_normalise_nth by assumption. rewrite diff_regular by exact Hne.
  split; intros E; destruct (nth d mx false); rewrite E; field; intros E2; apply Hne; lra.
Qed.

Lemma div_mono : forall a b c, 0 < c -> a <= b -> a / c <= b / c.
Proof. intros a b c Hc H. apply Qmult_le_compat_r; [ exact H | ]. apply Qlt_le_weak, Qinv_lt_0_compat, Hc. Qed.
Lemma div_mono_lt : forall a b c, 0 < c -> a < b -> a / c < b / c.
Proof. intros a b c Hc H. apply Qmult_lt_compat_r; [ now apply Qinv_lt_0_compat | exact H ]. Qed.

(** C32 (3): values within the bounds stay within the range. *)
Theorem C32_stays_in_range : forall dim mx lo hi lb ub pts k d,
  (k < length pts)%nat -> (d < dim)%nat -> length mx = dim ->
  lo <= hi -> nth d lb 0 <= nth d (nth k pts []) 0 <= nth d ub 0 ->
  lo <= out_of dim mx lo hi lb ub pts k d <= hi.
Proof.
  intros dim mx lo hi lb ub pts k d Hk Hd HL Hr [Hl Hu]. unfold out_of.
  rewrite agree_normalise_nth by assumption.
  set (v := nth d (nth k pts []) 0) in *. set (l := nth d lb 0) in *. set (u := nth d ub 0) in *.
  destruct (Qeq_dec l u) as [E | E].
  - rewrite diff_zero by exact E.
    assert (u - v == 0) by lra. assert (v - l == 0) by lra.
    destruct (nth d mx false).
    + setoid_replace (lo + (hi - lo) * (u - v) / 1) with lo by (rewrite H; field). lra.
    + setoid_replace (lo + (hi - lo) * (v - l) / 1) with lo by (rewrite H0; field). lra.
  - rewrite diff_regular by exact E. fold l u.
    assert (P : 0 < u - l) by (destruct (Qle_lt_or_eq l u); [ lra | lra | contradiction ]).
    assert (G : forall w, 0 <= w <= u - l -> lo <= lo + (hi - lo) * w / (u - l) <= hi).
    { intros w [W0 W1].
      assert (A : 0 / (u - l) <= (hi - lo) * w / (u - l)).
      { apply div_mono; [ exact P | ]. apply Qmult_le_0_compat; lra. }
      assert (B : (hi - lo) * w / (u - l) <= (hi - lo) * (u - l) / (u - l)).
      { apply div_mono; [ exact P | ]. rewrite (Qmult_comm _ w), (Qmult_comm _ (u - l)).
        apply Qmult_le_compat_r; lra. }
      assert (A' : 0 / (u - l) == 0) by (field; lra).
      assert (B' : (hi - lo) * (u - l) / (u - l) == hi - lo) by (field; lra).
      lra. }
    destruct (nth d mx false); apply G; lra.
Qed.

(** C32 (4): the order of the values of an objective is preserved when it is
    minimised and reversed when it is maximised. *)
Theorem C32_order : forall dim mx lo hi lb ub pts j k d,
  (j < length pts)%nat -> (k < length pts)%nat -> (d < dim)%nat -> length mx = dim ->
  lo < hi -> nth d lb 0 < nth d ub 0 ->
  (out_of dim mx lo hi lb ub pts j d <= out_of dim mx lo hi lb ub pts k d <->
   if nth d mx false then nth d (nth k pts []) 0 <= nth d (nth j pts []) 0
   else nth d (nth j pts []) 0 <= nth d (nth k pts []) 0).
Proof.
  intros dim mx lo hi lb ub pts j k d Hj Hk Hd HL Hr Hb. unfold out_of.
  rewrite (agree_normalise_nth dim mx lo hi lb ub pts j d Hj Hd HL).
  rewrite (agree_normalise_nth dim mx lo hi lb ub pts k d Hk Hd HL).
  rewrite diff_regular by lra.
  set (v := nth d (nth j pts []) 0). set (w := nth d (nth k pts []) 0).
  set (l := nth d lb 0) in *. set (u := nth d ub 0) in *.
  assert (P : 0 < u - l) by lra.
  assert (G : forall a b, lo + (hi - lo) * a / (u - l) <= lo + (hi - lo) * b / (u - l) <-> a <= b).
  { intros a b. split; intros H.
    - destruct (Qlt_le_dec b a) as [Hlt | ]; [ | assumption ]. exfalso.
      assert ((hi - lo) * b / (u - l) < (hi - lo) * a / (u - l)).
      { apply div_mono_lt; [ exact P | ]. rewrite !(Qmult_comm (hi - lo)). apply Qmult_lt_compat_r; lra. }
      lra.
    - assert ((hi - lo) * a / (u - l) <= (hi - lo) * b / (u - l)).
      { apply div_mono; [ exact P | ]. rewrite !(Qmult_comm (hi - lo)). apply Qmult_le_compat_r; lra. }
      lra. }
  destruct (nth d mx false); rewrite G; split; intros; lra.
Qed.

(** C32 (5): a column whose bounds coincide: values equal to the bound map to the
    lower end of the range, also for a maximised objective. *)
Theorem C32_zero_range : forall dim mx lo hi lb ub pts k d,
  (k < length pts)%nat -> (d < dim)%nat -> length mx = dim ->
  nth d lb 0 == nth d ub 0 -> nth d (nth k pts []) 0 == nth d lb 0 ->
  out_of dim mx lo hi lb ub pts k d == lo.
Proof.
  intros dim mx lo hi lb ub pts k d Hk Hd HL E Ev. unfold out_of.
  rewrite agree_normalise_nth by assumption. rewrite diff_zero by exact E.
  destruct (nth d mx false).
  - setoid_replace (nth d ub 0 - nth d (nth k pts []) 0) with 0 by lra. field.
  - setoid_replace (nth d (nth k pts []) 0 - nth d lb 0) with 0 by lra. field.
Qed.

(** ** C33: dominance is preserved in both directions. *)
Lemma out_le : forall dim mx lo hi lb ub pts j k d,
  (j < length pts)%nat -> (k < length pts)%nat -> (d < dim)%nat -> length mx = dim ->
  lo < hi -> nth d lb 0 < nth d ub 0 ->
  (out_of dim mx lo hi lb ub pts j d < out_of dim mx lo hi lb ub pts k d <->
   if nth d mx false then nth d (nth k pts []) 0 < nth d (nth j pts []) 0
   else nth d (nth j pts []) 0 < nth d (nth k pts []) 0).
Proof.
  intros dim mx lo hi lb ub pts j k d Hj Hk Hd HL Hr Hb.
  pose proof (C32_order dim mx lo hi lb ub pts k j d Hk Hj Hd HL Hr Hb) as H.
  destruct (nth d mx false); split; intros G; apply Qnot_le_lt; intros N; [ | apply H in N; lra | | apply H in N; lra ];
    apply Qlt_not_le in G; apply G, H, N.
Qed.

Theorem C33_dominance_preserved : forall dim mx lo hi lb ub pts j k,
  (j < length pts)%nat -> (k < length pts)%nat -> length mx = dim ->
  lo < hi -> (forall d, (d < dim)%nat -> nth d lb 0 < nth d ub 0) ->
  let out := agree_normalise dim mx lo hi lb ub pts in
  let minimise := repeat false dim in
  (q_wdom dim minimise (nth j out []) (nth k out []) <-> q_wdom dim mx (nth j pts []) (nth k pts [])) /\
  (q_dom dim minimise (nth j out []) (nth k out []) <-> q_dom dim mx (nth j pts []) (nth k pts [])).
Proof.
  intros dim mx lo hi lb ub pts j k Hj Hk HL Hr Hb out minimise.
  assert (EM : forall d, nth d minimise false = false).
  { intros d. unfold minimise. destruct (Nat.lt_ge_cases d dim).
    - apply (repeat_spec dim false). apply nth_In. now rewrite repeat_length.
    - apply nth_overflow. rewrite repeat_length. exact H. }
  assert (W : q_wdom dim minimise (nth j out []) (nth k out []) <-> q_wdom dim mx (nth j pts []) (nth k pts [])).
  { unfold q_wdom. split; intros H d Hd; specialize (H d Hd); rewrite ?EM in *;
      apply (C32_order dim mx lo hi lb ub pts j k d Hj Hk Hd HL Hr (Hb d Hd)); exact H. }
  split; [ exact W | ].
  unfold q_dom. rewrite W. split; intros [H [d [Hd G]]]; (split; [ exact H | exists d; split; [ exact Hd | ] ]);
    rewrite ?EM in *; apply (out_le dim mx lo hi lb ub pts j k d Hj Hk Hd HL Hr (Hb d Hd)); exact G.
Qed.

(** Python normalise with the default bounds (minimum and maximum of the data):
    every result is within the range, both ends are reached in every column that is
    not constant, and dominance is preserved if no column is constant. *)
Lemma qmin_spec : forall a b, qmin a b <= a /\ qmin a b <= b /\ (qmin a b = a \/ qmin a b = b).
Proof.
  intros a b. unfold qmin. destruct (Qle_bool a b) eqn:E.
  - apply Qle_bool_iff in E. repeat split; auto; lra.
  - assert (~ a <= b) by (intros H; apply Qle_bool_iff in H; congruence).
    apply Qnot_le_lt in H. repeat split; auto; lra.
Qed.
Lemma qmax_spec : forall a b, a <= qmax a b /\ b <= qmax a b /\ (qmax a b = a \/ qmax a b = b).
Proof.
  intros a b. unfold qmax. destruct (Qle_bool a b) eqn:E.
  - apply Qle_bool_iff in E. repeat split; auto; lra.
  - assert (~ a <= b) by (intros H; apply Qle_bool_iff in H; congruence).
    apply Qnot_le_lt in H. repeat split; auto; lra.
Qed.
Lemma col_min_spec : forall pts d, pts <> [] ->
  (forall p, In p pts -> col_min pts d <= qcoord p d) /\ exists p, In p pts /\ col_min pts d = qcoord p d.
Proof.
  assert (G : forall ps m d,
    let r := fold_left (fun m q => qmin m (qcoord q d)) ps m in
    r <= m /\ (forall p, In p ps -> r <= qcoord p d) /\ (r = m \/ exists p, In p ps /\ r = qcoord p d)).
  { induction ps as [ | q ps IH ]; intros m d; cbn [fold_left]; cbv zeta.
    - split; [ lra | split; [ intros p [] | now left ] ].
    - specialize (IH (qmin m (qcoord q d)) d). cbv zeta in IH. destruct IH as [H1 [H2 H3]].
      destruct (qmin_spec m (qcoord q d)) as [M1 [M2 M3]].
      split; [ lra | split ].
      + intros p [<- | Hp]; [ lra | now apply H2 ].
      + destruct H3 as [H3 | [p [Hp Ep]]].
        * rewrite H3. destruct M3 as [M3 | M3]; rewrite M3; [ now left | right; exists q; split; [ now left | reflexivity ] ].
        * right. exists p. split; [ now right | exact Ep ]. }
  intros [ | q ps ] d Hne; [ congruence | ]. cbn [col_min].
  destruct (G ps (qcoord q d) d) as [H1 [H2 H3]]. split.
  - intros p [<- | Hp]; [ exact H1 | now apply H2 ].
  - destruct H3 as [H3 | [p [Hp Ep]]]; [ exists q; split; [ now left | exact H3 ] | exists p; split; [ now right | exact Ep ] ].
Qed.
Lemma col_max_spec : forall pts d, pts <> [] ->
  (forall p, In p pts -> qcoord p d <= col_max pts d) /\ exists p, In p pts /\ col_max pts d = qcoord p d.
Proof.
  assert (G : forall ps m d,
    let r := fold_left (fun m q => qmax m (qcoord q d)) ps m in
    m <= r /\ (forall p, In p ps -> qcoord p d <= r) /\ (r = m \/ exists p, In p ps /\ r = qcoord p d)).
  { induction ps as [ | q ps IH ]; intros m d; cbn [fold_left]; cbv zeta.
    - split; [ lra | split; [ intros p [] | now left ] ].
    - specialize (IH (qmax m (qcoord q d)) d). cbv zeta in IH. destruct IH as [H1 [H2 H3]].
      destruct (qmax_spec m (qcoord q d)) as [M1 [M2 M3]].
      split; [ lra | split ].
      + intros p [<- | Hp]; [ lra | now apply H2 ].
      + destruct H3 as [H3 | [p [Hp Ep]]].
        * rewrite H3. destruct M3 as [M3 | M3]; rewrite M3; [ now left | right; exists q; split; [ now left | reflexivity ] ].
        * right. exists p. split; [ now right | exact Ep ]. }
  intros [ | q ps ] d Hne; [ congruence | ]. cbn [col_max].
  destruct (G ps (qcoord q d) d) as [H1 [H2 H3]]. split.
  - intros p [<- | Hp]; [ exact H1 | now apply H2 ].
  - destruct H3 as [H3 | [p [Hp Ep]]]; [ exists q; split; [ now left | exact H3 ] | exists p; split; [ now right | exact Ep ] ].
Qed.

Lemma py_bound_nth : forall dim f d, (d < dim)%nat -> nth d (py_bound [] f dim) 0 = f d.
Proof.
  intros dim f d Hd. unfold py_bound. rewrite (nth_map_lt _ _ _ (seq 0 dim) d 0 0%nat) by (now rewrite seq_length).
  rewrite seq_nth by exact Hd. cbn [Nat.add]. destruct d; reflexivity.
Qed.

Theorem C32_default_bounds : forall dim mx lo hi pts,
  dim <> 1%nat -> pts <> [] -> length mx = dim -> lo < hi ->
  exists out, py_normalise dim mx (lo, hi) [] [] pts = Ret out /\ length out = length pts /\
    (forall k d, (k < length pts)%nat -> (d < dim)%nat -> lo <= nth d (nth k out []) 0 <= hi) /\
    (forall d, (d < dim)%nat ->
       (exists i j, (i < length pts)%nat /\ (j < length pts)%nat /\ ~ nth d (nth i pts []) 0 == nth d (nth j pts []) 0) ->
       exists i j, (i < length pts)%nat /\ (j < length pts)%nat /\
         nth d (nth i out []) 0 == lo /\ nth d (nth j out []) 0 == hi).
Proof.
  intros dim mx lo hi pts Hdim Hne HL Hr.
  set (lb := py_bound [] (col_min pts) dim). set (ub := py_bound [] (col_max pts) dim).
  exists (agree_normalise dim mx lo hi lb ub pts).
  assert (HB : forall k d, (k < length pts)%nat -> (d < dim)%nat ->
            nth d lb 0 <= nth d (nth k pts []) 0 <= nth d ub 0).
  { intros k d Hk Hd. unfold lb, ub. rewrite !py_bound_nth by exact Hd.
    destruct (col_min_spec pts d Hne) as [H1 _]. destruct (col_max_spec pts d Hne) as [H2 _].
    assert (Hin : In (nth k pts []) pts) by now apply nth_In.
    split; [ apply (H1 _ Hin) | apply (H2 _ Hin) ]. }
  split; [ | split; [ | split ] ].
  - unfold py_normalise. cbn [fst snd].
    apply Nat.eqb_neq in Hdim. rewrite Hdim. cbn [negb assert_ bind].
    assert (El : (length pts =? 0)%nat = false) by (apply Nat.eqb_neq; destruct pts; [ congruence | discriminate ]).
    rewrite El, andb_false_r. cbn [negb assert_ bind]. reflexivity.
  - unfold agree_normalise, c_normalise. now rewrite !map_length.
  - intros k d Hk Hd. apply (C32_stays_in_range dim mx lo hi lb ub pts k d Hk Hd HL); [ lra | now apply HB ].
  - intros d Hd (i & j & Hi & Hj & Hn).
    destruct (col_min_spec pts d Hne) as [_ [p [Hp Ep]]]. destruct (col_max_spec pts d Hne) as [_ [q [Hq Eq]]].
    destruct (In_nth pts p [] Hp) as [ip [Hip Ip]]. destruct (In_nth pts q [] Hq) as [iq [Hiq Iq]].
    assert (El : nth d lb 0 = nth d (nth ip pts []) 0).
    { unfold lb. rewrite py_bound_nth by exact Hd. rewrite Ep, Ip. reflexivity. }
    assert (Eu : nth d ub 0 = nth d (nth iq pts []) 0).
    { unfold ub. rewrite py_bound_nth by exact Hd. rewrite Eq, Iq. reflexivity. }
    assert (Hd0 : ~ nth d lb 0 == nth d ub 0).
    { intros E. apply Hn. pose proof (HB i d Hi Hd). pose proof (HB j d Hj Hd). lra. }
    destruct (C32_bounds_to_ends dim mx lo hi lb ub pts ip d Hip Hd HL Hd0) as [A _].
    destruct (C32_bounds_to_ends dim mx lo hi lb ub pts iq d Hiq Hd HL Hd0) as [_ B].
    unfold out_of in A, B.
    specialize (A ltac:(rewrite El; reflexivity)). specialize (B ltac:(rewrite Eu; reflexivity)).
    destruct (nth d mx false); [ exists iq, ip | exists ip, iq ]; repeat split; assumption.
Qed.

(** non-vacuity: the data of the documentation example (times ten), and a case with
    a maximised column and a constant one, where all the bounds come from the data *)
Example C32_doc :
  match py_normalise 2 [false; false] (0, 1) [] [] [[35;55]; [36;41]; [41;32]; [55;15]] with
  | Ret out => map (map Qred) out | _ => [] end
  = [[0;1]; [1 # 20;13 # 20]; [3 # 10;17 # 40]; [1;0]].
Proof. vm_compute. reflexivity. Qed.
Example C32_max_and_constant :
  match py_normalise 3 [false; true; true] (1, 2) [] [] [[0;5;7]; [4;1;7]; [1;2;7]] with
  | Ret out => map (map Qred) out | _ => [] end
  = [[1;1;1]; [2;2;1]; [5 # 4;7 # 4;1]].
Proof. vm_compute. reflexivity. Qed.
Example C33_hypotheses :
  (forall d, (d < 2)%nat -> nth d [0;0] 0 < nth d [10;8] 0) /\
  q_dom 2 [false; true] [1;5] [2;4].
Proof.
  split.
  - intros [ | [ | d ] ] H; [ reflexivity | reflexivity | lia ].
  - split.
    + intros [ | [ | d ] ] H; [ discriminate | discriminate | lia ].
    + exists 0%nat. split; [ lia | reflexivity ].
Qed.

(** The order of the bounds is needed in C33: with inverted bounds, which the code
    does not reject, dominance is inverted. *)
Theorem C33_inverted_bounds_refuted :
  exists lb ub pts,
    q_dom 2 [false; false] (nth 0 pts []) (nth 1 pts []) /\
    q_dom 2 [false; false] (nth 1 (agree_normalise 2 [false; false] 0 1 lb ub pts) [])
                           (nth 0 (agree_normalise 2 [false; false] 0 1 lb ub pts) []).
Proof.
  exists [1;1], [0;0], [[0;0]; [1;1]]. split.
  - split; [ intros [ | [ | d ] ] H; [ discriminate | discriminate | lia ] | exists 0%nat; split; [ lia | reflexivity ] ].
  - split; [ intros [ | [ | d ] ] H; [ discriminate | discriminate | lia ] | exists 0%nat; split; [ lia | reflexivity ] ].
Qed.

Print Assumptions C32_affine.
Print Assumptions C32_bounds_to_ends.
Print Assumptions C32_stays_in_range.
Print Assumptions C32_order.
Print Assumptions C32_zero_range.
Print Assumptions C32_default_bounds.
Print Assumptions C33_dominance_preserved.
Print Assumptions C33_inverted_bounds_refuted.

(** ** C32 for the Python function with bounds given by the caller, wholly or in
    part: the affine map goes through the given bound of a column, or through the
    smallest / largest value of the column where the caller gave NaN. *)
Definition lower_used (given : list (option Q)) (pts : list (list Q)) (d : nat) (l : Q) : Prop :=
  match nth d given None with
  | Some v => l = v
  | None => (exists k, (k < length pts)%nat /\ l = nth d (nth k pts []) 0) /\
            forall k, (k < length pts)%nat -> l <= nth d (nth k pts []) 0
  end.
Definition upper_used (given : list (option Q)) (pts : list (list Q)) (d : nat) (u : Q) : Prop :=
  match nth d given None with
  | Some v => u = v
  | None => (exists k, (k < length pts)%nat /\ u = nth d (nth k pts []) 0) /\
            forall k, (k < length pts)%nat -> nth d (nth k pts []) 0 <= u
  end.

Lemma py_bound_given : forall given f dim d, (d < dim)%nat ->
  nth d (py_bound given f dim) 0 = match nth d given None with Some v => v | None => f d end.
Proof.
  intros given f dim d Hd. unfold py_bound. rewrite (nth_map_lt _ _ _ (seq 0 dim) d 0 0%nat) by (now rewrite seq_length).
  now rewrite seq_nth by exact Hd.
Qed.

Theorem C32_given_bounds : forall dim mx lo hi lower upper pts,
  dim <> 1%nat -> pts <> [] -> length mx = dim ->
  exists out, py_normalise dim mx (lo, hi) lower upper pts = Ret out /\ length out = length pts /\
    forall d, (d < dim)%nat -> exists l u,
      lower_used lower pts d l /\ upper_used upper pts d u /\
      (~ l == u -> exists f,
         (forall k, (k < length pts)%nat -> nth d (nth k out []) 0 == f (nth d (nth k pts []) 0)) /\
         if nth d mx false then affine_map l u hi lo f else affine_map l u lo hi f).
Proof.
  intros dim mx lo hi lower upper pts Hdim Hne HL.
  set (lb := py_bound lower (col_min pts) dim). set (ub := py_bound upper (col_max pts) dim).
  exists (agree_normalise dim mx lo hi lb ub pts). split; [ | split ].
  - unfold py_normalise. cbn [fst snd].
    apply Nat.eqb_neq in Hdim. rewrite Hdim. cbn [negb assert_ bind].
    assert (El : (length pts =? 0)%nat = false) by (apply Nat.eqb_neq; destruct pts; [ congruence | discriminate ]).
    rewrite El, andb_false_r. cbn [negb assert_ bind]. reflexivity.
  - unfold agree_normalise, c_normalise. now rewrite !map_length.
  - intros d Hd. exists (nth d lb 0), (nth d ub 0). split; [ | split ].
    + unfold lower_used, lb. rewrite py_bound_given by exact Hd. destruct (nth d lower None); [ reflexivity | ].
      destruct (col_min_spec pts d Hne) as [H1 [p [Hp Ep]]]. destruct (In_nth pts p [] Hp) as [k [Hk Ek]]. split.
      * exists k. split; [ exact Hk | ]. rewrite Ep, Ek. reflexivity.
      * intros j Hj. apply (H1 (nth j pts [])). now apply nth_In.
    + unfold upper_used, ub. rewrite py_bound_given by exact Hd. destruct (nth d upper None); [ reflexivity | ].
      destruct (col_max_spec pts d Hne) as [H1 [p [Hp Ep]]]. destruct (In_nth pts p [] Hp) as [k [Hk Ek]]. split.
      * exists k. split; [ exact Hk | ]. rewrite Ep, Ek. reflexivity.
      * intros j Hj. apply (H1 (nth j pts [])). now apply nth_In.
    + intros Hn. destruct (C32_affine dim mx lo hi lb ub pts d Hd HL Hn) as (f & F1 & F2). exists f. split; assumption.
Qed.
Print Assumptions C32_given_bounds.

Example C32_given_example :
  match py_normalise 2 [false; true] (0, 1) [Some 0; None] [None; Some 10] [[2;5]; [4;0]] with
  | Ret out => map (map Qred) out | _ => [] end = [[1 # 2; 1 # 2]; [1; 1]].
Proof. vm_compute. reflexivity. Qed.

(** ** C33 for agree_objectives alone: after the agreement on minimisation a row is
    at least as good as another iff no value is larger, after the agreement on
    maximisation iff no value is smaller; without agreement nothing changes. *)
Definition at_least_as_good (dim : nat) (minmax : list Z) (p q : list Q) : Prop :=
  forall d, (d < dim)%nat ->
    ((nth d minmax 0 < 0)%Z -> nth d p 0 <= nth d q 0) /\ ((0 < nth d minmax 0)%Z -> nth d q 0 <= nth d p 0).

Theorem C33_agree_objectives : forall dim minmax agree p q,
  (forall d, (d < dim)%nat -> nth d minmax 0%Z <> 0%Z) -> length p = dim ->
  let p' := agree_row dim minmax agree p in let q' := agree_row dim minmax agree q in
  ((agree < 0)%Z -> (forall d, (d < dim)%nat -> nth d p' 0 <= nth d q' 0) <-> at_least_as_good dim minmax p q) /\
  ((0 < agree)%Z -> (forall d, (d < dim)%nat -> nth d q' 0 <= nth d p' 0) <-> at_least_as_good dim minmax p q) /\
  (agree = 0%Z -> p' = p).
Proof.
  intros dim minmax agree p q Hm Lp p' q'.
  assert (N : forall r d, (d < dim)%nat -> nth d (agree_row dim minmax agree r) 0 =
            if must_flip minmax agree d then - nth d r 0 else nth d r 0).
  { intros r d Hd. unfold agree_row. rewrite (nth_map_lt _ _ _ (seq 0 dim) d 0 0%nat) by (now rewrite seq_length).
    now rewrite seq_nth by exact Hd. }
  split; [ | split ].
  - intros Ha. unfold at_least_as_good. split; intros H d Hd; specialize (H d Hd); specialize (Hm d Hd);
      unfold p', q' in *; rewrite !N in * by exact Hd; unfold must_flip in *;
      destruct (Z.ltb_spec 0%Z agree); try lia; destruct (Z.ltb_spec agree 0%Z); try lia; cbn [andb orb] in *;
      destruct (Z.ltb_spec 0%Z (nth d minmax 0%Z)); [ split; intros; [ lia | lra ] | split; intros; [ lra | lia ] | | ].
    + destruct H as [_ H]. specialize (H ltac:(lia)). lra.
    + destruct H as [H _]. apply H. lia.
  - intros Ha. unfold at_least_as_good. split; intros H d Hd; specialize (H d Hd); specialize (Hm d Hd);
      unfold p', q' in *; rewrite !N in * by exact Hd; unfold must_flip in *;
      destruct (Z.ltb_spec 0%Z agree); try lia; destruct (Z.ltb_spec agree 0%Z); try lia; cbn [andb orb] in *;
      rewrite ?orb_false_r in *; destruct (Z.ltb_spec (nth d minmax 0%Z) 0%Z); [ split; intros; [ lra | lia ] | split; intros; [ lia | lra ] | | ].
    + destruct H as [H _]. specialize (H ltac:(lia)). lra.
    + destruct H as [_ H]. apply H. lia.
  - intros ->. apply nth_ext with 0 0.
    + unfold p', agree_row. now rewrite map_length, seq_length.
    + intros d Hd. unfold p' in *. unfold agree_row in Hd. rewrite map_length, seq_length in Hd. rewrite N by exact Hd. reflexivity.
Qed.
Print Assumptions C33_agree_objectives.
