(** C24: the rectangles of an EAF difference. *)
From Coq Require Import List ZArith Lia Bool Arith QArith Lqa.
From Verif Require Import Base Spec EafSpec RectSpec EafModel EafProofs EafMain EafStoreModel BitArrayProofs EafTop
  RectModel RectProofs RectTop.
Import ListNotations.
Open Scope Z_scope.

(** The rectangles are non-degenerate, pairwise disjoint, cover exactly the
    locations attained by at least one but not by all sets, and the colour of a
    rectangle is the EAF difference at every location in it. *)
Theorem C24_rectangles_exact : forall runs sortx sorty junk grow intervals,
  (2 <= length runs)%nat -> Nat.Even (length runs) ->
  (forall r, In r runs -> r <> []) -> wf_points 2 (concat runs) ->
  is_datax (concat runs) (sortx (concat runs)) -> is_datay (concat runs) (sorty (concat runs)) ->
  (forall i, 0 <= junk i < 2 ^ 64) -> (forall m r, (m <= grow m r)%nat) ->
  Z.of_nat (length (concat runs)) <= (2 ^ 31 - 1) / 2 ->
  exists rs,
    eafdiff_compute_rectangles sortx sorty junk grow (concat runs) (cumsizes runs) (length runs) intervals
      = Ret rs /\
    (forall r, In r rs -> nondegenerate r) /\ pairwise_disjoint rs /\
    (forall z, length z = 2%nat -> ((exists r, In r rs /\ in_rect r z) <->
       attained_by_at_least 2 1 runs z /\ ~ attained_by_at_least 2 (length runs) runs z)) /\
    (forall r z, In r rs -> in_rect r z -> length z = 2%nat -> diff_value runs intervals z (r_col r)).
Proof.
  intros. apply rectangles_ok; auto. destruct H0 as (k & ->).
  rewrite Nat.mul_comm. apply Nat.mod_mul. lia.
Qed.

(** Locations outside all rectangles have difference zero. *)
Theorem C24_outside_zero : forall runs intervals z c, (2 <= length runs)%nat -> length z = 2%nat ->
  ~ (attained_by_at_least 2 1 runs z /\ ~ attained_by_at_least 2 (length runs) runs z) ->
  diff_value runs intervals z c -> (c == 0)%Q.
Proof.
  intros runs intervals z c Hn Hz Hout (L & R & (kl & Nl & Ll & Hl) & (kr & Nr & Lr & Hr) & E).
  set (n := length runs) in *. assert (Hd : (n / 2 < n)%nat) by (apply Nat.div_lt; lia).
  assert (Hp : (1 <= n / 2)%nat) by (apply Nat.div_le_lower_bound; lia).
  assert (Fl : length (firstn (n / 2) runs) = (n / 2)%nat) by (rewrite firstn_length; fold n; lia).
  assert (Fr : length (skipn (n / 2) runs) = (n - n / 2)%nat) by (rewrite skipn_length; fold n; lia).
  assert (Nfl : forall k, (k < n / 2)%nat -> nth k (firstn (n / 2) runs) [] = nth k runs [])
    by (intros; apply nth_firstn_lt; auto).
  assert (Nfr : forall k, nth k (skipn (n / 2) runs) [] = nth (n / 2 + k) runs []) by (intros; apply nth_skipn_).
  destruct (attained_dec runs 1 z) as [D|D].
  - destruct (attained_dec runs n z) as [D2|D2]; [|tauto]. clear Hout.
    destruct D2 as (ks & Nk & Lk & Hk).
    assert (All : forall k, (k < n)%nat -> attains 2 (nth k runs []) z).
    { intros k Hk'. apply Hk.
      assert (I : incl (seq 0 n) ks).
      { apply NoDup_length_incl. exact Nk. rewrite seq_length. lia.
        intros j Hj. apply in_seq. destruct (Hk j Hj). fold n in H. lia. }
      apply I. apply in_seq. lia. }
    assert (L = n / 2)%nat.
    { rewrite <- Ll. apply Nat.le_antisymm.
      - rewrite <- (seq_length (n / 2) 0). apply NoDup_incl_length; auto. intros j Hj. apply in_seq.
        apply Hl in Hj. rewrite Fl in Hj. lia.
      - rewrite <- (seq_length (n / 2) 0) at 1. apply NoDup_incl_length. apply seq_NoDup. intros j Hj. apply in_seq in Hj.
        apply Hl. rewrite Fl. split. lia. rewrite Nfl by lia. apply All. lia. }
    assert (R = n - n / 2)%nat.
    { rewrite <- Lr. apply Nat.le_antisymm.
      - rewrite <- (seq_length (n - n / 2) 0). apply NoDup_incl_length; auto. intros j Hj. apply in_seq.
        apply Hr in Hj. rewrite Fr in Hj. lia.
      - rewrite <- (seq_length (n - n / 2) 0) at 1. apply NoDup_incl_length. apply seq_NoDup. intros j Hj. apply in_seq in Hj.
        apply Hr. rewrite Fr. split. lia. rewrite Nfr by lia. apply All. lia. }
    fold n in E. rewrite E. subst L R. rewrite H, H0.
    assert (NZ : forall m, (1 <= m)%nat -> ~ (inject_Z (Z.of_nat m) == 0)%Q).
    { intros m Hm. unfold Qeq, inject_Z. cbn [Qnum Qden]. lia. }
    field. split; apply NZ; lia.
  - assert (Non : forall k, (k < n)%nat -> ~ attains 2 (nth k runs []) z).
    { intros k Hk A. apply D. exists [k]. split. repeat constructor; auto. split; auto. intros j [<-|[]]. auto. }
    assert (kl = []).
    { destruct kl as [|k kl]; auto. exfalso. destruct (proj1 (Hl k)) as [A B]. simpl; auto.
      rewrite Fl in A. rewrite Nfl in B by auto. apply (Non k); auto. lia. }
    assert (kr = []).
    { destruct kr as [|k kr]; auto. exfalso. destruct (proj1 (Hr k)) as [A B]. simpl; auto.
      rewrite Fr in A. rewrite Nfr in B by auto. apply (Non (n / 2 + k)%nat); auto. lia. }
    subst kl kr. simpl in Ll, Lr. subst L R. rewrite E. unfold Qdiv.
    change (inject_Z (Z.of_nat 0)) with 0%Q. ring.
Qed.

(** An odd number of sets makes eafdiff(..., rectangles=True) abort. *)
Theorem C24_odd_aborts : forall eafs e0 rest, eafs = e0 :: rest -> Nat.Odd (e_nruns e0) ->
  eaf_compute_rectangles eafs = AssertFailed.
Proof.
  intros eafs e0 rest -> (k & E). unfold eaf_compute_rectangles. cbn [rd nth_error bind].
  rewrite E. replace (2 * k + 1)%nat with (1 + k * 2)%nat by lia.
  rewrite Nat.mod_add by lia. reflexivity.
Qed.

(** ** The Python function eafdiff *)

Lemma cumsizes_from_app : forall a xs ys, cumsizes_from a (xs ++ ys) =
  cumsizes_from a xs ++ cumsizes_from (a + length (concat xs)) ys.
Proof.
  intros a xs. revert a. induction xs as [|x xs IH]; intros a ys; simpl. now rewrite Nat.add_0_r.
  rewrite IH, app_length, Nat.add_assoc. reflexivity.
Qed.
Lemma cumsizes_from_shift : forall ys a b, cumsizes_from (a + b) ys = map (fun c => a + c)%nat (cumsizes_from b ys).
Proof.
  induction ys as [|y ys IH]; intros a b; simpl; auto. rewrite <- Nat.add_assoc. f_equal. apply IH.
Qed.
Lemma cumsizes_last : forall xs a d, xs <> [] -> last (cumsizes_from a xs) d = (a + length (concat xs))%nat.
Proof.
  induction xs as [|x xs IH]; intros a d H. congruence.
  destruct xs as [|y xs]. { simpl. rewrite app_nil_r. reflexivity. }
  change (cumsizes_from a (x :: y :: xs)) with ((a + length x)%nat :: cumsizes_from (a + length x) (y :: xs)).
  change (concat (x :: y :: xs)) with (x ++ concat (y :: xs)). rewrite app_length, Nat.add_assoc.
  rewrite <- (IH (a + length x)%nat d) by discriminate. reflexivity.
Qed.
Lemma py_cumsizes_ok : forall xs ys, xs <> [] -> py_cumsizes (cumsizes xs) (cumsizes ys) = cumsizes (xs ++ ys).
Proof.
  intros. unfold py_cumsizes, cumsizes. rewrite cumsizes_last by auto. rewrite cumsizes_from_app.
  rewrite <- cumsizes_from_shift, Nat.add_0_r. reflexivity.
Qed.
Lemma cumsizes_from_length : forall xs a, length (cumsizes_from a xs) = length xs.
Proof. induction xs; intros; simpl; auto. Qed.

Lemma unique_id : forall (l seen : list (rect Q)), (forall r, In r l -> nondegenerate r) -> pairwise_disjoint l ->
  (forall r s, In r l -> In s seen -> disjoint2 s r) -> unique_nosort rect_eqb seen l = l.
Proof.
  induction l as [|r l IH]; intros seen Nd Pd Ds; cbn [unique_nosort]; auto.
  destruct (existsb (rect_eqb r) seen) eqn:E.
  - exfalso. apply existsb_exists in E. destruct E as (s & Hs & E). unfold rect_eqb in E.
    repeat (apply andb_prop in E; destruct E as [E ?]).
    apply Z.eqb_eq in E. apply Z.eqb_eq in H2.
    assert (EB : forall a b, bound_eqb a b = true -> a = b).
    { intros [x|] [y|] X; simpl in X; try discriminate; auto. apply Z.eqb_eq in X. congruence. }
    apply EB in H1. apply EB in H0.
    destruct (Nd r) as [N1 N2]. { simpl; auto. }
    apply (Ds r s (or_introl eq_refl) Hs [r_lx r; r_ly r]);
      unfold in_rect, coord; cbn [nth]; [rewrite <- E, <- H2, <- H1, <- H0|]; repeat split; auto; lia.
  - f_equal. apply IH.
    + intros x Hx. apply Nd. simpl; auto.
    + intros i j x y Hij X Y. apply (Pd (S i) (S j) x y); auto. lia.
    + intros x s Hx [<-|Hs].
      * apply In_nth_error in Hx. destruct Hx as (j & Hj). intros z Z1 Z2.
        apply (Pd 0%nat (S j) r x ltac:(lia) eq_refl Hj z); auto.
      * apply Ds; simpl; auto.
Qed.

(** With as many sets in x as in y, eafdiff(x, y, rectangles=True) returns
    disjoint rectangles whose colours are the differences between the EAF of x and
    that of y. *)
Theorem C24_python_rectangles : forall xs ys sortx sorty junk grow intervals,
  xs <> [] -> length xs = length ys ->
  (forall r, In r (xs ++ ys) -> r <> []) -> wf_points 2 (concat (xs ++ ys)) ->
  is_datax (concat (xs ++ ys)) (sortx (concat (xs ++ ys))) ->
  is_datay (concat (xs ++ ys)) (sorty (concat (xs ++ ys))) ->
  (forall i, 0 <= junk i < 2 ^ 64) -> (forall m r, (m <= grow m r)%nat) ->
  Z.of_nat (length (concat (xs ++ ys))) <= (2 ^ 31 - 1) / 2 ->
  exists rs,
    py_eafdiff_rectangles sortx sorty junk grow (concat xs) (concat ys) (cumsizes xs) (cumsizes ys) intervals
      = Ret rs /\
    (forall r, In r rs -> nondegenerate r) /\ pairwise_disjoint rs /\
    (forall z, length z = 2%nat -> ((exists r, In r rs /\ in_rect r z) <->
       attained_by_at_least 2 1 (xs ++ ys) z /\
       ~ attained_by_at_least 2 (length xs + length ys) (xs ++ ys) z)) /\
    (forall r z, In r rs -> in_rect r z -> length z = 2%nat ->
       diff_between xs ys (match intervals with None => length xs | Some i => Nat.min i (length xs) end) z (r_col r)).
Proof.
  intros xs ys sortx sorty junk grow intervals Hx Hl Hne Hwf Hsx Hsy Hj Hg Hs.
  assert (Ln : (length (xs ++ ys) = 2 * length xs)%nat) by (rewrite app_length; lia).
  assert (Lp : (1 <= length xs)%nat) by (destruct xs; [congruence|simpl; lia]).
  assert (Hh : (length (xs ++ ys) / 2 = length xs)%nat).
  { rewrite Ln, Nat.mul_comm. apply Nat.div_mul. lia. }
  unfold py_eafdiff_rectangles. rewrite py_cumsizes_ok by auto.
  unfold cumsizes at 2 3. rewrite cumsizes_from_length, <- concat_app.
  destruct (C24_rectangles_exact (xs ++ ys) sortx sorty junk grow (py_intervals intervals (length (xs ++ ys))))
    as (rs & E & N & P & C & D); auto.
  { lia. } { exists (length xs). lia. }
  rewrite E. cbn [bind]. rewrite unique_id; auto; [|intros r s _ []].
  exists rs. split; auto. split; auto. split; auto. split.
  { intros z Hz. rewrite (C z Hz), app_length. reflexivity. }
  intros r z Hr Ir Hz. destruct (D r z Hr Ir Hz) as (L & R & A & B & V). rewrite Hh in A, B, V.
  rewrite firstn_app, firstn_all, Nat.sub_diag, app_nil_r in A.
  rewrite skipn_app, skipn_all, Nat.sub_diag in B. cbn [app skipn] in B.
  exists L, R. split; auto. split; auto. rewrite V.
  unfold py_intervals. rewrite Hh. replace (length (xs ++ ys) - length xs)%nat with (length ys) by lia.
  destruct intervals; reflexivity.
Qed.

(** With different numbers of sets, the colours are not the difference between x
    and y: here 3 sets in x, 1 set in y; the location (1,1) is attained by all sets
    of x and not by the set of y, so the scaled difference should be 2 (= the number
    of intervals), but the reported value is 1. *)
Definition ux : list (list point) := [[[1; 1]]; [[1; 1]]; [[1; 1]]].
Definition uy : list (list point) := [[[5; 5]]].
Theorem C24_unequal_refuted :
  py_eafdiff_points sortx_exec sorty_exec (fun i => 17 * (Z.of_nat i mod 1000)) grow_exec
    (concat ux) (concat uy) (cumsizes ux) (cumsizes uy) None
    = Ret [([1; 1], 4 # 4); ([5; 5], 0 # 4)] /\
  (forall c, diff_between ux uy 2 [1; 1] c -> (c == 2)%Q).
Proof.
  split. vm_compute. reflexivity.
  intros c (L & R & (kl & Nl & Ll & Hl) & (kr & Nr & Lr & Hr) & E). rewrite E.
  assert (A : forall k, (k < 3)%nat -> In k kl).
  { intros k Hk. apply Hl. split; auto. exists [1; 1]. split.
    destruct k as [|[|[|]]]; simpl; auto; lia. apply wdom_refl. }
  assert (L = 3)%nat.
  { rewrite <- Ll. apply Nat.le_antisymm.
    - change 3%nat with (length (seq 0 3)). apply NoDup_incl_length; auto. intros j Hj. apply in_seq.
      apply Hl in Hj. simpl in Hj. lia.
    - change 3%nat with (length (seq 0 3)). apply NoDup_incl_length. apply seq_NoDup. intros j Hj. apply in_seq in Hj. apply A. lia. }
  assert (R = 0)%nat.
  { destruct kr as [|k kr]; simpl in Lr; auto. exfalso. destruct (proj1 (Hr k)) as [X (p & Hp & W)]. simpl; auto.
    simpl in X. assert (k = 0)%nat by lia. subst k. simpl in Hp. destruct Hp as [<-|[]].
    apply wdom2_iff in W. unfold coord in W. simpl in W. lia. }
  subst L R. rewrite H, H0. reflexivity.
Qed.

(** ** A concrete case: the example of the documentation, coordinates doubled
    (_moocore.py:1423-1466) *)
Definition dx : list (list point) := [[[6; 4]; [4; 6]]; [[5; 2]; [2; 4]]; [[2; 4]]].
Definition dy : list (list point) := [[[8; 5]; [6; 6]; [5; 7]]; [[6; 6]; [5; 7]]; [[4; 2]]].
Definition ex_junk (i : nat) : Z := 17 * (Z.of_nat i mod 1000).
Example ex_hyps : dx <> [] /\ length dx = length dy /\ (forall r, In r (dx ++ dy) -> r <> []) /\
  wf_points 2 (concat (dx ++ dy)) /\ (forall i, 0 <= ex_junk i < 2 ^ 64) /\
  is_datax (concat (dx ++ dy)) (sortx_exec (concat (dx ++ dy))) /\
  is_datay (concat (dx ++ dy)) (sorty_exec (concat (dx ++ dy))).
Proof.
  split. discriminate. split. reflexivity. split.
  { intros r H. simpl in H. repeat (destruct H as [<-|H]; [discriminate|]). destruct H. }
  split. repeat constructor. split.
  { intros i. unfold ex_junk. pose proof (Z.mod_pos_bound (Z.of_nat i) 1000 ltac:(lia)). split. lia.
    apply Z.le_lt_trans with 17000. lia. reflexivity. }
  split. apply sortx_exec_ok. apply sorty_exec_ok.
Qed.
Definition simp_rects (o : outcome (list (rect Q))) : outcome (list (rect Q)) :=
  rs <- o ;; Ret (map (fun r => mkRect (r_lx r) (r_ly r) (r_ux r) (r_uy r) (Qred (r_col r))) rs).
Example ex_rects : simp_rects (py_eafdiff_rectangles sortx_exec sorty_exec ex_junk grow_exec
    (concat dx) (concat dy) (cumsizes dx) (cumsizes dy) None) = Ret [
  mkRect 4 2 (At 5) (At 4) (-1#1); mkRect 2 4 (At 4) Infty (2#1); mkRect 5 2 Infty (At 4) (0#1);
  mkRect 4 4 (At 6) (At 6) (1#1); mkRect 4 7 (At 5) Infty (2#1); mkRect 4 6 (At 6) (At 7) (2#1);
  mkRect 6 5 (At 8) (At 6) (2#1); mkRect 6 4 Infty (At 5) (2#1); mkRect 8 5 Infty (At 6) (1#1)].
Proof. vm_compute. reflexivity. Qed.

Print Assumptions C24_rectangles_exact.
Print Assumptions C24_outside_zero.
Print Assumptions C24_odd_aborts.
Print Assumptions C24_python_rectangles.
Print Assumptions C24_unequal_refuted.
