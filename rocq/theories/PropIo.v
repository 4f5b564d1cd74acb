(** Properties C30 and C31: reading and writing text files of data sets. *)
Require Import List ZArith Lia Bool Ascii String Arith QArith Qreduction Qpower.
Import ListNotations.
From Verif Require Import Base IoModel IoSpec IoProofs IoMain IoFmt.
Open Scope list_scope.
Open Scope nat_scope.
Open Scope Z_scope.

(** ** C31: every text is read without leaving a buffer, whatever it contains *)
Theorem C31_memory_safe : forall num junk junk_int scan inc t w (sets : list (list (list num))),
  valid_scanner num scan -> (0 < inc)%nat -> valid_start num w sets ->
  exists code ds, read_objective_t_data num junk junk_int scan inc t (layout w sets) = Ret (code, ds).
Proof. intros. apply read_total; auto. Qed.
Print Assumptions C31_memory_safe.

(** a text that describes sets is read as these sets, after the sets that are
    already there.  Vertical tabs and form feeds are excluded, see below *)
Theorem C31_accepts : forall num junk junk_int scan inc t w0 w (old sets : list (list (list num))),
  valid_scanner num scan -> (0 < inc)%nat -> ~ In vt t -> ~ In ff t ->
  valid_start num w0 old -> (w0 = w \/ w0 = 0%nat) -> describes num scan t w sets ->
  read_objective_t_data num junk junk_int scan inc t (layout w0 old) = Ret (0, layout w (old ++ sets)).
Proof. intros. apply read_accepts; auto. split; auto. Qed.
Print Assumptions C31_accepts.

(** no set is empty, all rows have the same width *)
Theorem C31_sets_are_rectangular : forall num scan t w sets, describes num scan t w sets ->
  sets <> [] /\ (forall S, In S sets -> S <> [] /\ forall r, In r S -> List.length r = w).
Proof.
  intros num scan t w sets H. destruct (describes_wide num scan t w sets H) as (A & B & C). split; auto.
  intros S HS. split. rewrite Forall_forall in B. auto. intros; eapply A; eauto.
Qed.
Print Assumptions C31_sets_are_rectangular.

(** nothing but comments and blank lines *)
Theorem C31_empty_file : forall num junk junk_int scan inc t w (old : list (list (list num))),
  ~ In vt t -> ~ In ff t -> valid_start num w old ->
  (0 < inc)%nat -> Forall separator (lines_of t) ->
  exists ds, read_objective_t_data num junk junk_int scan inc t (layout w old) = Ret (READ_INPUT_FILE_EMPTY, ds).
Proof. intros. apply read_empty; auto. split; auto. Qed.
Print Assumptions C31_empty_file.

(** the first wrong line contains something that is not a number *)
Theorem C31_conversion_error : forall num junk junk_int scan inc t w0 w (old : list (list (list num))) rs l,
  valid_scanner num scan -> (0 < inc)%nat -> ~ In vt t -> ~ In ff t ->
  valid_start num w0 old -> (w0 = w \/ w0 = 0%nat) ->
  first_error num scan t w rs l -> ~ (exists xs, numbers num scan l xs) ->
  exists ds, read_objective_t_data num junk junk_int scan inc t (layout w0 old) = Ret (ERROR_CONVERSION, ds).
Proof. intros. eapply read_conversion; eauto. split; auto. Qed.
Print Assumptions C31_conversion_error.

(** the first wrong line has another number of columns *)
Theorem C31_column_error : forall num junk junk_int scan inc t w0 w (old : list (list (list num))) rs l xs,
  valid_scanner num scan -> (0 < inc)%nat -> ~ In vt t -> ~ In ff t ->
  valid_start num w0 old -> (w0 = w \/ w0 = 0%nat) ->
  first_error num scan t w rs l -> numbers num scan l xs -> List.length xs <> w ->
  ((exists ys, In (Some ys) rs) \/ (w0 = w /\ w <> 0%nat)) ->
  exists ds, read_objective_t_data num junk junk_int scan inc t (layout w0 old) =
    Ret (match old, group num rs with [], [] => READ_INPUT_WRONG_INITIAL_DIM | _, _ => ERROR_COLUMNS end, ds).
Proof. intros. eapply read_columns; eauto. split; auto. Qed.
Print Assumptions C31_column_error.

(** every text is of one of these kinds, so the file is accepted exactly when
    it describes sets of rows of the same width *)
Theorem C31_every_text : forall num scan t, valid_scanner num scan ->
  (exists w sets, describes num scan t w sets) \/ Forall separator (lines_of t) \/
  (exists w rs l, first_error num scan t w rs l /\
     (~ (exists xs, numbers num scan l xs) \/
      exists xs, numbers num scan l xs /\ List.length xs <> w /\ exists ys, In (Some ys) rs)).
Proof.
  intros num scan t HS. destruct (lines_cases num scan 1 HS Nat.lt_0_1 (lines_of t)) as [(w & rs & HR & W)|(w & pre & l & post & rs & E & HR & W & Hl & H)].
  - destruct (group num rs) as [|g gs] eqn:Eg.
    + right; left. now apply (group_all_seps num scan _ _ HR).
    + left. exists w, (g :: gs), rs. repeat split; auto. discriminate.
  - right; right. exists w, rs, l. split; auto. exists pre, post. auto.
Qed.
Print Assumptions C31_every_text.

Theorem C31_accepted_iff : forall num junk junk_int scan inc t ds,
  valid_scanner num scan -> (0 < inc)%nat -> ~ In vt t -> ~ In ff t ->
  (read_objective_t_data num junk junk_int scan inc t (mk_ds num 0 [] 0 []) = Ret (0, ds) <->
   exists w sets, describes num scan t w sets /\ ds = layout w sets).
Proof.
  intros num junk junk_int scan inc t ds HS HI Hv Hf. change (mk_ds num 0 [] 0 []) with (@layout num 0 []).
  assert (VS : valid_start num 0 []) by (left; auto).
  split.
  - intros H. destruct (C31_every_text num scan t HS) as [(w & sets & D)|[E|(w & rs & l & F & [B|(xs & N & L & Y)])]].
    + exists w, sets. split; auto. rewrite (C31_accepts num junk junk_int scan inc t 0 w [] sets) in H; auto. cbn in H. congruence.
    + destruct (C31_empty_file num junk junk_int scan inc t 0 []) as (d & X); auto. rewrite X in H. discriminate.
    + destruct (C31_conversion_error num junk junk_int scan inc t 0 w [] rs l) as (d & X); auto. rewrite X in H. discriminate.
    + destruct (C31_column_error num junk junk_int scan inc t 0 w [] rs l xs) as (d & X); auto. rewrite X in H.
      destruct (group num rs); discriminate.
  - intros (w & sets & D & ->). apply (C31_accepts num junk junk_int scan inc t 0 w [] sets); auto.
Qed.
Print Assumptions C31_accepted_iff.

(** read_datasets(): every row carries the number of its set *)
Theorem C31_set_numbers : forall num junk junk_int scan inc t w sets,
  valid_scanner num scan -> (0 < inc)%nat -> ~ In vt t -> ~ In ff t -> describes num scan t w sets ->
  read_datasets num junk junk_int scan inc t = Ret (inr (labelled_from 1 sets)).
Proof. intros. eapply read_datasets_ok; eauto. split; auto. Qed.
Print Assumptions C31_set_numbers.

(** ** C30: reading back what was written *)
Definition same_as_read {num} (val : num -> num) (sets : list (list (list num))) : Prop :=
  forall S r x, In S sets -> In r S -> In x r -> val x = x.

Lemma map3_id : forall num (val : num -> num) sets, same_as_read val sets -> map (map (map val)) sets = sets.
Proof.
  intros num val sets H. rewrite <- (map_id sets) at 2. apply map_ext_in. intros S HS.
  rewrite <- (map_id S) at 2. apply map_ext_in. intros r Hr.
  rewrite <- (map_id r) at 2. apply map_ext_in. intros x Hx. eapply H; eauto.
Qed.

Theorem C30_roundtrip : forall num junk junk_int scan inc fmt val w (sets : list (list (list num))),
  valid_scanner num scan -> valid_printer scan fmt val -> (0 < inc)%nat ->
  sets <> [] -> w <> 0%nat ->
  (forall S, In S sets -> S <> []) -> (forall S r, In S sets -> In r S -> List.length r = w) ->
  same_as_read val sets ->
  exists t, write_sets num fmt (ds_data num (layout w sets)) w (ds_cumsizes num (layout w sets)) = Ret t /\
    read_objective_t_data num junk junk_int scan inc t (mk_ds num 0 [] 0 []) = Ret (0, layout w sets) /\
    read_datasets num junk junk_int scan inc t = Ret (inr (labelled_from 1 sets)).
Proof.
  intros num junk junk_int scan inc fmt val w sets HS HP HI Ne Hw HN HW HV.
  exists (flat_map (set_text num fmt) sets).
  pose proof (write_sets_from_ok num 1 Nat.lt_0_1 fmt w sets (fun _ => true) HW sets [] eq_refl) as X. cbn [concat List.length] in X.
  rewrite kept_all in X. split. exact X.
  assert (NF : filter (nonempty num) sets = sets).
  { clear - HN. induction sets as [|A sets IH]; cbn [filter]; auto. rewrite IH by (intros; apply HN; now right).
    destruct A eqn:E; cbn; auto. exfalso. apply (HN A); subst; auto. now left. }
  assert (NF' : filter (nonempty num) sets <> []) by congruence.
  pose proof (written_describes num scan 1 Nat.lt_0_1 fmt val HP w sets HW Hw NF') as D. rewrite NF, map3_id in D by auto.
  pose proof (written_good num scan fmt val HP sets) as G.
  split.
  - change (mk_ds num 0 [] 0 []) with (@layout num 0 []). rewrite (read_accepts num junk junk_int scan inc HS HI _ w 0 [] sets); auto. now left.
  - apply (read_datasets_ok num junk junk_int scan inc HS HI _ w); auto.
Qed.
Print Assumptions C30_roundtrip.

(** with a filter, the sets of which nothing is kept disappear *)
Theorem C30_filtered_roundtrip : forall num junk junk_int scan inc fmt val w (sets : list (list (list num))) keep,
  valid_scanner num scan -> valid_printer scan fmt val -> (0 < inc)%nat -> w <> 0%nat ->
  (forall S r, In S sets -> In r S -> List.length r = w) -> same_as_read val sets ->
  let kept := filter (nonempty num) (kept_from num (fun i => nth i keep false) 0 sets) in
  kept <> [] ->
  exists t, write_sets_filtered num fmt (ds_data num (layout w sets)) w (ds_cumsizes num (layout w sets)) keep = Ret t /\
    read_datasets num junk junk_int scan inc t = Ret (inr (labelled_from 1 kept)).
Proof.
  intros num junk junk_int scan inc fmt val w sets keep HS HP HI Hw HW HV kept Nk.
  exists (flat_map (set_text num fmt) (kept_from num (fun i => nth i keep false) 0 sets)).
  pose proof (write_sets_from_ok num 1 Nat.lt_0_1 fmt w sets (fun i => nth i keep false) HW sets [] eq_refl) as X. cbn [concat List.length] in X.
  split. exact X.
  pose proof (kept_wide num w (fun i => nth i keep false) sets 0 HW) as HW'.
  pose proof (written_describes num scan 1 Nat.lt_0_1 fmt val HP w _ HW' Hw Nk) as D.
  assert (E : map (map (map val)) kept = kept).
  { apply map3_id. intros S r x H1 H2 H3. apply filter_In in H1. destruct H1 as [H1 _].
    clear - H1 H2 H3 HV. revert H1. generalize 0%nat. revert HV. induction sets as [|A sets IH]; intros HV n H1; cbn [kept_from] in H1. contradiction.
    destruct H1 as [<-|H1].
    - apply in_map_iff in H2. destruct H2 as ([i r'] & E & Hx). cbn in E. subst r'. apply filter_In in Hx. destruct Hx as [Hx _].
      apply in_combine_r in Hx. apply (HV A r x); auto. now left.
    - apply (IH) with (n := (n + List.length A)%nat); auto. intros B r' x' B1 B2 B3. apply (HV B r' x'); auto. now right. }
  unfold kept in E. rewrite E in D. apply (read_datasets_ok num junk junk_int scan inc HS HI _ w); auto. eapply written_good; eauto.
Qed.
Print Assumptions C30_filtered_roundtrip.

(** ** The decimal numerals of C: numbers are rationals *)
Definition convQ (m e : Z) : Q := Qred (inject_Z m * Qpower 10 e).

Lemma convQ_scale : forall m e k, 0 <= k -> convQ (m * 10 ^ k) e = convQ m (e + k).
Proof.
  intros m e k Hk. unfold convQ. apply Qred_complete. rewrite inject_Z_mult, Qpower_plus by discriminate.
  rewrite (Zpower_Qpower 10 k) by auto. change (inject_Z 10) with 10%Q. ring.
Qed.

(** numbers that "%.15g" prints without loss *)
Definition exact15 (g15 : Q -> bool * Z * Z) (x : Q) : Prop :=
  let '(neg, D, X) := g15 x in x = convQ (signed neg D) (X - 14).

Theorem C30_decimal_roundtrip : forall junk junk_int inc g15 w (sets : list (list (list Q))),
  (forall x, let '(neg, D, X) := g15 x in D = 0 \/ 10 ^ 14 <= D < 10 ^ 15) ->
  (0 < inc)%nat -> sets <> [] -> w <> 0%nat ->
  (forall S, In S sets -> S <> []) -> (forall S r, In S sets -> In r S -> List.length r = w) ->
  (forall S r x, In S sets -> In r S -> In x r -> exact15 g15 x) ->
  exists t, write_sets Q (fmt15 Q g15) (ds_data Q (layout w sets)) w (ds_cumsizes Q (layout w sets)) = Ret t /\
    read_objective_t_data Q junk junk_int (scan_dec Q convQ) inc t (mk_ds Q 0 [] 0 []) = Ret (0, layout w sets) /\
    read_datasets Q junk junk_int (scan_dec Q convQ) inc t = Ret (inr (labelled_from 1 sets)).
Proof.
  intros junk junk_int inc g15 w sets Hg HI Ne Hw HN HW HV.
  apply C30_roundtrip with (val := val15 Q convQ g15); auto.
  - apply scan_dec_valid.
  - apply fmt15_valid; auto. apply convQ_scale.
  - intros S r x H1 H2 H3. specialize (HV S r x H1 H2 H3). unfold exact15 in HV. unfold val15. destruct (g15 x) as [[neg D] X]. auto.
Qed.
Print Assumptions C30_decimal_roundtrip.

(** ** Concrete cases *)
Definition txt (s : string) : text := list_ascii_of_string s.
Definition LF : string := String nl EmptyString.
Open Scope string_scope.
(** two sets, a comment, blank lines with spaces and a carriage return *)
Definition file1 : text := txt ("# comment" ++ LF ++ "1 2.50" ++ LF ++ "-3e2   .5  " ++ String cr LF ++ "  " ++ LF ++ LF ++ "#x" ++ LF ++ "7 8").
Close Scope string_scope.

Example C31_nonvacuous_read :
  read_datasets Q 0%Q 7 (scan_dec Q convQ) 512 file1 =
    Ret (inr [([1 # 1; 5 # 2], 1%nat); ([-300 # 1; 1 # 2], 1%nat); ([7 # 1; 8 # 1], 2%nat)]%Q).
Proof. vm_compute. reflexivity. Qed.

Example C31_nonvacuous_describes : exists sets, describes Q (scan_dec Q convQ) file1 2 sets /\ List.length sets = 2%nat.
Proof.
  assert (R : exists ds, read_objective_t_data Q 0%Q 7 (scan_dec Q convQ) 512 file1 (mk_ds Q 0 [] 0 []) = Ret (0, ds) /\ ds_nobjs Q ds = 2%nat /\ ds_nsets Q ds = 2%nat).
  { eexists. split. vm_compute. reflexivity. split; reflexivity. }
  destruct R as (ds & R & E1 & E2). apply C31_accepted_iff in R.
  - destruct R as (w & sets & D & ->). cbn in E1, E2. subst w. eauto.
  - apply scan_dec_valid.
  - apply Nat.lt_0_succ.
  - vm_compute. intuition discriminate.
  - vm_compute. intuition discriminate.
Qed.

(** the decomposition used by "%.15g" for three numbers *)
Definition g15_example (x : Q) : bool * Z * Z :=
  if Qeq_bool x (5 # 2) then (false, 250000000000000, 0)
  else if Qeq_bool x (-300 # 1) then (true, 300000000000000, 2)
  else if Qeq_bool x (1 # 100000000) then (false, 100000000000000, -8)
  else (false, 0, 0).
Definition sets_example : list (list (list Q)) := [[[5 # 2; -300 # 1]]; [[1 # 100000000; 0 # 1]; [5 # 2; 5 # 2]]].

Example C30_nonvacuous :
  (forall x, let '(neg, D, X) := g15_example x in D = 0 \/ 10 ^ 14 <= D < 10 ^ 15) /\
  (forall S r x, In S sets_example -> In r S -> In x r -> exact15 g15_example x) /\
  (t <- write_sets Q (fmt15 Q g15_example) (ds_data Q (layout 2 sets_example)) 2 [1; 3]%nat ;;
   read_datasets Q 0%Q 7 (scan_dec Q convQ) 512 t) = Ret (inr (labelled_from 1 sets_example)).
Proof.
  split; [|split].
  - intros x. unfold g15_example. destruct (Qeq_bool x (5 # 2)). cbn; lia. destruct (Qeq_bool x (-300 # 1)). cbn; lia.
    destruct (Qeq_bool x (1 # 100000000)); cbn; lia.
  - intros S r x H1 H2 H3. cbn in H1. destruct H1 as [<-|[<-|[]]]; cbn in H2; intuition subst; cbn in H3; intuition subst; reflexivity.
  - vm_compute. reflexivity.
Qed.

(** ** Where the reader accepts more than it should *)
(** numbers need no separator: "0.5.5-1" is a row of three numbers *)
Theorem C31_missing_separator_refuted :
  read_datasets Q 0%Q 7 (scan_dec Q convQ) 512 (txt "0.5.5-1") = Ret (inr [([1 # 2; 1 # 2; -1 # 1], 1%nat)]%Q).
Proof. vm_compute. reflexivity. Qed.
Print Assumptions C31_missing_separator_refuted.

(** a form feed joins the next line to the row: two lines of one number are
    read as one row of two numbers *)
Theorem C31_form_feed_refuted :
  read_datasets Q 0%Q 7 (scan_dec Q convQ) 512 (txt "1" ++ [ff; nl] ++ txt "2") = Ret (inr [([1 # 1; 2 # 1], 1%nat)]%Q).
Proof. vm_compute. reflexivity. Qed.
Print Assumptions C31_form_feed_refuted.

(** a comment that does not start in the first column is not a comment *)
Theorem C31_indented_comment_refuted :
  read_datasets Q 0%Q 7 (scan_dec Q convQ) 512 (txt " # 1" ++ [nl] ++ txt "2") = Ret (inl ERROR_CONVERSION).
Proof. vm_compute. reflexivity. Qed.
Print Assumptions C31_indented_comment_refuted.

(** appending a file of another width reports ERROR_COLUMNS and not
    READ_INPUT_WRONG_INITIAL_DIM, although the message for the latter speaks
    of the previous data *)
Theorem C31_initial_dim_refuted : exists ds,
  read_objective_t_data Q 0%Q 7 (scan_dec Q convQ) 512 (txt "1 2 3") (layout 2 [[[1 # 1; 2 # 1]]]%Q) = Ret (ERROR_COLUMNS, ds).
Proof. eexists. vm_compute. reflexivity. Qed.
Print Assumptions C31_initial_dim_refuted.
