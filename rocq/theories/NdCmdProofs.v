(** Proofs about the nondominated program. *)
From Coq Require Import Ascii String List ZArith Lia Bool Arith.
From Verif Require Import Base Spec NondomModel NondomMain NondomExtra PropNondom OptModel PropOpt FbSpec FbModel PropFb IoModel IoSpec IoMain
  CmdModel CmdSpec CmdProofs CmdLoop HvCmdModel HvCmdSpec HvCmdProofs IndCmdSpec IndCmdProofs NdCmdModel NdCmdSpec.
Import ListNotations.
Local Open Scope list_scope.
Open Scope Z_scope.

(** ** Texts *)
Lemma spaced_vector : forall fmt p, vector_fprintf Z fmt p = spaced fmt p.
Proof.
  intros fmt [|x p]; auto. unfold vector_fprintf. revert x. induction p as [|y p IH]; intros x.
  - cbn. apply app_nil_r.
  - change (spaced fmt (x :: y :: p)) with (fmt x ++ " "%char :: spaced fmt (y :: p)). rewrite <- IH. reflexivity.
Qed.
Lemma lines_sets : forall fmt sets, flat_map (set_text Z fmt) sets = sets_lines fmt sets.
Proof.
  intros fmt sets. unfold sets_lines. rewrite flat_map_concat_map. f_equal. apply map_ext. intros S. unfold set_text. f_equal.
  rewrite flat_map_concat_map. f_equal. apply map_ext. intros p. now rewrite spaced_vector.
Qed.

(** ** Lists of sets *)
Lemma cumsizes_cum : forall (sets : list (list point)) n, cumsizes_from n sets = cum_from n sets.
Proof. induction sets as [|s sets IH]; intros n; cbn; auto. now rewrite IH. Qed.
Lemma cum_from_length : forall (sets : list (list point)) n, length (cum_from n sets) = length sets.
Proof. induction sets; intros; cbn; auto. Qed.
Lemma cum_from_map : forall (f : point -> point) (sets : list (list point)) n, cum_from n (map (map f) sets) = cum_from n sets.
Proof. induction sets as [|s sets IH]; intros n; cbn; auto. rewrite map_length, IH. auto. Qed.
Lemma slices_gen : forall rest done, slices (concat (done ++ rest)) (cum_from (length (concat done)) rest) (length (concat done)) = Ret rest.
Proof.
  induction rest as [|s rest IH]; intros done; cbn [cum_from slices]; auto.
  rewrite concat_app. cbn [concat]. rewrite app_length, app_length.
  destruct (Nat.leb_spec (length (concat done) + length s) (length (concat done) + (length s + length (concat rest)))); [|lia].
  specialize (IH (done ++ [s])). rewrite <- app_assoc in IH. cbn [app] in IH.
  replace (length (concat (done ++ [s]))) with (length (concat done) + length s)%nat in IH
    by (rewrite concat_app, app_length; cbn; rewrite app_nil_r; auto).
  rewrite concat_app in IH. cbn [concat] in IH. rewrite IH. cbn [bind]. f_equal. f_equal.
  replace (length (concat done) + length s - length (concat done))%nat with (length s) by lia.
  rewrite skipn_app, skipn_all, Nat.sub_diag. cbn [skipn app]. rewrite firstn_app, firstn_all, Nat.sub_diag. cbn. now rewrite app_nil_r.
Qed.
Lemma slices_ok : forall sets, slices (concat sets) (cum_from 0 sets) 0 = Ret sets.
Proof. intros. apply (slices_gen sets []). Qed.

(** ** Flags *)
Fixpoint keep {A} (nd : list bool) (l : list A) : list A :=
  match nd, l with
  | b :: nd, p :: l => if b then p :: keep nd l else keep nd l
  | _, _ => []
  end.
Lemma keep_map : forall A B (f : A -> B) nd S, keep nd (map f S) = map f (keep nd S).
Proof. induction nd as [|b nd IH]; intros [|p S]; cbn; auto. destruct b; cbn; now rewrite IH. Qed.
Lemma keep_in : forall A nd (S : list A) p, In p (keep nd S) <-> exists i, nth i nd false = true /\ nth_error S i = Some p.
Proof.
  induction nd as [|b nd IH]; intros [|q S] p; cbn [keep].
  - split; [intros []|]. intros (i & H & _). destruct i; discriminate.
  - split; [intros []|]. intros (i & H & _). destruct i; discriminate.
  - split; [intros []|]. intros (i & _ & H). destruct i; discriminate.
  - assert (R : (exists i, nth i (b :: nd) false = true /\ nth_error (q :: S) i = Some p) <-> (b = true /\ q = p) \/ In p (keep nd S)).
    { rewrite IH. split.
      - intros ([|i] & H1 & H2); cbn in *. left; split; congruence. right; eauto.
      - intros [[-> ->]|(i & H1 & H2)]. exists 0%nat; auto. exists (Datatypes.S i)%nat. auto. }
    rewrite R. destruct b; cbn [In]; intuition congruence.
Qed.
Lemma keep_sublist : forall A nd (S : list A), sublist (keep nd S) S.
Proof.
  assert (N : forall A (S : list A), sublist [] S) by (induction S; constructor; auto).
  induction nd as [|b nd IH]; intros [|p S]; cbn; try apply N. destruct b; constructor; apply IH.
Qed.
Lemma row_error : forall (S : list point) i p, nth_error S i = Some p -> (i < length S)%nat /\ row S i = p.
Proof. intros S i p H. split. apply nth_error_Some. congruence. unfold row. now apply nth_error_nth. Qed.
Lemma error_row : forall (S : list point) i, (i < length S)%nat -> nth_error S i = Some (row S i).
Proof. intros S i H. unfold row. now apply nth_error_nth'. Qed.
Lemma keep_nodup : forall nd (S : list point), length nd = length S ->
  (forall i j, (i < length S)%nat -> (j < length S)%nat -> nth i nd false = true -> nth j nd false = true -> i <> j -> row S i <> row S j) ->
  NoDup (keep nd S).
Proof.
  induction nd as [|b nd IH]; intros [|p S] L H; cbn; try constructor. cbn in L.
  assert (H' : NoDup (keep nd S)).
  { apply IH; [lia|]. intros i j Hi Hj A B N. apply (H (Datatypes.S i) (Datatypes.S j)); cbn; auto; lia. }
  destruct b; auto. constructor; auto. intros I. apply keep_in in I. destruct I as (i & A & B). apply row_error in B. destruct B as [Hi B].
  apply (H 0%nat (Datatypes.S i)); cbn; auto; try lia.
Qed.
Lemma strict_part : forall mx S nd, strict_filter_spec mx S nd -> nondominated_part mx S (keep nd S).
Proof.
  intros mx S nd (L & A & B & C). split; [apply keep_sublist|]. split; [now apply keep_nodup|]. split.
  - intros p Hp (q & Hq & D). apply keep_in in Hp. destruct Hp as (i & Hi & E). apply row_error in E. destruct E as [Li E].
    apply (A i Li Hi). apply In_nth with (d := []) in Hq. destruct Hq as (j & Hj & E2). exists j. split; auto. unfold row in *. rewrite E2, E. auto.
  - intros p Hp. apply In_nth with (d := []) in Hp. destruct Hp as (i & Hi & E). destruct (C i Hi) as (j & Hj & K & W).
    exists (row S j). split. apply keep_in. exists j. split; auto. now apply error_row. unfold row in *. rewrite E in W. auto.
Qed.
Lemma not_redundant_part : forall mx S, ~ redundant mx S -> nondominated_part mx S S.
Proof.
  intros mx S H. split. { clear. induction S; constructor; auto. }
  assert (R : forall p, wdom mx p p). { intros p i Hi. unfold as_good. destruct (nth i mx false); lia. }
  split; [|split].
  - apply (NoDup_nth S []). intros i j Hi Hj E. destruct (Nat.eq_dec i j); auto. exfalso. apply H. exists i, j.
    split; auto. split; auto. split; auto. unfold row. rewrite E. apply R.
  - intros p Hp (q & Hq & W). destruct (In_nth S p [] Hp) as (j & Hj & Ej). destruct (In_nth S q [] Hq) as (i & Hi & Ei).
    apply H. exists i, j. split; auto. split; auto. split.
    + intros ->. rewrite Ej in Ei. subst q. destruct W as (_ & k & _ & B). unfold better in B. destruct (nth k mx false); lia.
    + unfold row. rewrite Ei, Ej. apply W.
  - intros p Hp. exists p. auto.
Qed.

(** what the flag of the program means; for two objectives, see PropNdCmd.v *)
Definition flagged (mx : list bool) (S : list point) : Prop :=
  if (length mx =? 2)%nat then (2 <= length S)%nat else redundant mx S.
Lemma redundant_flagged : forall mx S, redundant mx S -> flagged mx S.
Proof. intros mx S H. unfold flagged. destruct (Nat.eqb_spec (length mx) 2); auto. destruct H as (i & j & Hi & Hj & N & _). lia. Qed.

Lemma countb_split : forall nd, (countb negb nd + countb (fun b => b) nd)%nat = length nd.
Proof. unfold countb. induction nd as [|b nd IH]; cbn; auto. destruct b; cbn; lia. Qed.

Lemma check_any : forall sort2d mx sets, valid_sort2d sort2d -> Forall (wf_points (length mx)) sets ->
  exists nds found,
    check_nondominated sort2d sets (length mx) (minmax_from_bool mx) AGREE_NONE = Ret (concat nds, found) /\
    Forall2 (strict_filter_spec mx) sets nds /\ (found = true <-> exists S, In S sets /\ flagged mx S).
Proof.
  intros sort2d mx sets Hs Hwf. unfold flagged. destruct (Nat.eqb_spec (length mx) 2) as [E2|N2].
  2: { apply check_nondominated_ok; auto. }
  induction Hwf as [|s sets Hwf1 Hwf IH].
  - exists [], false. split; auto. split; auto. split; [discriminate|]. intros (s & [] & _).
  - cbn [check_nondominated]. unfold find_nondominated_set_agree.
    destruct (find_nd_filter_ok sort2d Hs mx s Hwf1 false) as (nd & r & E & HF & Hr).
    rewrite E. cbn [bind]. assert (HL : length nd = length s) by (destruct HF; auto).
    pose proof (countb_split nd) as CS.
    assert (K : (2 <= length s)%nat -> (0 < countb (fun b => b) nd)%nat).
    { intros L2. destruct HF as (_ & _ & _ & HF). destruct (HF 0%nat ltac:(lia)) as (j & Hj & K & _).
      clear - K. unfold NondomMain.kept in K. revert j K. unfold countb. induction nd as [|b nd IH]; intros [|j] K; cbn in *; try discriminate.
      - subst b. cbn. lia.
      - specialize (IH j K). destruct b; cbn; lia. }
    assert (Hr2 : r <= Z.of_nat (length s) /\ (r < Z.of_nat (length s) <-> (2 <= length s)%nat)).
    { rewrite Hr. rewrite E2. destruct (Nat.ltb_spec (length s) 2); cbn [Nat.eqb]; [lia|]. specialize (K ltac:(lia)). lia. }
    destruct (Z.leb_spec r (Z.of_nat (length s))); [|lia]. cbn [assert_ bind].
    destruct IH as (nds & found & E' & F2 & HFd). rewrite E'. cbn [bind].
    exists (nd :: nds), ((r <? Z.of_nat (length s)) || found).
    split; auto. split; [constructor; auto|]. rewrite orb_true_iff, Z.ltb_lt, HFd. split.
    + intros [Q|(s' & I & Q)]. exists s; split; [now left|]. lia. exists s'; split; auto. now right.
    + intros (s' & [->|I] & Q); [left; lia|right; eauto].
Qed.

(** ** Objectives made to agree *)
Definition agree_code (a : option bool) : Z := match a with None => 0 | Some true => 1 | Some false => -1 end.
Lemma agree_turned : forall a mx p, agree_row (minmax_from_bool mx) (agree_code (Some a)) p = turned (Some a) mx p.
Proof.
  intros a. induction mx as [|b mx IH]; intros [|x p]; auto. cbn [minmax_from_bool map agree_row turned]. f_equal.
  - destruct a, b; reflexivity.
  - apply IH.
Qed.
Lemma turned_none : forall mx p, turned None mx p = p.
Proof. intros [|] [|]; reflexivity. Qed.
Lemma turned_length : forall a mx p, length (turned a mx p) = length p.
Proof. intros [a|]; [|intros; now rewrite turned_none]. induction mx as [|b mx IH]; intros [|x p]; cbn; auto. Qed.
Lemma points_turned : forall a mx pts,
  (if agree_code a =? 0 then pts else agree_objectives pts (minmax_from_bool mx) (agree_code a)) = map (turned a mx) pts.
Proof.
  intros [a|] mx pts.
  - replace (agree_code (Some a) =? 0) with false by (destruct a; reflexivity). apply map_ext. apply agree_turned.
  - cbn. symmetry. rewrite (map_ext _ (fun p => p)) by (intros; apply turned_none). apply map_id.
Qed.
Lemma check_turned : forall sort2d a mx sets, Forall (wf_points (length mx)) sets -> length mx <> 2%nat \/ a = None ->
  check_nondominated sort2d (map (map (turned a mx)) sets) (length mx) (minmax_from_bool mx) (agree_code a) =
  check_nondominated sort2d sets (length mx) (minmax_from_bool mx) AGREE_NONE.
Proof.
  intros sort2d a mx sets W H.
  destruct a as [a|].
  - destruct H as [H|H]; [|discriminate].
    rewrite <- (C46_agree_same_verdict_partial sort2d sets (length mx) (minmax_from_bool mx) (agree_code (Some a))); auto.
    + f_equal. apply map_ext. intros S. apply map_ext. intros p. symmetry. apply agree_turned.
    + destruct a; cbn; auto.
    + unfold minmax_from_bool. now rewrite map_length.
    + unfold minmax_from_bool. apply Forall_forall. intros m Hm. apply in_map_iff in Hm. destruct Hm as (b & <- & _).
      destruct b; unfold is_direction, AGREE_MAXIMISE, AGREE_MINIMISE; lia.
  - rewrite (map_ext _ (fun S => S)), map_id; auto. intros S. rewrite (map_ext _ (fun p => p)), map_id; auto. apply turned_none.
Qed.

Lemma turned_turned : forall a mx p, turned a mx (turned a mx p) = p.
Proof.
  intros [a|]; [|intros; now rewrite !turned_none]. induction mx as [|b mx IH]; intros [|x p]; cbn; auto. rewrite IH. f_equal.
  destruct (Bool.eqb a b); lia.
Qed.
Lemma turned_coord : forall a mx p i, (i < length mx)%nat ->
  coord (turned a mx p) i = if flips a (nth i mx false) then - coord p i else coord p i.
Proof.
  intros [a|]; [|intros; now rewrite turned_none]. induction mx as [|b mx IH]; intros [|x p] i H; cbn [length] in H; try lia.
  - cbn [turned]. unfold coord. destruct i; cbn [nth]; destruct (flips _ _); auto.
  - destruct i as [|i]; cbn [turned nth coord]. unfold coord. cbn. destruct (Bool.eqb a b); auto. apply (IH p i). lia.
Qed.
Lemma aims_length : forall a mx, length (aims a mx) = length mx.
Proof. intros [a|] mx; auto. apply map_length. Qed.
Lemma aims_nth : forall a mx i, (i < length mx)%nat -> nth i (aims a mx) false = if flips a (nth i mx false) then negb (nth i mx false) else nth i mx false.
Proof.
  intros [a|] mx i H; auto. cbn [aims flips]. rewrite (nth_map_lt _ _ _ mx i false false) by auto. destruct a, (nth i mx false); reflexivity.
Qed.
Lemma good_turned : forall a mx p q i, (i < length mx)%nat ->
  (as_good mx (turned a mx p) (turned a mx q) i <-> as_good (aims a mx) p q i) /\
  (better mx (turned a mx p) (turned a mx q) i <-> better (aims a mx) p q i).
Proof.
  intros a mx p q i H. unfold as_good, better. rewrite !turned_coord, aims_nth by auto.
  destruct (flips a (nth i mx false)), (nth i mx false); cbn [negb]; lia.
Qed.
Lemma wdom_turned : forall a mx p q, wdom mx (turned a mx p) (turned a mx q) <-> wdom (aims a mx) p q.
Proof. intros a mx p q. unfold wdom. rewrite aims_length. split; intros H i Hi; apply good_turned; auto. Qed.
Lemma dom_turned : forall a mx p q, dom mx (turned a mx p) (turned a mx q) <-> dom (aims a mx) p q.
Proof.
  intros a mx p q. unfold dom. rewrite wdom_turned, aims_length.
  split; intros (H & i & Hi & B); (split; [auto|]); exists i; (split; [auto|]); now apply (good_turned a mx p q i Hi).
Qed.
Lemma row_map : forall f (S : list point) i, (i < length S)%nat -> row (map f S) i = f (row S i).
Proof. intros f S i H. unfold row. erewrite nth_indep; [apply (map_nth f S [] i)|]. now rewrite map_length. Qed.
Lemma strict_turned : forall a mx S nd, strict_filter_spec mx (map (turned a mx) S) nd -> strict_filter_spec (aims a mx) S nd.
Proof.
  intros a mx S nd (L & A & B & C). rewrite map_length in *. split; auto. split; [|split].
  - intros i Hi K (j & Hj & D). apply (A i Hi K). exists j. rewrite map_length. split; auto. rewrite !row_map by auto. now apply dom_turned.
  - intros i j Hi Hj Ki Kj N E. apply (B i j Hi Hj Ki Kj N). rewrite !row_map by auto. now rewrite E.
  - intros i Hi. destruct (C i Hi) as (j & Hj & K & W). exists j. split; auto. split; auto. rewrite !row_map in W by auto. now apply wdom_turned in W.
Qed.
Lemma flagged_turned : forall a mx S, flagged mx (map (turned a mx) S) <-> flagged (aims a mx) S.
Proof.
  intros a mx S. unfold flagged. rewrite aims_length, map_length. destruct (_ =? _)%nat; [tauto|]. unfold redundant. rewrite map_length.
  split; intros (i & j & Hi & Hj & N & W); exists i, j; (split; [auto|]); (split; [auto|]); (split; [auto|]).
  - rewrite !row_map in W by auto. now apply wdom_turned in W.
  - rewrite !row_map by auto. now apply wdom_turned.
Qed.
(** the check of the points as they are after --agree *)
Lemma check_agreed : forall sort2d a mx sets, valid_sort2d sort2d -> Forall (wf_points (length mx)) sets -> length mx <> 2%nat \/ a = None ->
  exists nds found,
    check_nondominated sort2d sets (length mx) (minmax_from_bool mx) (agree_code a) = Ret (concat nds, found) /\
    Forall2 (strict_filter_spec (aims a mx)) sets nds /\ (found = true <-> exists S, In S sets /\ flagged (aims a mx) S).
Proof.
  intros sort2d a mx sets Hs W H. set (sets0 := map (map (turned a mx)) sets).
  assert (E : sets = map (map (turned a mx)) sets0).
  { unfold sets0. rewrite map_map. rewrite (map_ext _ (fun S => S)); [now rewrite map_id|]. intros S. rewrite map_map.
    rewrite (map_ext _ (fun p => p)); [apply map_id|]. intros p. apply turned_turned. }
  assert (W0 : Forall (wf_points (length mx)) sets0).
  { unfold sets0. rewrite Forall_map. eapply Forall_impl; [|exact W]. intros S HS. unfold wf_points in *. rewrite Forall_map.
    eapply Forall_impl; [|exact HS]. intros p Hp. cbn beta in *. now rewrite turned_length. }
  destruct (check_any sort2d mx sets0 Hs W0) as (nds & found & Ec & F & V). exists nds, found. split.
  { rewrite E at 1. rewrite check_turned; auto. }
  split.
  - unfold sets0 in F. clear - F. remember (map (map (turned a mx)) sets) as l eqn:El. revert sets El.
    induction F as [|S nd l l' K F IH]; intros [|S0 sets] El; cbn in El; try discriminate; constructor.
    + injection El as -> _. now apply strict_turned.
    + apply IH. now injection El.
  - rewrite V. unfold sets0. split.
    + intros (S & HS & K). apply in_map_iff in HS. destruct HS as (S0 & <- & HS). exists S0. split; auto. now apply flagged_turned.
    + intros (S & HS & K). exists (map (turned a mx) S). split. now apply in_map. now apply flagged_turned.
Qed.

(** ** The points that are written *)
Lemma bitvector_ok : forall a, (forall ch, In ch a -> ch = "0"%char \/ ch = "1"%char) ->
  read_bitvector a = Some (map (fun c => Ascii.eqb c "1") a).
Proof.
  induction a as [|c a IH]; intros H; auto. cbn [read_bitvector map]. rewrite IH by (intros; apply H; now right).
  destruct (H c (or_introl eq_refl)) as [-> | ->]; reflexivity.
Qed.
Lemma bitvector_refused : forall a ch, In ch a -> ch <> "0"%char -> ch <> "1"%char -> read_bitvector a = None.
Proof.
  induction a as [|c a IH]; intros ch [] N0 N1.
  - subst c. cbn [read_bitvector]. destruct (Ascii.eqb_spec ch "1"); [contradiction|]. destruct (Ascii.eqb_spec ch "0"); [contradiction|]. auto.
  - cbn [read_bitvector]. rewrite (IH ch) by auto. now destruct (Ascii.eqb c "1"), (Ascii.eqb c "0").
Qed.
Lemma range_ok : forall strtod a lo hi, read_range strtod a = Some (lo, hi) <-> range_text strtod a lo hi.
Proof.
  intros strtod a lo hi. unfold read_range, range_text. split.
  - destruct (strtod a) as [[x r]|] eqn:E; [|discriminate]. destruct (strtod r) as [[y r']|] eqn:E'; [|discriminate].
    destruct (forallb isspace r') eqn:F; [|discriminate]. intros H. injection H as <- <-. exists r, r'. split; auto. split; auto.
    now apply forallb_forall.
  - intros (r1 & r2 & -> & -> & F). now rewrite (proj2 (forallb_forall _ _) F).
Qed.

Lemma coord_seq : forall (f : nat -> Z) n i, (i < n)%nat -> coord (map f (seq 0 n)) i = f i.
Proof. intros f n i H. unfold coord. rewrite (nth_map_lt _ _ _ _ i 0 0%nat) by (now rewrite seq_length). now rewrite seq_nth. Qed.
Lemma point_ext : forall (p q : point) n, length p = n -> length q = n -> (forall i, (i < n)%nat -> coord p i = coord q i) -> p = q.
Proof. intros p q n Lp Lq H. apply (nth_ext _ _ 0 0); [congruence|]. intros i Hi. rewrite Lp in Hi. now apply H. Qed.

Section Image.
Variable divide : Z -> Z -> Z.
Variable log10 : Z -> Z.
Variable one : Z.
Lemma log_row_coord : forall l p i, length l = length p -> coord (logarithm_row log10 l p) i = if nth i l false then log10 (coord p i) else coord p i.
Proof.
  induction l as [|b l IH]; intros [|x p] i L; cbn in L; try discriminate.
  - cbn. now destruct i.
  - destruct i as [|i]; [reflexivity|]. cbn [logarithm_row]. apply (IH p i). lia.
Qed.
Lemma log_row_length : forall l p, length (logarithm_row log10 l p) = length p.
Proof. induction l as [|b l IH]; intros [|x p]; cbn; auto. Qed.
Lemma logged_length : forall opts p, length (logged log10 opts p) = length p.
Proof. intros opts p. unfold logged. destruct (log_of opts); auto. now rewrite map_length, seq_length. Qed.
Lemma log_row_logged : forall opts a p, log_of opts = Some a -> length a = length p ->
  logarithm_row log10 (map (fun c => Ascii.eqb c "1") a) p = logged log10 opts p.
Proof.
  intros opts a p E L. apply (point_ext _ _ (length p)). apply log_row_length. apply logged_length.
  intros i Hi. rewrite log_row_coord by (now rewrite map_length). unfold logged. rewrite E, coord_seq by auto.
  rewrite (nth_map_lt _ _ _ a i false "0"%char) by lia. reflexivity.
Qed.
Lemma norm_row_length : forall minmax ag lo hi lb ub p, length (normalise_row divide one minmax ag lo hi lb ub p) = length p.
Proof. induction minmax as [|m minmax IH]; intros ag lo hi [|l lb] [|u ub] [|x p]; cbn; auto. Qed.
Lemma norm_row_coord : forall a lo hi mx lb ub p i, length lb = length mx -> length ub = length mx -> length p = length mx -> (i < length mx)%nat ->
  coord (normalise_row divide one (minmax_from_bool mx) (agree_code a) lo hi lb ub p) i =
  lo + divide ((hi - lo) * (if flips a (nth i mx false) then coord ub i + coord p i else coord p i - coord lb i))
    (if coord ub i =? coord lb i then one else coord ub i - coord lb i).
Proof.
  intros a lo hi. induction mx as [|b mx IH]; intros [|l lb] [|u ub] [|x p] i Ll Lu Lp Hi; cbn [length] in *; try lia.
  destruct i as [|i].
  - cbn [minmax_from_bool map normalise_row coord nth].
    replace (u - l =? 0) with (u =? l) by (destruct (Z.eqb_spec u l), (Z.eqb_spec (u - l) 0); lia || auto).
    destruct a as [[|]|], b; reflexivity.
  - cbn [minmax_from_bool map normalise_row]. change (nth (S i) (b :: mx) false) with (nth i mx false). apply (IH lb ub p i); lia.
Qed.
Lemma image_length : forall d opts mx rg lb ub p, length (image divide log10 one d opts mx rg lb ub p) = d.
Proof. intros. unfold image. now rewrite map_length, seq_length. Qed.
Lemma rows_image : forall d opts mx rg lb ub p, length mx = d -> length lb = d -> length ub = d -> length p = d ->
  match rg with
  | Some (lo, hi) => normalise_row divide one (minmax_from_bool mx) (agree_code (agree_of opts)) lo hi (logged log10 opts lb) (logged log10 opts ub)
                       (turned (agree_of opts) mx (logged log10 opts p))
  | None => turned (agree_of opts) mx (logged log10 opts p)
  end = image divide log10 one d opts mx rg lb ub p.
Proof.
  intros d opts mx rg lb ub p Lm Ll Lu Lp. apply (point_ext _ _ d); [| apply image_length |].
  - destruct rg as [[lo hi]|]; rewrite ?norm_row_length, turned_length, logged_length; auto.
  - intros i Hi. unfold image. rewrite coord_seq by auto. unfold placed. destruct rg as [[lo hi]|].
    + rewrite norm_row_coord by (rewrite ?turned_length, ?logged_length; congruence). rewrite turned_coord by congruence.
      destruct (flips _ _); auto.
    + rewrite turned_coord by congruence. reflexivity.
Qed.
End Image.

(** ** The flags applied to the sets *)
Lemma kept_keep : forall (A : list point) nd n pre, length nd = length A -> n = length pre ->
  forall post, map snd (filter (fun x => nth (fst x) (pre ++ nd ++ post) false) (combine (seq n (length A)) A)) = keep nd A.
Proof.
  induction A as [|p A IH]; intros [|b nd] n pre L Hn post; cbn in L; try lia; auto.
  cbn [length seq combine filter fst]. subst n. rewrite app_nth2, Nat.sub_diag by lia. cbn [app nth].
  specialize (IH nd (Datatypes.S (length pre)) (pre ++ [b]) ltac:(lia)). rewrite app_length in IH. specialize (IH ltac:(cbn; lia) post).
  rewrite <- app_assoc in IH. cbn [app] in IH. cbn [keep]. destruct b; cbn [map snd]; now rewrite IH.
Qed.
Lemma kept_sets : forall (sets : list (list point)) nds pre, Forall2 (fun S (nd : list bool) => length nd = length S) sets nds ->
  kept_from Z (fun i => nth i (pre ++ concat nds) false) (length pre) sets = map (fun x => keep (snd x) (fst x)) (combine sets nds).
Proof.
  intros sets nds pre H. revert pre. induction H as [|S nd sets nds L H IH]; intros pre; cbn [kept_from combine map concat]; auto.
  f_equal.
  - apply kept_keep; auto.
  - specialize (IH (pre ++ nd)). rewrite app_length, L, <- app_assoc in IH. apply IH.
Qed.
