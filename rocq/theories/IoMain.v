(** The whole reader, the labelling of rows, and the writer. *)
Require Import List ZArith Lia Bool Ascii Arith.
Import ListNotations.
From Verif Require Import Base IoModel IoSpec IoProofs.
Open Scope Z_scope.

Section Main.
Variable num : Type.
Variable junk : num.
Variable junk_int : nat.
Variable scan : text -> option (num * text).
Variable inc : nat.
Hypothesis Hscan : valid_scanner num scan.
Hypothesis Hinc : (0 < inc)%nat.
Notation read := (read_objective_t_data num junk junk_int scan inc).
Notation numbers := (numbers num scan).
Notation line_is := (line_is num scan).
Notation group := (group num).
Notation finv := (finv num).
Notation ok := (ok num).

Definition wide (w : nat) (sets : list (list (list num))) : Prop :=
  forall S r, In S sets -> In r S -> length r = w.

(** an existing data set to which a file is appended *)
Definition valid_start (w : nat) (sets : list (list (list num))) : Prop :=
  sets = [] \/ (w <> 0%nat /\ wide w sets /\ Forall (fun S => S <> []) sets).

Lemma flat_length : forall w sets, wide w sets -> length (concat (concat sets)) = (w * length (concat sets))%nat.
Proof.
  intros w sets H. assert (forall rows : list (list num), (forall r, In r rows -> length r = w) -> length (concat rows) = (w * length rows)%nat).
  { induction rows; cbn [concat length]; intros. lia. rewrite app_length, IHrows by (intros; apply H0; now right).
    rewrite (H0 a) by now left. lia. }
  apply H0. intros r Hr. apply in_concat in Hr. destruct Hr as (S & HS & Hr). eauto.
Qed.

Lemma rows_length : forall w (rows : list (list num)), (forall r, In r rows -> length r = w) -> length (concat rows) = (w * length rows)%nat.
Proof.
  induction rows; cbn [concat length]; intros. lia. rewrite app_length, IHrows by (intros; apply H; now right).
  rewrite (H a) by now left. lia.
Qed.

Lemma row_at : forall w sets done a r b rest, wide w sets -> sets = done ++ (a ++ r :: b) :: rest ->
  firstn w (skipn (w * (length (concat done) + length a)) (concat (concat sets))) = r.
Proof.
  intros w sets done a r b rest HW E.
  assert (F1 : concat (concat sets) = concat (concat done ++ a) ++ r ++ concat (b ++ concat rest)).
  { rewrite E, !concat_app. cbn [concat]. rewrite !concat_app. cbn [concat]. rewrite <- !app_assoc. reflexivity. }
  assert (F2 : length (concat (concat done ++ a)) = (w * (length (concat done) + length a))%nat).
  { rewrite <- app_length. apply rows_length. intros x Hx. apply in_app_or in Hx. destruct Hx as [Hx|Hx].
    - apply in_concat in Hx. destruct Hx as (S & HS & Hx). apply (HW S); auto. rewrite E. apply in_or_app; auto.
    - apply (HW (a ++ r :: b)). rewrite E. apply in_or_app; right; now left. apply in_or_app; auto. }
  assert (F3 : length r = w). { apply (HW (a ++ r :: b)). rewrite E. apply in_or_app; right; now left. apply in_or_app; right; now left. }
  rewrite F1, <- F2, skipn_app, skipn_all, Nat.sub_diag. cbn [skipn app]. rewrite <- F3, firstn_app, Nat.sub_diag, firstn_all. cbn. apply app_nil_r.
Qed.

Lemma round_up_ge : forall n, (n <= round_up inc n)%nat.
Proof.
  intros. unfold round_up. destruct n. lia. replace (S n - 1)%nat with n by lia.
  pose proof (Nat.div_mod n inc). pose proof (Nat.mod_upper_bound n inc). nia.
Qed.

Lemma last_cum : forall A (sets : list (list A)) n, sets <> [] ->
  nth (length sets - 1) (cum_from n sets) 0%nat = (n + length (concat sets))%nat.
Proof.
  intros A sets n H. destruct (exists_last H) as (l & x & ->). rewrite cum_from_app, app_length. cbn [length].
  rewrite app_nth2; rewrite cum_from_length; try lia.
  replace (length l + 1 - 1 - length l)%nat with 0%nat by lia. cbn. rewrite concat_app, app_length. cbn. rewrite app_nil_r. lia.
Qed.

(** the state before the first line is read *)
Lemma start : forall t w sets, valid_start w sets -> exists s0, finv s0 w sets /\
  read t (layout w sets) =
    (sk <- skip_lines (S (length t)) t ;;
     r <- (if (fst sk =? EOF) then Ret (READ_INPUT_FILE_EMPTY, s0)
        else
          x <- read_sets num junk junk_int scan inc (S (length t)) (snd sk) s0 ;;
          (if (fst x =? 0) then
             let s := snd x in
             Ret (0, mk_st num (nobjs num s) (nsets num s) (realloc junk_int (cumsizes num s) (nsets num s)) (nsets num s)
                       (realloc junk (data num s) (ntotal num s)) (ntotal num s) (ntotal num s))
           else Ret x)) ;;
     Ret (fst r, mk_ds num (nobjs num (snd r)) (cumsizes num (snd r)) (nsets num (snd r)) (data num (snd r)))).
Proof.
  intros t w sets H. unfold IoModel.read_objective_t_data, layout. cbn [ds_nsets ds_cumsizes ds_nobjs ds_data].
  destruct (Nat.eqb_spec (length sets) 0).
  - destruct sets; [|discriminate]. cbn [bind]. eexists. split; [|reflexivity].
    constructor; cbn; auto. constructor; cbn; auto.
  - destruct H as [->|(H1 & H2 & H3)]. cbn in n; lia.
    rewrite (rd_ok _ _ _ 0%nat) by (rewrite cum_from_length; lia). cbn [bind].
    rewrite last_cum by (intros ->; cbn in n; lia). cbn [Nat.add].
    eexists. split; [|reflexivity].
    pose proof (round_up_ge (length sets)). pose proof (round_up_ge (w * length (concat sets))).
    pose proof (flat_length w sets H2) as FL.
    constructor; cbn [nobjs nsets cumsizes sizessize data datasize ntotal]; auto.
    + constructor; cbn [nobjs nsets cumsizes sizessize data datasize ntotal]; rewrite ?realloc_length; auto.
    + rewrite realloc_firstn by (rewrite ?cum_from_length; lia). rewrite <- (cum_from_length _ sets 0) at 1. apply firstn_all.
    + rewrite realloc_firstn by (rewrite ?FL; lia). rewrite <- FL. apply firstn_all.
Qed.

Lemma read_total : forall t w sets, valid_start w sets -> exists code ds, read t (layout w sets) = Ret (code, ds).
Proof.
  intros t w sets H. destruct (start t w sets H) as (s0 & HI & ->).
  destruct (skip_lines_total (S (length t)) t) as (r & t' & -> & L & _); auto. cbn [bind fst snd].
  destruct (r =? EOF). cbn. eauto.
  destruct (read_sets_total num junk junk_int scan inc Hscan Hinc (S (length t)) t' s0) as (e & s' & -> & G). lia. apply HI.
  cbn [bind fst snd]. destruct (e =? 0); cbn; eauto.
Qed.

Lemma finish : forall s w sets, finv s w sets ->
  mk_ds num (nobjs num s) (realloc junk_int (cumsizes num s) (nsets num s)) (nsets num s) (realloc junk (data num s) (ntotal num s)) = layout w sets.
Proof.
  intros s w sets [[O1 O2 O3 O4] A B C D E F]. unfold layout.
  assert (R : forall X (u : X) a n, (n <= length a)%nat -> realloc u a n = firstn n a).
  { intros. unfold realloc. replace (n - length a)%nat with 0%nat by lia. cbn. apply app_nil_r. }
  rewrite !R by lia. rewrite C, E, A, B. reflexivity.
Qed.

Definition good_text (t : text) : Prop := ~ In vt t /\ ~ In ff t.

Lemma good_clean : forall t, good_text t -> Forall clean (lines_of t).
Proof.
  intros t [A B]. apply Forall_forall. intros l Hl. repeat split.
  - pose proof (lines_of_no_nl t) as H. rewrite Forall_forall in H. auto.
  - intros H. apply A. eapply lines_of_incl; eauto.
  - intros H. apply B. eapply lines_of_incl; eauto.
Qed.

Lemma read_empty : forall t w sets, good_text t -> valid_start w sets -> Forall separator (lines_of t) ->
  exists ds, read t (layout w sets) = Ret (READ_INPUT_FILE_EMPTY, ds).
Proof.
  intros t w sets G H HS. destruct (start t w sets H) as (s0 & HI & ->).
  pose proof (unlines_lines_of t) as U.
  destruct (skip_lines_exact (lines_of t) (S (length t)) (good_clean t G)) as [X _]. rewrite U; auto.
  rewrite U in X. rewrite (X HS). cbn. eauto.
Qed.

Lemma reach : forall t seps l ls (w0 : nat) (sets0 : list (list (list num))),
  good_text t -> lines_of t = seps ++ l :: ls -> Forall separator seps -> ~ separator l ->
  skip_lines (S (length t)) t = Ret (0, at_row (l :: ls)) /\ Forall clean (l :: ls) /\ (length (at_row (l :: ls)) < S (length t))%nat.
Proof.
  intros t seps l ls w0 sets0 G E HS Hl. pose proof (unlines_lines_of t) as U. pose proof (good_clean t G) as C.
  destruct (skip_lines_exact (lines_of t) (S (length t)) C) as [_ X]. rewrite U; auto.
  rewrite U in X. split; [|split].
  - eapply X; eauto.
  - rewrite E in C. apply Forall_app in C. tauto.
  - pose proof (at_row_length (l :: ls)). assert (length (unlines (l :: ls)) <= length t)%nat; [|lia].
    rewrite <- U, E. clear. induction seps; cbn [app]. lia. etransitivity. apply IHseps.
    destruct (seps ++ l :: ls); cbn [unlines]. cbn; lia. rewrite app_length. cbn. lia.
Qed.

Lemma read_accepts : forall t w w0 sets0 sets, good_text t -> valid_start w0 sets0 -> (w0 = w \/ w0 = 0%nat) ->
  describes num scan t w sets -> read t (layout w0 sets0) = Ret (0, layout w (sets0 ++ sets)).
Proof.
  intros t w w0 sets0 sets G H Hw (rs & HR & W & -> & Ne).
  destruct (start t w0 sets0 H) as (s0 & HI & ->).
  destruct (seps_split (lines_of t)) as [HS|(seps & l & ls & E & HS & Hl)].
  { exfalso. apply Ne. now apply (group_all_seps num scan _ _ HR). }
  destruct (reach t seps l ls w0 sets0 G E HS Hl) as (-> & C & L). cbn [bind fst snd]. change (0 =? EOF) with false. cbn iota.
  rewrite E in HR. destruct (group_seps num scan seps _ _ HS HR) as (rs' & Er & HR' & Gr).
  destruct (read_sets_exact num junk junk_int scan inc Hscan Hinc (length (l :: ls)) (l :: ls) (le_n _)
    (S (length t)) s0 w w0 sets0 l ls eq_refl Hl C HI Hw L) as (X & _ & _).
  destruct (X rs' HR') as (s' & -> & F). { intros ys Hy. apply W. rewrite Er. apply in_or_app; auto. }
  cbn [bind fst snd Z.eqb nobjs nsets cumsizes data]. rewrite Gr. f_equal. f_equal. now apply finish.
Qed.

Lemma read_conversion : forall t w w0 sets0 rs l, good_text t -> valid_start w0 sets0 -> (w0 = w \/ w0 = 0%nat) ->
  first_error num scan t w rs l -> (~ exists xs, numbers l xs) ->
  exists ds, read t (layout w0 sets0) = Ret (ERROR_CONVERSION, ds).
Proof.
  intros t w w0 sets0 rs l G H Hw (pre & post & E & HR & W & Hl) Bad.
  destruct (start t w0 sets0 H) as (s0 & HI & ->).
  assert (FIND : exists seps l3 ls3 pre3 rs3, lines_of t = seps ++ l3 :: ls3 /\ Forall separator seps /\ ~ separator l3 /\
     l3 :: ls3 = pre3 ++ l :: post /\ Forall2 line_is pre3 rs3 /\ all_of_width num w rs3).
  { destruct (seps_split pre) as [HS|(seps & l3 & ls3 & E3 & HS & Hl3)].
    - exists pre, l, post, [], []. repeat split; auto. intros ? [].
    - rewrite E3 in HR. destruct (group_seps num scan seps _ _ HS HR) as (rs4 & E4 & R4 & G4).
      exists seps, l3, (ls3 ++ l :: post), (l3 :: ls3), rs4. split. rewrite E, E3, <- app_assoc. reflexivity.
      repeat split; auto. intros ys Hy. apply W. rewrite E4. apply in_or_app. auto. }
  destruct FIND as (seps & l3 & ls3 & pre3 & rs3 & E3 & HS & Hl3 & E5 & R5 & W5).
  destruct (reach t seps l3 ls3 w0 sets0 G E3 HS Hl3) as (-> & C & L). cbn [bind fst snd]. change (0 =? EOF) with false. cbn iota.
  destruct (read_sets_exact num junk junk_int scan inc Hscan Hinc (length (l3 :: ls3)) (l3 :: ls3) (le_n _)
    (S (length t)) s0 w w0 sets0 l3 ls3 eq_refl Hl3 C HI Hw L) as (_ & X & _).
  destruct (X pre3 l post rs3 E5 R5 W5 Hl Bad) as (s' & ->). cbn. eauto.
Qed.

(** rows of a different width: [started] if some row was read before *)
Lemma read_columns : forall t w w0 sets0 rs l xs, good_text t -> valid_start w0 sets0 -> (w0 = w \/ w0 = 0%nat) ->
  first_error num scan t w rs l -> numbers l xs -> length xs <> w ->
  ((exists ys, In (Some ys) rs) \/ (w0 = w /\ w <> 0%nat)) ->
  exists ds, read t (layout w0 sets0) =
    Ret (match sets0, group rs with [], [] => READ_INPUT_WRONG_INITIAL_DIM | _, _ => ERROR_COLUMNS end, ds).
Proof.
  intros t w w0 sets0 rs l xs G H Hw (pre & post & E & HR & W & Hl) Hn Hx HS0.
  destruct (start t w0 sets0 H) as (s0 & HI & ->).
  assert (FIND : exists seps l3 ls3 pre3 rs3, lines_of t = seps ++ l3 :: ls3 /\ Forall separator seps /\ ~ separator l3 /\
     l3 :: ls3 = pre3 ++ l :: post /\ Forall2 line_is pre3 rs3 /\ all_of_width num w rs3 /\ group rs3 = group rs /\
     ((exists ys, In (Some ys) rs) -> pre3 <> [])).
  { destruct (seps_split pre) as [HS|(seps & l3 & ls3 & E3 & HS & Hl3)].
    - exists pre, l, post, [], []. repeat split; auto. intros ? [].
      symmetry. now apply (group_all_seps num scan _ _ HR).
      intros (ys & Hy). exfalso. clear - HR HS Hy. induction HR. contradiction. inversion HS; subst.
      destruct Hy as [->|Hy]; auto. inversion H; subst. contradiction.
    - rewrite E3 in HR. destruct (group_seps num scan seps _ _ HS HR) as (rs4 & E4 & R4 & G4).
      exists seps, l3, (ls3 ++ l :: post), (l3 :: ls3), rs4. split. rewrite E, E3, <- app_assoc. reflexivity.
      repeat split; auto. intros ys Hy. apply W. rewrite E4. apply in_or_app. auto. discriminate. }
  destruct FIND as (seps & l3 & ls3 & pre3 & rs3 & E3 & HS & Hl3 & E5 & R5 & W5 & Gr & Np).
  destruct (reach t seps l3 ls3 w0 sets0 G E3 HS Hl3) as (-> & C & L). cbn [bind fst snd]. change (0 =? EOF) with false. cbn iota.
  destruct (read_sets_exact num junk junk_int scan inc Hscan Hinc (length (l3 :: ls3)) (l3 :: ls3) (le_n _)
    (S (length t)) s0 w w0 sets0 l3 ls3 eq_refl Hl3 C HI Hw L) as (_ & _ & X).
  destruct (X pre3 l post rs3 xs E5 R5 W5 Hl Hn Hx) as (s' & ->). tauto.
  rewrite Gr. cbn [bind fst snd]. unfold mismatch_code.
  assert (NEg : forall g gs, group rs = g :: gs -> concat (group rs) <> []).
  { assert (A : forall rs, Forall (fun g => g <> []) (group rs)).
    { clear. induction rs as [|[r|] rs IH]; cbn [IoSpec.group]; auto. destruct (starts_with_row num rs).
      destruct (group rs); repeat constructor; try discriminate. inversion IH; auto. constructor; auto. discriminate. }
    intros g gs Eg. specialize (A rs). rewrite Eg in *. inversion A; subst. cbn. destruct g; [congruence|discriminate]. }
  destruct sets0; [|cbn; eauto]. destruct (group rs) as [|g gs] eqn:Eg; [cbn; eauto|].
  destruct (concat (g :: gs)) eqn:Ec. exfalso; eapply NEg; eauto. cbn. eauto.
Qed.

(** ** Every text is of one of these kinds *)
Lemma numbers_dec : forall n l, (length l <= n)%nat -> (exists xs, numbers l xs) \/ ~ exists xs, numbers l xs.
Proof.
  induction n; intros l L.
  - destruct l; [|cbn in L; lia]. left. exists []. constructor. constructor.
  - destruct (drop_blank_spec l) as (w & H1 & H2 & H3). destruct (drop_while is_blank l) as [|c r] eqn:E.
    + left. exists []. rewrite H2, app_nil_r. now constructor.
    + specialize (H3 c r eq_refl). destruct (scan (c :: r)) as [[x r']|] eqn:Es.
      * destruct (proj1 Hscan _ _ _ Es) as (tok & Ht & Et).
        destruct (IHn r') as [(xs & Hx)|Hx].
        { apply (f_equal (@length _)) in H2. apply (f_equal (@length _)) in Et. rewrite app_length in *.
          destruct tok; [congruence|]. cbn [length] in *. lia. }
        -- left. exists (x :: xs). rewrite H2. econstructor; eauto.
        -- right. intros (ys & Hy). apply numbers_drop in Hy. rewrite E in Hy. apply numbers_inv in Hy; auto.
           destruct Hy as (x0 & r0 & zs & _ & E0 & Hz). rewrite E0 in Es. inversion Es; subst. eauto.
      * right. intros (ys & Hy). apply numbers_drop in Hy. rewrite E in Hy. apply numbers_inv in Hy; auto.
        destruct Hy as (x0 & r0 & zs & _ & E0 & Hz). congruence.
Qed.

Lemma lines_cases : forall L, (exists w rs, Forall2 line_is L rs /\ all_of_width num w rs) \/
  exists w pre l post rs, L = pre ++ l :: post /\ Forall2 line_is pre rs /\ all_of_width num w rs /\ ~ separator l /\
    ((~ exists xs, numbers l xs) \/ exists xs, numbers l xs /\ length xs <> w /\ exists ys, In (Some ys) rs).
Proof.
  induction L as [|l L IH] using rev_ind.
  - left. exists 0%nat, []. split. constructor. intros ? [].
  - destruct IH as [(w & rs & HR & W)|(w & pre & l0 & post & rs & -> & A & B & C & D)].
    2: { right. exists w, pre, l0, (post ++ [l]), rs. rewrite <- app_assoc. auto. }
    destruct (separator_dec l).
    { left. exists w, (rs ++ [None]). split. apply Forall2_app; auto. constructor; [|constructor]. now constructor.
      intros ys Hy. apply in_app_or in Hy. destruct Hy as [Hy|[Hy|[]]]; auto. discriminate. }
    destruct (numbers_dec (length l) l (le_n _)) as [(xs & Hx)|Hx].
    2: { right. exists w, L, l, [], rs. auto 7. }
    assert (D : (exists ys, In (Some ys) rs) \/ ~ exists ys, In (Some ys) rs).
    { clear. induction rs as [|[r|] rs IH]. right; intros (? & []). left; exists r; now left.
      destruct IH as [(ys & H)|H]. left; exists ys; now right. right; intros (ys & [H0|H0]). discriminate. eauto. }
    assert (STEP : forall w', all_of_width num w' rs -> length xs = w' -> exists w rs, Forall2 line_is (L ++ [l]) rs /\ all_of_width num w rs).
    { intros w' W' E. exists w', (rs ++ [Some xs]). split. apply Forall2_app; auto. constructor; [|constructor]. now constructor.
      intros ys Hy. apply in_app_or in Hy. destruct Hy as [Hy|[Hy|[]]]; auto. inversion Hy; subst; auto. }
    destruct D as [D|D].
    + destruct (Nat.eq_dec (length xs) w). left; eauto. right. exists w, L, l, [], rs. repeat split; auto. right; eauto.
    + left. apply (STEP (length xs)); auto. intros ys Hy. exfalso; eauto.
Qed.

(** ** Labelling of the rows *)
Lemma label_rows_ok : forall w sets, Forall (fun S => S <> []) sets -> wide w sets ->
  forall fuel b done a rest, sets = done ++ (a ++ b) :: rest -> b <> [] ->
  (length b + length (concat rest) <= fuel)%nat ->
  label_rows num fuel (length (concat sets)) w (concat (concat sets)) (cum_from 0 sets) (S (length done)) (length (concat done) + length a)
   = Ret (map (fun r => (r, S (length done))) b ++ labelled_from (S (S (length done))) rest).
Proof.
  intros w sets HN HW. induction fuel; intros b done a rest E Hb L.
  - destruct b; [congruence|]. cbn in L. lia.
  - destruct b as [|r b]; [congruence|]. cbn [label_rows].
    assert (TOT : length (concat sets) = (length (concat done) + length a + (S (length b) + length (concat rest)))%nat).
    { rewrite E, concat_app, app_length. cbn [concat]. rewrite !app_length. cbn [length]. lia. }
    destruct (Nat.ltb_spec (length (concat done) + length a) (length (concat sets))); [|lia].
    pose proof (flat_length w sets HW) as FL. rewrite FL.
    destruct (Nat.leb_spec ((length (concat done) + length a) * w + w) (w * length (concat sets))); [|nia].
    cbn [bind].
    assert (ROW : firstn w (skipn ((length (concat done) + length a) * w) (concat (concat sets))) = r).
    { rewrite Nat.mul_comm. eapply row_at; eauto. }
    rewrite ROW. cbn [Nat.sub]. rewrite Nat.sub_0_r.
    assert (CS : nth (length done) (cum_from 0 sets) 0%nat = (length (concat done) + length a + S (length b))%nat).
    { rewrite E, cum_from_app. rewrite app_nth2; rewrite cum_from_length; auto. rewrite Nat.sub_diag. cbn. rewrite app_length. cbn. lia. }
    rewrite (rd_ok _ _ _ 0%nat) by (rewrite cum_from_length, E, app_length; cbn; lia). cbn [bind]. rewrite CS.
    destruct b as [|r' b].
    + cbn [length]. replace (S (length (concat done) + length a)) with (length (concat done) + length a + 1)%nat by lia. rewrite Nat.eqb_refl.
      destruct rest as [|S1 rest].
      * destruct fuel; cbn [label_rows].
        -- destruct (Nat.ltb_spec (length (concat done) + length a + 1) (length (concat sets))); [cbn [length concat] in *; lia|]. reflexivity.
        -- destruct (Nat.ltb_spec (length (concat done) + length a + 1) (length (concat sets))); [cbn [length concat] in *; lia|]. reflexivity.
      * assert (NS : S1 <> []). { rewrite Forall_forall in HN. apply HN. rewrite E. apply in_or_app; right; right; now left. }
        specialize (IHfuel S1 (done ++ [a ++ [r]]) [] rest). rewrite <- app_assoc in IHfuel. cbn [app] in IHfuel.
        rewrite app_length, concat_app, app_length in IHfuel. cbn [length concat] in IHfuel. rewrite app_nil_r, app_length in IHfuel. cbn [length] in IHfuel.
        replace (length done + 1)%nat with (S (length done)) in IHfuel by lia.
        replace (length (concat done) + (length a + 1) + 0)%nat with (length (concat done) + length a + 1)%nat in IHfuel by lia.
        rewrite IHfuel; auto. cbn [concat] in L. rewrite app_length in L. cbn [length] in L. lia.
    + cbn [length]. destruct (Nat.eqb_spec (S (length (concat done) + length a)) (length (concat done) + length a + S (S (length b)))); [lia|].
      specialize (IHfuel (r' :: b) done (a ++ [r]) rest). rewrite <- app_assoc in IHfuel. cbn [app] in IHfuel.
      rewrite app_length in IHfuel. cbn [length] in IHfuel.
      replace (length (concat done) + (length a + 1))%nat with (S (length (concat done) + length a)) in IHfuel by lia.
      rewrite IHfuel; auto. discriminate. cbn [length] in L. lia.
Qed.

Lemma describes_wide : forall t w sets, describes num scan t w sets -> wide w sets /\ Forall (fun S => S <> []) sets /\ sets <> [].
Proof.
  intros t w sets (rs & HR & W & -> & Ne). split; [|split; auto].
  - intros S r HS Hr. apply W. clear - HS Hr. revert S HS Hr. induction rs as [|[x|] rs IH]; cbn [IoSpec.group]; intros S HS Hr.
    + contradiction.
    + destruct (starts_with_row num rs); [destruct (group rs) as [|g gs]|].
      * destruct HS as [<-|[]]. destruct Hr as [<-|[]]. now left.
      * destruct HS as [<-|HS]. destruct Hr as [<-|Hr]. now left. right. eapply IH; eauto. now left. right. eapply IH; eauto. now right.
      * destruct HS as [<-|HS]. destruct Hr as [<-|[]]. now left. right. eauto.
    + right. eauto.
  - clear. induction rs as [|[r|] rs IH]; cbn [IoSpec.group]; auto. destruct (starts_with_row num rs).
    destruct (group rs); repeat constructor; try discriminate. inversion IH; auto. constructor; auto. discriminate.
Qed.

Lemma read_datasets_ok : forall t w sets, good_text t -> describes num scan t w sets ->
  read_datasets num junk junk_int scan inc t = Ret (inr (labelled_from 1 sets)).
Proof.
  intros t w sets G HD. destruct (describes_wide t w sets HD) as (HW & HN & Ne). unfold read_datasets.
  change (mk_ds num 0 [] 0 []) with (@layout num 0 []).
  rewrite (read_accepts t w 0 [] sets); auto. 2: left; reflexivity. cbn [app bind Z.eqb].
  unfold layout. cbn [ds_cumsizes ds_nsets ds_nobjs ds_data].
  rewrite (rd_ok _ _ _ 0%nat). 2: { rewrite cum_from_length. destruct sets; [congruence|cbn; lia]. }
  rewrite last_cum by auto. cbn [Nat.add bind].
  destruct sets as [|S0 sets]; [congruence|].
  pose proof (label_rows_ok w (S0 :: sets) HN HW (length (concat (S0 :: sets))) S0 [] [] sets eq_refl) as X. cbn [length concat Nat.add app] in *.
  rewrite X. reflexivity. inversion HN; auto. rewrite app_length. lia.
Qed.

(** ** The writer *)
Variable fmt : num -> text.
Variable val : num -> num.
Hypothesis Hfmt : valid_printer scan fmt val.

Lemma Forall_blank_spaces : forall k, Forall blank_char (repeat space k).
Proof. induction k; constructor; auto. now left. Qed.

Lemma space_not : forall k c, c <> space -> ~ In c (repeat space k).
Proof. intros k c H I. apply repeat_spec in I. auto. Qed.

Lemma fmt_clean : forall x, clean (fmt x).
Proof.
  intros. destruct (Hfmt x) as (c & n & k & -> & _ & _ & A & B & C & _).
  repeat split; intros I; apply in_app_or in I; destruct I as [I|I]; auto; apply space_not in I; auto; discriminate.
Qed.

(** a printed number followed by nothing, or by a space *)
Lemma fmt_numbers : forall x r xs, numbers r xs -> (r = [] \/ exists r', r = space :: r') ->
  numbers (fmt x ++ r) (val x :: xs).
Proof.
  intros x r xs Hr Hs. destruct (Hfmt x) as (c & n & k & -> & Hb & _ & _ & _ & _ & Hsc).
  rewrite <- app_assoc. change ((c :: n) ++ repeat space k ++ r) with ([] ++ c :: n ++ repeat space k ++ r).
  eapply numbers_cons with (r := repeat space k ++ r); auto.
  - apply (Hsc (repeat space k ++ r)). destruct k; cbn; eauto.
  - apply numbers_drop. apply numbers_drop in Hr.
    replace (drop_while is_blank (repeat space k ++ r)) with (drop_while is_blank r); auto.
    clear. induction k; cbn; auto.
Qed.

Lemma vector_numbers : forall v, v <> [] -> numbers (vector_fprintf num fmt v) (map val v).
Proof.
  assert (X : forall v, numbers (flat_map (fun y => space :: fmt y) v) (map val v)).
  { induction v; cbn [flat_map map]. constructor. constructor.
    apply numbers_drop. cbn [app drop_while]. change (is_blank space) with true. cbn iota. apply numbers_drop with (l := fmt a ++ _).
    apply fmt_numbers; auto. destruct v; cbn; eauto. }
  intros [|x v] H; [congruence|]. cbn [vector_fprintf map]. apply fmt_numbers; auto. destruct v; cbn; eauto.
Qed.

Lemma vector_clean : forall v, clean (vector_fprintf num fmt v).
Proof.
  assert (A : forall a b, clean a -> clean b -> clean (a ++ b)).
  { intros a b (A1 & A2 & A3) (B1 & B2 & B3). repeat split; intros I; apply in_app_or in I; tauto. }
  intros [|x v]. repeat split; intros []. cbn [vector_fprintf]. apply A. apply fmt_clean.
  induction v; cbn [flat_map]. repeat split; intros []. change (space :: fmt a) with ([space] ++ fmt a). rewrite <- app_assoc.
  apply A. repeat split; intros [H|[]]; discriminate. apply A; auto using fmt_clean.
Qed.

Lemma vector_not_separator : forall v, v <> [] -> ~ separator (vector_fprintf num fmt v).
Proof.
  intros [|x v] H; [congruence|]. cbn [vector_fprintf]. destruct (Hfmt x) as (c & n & k & -> & Hb & Hh & _).
  intros [[r E]|F]. cbn in E. congruence. inversion F; subst. contradiction.
Qed.

(** the lines that are written *)
Definition set_text (S : list (list num)) : text := flat_map (fun r => vector_fprintf num fmt r ++ [nl]) S ++ [nl].

Lemma write_rows_ok : forall w sets, wide w sets -> forall p fuel b done a rest,
  sets = done ++ (a ++ b) :: rest -> (length b <= fuel)%nat ->
  write_rows num fmt fuel (concat (concat sets)) w (length (concat done) + length a) (length (concat done) + length a + length b) p
  = Ret (flat_map (fun x => if p (fst x) then vector_fprintf num fmt (snd x) ++ [nl] else [])
           (combine (seq (length (concat done) + length a) (length b)) b), (length (concat done) + length a + length b)%nat).
Proof.
  intros w sets HW p. induction fuel; intros b done a rest E L.
  - destruct b; [|cbn in L; lia]. cbn [length write_rows]. rewrite Nat.add_0_r. destruct (Nat.ltb_spec (length (concat done) + length a) (length (concat done) + length a)); [lia|]. reflexivity.
  - destruct b as [|r b]. { cbn [length write_rows]. rewrite Nat.add_0_r. destruct (Nat.ltb_spec (length (concat done) + length a) (length (concat done) + length a)); [lia|]. reflexivity. }
    cbn [length write_rows seq combine flat_map fst snd].
    destruct (Nat.ltb_spec (length (concat done) + length a) (length (concat done) + length a + S (length b))); [|lia].
    assert (TOT : length (concat sets) = (length (concat done) + length a + (S (length b) + length (concat rest)))%nat).
    { rewrite E, concat_app, app_length. cbn [concat]. rewrite !app_length. cbn [length]. lia. }
    pose proof (flat_length w sets HW) as FL. rewrite FL.
    assert (ROW : firstn w (skipn (w * (length (concat done) + length a)) (concat (concat sets))) = r) by (eapply row_at; eauto).
    rewrite ROW.
    assert (LINE : (if p (length (concat done) + length a)%nat
       then if (w * (length (concat done) + length a) + w <=? w * length (concat sets))%nat
            then Ret (vector_fprintf num fmt r ++ [nl]) else OutOfBounds else Ret [])
       = Ret (if p (length (concat done) + length a)%nat then vector_fprintf num fmt r ++ [nl] else [])).
    { destruct (p _); auto. destruct (Nat.leb_spec (w * (length (concat done) + length a) + w) (w * length (concat sets))); [reflexivity|nia]. }
    rewrite LINE. cbn [bind].
    specialize (IHfuel b done (a ++ [r]) rest). rewrite <- app_assoc in IHfuel. cbn [app] in IHfuel. rewrite app_length in IHfuel. cbn [length] in IHfuel.
    replace (length (concat done) + (length a + 1))%nat with (S (length (concat done) + length a)) in IHfuel by lia.
    replace (S (length (concat done) + length a) + length b)%nat with (length (concat done) + length a + S (length b))%nat in IHfuel by lia.
    rewrite IHfuel; auto. cbn in L. lia.
Qed.

(** the rows of every set that are kept *)
Fixpoint kept_from (p : nat -> bool) (n : nat) (sets : list (list (list num))) : list (list (list num)) :=
  match sets with
  | [] => []
  | A :: sets' => map snd (filter (fun x => p (fst x)) (combine (seq n (length A)) A)) :: kept_from p (n + length A) sets'
  end.

Lemma write_sets_from_ok : forall w sets p, wide w sets -> forall rest done, sets = done ++ rest ->
  write_sets_from num fmt (concat (concat sets)) w (cum_from (length (concat done)) rest) (length (concat done)) p
  = Ret (flat_map set_text (kept_from p (length (concat done)) rest)).
Proof.
  intros w sets p HW. induction rest as [|S rest IH]; intros done E; cbn [cum_from write_sets_from kept_from flat_map]; auto.
  pose proof (write_rows_ok w sets HW p (length S) S done [] rest) as X. cbn [app length] in X. rewrite Nat.add_0_r in X.
  replace (length (concat done) + length S - length (concat done))%nat with (length S) by lia.
  rewrite X by auto. cbn [bind fst snd].
  specialize (IH (done ++ [S])). rewrite <- app_assoc in IH. specialize (IH E).
  rewrite concat_app, app_length in IH. cbn [concat] in IH. rewrite app_nil_r in IH. rewrite IH. cbn [bind]. f_equal.
  unfold set_text. rewrite <- app_assoc. f_equal. clear. induction (combine _ S) as [|x l IHl]; cbn [flat_map filter map]; auto.
  rewrite IHl. destruct (p (fst x)); cbn [map flat_map]; auto.
Qed.

(** ** Reading what was written *)
Lemma lines_of_line : forall l t, ~ In nl l -> lines_of (l ++ nl :: t) = l :: lines_of t.
Proof.
  induction l; intros t H; cbn [app lines_of]. reflexivity.
  destruct (eqb_spec a nl). exfalso; apply H; now left. rewrite IHl. reflexivity. intro; apply H; now right.
Qed.

Definition kept_row (v : list num) : option (list num) := Some (map val v).

Lemma set_lines : forall S t rs, Forall (fun r => r <> []) S -> Forall2 line_is (lines_of t) rs ->
  Forall2 line_is (lines_of (set_text S ++ t)) (map kept_row S ++ None :: rs).
Proof.
  induction S as [|r S IH]; intros t rs HS H.
  - cbn [set_text flat_map app map]. change (lines_of (nl :: t)) with (lines_of ([] ++ nl :: t)). rewrite lines_of_line by (intros []).
    constructor; auto. constructor. right. constructor.
  - inversion HS; subst. unfold set_text. cbn [flat_map map app]. rewrite <- !app_assoc. cbn [app].
    rewrite lines_of_line. 2: apply vector_clean. constructor.
    + constructor. now apply vector_not_separator. now apply vector_numbers.
    + specialize (IH t rs H3 H). unfold set_text in IH. rewrite <- app_assoc in IH. exact IH.
Qed.

Lemma group_set : forall S rs, group (map kept_row S ++ None :: rs) =
  match S with [] => group rs | _ => map (map val) S :: group rs end.
Proof.
  induction S as [|r S IH]; intros rs; cbn [map app IoSpec.group]; auto.
  unfold kept_row at 1. cbn [IoSpec.group]. rewrite IH. destruct S; reflexivity.
Qed.

Definition nonempty (S : list (list num)) : bool := match S with [] => false | _ => true end.

Lemma written_describes : forall w sets, wide w sets -> w <> 0%nat ->
  filter nonempty sets <> [] ->
  describes num scan (flat_map set_text sets) w (map (map (map val)) (filter nonempty sets)).
Proof.
  intros w sets HW Hw Ne. exists (flat_map (fun S => map kept_row S ++ [None]) sets ++ [None]).
  split; [|split; [|split]].
  - clear Ne. induction sets as [|S sets IH]; cbn [flat_map app].
    + constructor; constructor. right; constructor.
    + rewrite <- !app_assoc. cbn [app]. apply set_lines. 
      * apply Forall_forall. intros r Hr ->. specialize (HW S [] (or_introl eq_refl) Hr). cbn in HW. lia.
      * apply IH. intros S' r H1 H2. eapply HW; eauto. now right.
  - intros xs Hx. apply in_app_or in Hx. destruct Hx as [Hx|[Hx|[]]]; [|discriminate].
    apply in_flat_map in Hx. destruct Hx as (S & HS & Hx). apply in_app_or in Hx. destruct Hx as [Hx|[Hx|[]]]; [|discriminate].
    apply in_map_iff in Hx. destruct Hx as (r & E & Hr). inversion E; subst. rewrite map_length. eauto.
  - clear. induction sets as [|S sets IH]; cbn [flat_map app]; auto.
    rewrite <- !app_assoc. cbn [app]. rewrite group_set, <- IH. destruct S; reflexivity.
  - intros E. apply Ne. destruct (filter nonempty sets); auto. discriminate.
Qed.

Lemma written_good : forall sets, good_text (flat_map set_text sets).
Proof.
  intros sets. assert (X : forall c, c = vt \/ c = ff -> ~ In c (flat_map set_text sets)).
  { intros c Hc I. apply in_flat_map in I. destruct I as (S & _ & I). unfold set_text in I. apply in_app_or in I. destruct I as [I|[I|[]]].
    - apply in_flat_map in I. destruct I as (r & _ & I). apply in_app_or in I. destruct I as [I|[I|[]]].
      destruct (vector_clean r) as (_ & A & B). destruct Hc; subst; auto. destruct Hc; subst; discriminate.
    - destruct Hc; subst; discriminate. }
  split; apply X; auto.
Qed.

Lemma kept_wide : forall w p sets n, wide w sets -> wide w (kept_from p n sets).
Proof.
  intros w p. induction sets as [|S sets IH]; intros n HW S' r H1 H2; cbn [kept_from] in H1. contradiction.
  destruct H1 as [<-|H1].
  - apply in_map_iff in H2. destruct H2 as (x & <- & Hx). apply filter_In in Hx. destruct Hx as [Hx _].
    destruct x as [i r]. apply in_combine_r in Hx. cbn. apply (HW S); auto. now left.
  - apply (IH (n + length S)%nat) with (S := S'); auto. intros A x HA Hx. apply (HW A); auto. now right.
Qed.

Lemma kept_all : forall sets n, kept_from (fun _ => true) n sets = sets.
Proof.
  induction sets as [|S sets IH]; intros n; cbn [kept_from]; auto. rewrite IH. f_equal.
  revert n. clear. induction S; intros; cbn [length seq combine filter map fst snd]; auto. now rewrite IHS.
Qed.
End Main.
