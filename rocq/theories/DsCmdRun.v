(** Proofs about the dominatedsets program, part 2: options, files and the whole program. *)
From Coq Require Import Ascii String List ZArith Lia Bool Arith.
From Verif Require Import Base Spec IndSpec NondomModel NondomMain NondomExtra PropNondom EpsModel EpsProofs PropEps OptModel PropOpt IoModel IoSpec IoMain
  CmdModel CmdSpec CmdProofs CmdLoop IndCmdSpec IndCmdProofs NdCmdModel NdCmdSpec NdCmdProofs DsCmdModel DsCmdSpec DsCmdProofs.
Import ListNotations.
Local Open Scope list_scope.
Open Scope Z_scope.

Lemma not_redundant_set : forall mx S, wide (length mx) S -> ~ redundant mx S -> nondominated_set mx S.
Proof.
  intros mx S W N. split. { apply Forall_forall. exact W. } split.
  - apply NoDup_nth_error. intros i j Hi E. destruct (Nat.eq_dec i j); auto. exfalso. apply N.
    assert (Hj : (j < length S)%nat) by (apply nth_error_Some; rewrite <- E; now apply nth_error_Some).
    exists i, j. split; auto. split; auto. split; auto. rewrite (error_row S i Hi), (error_row S j Hj) in E. inversion E as [E1]. rewrite E1.
    intros k Hk. unfold as_good. destruct (nth k mx false); lia.
  - intros p q Hp Hq [D1 D2]. apply In_nth_error in Hp, Hq. destruct Hp as [i Hi], Hq as [j Hj].
    destruct (row_error _ _ _ Hi) as [Li Ri], (row_error _ _ _ Hj) as [Lj Rj]. destruct (Nat.eq_dec i j) as [->|Nij].
    + assert (p = q) by congruence. clear Ri Rj. subst q. destruct D2 as (k & Hk & D2). unfold Spec.better in D2. destruct (nth k mx false); lia.
    + apply N. exists i, j. rewrite Ri, Rj. auto.
Qed.

(** ** The check *)
Definition rejected (mx : list bool) (S : list point) : Prop := redundant mx S \/ length S = 1%nat.

Lemma check_sets_ok : forall sort2d mx sets, valid_sort2d sort2d -> (forall S, In S sets -> S <> [] /\ wide (length mx) S) ->
  exists b, ds_check_sets sort2d (length mx) (minmax_from_bool mx) sets = Ret b /\ (b = true <-> exists S, In S sets /\ rejected mx S).
Proof.
  intros sort2d mx sets Hs. induction sets as [|S sets IH]; intros H.
  - exists false. split; auto. split; [discriminate|]. intros (S & [] & _).
  - destruct IH as (b & Eb & Vb). { intros; apply H; now right. }
    destruct (H S (or_introl eq_refl)) as [NE W]. cbn [ds_check_sets].
    assert (K : exists r, find_dominated_point sort2d S (length mx) (minmax_from_bool mx) = Ret r /\ (0 <= r <-> rejected mx S)).
    { destruct (Nat.le_gt_cases 2 (length S)) as [L|L].
      - destruct (C05_find_dominated_point_correct sort2d mx S Hs (proj2 (Forall_forall _ _) W) L) as (r & E & [[-> Q]|(i & j & Hi & Hj & Nij & D & ->)]).
        + exists (-1). split; auto. split; [lia|]. intros [(i & j & Hi & Hj & Nij & D)|R]; [destruct (Q i j Hi Hj Nij D)|lia].
        + exists (Z.of_nat j). split; auto. split; [|lia]. intros _. left. exists i, j. auto.
      - destruct S as [|p [|q S]]; cbn in L; [congruence| |lia]. exists 1. split. { apply C05_single_point_refuted. }
        split; [|lia]. intros _. now right. }
    destruct K as (r & E & V). rewrite E. cbn [bind]. rewrite Eb. cbn [bind]. exists ((0 <=? r) || b). split; auto.
    rewrite orb_true_iff, Z.leb_le, V, Vb. split.
    + intros [R|(T & HT & R)]; [exists S|exists T]; split; auto; [now left|now right].
    + intros (T & [<-|HT] & R); [now left|]. right. exists T. auto.
Qed.
Lemma check_ok : forall sort2d mx contents, valid_sort2d sort2d -> (forall sets S, In sets contents -> In S sets -> S <> [] /\ wide (length mx) S) ->
  exists b, ds_check sort2d (length mx) (minmax_from_bool mx) contents = Ret b /\
    (b = true <-> exists sets S, In sets contents /\ In S sets /\ rejected mx S).
Proof.
  intros sort2d mx contents Hs. induction contents as [|sets contents IH]; intros H.
  - exists false. split; auto. split; [discriminate|]. intros (s & S & [] & _).
  - destruct IH as (b & Eb & Vb). { intros s S Hi. apply H. now right. }
    destruct (check_sets_ok sort2d mx sets Hs) as (a & Ea & Va). { intros S. apply H. now left. }
    cbn [ds_check]. rewrite Ea. cbn [bind]. rewrite Eb. cbn [bind]. exists (a || b). split; auto.
    rewrite orb_true_iff, Va, Vb. split.
    + intros [(S & HS & R)|(s & S & Hi & HS & R)]; [exists sets, S|exists s, S]; split; auto; [now left|now right].
    + intros (s & S & [<-|Hi] & HS & R); [left; exists S|right; exists s, S]; auto.
Qed.

(** ** The texts *)
Lemma commas_cons : forall l t, commas (t :: l) = t ++ concat (map (fun x => st ", " ++ x) l).
Proof.
  induction l as [|x l IH]; intros t. { cbn. now rewrite app_nil_r. }
  change (commas (t :: x :: l)) with (t ++ st ", " ++ commas (x :: l)). rewrite IH. cbn [map concat]. now rewrite !app_assoc.
Qed.
Section Text.
Variable fmt_int : Z -> text.
Lemma info_ok : forall d k (sets : list (list point)), sets <> [] -> ds_info fmt_int (short fmt_int k, layout d sets) =
  Ret (st "# " ++ short fmt_int k ++ st ": " ++ fmt_int (Z.of_nat (length sets)) ++ st " (" ++
       commas (map (fun c => fmt_int (Z.of_nat c)) (totals_so_far sets)) ++ st ")" ++ [nl]).
Proof.
  intros d k sets N. unfold ds_info. cbn [fst snd]. unfold layout. cbn [ds_cumsizes ds_nsets].
  assert (L : (0 < length sets)%nat) by (destruct sets; [congruence|cbn; lia]).
  rewrite cum_from_nth by auto. cbn [bind].
  erewrite (cat_map_ok _ _ (fun n => st ", " ++ fmt_int (Z.of_nat (length (concat (firstn (S n) sets)))))).
  2: { intros n Hn. apply in_seq in Hn. rewrite cum_from_nth by (change (list (list Z)) with (list point) in *; lia). reflexivity. }
  cbn [bind]. unfold totals_so_far.
  assert (Es : seq 1 (length sets) = 1%nat :: map S (seq 1 (length sets - 1))).
  { destruct sets as [|s0 sets]; [congruence|]. cbn [length]. rewrite Nat.sub_succ, Nat.sub_0_r. cbn [seq]. now rewrite seq_shift. }
  change point with (list Z) in *. rewrite Es. cbn [map]. rewrite commas_cons, !map_map. unfold st. cbn [Nat.add]. rewrite <- !app_assoc. reflexivity.
Qed.
Lemma infos_ok : forall d (contents : list (list (list point))) k, Forall (fun sets => sets <> []) contents ->
  cat_map (ds_info fmt_int) (combine (map (short fmt_int) (seq k (length contents))) (map (layout d) contents)) =
  Ret (concat (map (fun x => st "# " ++ short fmt_int (fst x) ++ st ": " ++ fmt_int (Z.of_nat (length (snd x))) ++ st " (" ++
                        commas (map (fun c => fmt_int (Z.of_nat c)) (totals_so_far (snd x))) ++ st ")" ++ [nl])
              (combine (seq k (length contents)) contents))).
Proof.
  intros d contents. induction contents as [|sets contents IH]; intros k H; auto. inversion H; subst.
  cbn [length seq map combine cat_map concat]. rewrite info_ok by auto. cbn [bind]. rewrite IH by auto. reflexivity.
Qed.
Lemma objectives_ok : forall mx, ds_objectives fmt_int (length mx) (minmax_from_bool mx) =
  st "# objectives (" ++ fmt_int (Z.of_nat (length mx)) ++ st "): " ++ map (fun b : bool => if b then "+"%char else "-"%char) mx ++ [nl].
Proof.
  intros mx. unfold ds_objectives, minmax_from_bool. rewrite map_map. unfold st. do 4 f_equal. apply map_ext. intros []; reflexivity.
Qed.
End Text.
Definition say (t : text) (w : world) : world := mkWorld (w_files w) (w_stdin w) (w_stdout w ++ t).
Lemma fwrite_say : forall t w, fwrite Stdout t w = Ret (inl tt, say t w).
Proof. reflexivity. Qed.
Lemma say_say : forall a b w, say b (say a w) = say (a ++ b) w.
Proof. intros. unfold say. cbn. now rewrite app_assoc. Qed.
Lemma say_nil : forall w, say [] w = w.
Proof. intros []. unfold say. cbn. now rewrite app_nil_r. Qed.

Section Names.
Variable fmt_int : Z -> text.
Variable block : nat -> nat.
Hypothesis Hfmt : forall z, (length (fmt_int z) <= 30)%nat.
Lemma names_ok : forall names k w, (forall n, 32 <= block n)%nat ->
  ds_names block fmt_int k names w =
  Ret (inl (map (short fmt_int) (seq k (length names))),
       say (concat (map (fun x => st "# " ++ short fmt_int (fst x) ++ st ": " ++ st (snd x) ++ [nl]) (combine (seq k (length names)) names))) w).
Proof.
  intros names. induction names as [|f names IH]; intros k w Hb. { cbn. unfold pret. now rewrite say_nil. }
  cbn [ds_names length seq map combine concat]. unfold pbind at 1. unfold lift at 1. destruct (Nat.leb_spec 32 (block (length (firstn 31 ("f"%char :: fmt_int (Z.of_nat k + 1))) + 1))).
  2: { pose proof (Hb (length (firstn 31 ("f"%char :: fmt_int (Z.of_nat k + 1))) + 1)%nat). lia. }
  cbn [bind]. rewrite firstn_all2 by (cbn [length]; specialize (Hfmt (Z.of_nat k + 1)); lia). fold (short fmt_int k).
  unfold pbind at 1. rewrite fwrite_say. cbn [bind]. unfold pbind at 1. rewrite IH by auto. cbn [bind]. unfold pret. rewrite say_say. cbn [fst snd].
  unfold st. rewrite <- !app_assoc. reflexivity.
Qed.
Lemma names_short : forall f names k w, (block (length (short fmt_int k) + 1) < 32)%nat -> ds_names block fmt_int k (f :: names) w = OutOfBounds.
Proof.
  intros f names k w H. cbn [ds_names]. unfold pbind at 1. unfold lift at 1. rewrite firstn_all2 by (cbn [length]; specialize (Hfmt (Z.of_nat k + 1)); lia).
  fold (short fmt_int k). destruct (Nat.leb_spec 32 (block (length (short fmt_int k) + 1))); [lia|]. reflexivity.
Qed.
End Names.

Section Run.
Variable sort2d : list point -> list nat.
Variable junk : Z.
Variable junk_int : nat.
Variable scan : text -> option (Z * text).
Variable data_inc : nat.
Variable block : nat -> nat.
Variable fmt_int : Z -> text.
Variable fmt_percent : Z -> Z -> text.
Variable usage : text.
Hypothesis Hscan : valid_scanner Z scan.
Hypothesis Hinc : (0 < data_inc)%nat.
Variable d : nat.
Hypothesis Hd : (0 < d)%nat.
Local Notation ds_main := (ds_main sort2d junk junk_int scan data_inc block fmt_int fmt_percent usage).
Local Notation ds_option_step := (ds_option_step junk).
Local Notation ds_options := (ds_options junk).
Local Notation ds_read := (ds_read junk junk_int scan data_inc).

(** ** Options *)
Definition holds (o : ds_opts) (opts : list ds_option) : Prop :=
  d_percent o = percent_on opts /\ d_check o = negb (unchecked opts) /\
  match obj_arg opts with
  | None => d_minmax o = None /\ d_dim o = 0%nat
  | Some a => d_dim o = d /\ exists mx, asks a mx /\ length mx = d /\ d_minmax o = Some (minmax_from_bool mx)
  end.
Lemma options_app : forall a b o w, ds_options o (a ++ b) w = (o <~ ds_options o a ;; ds_options o b) w.
Proof.
  induction a as [|x a IH]; intros b o w; cbn [app DsCmdModel.ds_options]. reflexivity.
  unfold pbind in *. destruct (ds_option_step o x w) as [[[o1|s] w1]| | |]; cbn [bind]; auto.
Qed.
Lemma dim_held : forall o opts, holds o opts -> d_dim o = d \/ d_dim o = 0%nat.
Proof using. intros o opts (_ & _ & H). destruct (obj_arg opts); [left|right]; apply H. Qed.
Lemma step_holds : forall o opts x w, ds_usable d x -> holds o opts ->
  exists o', ds_option_step o x w = Ret (inl o', w) /\ holds o' (opts ++ [x]).
Proof using Hd. clear Hscan Hinc sort2d junk_int scan data_inc block fmt_int fmt_percent usage.
  intros o opts x w U H. pose proof (dim_held o opts H) as Hn. destruct o as [p c m n]. destruct H as (H1 & H2 & H3). cbn [d_percent d_check d_minmax d_dim] in *.
  assert (E1 : percent_on (opts ++ [x]) = percent_on opts || match x with DsPercentages => true | _ => false end).
  { unfold percent_on. rewrite existsb_app. cbn. now rewrite orb_false_r. }
  assert (E2 : unchecked (opts ++ [x]) = unchecked opts || match x with DsNoCheck => true | _ => false end).
  { unfold unchecked. rewrite existsb_app. cbn. now rewrite orb_false_r. }
  unfold holds. rewrite E1, E2. unfold obj_arg in *. rewrite fold_left_app. cbn [fold_left].
  destruct x; cbn [ds_usable] in U; try contradiction; cbn [DsCmdModel.ds_option_step]; rewrite ?orb_false_r, ?orb_true_r.
  1-4: (eexists; split; [reflexivity|]; cbn [d_percent d_check d_minmax d_dim]; repeat split; auto).
  destruct U as (mx & Ha & L). unfold pbind, lift. cbn [d_dim]. rewrite (read_minmax_asks junk arg mx d n) by auto. cbn [bind].
  eexists; split; [reflexivity|]. cbn [d_percent d_check d_minmax d_dim]. repeat split; auto. exists mx. auto.
Qed.
Lemma options_hold : forall opts w, Forall (ds_usable d) opts -> exists o, ds_options ds_opts0 opts w = Ret (inl o, w) /\ holds o opts.
Proof using Hd. clear Hscan Hinc sort2d junk_int scan data_inc block fmt_int fmt_percent usage.
  intros opts w. induction opts as [|x opts IH] using rev_ind; intros U.
  - exists ds_opts0. split; auto. repeat split; auto.
  - apply Forall_app in U. destruct U as [U1 U2]. destruct (IH U1) as (o & E & H).
    destruct (step_holds o opts x w) as (o' & E' & H'); auto. { now inversion U2. }
    exists o'. split; auto. rewrite options_app. unfold pbind at 1. rewrite E. cbn [bind DsCmdModel.ds_options]. unfold pbind. rewrite E'. reflexivity.
Qed.
Lemma main_option_refused : forall pre x post names status w, Forall (ds_usable d) pre -> ds_refused x status ->
  ds_main (pre ++ x :: post) names w = Ret (inr status, w).
Proof using Hd. clear Hscan Hinc.
  intros pre x post names status w U R. destruct (options_hold pre w U) as (o & E & H). unfold DsCmdModel.ds_main. unfold pbind at 1.
  assert (Q : ds_options ds_opts0 (pre ++ x :: post) w = Ret (inr status, w)); [|now rewrite Q].
  rewrite options_app. unfold pbind at 1. rewrite E. cbn [bind DsCmdModel.ds_options]. unfold pbind.
  assert (S : ds_option_step o x w = Ret (inr status, w)); [|now rewrite S].
  destruct x; cbn [ds_refused] in R; try contradiction; cbn [DsCmdModel.ds_option_step].
  - destruct (C50_directions junk arg (d_dim o)) as (r & Er & N & X & P). unfold pbind, lift. rewrite Er. cbn [bind].
    destruct R as [[R ->]|[R ->]].
    + destruct R as (ch & Hc & Hn). rewrite (proj2 N); [reflexivity|]. exists ch. split; auto.
    + rewrite (proj2 X); [reflexivity|]. auto.
  - subst. reflexivity.
Qed.
Lemma main_too_few : forall opts names w, Forall (ds_usable d) opts -> (length names <= 1)%nat ->
  ds_main opts names w = Ret (inr EXIT_FAILURE, say usage w).
Proof using Hd. clear Hscan Hinc.
  intros opts names w U L. destruct (options_hold opts w U) as (o & E & _). unfold DsCmdModel.ds_main. unfold pbind at 1. rewrite E. cbn [bind].
  destruct (Nat.leb_spec (length names) 1); [|lia]. reflexivity.
Qed.

(** ** Files *)
Lemma read_ok : forall w names contents dim, Forall2 (contains scan w d) names contents -> dim = d \/ dim = 0%nat ->
  ds_read names dim w = Ret (inl (map (layout d) contents, if (0 <? length names)%nat then d else dim), w).
Proof using Hscan Hinc.
  intros w names contents dim H. revert dim. induction H as [|f sets names contents Hc H IH]; intros dim Hdim. { reflexivity. }
  cbn [DsCmdModel.ds_read]. unfold pbind at 1. rewrite (read_input_file junk junk_int scan data_inc Hscan Hinc w f d dim sets Hc Hdim). cbn [bind].
  unfold pbind at 1. rewrite IH by (left; reflexivity). cbn [bind]. unfold pret. cbn [fst snd map length]. do 4 f_equal.
  destruct (Nat.ltb_spec 0 (length names)); reflexivity.
Qed.
Lemma read_refused_ok : forall w pre cpre f post dim, Forall2 (contains scan w d) pre cpre -> dim = d \/ dim = 0%nat ->
  (forall t, w_files w f = Some t -> ~ In vt t /\ ~ In ff t) ->
  (forall d' sets, contains scan w d' f sets -> d' <> d /\ (dim = d \/ pre <> [])) ->
  ds_read (pre ++ f :: post) dim w = Ret (inr EXIT_FAILURE, w).
Proof using Hscan Hinc Hd.
  intros w pre cpre f post dim H. revert dim. induction H as [|g sets pre cpre Hc H IH]; intros dim Hdim T Nr; cbn [app DsCmdModel.ds_read]; unfold pbind at 1.
  - rewrite (read_input_refused junk junk_int scan data_inc Hscan Hinc); auto. intros d' sets Hf. destruct (Nr d' sets Hf) as [N1 [N2|N2]]; [subst|congruence]. split; [congruence|lia].
  - rewrite (read_input_file junk junk_int scan data_inc Hscan Hinc w g d dim sets Hc Hdim). cbn [bind]. unfold pbind at 1. cbn [ds_nobjs layout].
    rewrite IH; auto. intros d' s Hf. destruct (Nr d' s Hf) as [N1 _]. auto.
Qed.
Lemma main_file_refused : forall opts pre cpre f post w, Forall (ds_usable d) opts -> Forall2 (contains scan w d) pre cpre ->
  (1 <= length pre + length post)%nat ->
  (forall t, w_files w f = Some t -> ~ In vt t /\ ~ In ff t) ->
  (forall d' sets, contains scan w d' f sets -> d' <> d /\ (obj_arg opts <> None \/ pre <> [])) ->
  ds_main opts (pre ++ f :: post) w = Ret (inr EXIT_FAILURE, w).
Proof using Hscan Hinc Hd.
  intros opts pre cpre f post w U F L T Nr. destruct (options_hold opts w U) as (o & E & H). unfold DsCmdModel.ds_main. unfold pbind at 1. rewrite E. cbn [bind].
  rewrite app_length. cbn [length]. destruct (Nat.leb_spec (length pre + S (length post)) 1); [lia|]. unfold pbind at 1.
  rewrite (read_refused_ok w pre cpre f post (d_dim o) F (dim_held o opts H) T); auto.
  intros d' sets Hc. destruct (Nr d' sets Hc) as [N1 [N2|N2]]; split; auto. left. destruct H as (_ & _ & H). destruct (obj_arg opts); [tauto|congruence].
Qed.

(** ** The program up to the check *)
Variable opts : list ds_option.
Variable mx : list bool.
Hypothesis Haims : aims d opts mx.
Lemma mx_length : length mx = d.
Proof. unfold aims in Haims. destruct (obj_arg opts); [tauto|]. rewrite Haims. apply repeat_length. Qed.
Lemma repeat_map : forall A B (f : A -> B) x n, map f (repeat x n) = repeat (f x) n.
Proof. induction n; cbn; auto. now rewrite IHn. Qed.
Lemma minmax_ok : forall o w, holds o opts ->
  match d_minmax o with
  | None => lift (default_minmax d (-1))
  | Some m => lift (vec d m)
  end w = Ret (inl (minmax_from_bool mx), w).
Proof using Haims Hd Hinc junk junk_int fmt_percent fmt_int data_inc block.
  intros o w (_ & _ & H). pose proof mx_length as L. unfold aims in Haims. destruct (obj_arg opts) as [a|].
  - destruct H as (_ & mx' & Ha & L' & ->). assert (mx' = mx).
    { destruct Haims as [Ha' _]. clear - Ha Ha'. revert mx Ha'. induction Ha as [|c b a mx' E Ha IH]; intros mx Ha'; inversion Ha'; subst; auto.
      f_equal; auto. destruct b, y; auto; discriminate. }
    subst mx'. unfold lift, vec. assert (Lm : length (minmax_from_bool mx) = d) by (unfold minmax_from_bool; now rewrite map_length).
    rewrite Lm, Nat.leb_refl. cbn [bind]. rewrite firstn_all2 by lia. reflexivity.
  - destruct H as [-> _]. unfold lift, default_minmax. destruct (Nat.ltb_spec 0 d); [|lia]. cbn [assert_ bind Z.eqb orb]. rewrite Haims. unfold minmax_from_bool. now rewrite repeat_map.
Qed.

Variable names : list string.
Variable contents : list (list (list point)).
Variable w : world.
Hypothesis Hopts : Forall (ds_usable d) opts.
Hypothesis Hfiles : Forall2 (contains scan w d) names contents.
Hypothesis Htwo : (2 <= length names)%nat.
Hypothesis Hfmt : forall z, (length (fmt_int z) <= 30)%nat.

Lemma same_length : length contents = length names.
Proof using Hfiles. clear - Hfiles. induction Hfiles; cbn; auto. Qed.
Lemma contents_good : forall sets, In sets contents -> sets <> [] /\ forall S, In S sets -> S <> [] /\ wide d S.
Proof using Hfiles.
  clear - Hfiles. induction Hfiles as [|f s ns cs Hc H IH]; intros sets []; auto. subst. eapply file_sets; eauto.
Qed.

Lemma sets_of_layout : forall sets, sets <> [] -> (forall S, In S sets -> S <> [] /\ wide d S) -> ds_sets d (layout d sets) = Ret sets.
Proof.
  intros sets N G. unfold ds_sets, layout. cbn [ds_cumsizes ds_nsets ds_data]. rewrite last_cum by auto. cbn [bind].
  rewrite all_rows by (apply wide_concat; intros; now apply G). cbn [bind]. rewrite firstn_all2 by (rewrite cum_from_length; apply Nat.le_refl). apply slices_ok.
Qed.
Lemma main_overflow : (block (length (short fmt_int 0) + 1) < 32)%nat -> ds_main opts names w = OutOfBounds.
Proof using Hscan Hinc Hd Haims Hopts Hfiles Htwo Hfmt.
  intros Hb. destruct (options_hold opts w Hopts) as (o & E & H). unfold DsCmdModel.ds_main. unfold pbind at 1. rewrite E. cbn [bind].
  destruct (Nat.leb_spec (length names) 1); [lia|]. unfold pbind at 1. rewrite (read_ok w names contents (d_dim o) Hfiles (dim_held o opts H)). cbn [bind].
  destruct (Nat.ltb_spec 0 (length names)); [|lia]. unfold pbind at 1. rewrite minmax_ok by auto. cbn [bind]. unfold pbind at 1.
  destruct names as [|f ns]; [cbn in Htwo; lia|]. rewrite names_short; auto.
Qed.
Lemma main_head : (forall n, 32 <= block n)%nat -> exists o, holds o opts /\ ds_main opts names w =
  (failed <~ lift (if d_check o then ds_check sort2d d (minmax_from_bool mx) contents else Ret false) ;;
    if failed then exit_ EXIT_FAILURE
    else
      results <~ lift (ds_pairs d (minmax_from_bool mx) (length contents) 0 contents (repeat (-1) (length contents * length contents))) ;;
      t <~ lift (print_results fmt_int fmt_percent (d_percent o) (shorts fmt_int (length contents)) (map (@length (list point)) contents) results) ;;
      _ <~ fwrite Stdout t ;;
      exit_ EXIT_SUCCESS) (say (ds_heading fmt_int mx names contents) w).
Proof using Hscan Hinc Hd Haims Hopts Hfiles Htwo Hfmt.
  intros Hb. destruct (options_hold opts w Hopts) as (o & E & H). exists o. split; auto. unfold DsCmdModel.ds_main. unfold pbind at 1. rewrite E. cbn [bind].
  destruct (Nat.leb_spec (length names) 1); [lia|]. unfold pbind at 1. rewrite (read_ok w names contents (d_dim o) Hfiles (dim_held o opts H)). cbn [bind].
  destruct (Nat.ltb_spec 0 (length names)); [|lia]. unfold pbind at 1. rewrite minmax_ok by auto. cbn [bind]. unfold pbind at 1.
  rewrite names_ok by auto. cbn [bind]. unfold pbind at 1. rewrite fwrite_say. cbn [bind]. unfold pbind at 1. unfold lift at 1.
  rewrite <- same_length.
  rewrite infos_ok. 2: { apply Forall_forall. intros s Hs. now apply contents_good. }
  cbn [bind]. unfold pbind at 1. rewrite fwrite_say. cbn [bind]. unfold pbind at 1. rewrite fwrite_say. cbn [bind]. unfold pbind at 1. unfold lift at 1.
  rewrite !say_say. pose proof (objectives_ok fmt_int mx) as Eo. rewrite mx_length in Eo. rewrite Eo. clear Eo.
  assert (Es : all_of (ds_sets d) (map (layout d) contents) = Ret contents).
  { pose proof contents_good as G. clear - G. induction contents as [|s cs IH]; auto. cbn [map all_of].
    destruct (G s (or_introl eq_refl)) as [G1 G2]. rewrite sets_of_layout by auto. cbn [bind]. rewrite IH by (intros; apply G; now right). reflexivity. }
  rewrite Es. cbn [bind]. rewrite map_map. cbn [layout ds_nsets].
  unfold ds_heading, name_lines, size_lines. rewrite mx_length, <- !same_length, ?app_assoc. reflexivity.
Qed.
Hypothesis Hsort : valid_sort2d sort2d.
Hypothesis Hblock : forall n, (32 <= block n)%nat.

Lemma main_rejected : unchecked opts = false -> (exists sets S, In sets contents /\ In S sets /\ rejected mx S) ->
  ds_main opts names w = Ret (inr EXIT_FAILURE, say (ds_heading fmt_int mx names contents) w).
Proof.
  intros C R. destruct (main_head Hblock) as (o & (H1 & H2 & _) & ->). rewrite H2, C. cbn [negb]. unfold pbind at 1. unfold lift at 1.
  destruct (check_ok sort2d mx contents Hsort) as (b & E & V). { intros s S Hs. rewrite mx_length. now apply contents_good. }
  rewrite mx_length in E. rewrite E. cbn [bind]. rewrite (proj2 V R). reflexivity.
Qed.
Lemma main_table : (forall sets S, In sets contents -> In S sets -> ~ redundant mx S) ->
  unchecked opts = true \/ (forall sets S, In sets contents -> In S sets -> (2 <= length S)%nat) ->
  exists count, ds_main opts names w = Ret (inr EXIT_SUCCESS, say (ds_heading fmt_int mx names contents ++
      results_text fmt_int fmt_percent (percent_on opts) (map (@length (list point)) contents) count) w) /\
    forall k j, (k < length contents)%nat -> (j < length contents)%nat -> k <> j ->
      wins mx (nth k contents []) (nth j contents []) (count k j).
Proof.
  intros N C. destruct (main_head Hblock) as (o & (H1 & H2 & _) & ->). unfold pbind at 1. unfold lift at 1.
  assert (Ec : (if d_check o then ds_check sort2d d (minmax_from_bool mx) contents else Ret false) = Ret false).
  { rewrite H2. destruct (unchecked opts) eqn:Eu; auto. destruct C as [C|C]; [discriminate|].
    destruct (check_ok sort2d mx contents Hsort) as (b & E & V). { intros s S Hs. rewrite mx_length. now apply contents_good. }
    rewrite mx_length in E. cbn [negb]. rewrite E. destruct b; auto. destruct (proj1 V eq_refl) as (s & S & Hs & HS & [R|R]).
    - destruct (N s S Hs HS R). - specialize (C s S Hs HS). lia. }
  rewrite Ec. cbn [bind]. clear Ec. unfold pbind at 1. unfold lift at 1.
  assert (HF : forall sets S, In sets contents -> In S sets -> nondominated_set mx S /\ S <> []).
  { intros s S Hs HS. destruct (contents_good s Hs) as [_ G]. destruct (G S HS) as [G1 G2]. split; auto. apply not_redundant_set; eauto. now rewrite mx_length. }
  destruct (results_ok mx contents HF) as (res & Er & Vr). rewrite mx_length in Er. rewrite Er. cbn [bind]. unfold pbind at 1. unfold lift at 1.
  rewrite H1.
  pose proof (print_ok fmt_int fmt_percent Hfmt (percent_on opts) (map (@length (list point)) contents) (count_of mx contents) res) as P. cbv zeta in P. rewrite map_length in P.
  rewrite P by auto. cbn [bind]. unfold pbind at 1. rewrite fwrite_say. cbn [bind]. rewrite say_say.
  exists (count_of mx contents). split; auto. intros k j Hk Hj Nkj. now apply count_wins.
Qed.
End Run.
