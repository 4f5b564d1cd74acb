(** Proofs about the nondominated program, part 2: options and files. *)
From Coq Require Import Ascii String List ZArith Lia Bool Arith.
From Verif Require Import Base Spec NondomModel NondomMain NondomExtra OptModel PropOpt FbSpec FbModel PropFb IoModel IoSpec IoMain
  CmdModel CmdSpec CmdProofs CmdLoop HvCmdModel HvCmdSpec HvCmdProofs IndCmdSpec IndCmdProofs NdCmdModel NdCmdSpec NdCmdProofs.
Import ListNotations.
Local Open Scope list_scope.
Open Scope Z_scope.

Section Run.
Variable sort2d : list point -> list nat.
Variable can_create : string -> bool.
Variable junk : Z.
Variable junk_int : nat.
Variable junk_bool : nat -> bool.
Variable scan : text -> option (Z * text).
Variable data_inc : nat.
Variable strtod : text -> option (Z * text).
Variable fmt : Z -> text.
Variable fmt_int : nat -> text.
Variable divide : Z -> Z -> Z.
Variable log10 : Z -> Z.
Variable one : Z.
Hypothesis Hsort : valid_sort2d sort2d.
Hypothesis Hscan : valid_scanner Z scan.
Hypothesis Hinc : (0 < data_inc)%nat.
Hypothesis Hst : valid_strtod strtod.
Variable d : nat.
Hypothesis Hd : (0 < d)%nat.
Local Notation nd_option_step := (nd_option_step junk strtod).
Local Notation nd_options := (nd_options junk strtod).

(** ** Options *)
Definition bound_held (arg : option text) (b : option (list Z)) : Prop :=
  match arg with
  | None => b = None
  | Some a => exists buf lb, b = Some buf /\ point_text strtod a lb /\ length lb = d /\ vec d buf = Ret lb
  end.
Definition holds (o : nd_opts) (opts : list nd_option) : Prop :=
  n_verbose o = verbose_on opts /\ n_filter o = filter_on opts /\ (n_filter o = true \/ n_check o = negb (no_check_on opts)) /\
  n_force o = force_on opts /\ n_union o = union_on opts /\ n_maximise o = maximise_on opts /\ n_suffix o = suffix_of opts /\
  n_agree o = agree_code (agree_of opts) /\
  match obj_of opts with
  | None => n_minmax o = None
  | Some a => exists mx, asks a mx /\ length mx = d /\ n_minmax o = Some (minmax_from_bool mx)
  end /\
  (n_dim o = d \/ n_dim o = 0%nat /\ n_lower o = None /\ n_upper o = None /\ columns_fixed opts = false) /\
  bound_held (lower_of opts) (n_lower o) /\ bound_held (upper_of opts) (n_upper o) /\
  match range_of opts with
  | None => n_range o = None
  | Some a => exists lo hi, range_text strtod a lo hi /\ n_range o = Some (lo, hi)
  end /\
  match log_of opts with
  | None => n_log o = None
  | Some a => length a = d /\ (forall ch, In ch a -> ch = "0"%char \/ ch = "1"%char) /\ n_log o = Some (map (fun c => Ascii.eqb c "1") a)
  end.

Lemma holds_nil : holds nd_opts0 [].
Proof. unfold holds. repeat split; cbn; auto. Qed.

Lemma options_app : forall a b o w, nd_options o (a ++ b) w = (o <~ nd_options o a ;; nd_options o b) w.
Proof.
  induction a as [|x a IH]; intros b o w; cbn [app NdCmdModel.nd_options]. reflexivity.
  unfold pbind in *. destruct (nd_option_step o x w) as [[[o1|s] w1]| | |]; cbn [bind]; auto.
Qed.

Lemma point_held : forall a xs, point_text strtod a xs -> length xs = d ->
  exists buf, read_point strtod junk a = Ret (Some (buf, d)) /\ vec d buf = Ret xs.
Proof using junk strtod Hst d Hd. clear Hsort Hscan Hinc sort2d can_create junk_int junk_bool scan data_inc fmt fmt_int divide log10 one.
  intros a xs H L. destruct (read_point_ok strtod Hst junk a xs H) as (buf & E & F & G). { destruct xs; [cbn in L; lia|discriminate]. }
  rewrite L in *. exists buf. split; auto. unfold vec. destruct (Nat.leb_spec d (length buf)); [|lia]. now rewrite F.
Qed.

Lemma step_holds : forall o opts x w, nd_usable strtod d x -> holds o opts ->
  exists o', nd_option_step o x w = Ret (inl o', w) /\ holds o' (opts ++ [x]).
Proof using junk strtod Hst d Hd. clear Hsort Hscan Hinc sort2d can_create junk_int junk_bool scan data_inc fmt fmt_int divide log10 one.
  intros [v c f b u mm dim a m lo up s rg lg] opts x w U H. unfold holds in H. cbn [n_verbose n_filter n_check n_force n_union n_maximise n_suffix n_agree
    n_minmax n_dim n_lower n_upper n_range n_log] in H. destruct H as (H1 & H2 & H3 & H4 & H5 & H6 & H7 & H8 & H9 & H10 & H11 & H12 & H13 & H14).
  assert (E : forall P, asked P (opts ++ [x]) = asked P opts || P x).
  { intros P. unfold asked. rewrite existsb_app. cbn. now rewrite orb_false_r. }
  assert (Hn : dim = d \/ dim = 0%nat) by tauto.
  Ltac fin E := unfold holds, verbose_on, filter_on, no_check_on, force_on, union_on, columns_fixed, maximise_on, suffix_of, agree_of, obj_of, lower_of, upper_of, range_of, log_of in *;
    rewrite !fold_left_app, !E; cbn [n_verbose n_filter n_check n_force n_union n_maximise n_suffix n_agree n_minmax n_dim n_lower n_upper n_range n_log fold_left];
    rewrite ?orb_false_r, ?orb_true_r.
  destruct x; cbn [nd_usable] in U; try contradiction; cbn [NdCmdModel.nd_option_step].
  1-6: (eexists; split; [reflexivity|]; fin E; repeat split; auto).
  - (* obj *) destruct U as (mx & Ha & L). unfold pbind, lift. rewrite (read_minmax_asks junk arg mx d dim) by auto. cbn [bind].
    eexists; split; [reflexivity|]. fin E. repeat split; auto. exists mx. auto.
  - (* agree *) destruct U as [->| ->].
    + destruct (list_eq_dec ascii_dec (list_ascii_of_string "max") (list_ascii_of_string "max")) as [_|N]; [|congruence].
      eexists; split; [reflexivity|]. fin E. repeat split; auto.
    + destruct (list_eq_dec ascii_dec (list_ascii_of_string "min") (list_ascii_of_string "max")) as [N|_]; [discriminate|].
      destruct (list_eq_dec ascii_dec (list_ascii_of_string "min") (list_ascii_of_string "min")) as [_|N]; [|congruence].
      eexists; split; [reflexivity|]. fin E. repeat split; auto.
  - (* maximise *) eexists; split; [reflexivity|]; fin E; repeat split; auto.
  - (* upper *) destruct U as (xs & Hp & L). destruct (point_held arg xs Hp L) as (buf & Eb & Ev). unfold pbind, lift. rewrite Eb. cbn [bind].
    eexists; split; [reflexivity|]. fin E. repeat split; auto. exists buf, xs. auto.
  - (* lower *) destruct U as (xs & Hp & L). destruct (point_held arg xs Hp L) as (buf & Eb & Ev). unfold pbind, lift. rewrite Eb. cbn [bind].
    eexists; split; [reflexivity|]. fin E. repeat split; auto. exists buf, xs. auto.
  - (* suffix *) eexists; split; [reflexivity|]; fin E; repeat split; auto.
  - (* normalise *) destruct U as (l & h & R & L). rewrite (proj2 (range_ok strtod arg l h) R). destruct (Z.geb_spec l h); [lia|].
    eexists; split; [reflexivity|]; fin E; repeat split; auto. exists l, h. auto.
  - (* log *) destruct U as [Uc L]. rewrite bitvector_ok by auto. eexists; split; [reflexivity|]; fin E; repeat split; auto.
Qed.

Lemma options_hold : forall opts w, Forall (nd_usable strtod d) opts ->
  exists o, nd_options nd_opts0 opts w = Ret (inl o, w) /\ holds o opts.
Proof using junk strtod Hst d Hd. clear Hsort Hscan Hinc sort2d can_create junk_int junk_bool scan data_inc fmt fmt_int divide log10 one.
  intros opts w. induction opts as [|x opts IH] using rev_ind; intros U.
  - exists nd_opts0. split; auto. apply holds_nil.
  - apply Forall_app in U. destruct U as [U1 U2]. destruct (IH U1) as (o & E & H).
    destruct (step_holds o opts x w) as (o' & E' & H'); auto. { now inversion U2. }
    exists o'. split; auto. rewrite options_app. unfold pbind at 1. rewrite E. cbn [bind NdCmdModel.nd_options]. unfold pbind. rewrite E'. reflexivity.
Qed.

Lemma options_refused : forall pre x post status w, Forall (nd_usable strtod d) pre -> nd_refused strtod x status ->
  nd_options nd_opts0 (pre ++ x :: post) w = Ret (inr status, w).
Proof using junk strtod Hst d Hd. clear Hsort Hscan Hinc sort2d can_create junk_int junk_bool scan data_inc fmt fmt_int divide log10 one.
  intros pre x post status w U R. destruct (options_hold pre w U) as (o & E & H).
  rewrite options_app. unfold pbind at 1. rewrite E. cbn [bind NdCmdModel.nd_options]. unfold pbind.
  assert (S : nd_option_step o x w = Ret (inr status, w)); [|now rewrite S].
  destruct o as [v c f b u mm dim a m lo up s rg lg]. destruct x; cbn [nd_refused] in R; try contradiction; cbn [NdCmdModel.nd_option_step].
  - destruct (C50_directions junk arg dim) as (r & Er & N & X & P). unfold pbind, lift. rewrite Er. cbn [bind].
    destruct R as [[R ->]|[R ->]].
    + destruct R as (ch & Hc & Hn). rewrite (proj2 N); [reflexivity|]. exists ch. split; auto.
    + rewrite (proj2 X); [reflexivity|]. auto.
  - destruct R as (R1 & R2 & ->). destruct (list_eq_dec ascii_dec arg (list_ascii_of_string "max")); [contradiction|].
    destruct (list_eq_dec ascii_dec arg (list_ascii_of_string "min")); [contradiction|]. reflexivity.
  - destruct R as [R ->]. unfold pbind, lift. rewrite (read_point_refused strtod Hst junk arg R). reflexivity.
  - destruct R as [R ->]. unfold pbind, lift. rewrite (read_point_refused strtod Hst junk arg R). reflexivity.
  - destruct R as [R ->]. destruct (read_range strtod arg) as [[l h]|] eqn:Q; [|reflexivity]. apply range_ok in Q. specialize (R l h Q).
    destruct (Z.geb_spec l h); [reflexivity|lia].
  - destruct R as [(ch & I & N0 & N1) ->]. rewrite (bitvector_refused arg ch) by auto. reflexivity.
  - subst. reflexivity.
Qed.

(** ** One file *)
Variable opts : list nd_option.
Variable mx : list bool.
Hypothesis Hgoals : goals d opts mx.
Hypothesis H2 : d <> 2%nat \/ agree_of opts = None.
Variable rg : option (Z * Z).
Hypothesis Hrg : range_is strtod opts rg.
Local Notation image := (image divide log10 one d opts mx rg).
Local Notation result d opts mx := (result divide log10 one d opts mx rg).
Local Notation heading fmt fmt_int name opts mx := (heading fmt fmt_int log10 name opts mx rg).
Local Notation process_file := (process_file sort2d can_create junk junk_int junk_bool scan data_inc fmt fmt_int divide log10 one).

Lemma mx_length : length mx = d.
Proof. unfold goals in Hgoals. destruct (obj_of opts); [tauto|]. rewrite Hgoals. apply repeat_length. Qed.
Lemma repeat_map : forall A B (f : A -> B) x n, map f (repeat x n) = repeat (f x) n.
Proof. induction n; cbn; auto. now rewrite IHn. Qed.
Lemma minmax_ok : forall o w, holds o opts ->
  match n_minmax o with
  | None => lift (default_minmax d (if n_maximise o then 1 else -1))
  | Some m => lift (vec d m)
  end w = Ret (inl (minmax_from_bool mx), w).
Proof.
  intros o w (_ & _ & _ & _ & _ & Hm & _ & _ & H & _). pose proof mx_length as L. unfold goals in Hgoals. destruct (obj_of opts) as [a|].
  - destruct H as (mx' & Ha & L' & ->). assert (mx' = mx).
    { destruct Hgoals as [Ha' _]. clear - Ha Ha'. revert mx Ha'. induction Ha as [|c b a mx' E Ha IH]; intros mx Ha'; inversion Ha'; subst; auto.
      f_equal; auto. destruct b, y; auto; discriminate. }
    subst mx'. unfold lift, vec. assert (Lm : length (minmax_from_bool mx) = d) by (unfold minmax_from_bool; now rewrite map_length).
    rewrite Lm, Nat.leb_refl. rewrite <- Lm, firstn_all. reflexivity.
  - rewrite H. unfold lift, default_minmax. destruct (Nat.ltb_spec 0 d); [|lia]. rewrite Hm. cbn [assert_ bind].
    replace ((((if maximise_on opts then 1 else -1) =? -1) || ((if maximise_on opts then 1 else -1) =? 1))) with true by (destruct (maximise_on opts); auto).
    cbn [assert_ bind]. rewrite Hgoals. unfold minmax_from_bool. rewrite repeat_map. destruct (maximise_on opts); reflexivity.
Qed.

Lemma goal_signs : map (fun m => if m <? 0 then "-"%char else if m >? 0 then "+"%char else "i"%char) (minmax_from_bool mx) =
  map (fun b : bool => if b then "+"%char else "-"%char) mx.
Proof. unfold minmax_from_bool. rewrite map_map. apply map_ext. intros []; reflexivity. Qed.
Lemma range_held : forall o, holds o opts -> n_range o = rg.
Proof.
  intros o (_ & _ & _ & _ & _ & _ & _ & _ & _ & _ & _ & _ & H & _). unfold range_is in Hrg. destruct (range_of opts); [|congruence].
  destruct H as (lo & hi & R & ->), Hrg as (lo' & hi' & R' & ->). apply range_ok in R, R'. congruence.
Qed.
Definition log_bits : option (list bool) := option_map (map (fun c => Ascii.eqb c "1")) (log_of opts).
Lemma logs_held : forall o w, holds o opts ->
  match n_log o with None => pret None | Some l => l <~ lift (bits d l) ;; pret (Some l) end w = Ret (inl log_bits, w).
Proof.
  intros o w (_ & _ & _ & _ & _ & _ & _ & _ & _ & _ & _ & _ & _ & H). unfold log_bits. destruct (log_of opts) as [a|]; [|now rewrite H].
  destruct H as (L & _ & ->). unfold pbind, lift, bits. rewrite map_length, L, Nat.leb_refl. cbn [bind].
  assert (La : length (map (fun c => Ascii.eqb c "1") a) = d) by now rewrite map_length. rewrite <- La, firstn_all. reflexivity.
Qed.
Lemma log_length : forall o a, holds o opts -> log_of opts = Some a -> length a = d.
Proof. intros o a (_ & _ & _ & _ & _ & _ & _ & _ & _ & _ & _ & _ & _ & H) E. rewrite E in H. tauto. Qed.
Lemma log_is_logged : forall o p, holds o opts -> length p = d ->
  match log_bits with Some l => logarithm_row log10 l | None => fun p => p end p = logged log10 opts p.
Proof.
  intros o p Ho L. unfold log_bits. destruct (log_of opts) as [a|] eqn:E; cbn [option_map].
  - apply log_row_logged; auto. rewrite (log_length o a); auto.
  - unfold logged. now rewrite E.
Qed.
Lemma header_ok : forall o name lb ub, holds o opts ->
  output_header fmt fmt_int (list_ascii_of_string name) d (minmax_from_bool mx) (n_agree o) (n_range o) (logged log10 opts lb) (logged log10 opts ub) log_bits =
  heading fmt fmt_int name opts mx lb ub.
Proof.
  intros o name lb ub Ho. rewrite (range_held o Ho). destruct Ho as (_ & _ & _ & _ & _ & _ & _ & Ha & _ & _ & _ & _ & _ & Hl).
  unfold output_header, file_info, NdCmdSpec.heading. rewrite goal_signs, !spaced_vector, Ha, mx_length.
  assert (E1 : match log_bits with
      | Some l => list_ascii_of_string "# logarithm: " ++ map (fun b : bool => if b then "1"%char else "0"%char) l ++ [nl]
      | None => []
      end = match log_of opts with Some a => str "# logarithm: " ++ a ++ [nl] | None => [] end).
  { unfold log_bits. destruct (log_of opts) as [a|]; auto. cbn [option_map]. destruct Hl as (_ & Hc & _). unfold str. do 2 f_equal.
    rewrite map_map. rewrite (map_ext_in _ (fun c => c)). apply map_id. intros c Ic. destruct (Hc c Ic) as [-> | ->]; reflexivity. }
  rewrite E1. rewrite <- !app_assoc. cbn [app]. unfold str. repeat f_equal. destruct (agree_of opts) as [[|]|]; reflexivity.
  destruct rg as [[lo hi]|]; auto. cbn [spaced]. rewrite <- !app_assoc. reflexivity.
Qed.

Lemma bounds_unique : forall pts (P : nat -> list point -> Z -> Prop) a b,
  (forall i x y, P i pts x -> P i pts y -> x = y) -> length a = d -> length b = d ->
  (forall i, (i < d)%nat -> P i pts (coord a i)) -> (forall i, (i < d)%nat -> P i pts (coord b i)) -> a = b.
Proof.
  intros pts P a b U La Lb A B. apply (nth_ext _ _ 0 0); [lia|]. intros i Hi. rewrite La in Hi. apply (U i); [apply A|apply B]; auto.
Qed.
Lemma least_unique : forall pts i x y, least i pts x -> least i pts y -> x = y.
Proof. intros pts i x y ((p & Hp & Ep) & A) ((q & Hq & Eq) & B). specialize (A q Hq). specialize (B p Hp). lia. Qed.
Lemma greatest_unique : forall pts i x y, greatest i pts x -> greatest i pts y -> x = y.
Proof. intros pts i x y ((p & Hp & Ep) & A) ((q & Hq & Eq) & B). specialize (A q Hq). specialize (B p Hp). lia. Qed.

Lemma any_less_false : forall a b, (forall i, (i < d)%nat -> coord b i <= coord a i) -> any_less_than d a b = false.
Proof using d. clear Hsort Hscan Hinc Hst Hgoals H2 Hd.
  intros a b H. unfold any_less_than. apply not_true_iff_false. intros E. apply existsb_exists in E. destruct E as (i & Hi & L).
  apply in_seq in Hi. apply Z.ltb_lt in L. specialize (H i ltac:(lia)). lia.
Qed.
Lemma any_less_true : forall a b i, (i < d)%nat -> coord a i < coord b i -> any_less_than d a b = true.
Proof using d. clear Hsort Hscan Hinc Hst Hgoals H2 Hd.
  intros a b i Hi H. unfold any_less_than. apply existsb_exists. exists i. split. apply in_seq; lia. now apply Z.ltb_lt.
Qed.

Definition name_of (filename : option string) : string := match filename with None => "<stdin>"%string | Some f => f end.
(** the output for a file: nothing, or the text *)
Definition file_done (filename : option string) (lb ub : point) (sets' : list (list point)) (w w' : world) : Prop :=
  if writes opts
  then delivered (match filename with None => None | Some _ => Some (suffix_of opts) end)
                 (match filename with None => EmptyString | Some f => f end)
                 (heading fmt fmt_int (name_of filename) opts mx lb ub ++ sets_lines fmt sets') w w'
  else w' = w.
(** the bound that a file is processed with *)
Definition bound_used (b : option (list Z)) (check : bool) (best : nat -> list point -> Z -> Prop) (le : Z -> Z -> Prop) (pts : list point) (v : point) : Prop :=
  length v = d /\
  match b with
  | None => forall i, (i < d)%nat -> best i pts (coord v i)
  | Some buf => vec d buf = Ret v /\ (check = true -> force_on opts = false -> forall p i, In p pts -> (i < d)%nat -> le (coord v i) (coord p i))
  end.
Definition verdict (lb ub : point) (sets : list (list point)) (found : bool) : Prop :=
  if check_on opts then (found = true <-> exists s1 S, bounded d opts lb ub (united opts sets) s1 /\ In S s1 /\ flagged (aims (agree_of opts) mx) (map (image lb ub) S))
  else found = false.

Lemma selected_in : forall A (P : A -> Prop) l l', selected P l l' -> forall x, In x l' -> In x l.
Proof. intros A P l l' H. induction H; intros y Hy; auto. destruct Hy as [<-|Hy]. now left. right; auto. right; auto. Qed.
Lemma bounded_unique : forall lb ub sets a b, bounded d opts lb ub sets a -> bounded d opts lb ub sets b -> a = b.
Proof.
  intros lb ub sets a b. unfold bounded. destruct (force_on opts); [|congruence]. apply C35_result_unique.
Qed.

Ltac np := change point with (list Z) in *.
Definition output_fails (filename : option string) : Prop :=
  writes opts = true /\ exists f, filename = Some f /\ can_create (f ++ suffix_of opts)%string = false.
Lemma process_run : forall o filename dim lbo ubo cmin cmax sets w w1 lb ub, holds o opts ->
  read_input junk junk_int scan data_inc filename dim w = Ret (inl (layout d sets), w1) ->
  sets <> [] -> (forall S, In S sets -> S <> [] /\ wide d S) ->
  bound_used lbo cmin least Z.le (concat sets) lb -> bound_used ubo cmax greatest Z.ge (concat sets) ub ->
  exists found b sets' r w2, process_file o filename dim lbo ubo cmin cmax w = Ret (r, w2) /\
    is_bounds d (concat sets) b /\ result d opts mx lb ub sets sets' /\ verdict lb ub sets found /\
    (~ output_fails filename /\ r = inl (found, b, d) /\ file_done filename lb ub sets' w1 w2 \/ output_fails filename /\ r = inr EXIT_FAILURE /\ w2 = w1).
Proof.
  intros o filename dim lbo ubo cmin cmax sets w w1 lb ub Ho Er Ne Ws Bl Bu.
  pose proof mx_length as Lmx. pose proof Ho as (_ & Hf & Hc & Hb & Hu & _ & Hs & Ha & _).
  assert (Wc : wide d (concat sets)) by (apply wide_concat; intros; now apply Ws).
  assert (Nc : concat sets <> []). { destruct sets as [|s l]; [congruence|]. destruct (Ws s (or_introl eq_refl)) as [N0 _]. cbn. destruct s; [congruence|discriminate]. }
  unfold NdCmdModel.process_file. unfold pbind at 1. rewrite Er. cbn [bind].
  cbn [layout ds_cumsizes ds_nsets ds_nobjs ds_data].
  unfold pbind at 1. unfold lift at 1. rewrite last_cum by auto. cbn [bind]. change (@concat (list Z) sets) with (@concat point sets).
  unfold pbind at 1. rewrite minmax_ok by auto. cbn [bind].
  unfold pbind at 1. unfold lift at 1. rewrite all_rows by auto. cbn [bind].
  destruct (data_bounds_new d (concat sets) Wc Nc) as (b & Eb & Ib). unfold pbind at 1. unfold lift at 1.
  match goal with |- context [data_bounds None None ?l] => change (data_bounds None None l) with (data_bounds None None (concat sets)) end. rewrite Eb. cbn [bind].
  destruct Ib as (Lb1 & Lb2 & Ib).
  (* the bounds *)
  assert (El : match lbo with
        | None => pret (fst b)
        | Some l =>
            l <~ lift (vec d l) ;;
            if cmin && negb (n_force o) && any_less_than d (fst b) l then exit_ EXIT_FAILURE else pret l
        end w1 = Ret (inl lb, w1)).
  { destruct Bl as [Ll Bl]. destruct lbo as [l|].
    - destruct Bl as [Ev Bl]. unfold pbind, lift. rewrite Ev. cbn [bind].
      destruct (cmin && negb (n_force o) && any_less_than d (fst b) lb) eqn:Q; auto. exfalso.
      apply andb_true_iff in Q. destruct Q as [Q1 Q2]. apply andb_true_iff in Q1. destruct Q1 as [-> Q1]. apply negb_true_iff in Q1.
      rewrite any_less_false in Q2; [discriminate|]. intros i Hi. destruct (Ib i Hi) as [[(p & Hp & <-) _] _]. apply Bl; auto. congruence.
    - unfold pret. do 2 f_equal. f_equal. apply (bounds_unique (concat sets) least); auto. intros; eapply least_unique; eauto.
      intros i Hi. now apply Ib. }
  unfold pbind at 1. rewrite El. cbn [bind]. clear El.
  assert (Eu : match ubo with
        | None => pret (snd b)
        | Some u =>
            u <~ lift (vec d u) ;;
            if cmax && negb (n_force o) && any_less_than d u (snd b) then exit_ EXIT_FAILURE else pret u
        end w1 = Ret (inl ub, w1)).
  { destruct Bu as [Lu Bu]. destruct ubo as [u|].
    - destruct Bu as [Ev Bu]. unfold pbind, lift. rewrite Ev. cbn [bind].
      destruct (cmax && negb (n_force o) && any_less_than d ub (snd b)) eqn:Q; auto. exfalso.
      apply andb_true_iff in Q. destruct Q as [Q1 Q2]. apply andb_true_iff in Q1. destruct Q1 as [-> Q1]. apply negb_true_iff in Q1.
      rewrite any_less_false in Q2; [discriminate|]. intros i Hi. destruct (Ib i Hi) as [_ [(p & Hp & <-) _]]. apply Z.ge_le. apply Bu; auto. congruence.
    - unfold pret. do 2 f_equal. f_equal. apply (bounds_unique (concat sets) greatest); auto. intros; eapply greatest_unique; eauto.
      intros i Hi. now apply Ib. }
  unfold pbind at 1. rewrite Eu. cbn [bind]. clear Eu.
  (* the union *)
  set (us := united opts sets).
  assert (Ecs : (if n_union o then [length (concat sets)] else cum_from 0 sets) = cum_from 0 us).
  { unfold us, united. rewrite Hu. destruct (union_on opts); auto. }
  np. rewrite Ecs. clear Ecs.
  assert (Cu : concat us = concat sets). { unfold us, united. destruct (union_on opts); auto. cbn. apply app_nil_r. }
  assert (Nu : us <> []). { unfold us, united. destruct (union_on opts); [discriminate|auto]. }
  (* force_bounds *)
  assert (Ef : exists s1 pts', (if n_force o then r <- force_bounds d lb ub junk_bool (concat sets) (cum_from 0 us) ;; Ret (snd (fst r), snd r)
              else Ret (concat sets, cum_from 0 us)) = Ret (pts', cum_from 0 s1) /\ bounded d opts lb ub us s1 /\
              firstn (length (concat s1)) pts' = concat s1 /\ length s1 = length us /\ wide d (concat s1)).
  { rewrite Hb. unfold bounded. destruct (force_on opts).
    - destruct (C35_force_bounds junk_bool d lb ub us Nu) as (s1 & pts' & flag & E & F & K & _).
      unfold cumsizes_of in E. rewrite !cumsizes_cum in E. np. rewrite Cu in E. rewrite E. exists s1, pts'. split; auto. split; auto. split; auto. split.
      { clear - F. induction F; cbn; auto. }
      intros p Hp. apply Wc. rewrite <- Cu. clear - F Hp. induction F as [|a b l l' S F IH]; auto. cbn in *. apply in_app_iff. apply in_app_iff in Hp.
      destruct Hp as [Hp|Hp]; [left; eapply selected_in; eauto|right; auto].
    - exists us, (concat sets). split; auto. split; auto. np. rewrite Cu. split. apply firstn_all. split; auto. }
  destruct Ef as (s1 & pts' & Ef & B1 & Fp & Ls1 & Ws1). unfold pbind at 1. unfold lift at 1. np. rewrite Ef. cbn [bind fst snd]. clear Ef. np.
  assert (Ns1 : s1 <> []). { destruct s1; [destruct us; [congruence|discriminate]|discriminate]. }
  unfold pbind at 1. unfold lift at 1. rewrite cum_from_length, last_cum by auto. cbn [bind]. np. rewrite Fp. clear Fp.
  (* the transformations *)
  unfold pbind at 1. rewrite (logs_held o w1 Ho). cbn [bind].
  assert (Llb : length lb = d) by apply Bl. assert (Lub : length ub = d) by apply Bu.
  pose proof (log_is_logged o lb Ho Llb) as Gl. pose proof (log_is_logged o ub Ho Lub) as Gu. np. rewrite Gl, Gu. rewrite Ha, points_turned. set (a := agree_of opts) in *.
  assert (Ct : match n_range o with
      | Some (lower, upper) => map (normalise_row divide one (minmax_from_bool mx) (agree_code a) lower upper (logged log10 opts lb) (logged log10 opts ub))
          (map (turned a mx) (map match log_bits with Some l => logarithm_row log10 l | None => fun p => p end (concat s1)))
      | None => map (turned a mx) (map match log_bits with Some l => logarithm_row log10 l | None => fun p => p end (concat s1))
      end = concat (map (map (image lb ub)) s1)).
  { rewrite <- concat_map. rewrite (range_held o Ho). rewrite (map_ext_in _ (logged log10 opts) (concat s1)).
    2: { intros p Hp. apply (log_is_logged o p Ho). now apply Ws1. }
    pose proof (fun p Hp => rows_image divide log10 one d opts mx rg lb ub p Lmx Llb Lub (Ws1 p Hp)) as Ri. fold a in Ri.
    destruct rg as [[lo hi]|]; rewrite !map_map; apply map_ext_in; exact Ri. }
  np. rewrite Ct. clear Ct. set (T := map (map (image lb ub)) s1).
  assert (CT : cum_from 0 s1 = cum_from 0 T) by (unfold T; now rewrite cum_from_map). np. rewrite CT. clear CT.
  assert (WT : IoMain.wide Z d T).
  { intros S r HS Hr. unfold T in HS. apply in_map_iff in HS. destruct HS as (S0 & <- & HS0). apply in_map_iff in Hr. destruct Hr as (r0 & <- & Hr0).
    apply image_length. }
  unfold pbind at 1. unfold lift at 1. rewrite slices_ok. cbn [bind]. np.
  (* check *)
  assert (Wf : Forall (wf_points (length mx)) T).
  { apply Forall_forall. intros S HS. apply Forall_forall. intros p Hp. rewrite Lmx. now apply (WT S). }
  assert (Ek : exists nds found, (if n_check o || n_filter o then check_nondominated sort2d T d (minmax_from_bool mx) (agree_code a) else Ret ([], false))
      = Ret (concat nds, found) /\ (check_on opts = true -> Forall2 (strict_filter_spec (aims a mx)) T nds) /\
      (if check_on opts then (found = true <-> exists S, In S T /\ flagged (aims a mx) S) else found = false)).
  { assert (Hk : n_check o || n_filter o = check_on opts).
    { unfold check_on. rewrite <- Hf. destruct Hc as [-> | ->]. now rewrite orb_true_r. apply orb_comm. }
    rewrite Hk. destruct (check_on opts).
    - destruct (check_agreed sort2d a mx T Hsort Wf) as (nds & found & E & F & K). { rewrite Lmx. auto. }
      exists nds, found. rewrite Lmx in E. auto.
    - exists [], false. split; auto. split; auto. discriminate. }
  destruct Ek as (nds & found & Ek & Kf & Kv). unfold pbind at 1. unfold lift at 1. np. rewrite Ek. cbn [bind]. clear Ek.
  assert (V : verdict lb ub sets found).
  { unfold verdict. fold a. destruct (check_on opts); auto. rewrite Kv. unfold T. split.
    - intros (S & HS & K). apply in_map_iff in HS. destruct HS as (S0 & <- & HS). exists s1, S0. auto.
    - intros (s1' & S & B' & HS & K). exists (map (image lb ub) S). split; auto. apply in_map.
      rewrite (bounded_unique lb ub (united opts sets) s1 s1'); auto. }
  (* the sets that are written *)
  assert (Es : exists s2, filtered opts (aims a mx) T s2 /\
     (if n_filter o && found then write_sets_filtered Z fmt (concat (concat T)) d (cum_from 0 T) (concat nds)
      else write_sets Z fmt (concat (concat T)) d (cum_from 0 T)) = Ret (sets_lines fmt s2)).
  { pose proof (fun p => write_sets_from_ok Z data_inc Hinc fmt d T p WT T [] eq_refl) as Wr. cbn [concat length] in Wr.
    unfold write_sets_filtered, write_sets. rewrite !Wr, !lines_sets. clear Wr.
    assert (All : kept_from Z (fun _ => true) 0 T = T).
    { clear. generalize 0%nat. induction T as [|S l IH]; intros n; cbn [kept_from]; auto. rewrite IH. f_equal. clear.
      revert n. induction S as [|p S IH]; intros n; cbn; auto. f_equal. apply IH. }
    unfold filtered. rewrite Hf. unfold check_on in *. destruct (filter_on opts) eqn:Qf; cbn [andb orb] in *.
    - specialize (Kf eq_refl). destruct found.
      + exists (map (fun x => keep (snd x) (fst x)) (combine T nds)). split.
        * clear - Kf. induction Kf as [|S nd l l' K Kf IH]; cbn; constructor; auto. now apply strict_part.
        * pose proof (kept_sets T nds []) as Q. cbn [app length] in Q. rewrite Q.
          -- reflexivity.
          -- clear - Kf. induction Kf as [|S nd l l' K Kf IH]; cbn; constructor; auto. apply K.
      + exists T. split; [|now rewrite All]. assert (K : forall S, In S T -> ~ redundant (aims a mx) S).
        { intros S HS R. assert (false = true); [|discriminate]. apply Kv. exists S. split; auto. now apply redundant_flagged. }
        clear - K. induction T as [|S l IH]; constructor. apply not_redundant_part. apply K. now left. apply IH. intros; apply K; now right.
    - exists T. split; auto. now rewrite All. }
  destruct Es as (s2 & F2 & Es). np. change (map (map (image lb ub)) s1) with T. rewrite Es. clear Es.
  exists found, b, s2.
  assert (Rs : result d opts mx lb ub sets s2) by (exists s1; auto).
  assert (Hw : n_filter o || negb (agree_code a =? 0) || match n_range o with Some _ => true | None => false end || n_force o ||
      match log_bits with Some l => existsb (fun b => b) l | None => false end = writes opts).
  { unfold writes. fold a. rewrite Hf, Hb. destruct Ho as (_ & _ & _ & _ & _ & _ & _ & _ & _ & _ & _ & _ & Hr & _).
    assert (E1 : match n_range o with Some _ => true | None => false end = match range_of opts with Some _ => true | None => false end).
    { destruct (range_of opts). now destruct Hr as (lo & hi & _ & ->). now rewrite Hr. }
    assert (E2 : match log_bits with Some l => existsb (fun b => b) l | None => false end =
                 match log_of opts with Some t => existsb (Ascii.eqb "1") t | None => false end).
    { unfold log_bits. destruct (log_of opts) as [t|]; auto. cbn [option_map]. clear. induction t as [|c t IH]; auto. cbn [map existsb].
      rewrite IH, Ascii.eqb_sym. reflexivity. }
    rewrite E1, E2. destruct a as [[|]|], (filter_on opts), (force_on opts), (match range_of opts with Some _ => true | None => false end); reflexivity. }
  rewrite Hw. unfold file_done, output_fails. destruct (writes opts) eqn:Ew.
  - rewrite Hs. destruct (match filename with Some f => can_create (f ++ suffix_of opts)%string | None => true end) eqn:Ec.
    + destruct (output_delivered can_create filename (Some (suffix_of opts)) w1) as (f & w3 & E3 & Op & Si & Del).
      { intros f s Ef Es. inversion Es; subst. auto. }
      unfold pbind at 1. unfold pbind at 1. rewrite E3. cbn [bind].
      replace (list_ascii_of_string match filename with Some n => n | None => "<stdin>" end) with (list_ascii_of_string (name_of filename))
        by (unfold name_of; now destruct filename).
      assert (Eh : agree_code a = n_agree o) by (symmetry; exact Ha). rewrite Eh, header_ok by auto.
      destruct (fwrite_ok f (heading fmt fmt_int (name_of filename) opts mx lb ub) w3 Op) as (w4 & E4 & R4).
      unfold pbind at 1. rewrite E4. cbn [bind]. unfold pbind at 1. unfold lift at 1. cbn [bind].
      destruct (fwrite_ok f (sets_lines fmt s2) w4 (written_open _ _ _ _ R4)) as (w5 & E5 & R5).
      np. rewrite E5. cbn [bind]. exists (inl (found, b, d)), w5. split; [reflexivity|]. split. { split; auto. }
      split; auto. split; auto. left. split. { intros (_ & f' & Ef & C). rewrite Ef in Ec. congruence. } split; auto. apply Del. eapply written_app; eauto.
    + destruct filename as [f|]; [|discriminate]. unfold pbind at 1. unfold pbind at 1. cbn [output_of]. unfold open_output. rewrite Ec. cbn [bind].
      exists (inr EXIT_FAILURE), w1. split; [reflexivity|]. split. { split; auto. } split; auto. split; auto. right. split; auto. split; auto. exists f; auto.
  - exists (inl (found, b, d)), w1. split; [reflexivity|]. split. { split; auto. } split; auto. split; auto. left. split; auto. intros [H _]. discriminate.
Qed.
Lemma process_ok : forall o filename dim lbo ubo cmin cmax sets w w1 lb ub, holds o opts ->
  read_input junk junk_int scan data_inc filename dim w = Ret (inl (layout d sets), w1) ->
  sets <> [] -> (forall S, In S sets -> S <> [] /\ wide d S) ->
  bound_used lbo cmin least Z.le (concat sets) lb -> bound_used ubo cmax greatest Z.ge (concat sets) ub ->
  (writes opts = true -> forall f, filename = Some f -> can_create (f ++ suffix_of opts)%string = true) ->
  exists found b sets' w2, process_file o filename dim lbo ubo cmin cmax w = Ret (inl (found, b, d), w2) /\
    is_bounds d (concat sets) b /\ result d opts mx lb ub sets sets' /\ file_done filename lb ub sets' w1 w2 /\ verdict lb ub sets found.
Proof.
  intros o filename dim lbo ubo cmin cmax sets w w1 lb ub Ho Er Ne Ws Bl Bu Cc.
  destruct (process_run o filename dim lbo ubo cmin cmax sets w w1 lb ub Ho Er Ne Ws Bl Bu) as (found & b & s2 & r & w2 & E & Ib & Rs & V & [(_ & -> & D)|[(W & f & Ef & C) _]]).
  - exists found, b, s2, w2. auto.
  - rewrite (Cc W f Ef) in C. discriminate.
Qed.
Lemma process_no_output : forall o f dim lbo ubo cmin cmax sets w w1 lb ub, holds o opts ->
  read_input junk junk_int scan data_inc (Some f) dim w = Ret (inl (layout d sets), w1) ->
  sets <> [] -> (forall S, In S sets -> S <> [] /\ wide d S) ->
  bound_used lbo cmin least Z.le (concat sets) lb -> bound_used ubo cmax greatest Z.ge (concat sets) ub ->
  writes opts = true -> can_create (f ++ suffix_of opts)%string = false ->
  process_file o (Some f) dim lbo ubo cmin cmax w = Ret (inr EXIT_FAILURE, w1).
Proof.
  intros o f dim lbo ubo cmin cmax sets w w1 lb ub Ho Er Ne Ws Bl Bu W C.
  destruct (process_run o (Some f) dim lbo ubo cmin cmax sets w w1 lb ub Ho Er Ne Ws Bl Bu) as (found & b & s2 & r & w2 & E & _ & _ & _ & [(N & _)|[_ [-> ->]]]); auto.
  exfalso. apply N. split; auto. exists f. auto.
Qed.

(** ** Several files *)
Local Notation nd_files := (nd_files sort2d can_create junk junk_int junk_bool scan data_inc fmt fmt_int divide log10 one).
Local Notation nd_outputs := (nd_outputs fmt fmt_int log10 opts mx rg).
Definition no_overwriting (names : list string) : Prop := writes opts = true -> not_overwritten (Some (suffix_of opts)) names.
Definition creatable (names : list string) : Prop := writes opts = true -> forall n, In n names -> can_create (n ++ suffix_of opts)%string = true.

Lemma outputs_cons : forall lb ub n names s outs w w1 w2, file_done (Some n) lb ub s w w1 ->
  delivered_all (Some (suffix_of opts)) (nd_outputs lb ub names outs) w1 w2 ->
  delivered_all (Some (suffix_of opts)) (nd_outputs lb ub (n :: names) (s :: outs)) w w2.
Proof.
  intros lb ub n names s outs w w1 w2 A B. unfold NdCmdSpec.nd_outputs, file_done in *. destruct (writes opts).
  - cbn [combine map fst snd]. econstructor; eauto.
  - now subst w1.
Qed.
Lemma contains_done : forall lb ub n s w w1 names contents, file_done (Some n) lb ub s w w1 -> no_overwriting (n :: names) ->
  Forall2 (contains scan w d) names contents -> Forall2 (contains scan w1 d) names contents.
Proof.
  intros lb ub n s w w1 names contents A N F. unfold file_done, no_overwriting in *. destruct (writes opts); [|now subst].
  specialize (N eq_refl). inversion N as [|? ? N1 N2]; subst. clear - A N1 F.
  induction F as [|m sets names contents C F IH]; constructor.
  - eapply kept; eauto. cbn. inversion N1; auto.
  - apply IH. inversion N1; auto.
Qed.
Lemma no_over_tail : forall n names, no_overwriting (n :: names) -> no_overwriting names.
Proof. intros n names H W. specialize (H W). now inversion H. Qed.

Definition given {A} (x : option A) : bool := match x with Some _ => true | None => false end.
(** the bounds in use in the loop over the files *)
Definition bound_now (b : option (list Z)) (m v : point) : Prop :=
  length v = d /\ match b with Some buf => vec d buf = Ret v | None => m = v end.
Definition kept_bounds (o : nd_opts) (b : point * point) (lb ub : point) : Prop := bound_now (n_lower o) (fst b) lb /\ bound_now (n_upper o) (snd b) ub.
Definition next_bounds (o : nd_opts) (b tmp : point * point) : point * point :=
  if given (n_lower o) && given (n_upper o)
  then (map2 HvCmdModel.lower (fst b) (fst tmp), map2 HvCmdModel.higher (snd b) (snd tmp)) else b.
Lemma kept_next : forall o b tmp lb ub, kept_bounds o b lb ub -> kept_bounds o (next_bounds o b tmp) lb ub.
Proof.
  intros o b tmp lb ub [[L A] [L' B]]. unfold kept_bounds, bound_now, next_bounds. split; (split; [auto|]).
  - destruct (n_lower o); auto.
  - destruct (n_upper o); auto. rewrite andb_comm. auto.
Qed.
Lemma bounds_next : forall o b tmp seen pts, is_bounds d seen b -> is_bounds d pts tmp ->
  is_bounds d (if given (n_lower o) && given (n_upper o) then seen ++ pts else seen) (next_bounds o b tmp).
Proof.
  intros o [bl bu] [tl tu] seen pts A B. unfold next_bounds. destruct (given (n_lower o) && given (n_upper o)); auto.
  destruct A as (L1 & L2 & A), B as (L3 & L4 & B). cbn [fst snd] in *.
  split; cbn [fst snd]. rewrite map2_length; lia. split. rewrite map2_length; lia.
  intros i Hi. rewrite !map2_coord, lower_min, higher_max by lia.
  destruct (A i Hi) as [[(p & Hp & Ep) Al] [(q & Hq & Eq) Ag]], (B i Hi) as [[(p' & Hp' & Ep') Bl] [(q' & Hq' & Eq') Bg]].
  split; (split; [|intros x Hx; apply in_app_iff in Hx; destruct Hx as [Hx|Hx]; [specialize (Al x Hx); specialize (Ag x Hx)|specialize (Bl x Hx); specialize (Bg x Hx)]; lia]).
  - destruct (Z.le_gt_cases (coord bl i) (coord tl i)); [exists p|exists p']; rewrite in_app_iff; split; auto; lia.
  - destruct (Z.le_gt_cases (coord tu i) (coord bu i)); [exists q|exists q']; rewrite in_app_iff; split; auto; lia.
Qed.

(** every point checked against a given bound is inside *)
Definition all_inside (lb ub : point) (pts : list point) : Prop := force_on opts = false -> forall p, In p pts -> inside d lb ub p.
Definition file_flagged (lb ub : point) (sets : list (list point)) : Prop :=
  exists s1 S, bounded d opts lb ub (united opts sets) s1 /\ In S s1 /\ flagged (aims (agree_of opts) mx) (map (image lb ub) S).

Lemma used_in_loop : forall o b lb ub sets, kept_bounds o b lb ub -> all_inside lb ub (concat sets) ->
  bound_used (Some (match n_lower o with Some l => l | None => fst b end)) (given (n_lower o)) least Z.le (concat sets) lb /\
  bound_used (Some (match n_upper o with Some u => u | None => snd b end)) (given (n_upper o)) greatest Z.ge (concat sets) ub.
Proof.
  intros o b lb ub sets [[L A] [L' B]] I. unfold bound_used. split; (split; [auto|]).
  - split.
    + destruct (n_lower o); auto. rewrite A. unfold vec. rewrite L, Nat.leb_refl, <- L, firstn_all. auto.
    + intros _ F p i Hp Hi. apply (I F p Hp i Hi).
  - split.
    + destruct (n_upper o); auto. rewrite B. unfold vec. rewrite L', Nat.leb_refl, <- L', firstn_all. auto.
    + intros _ F p i Hp Hi. apply Z.le_ge. apply (I F p Hp i Hi).
Qed.

Lemma files_ok : forall o lb ub post names contents w b dim found seen, holds o opts -> (dim = d \/ dim = 0%nat) ->
  Forall2 (contains scan w d) names contents -> no_overwriting (names ++ post) -> creatable names ->
  kept_bounds o b lb ub -> is_bounds d seen b -> all_inside lb ub (concat (concat contents)) ->
  exists b' dim' found' outs w',
    (forall rest, nd_files o (names ++ rest) b dim found w = nd_files o rest b' dim' found' w') /\
    (dim' = match names with [] => dim | _ => d end) /\
    Forall2 (result d opts mx lb ub) contents outs /\
    delivered_all (Some (suffix_of opts)) (nd_outputs lb ub names outs) w w' /\
    (forall cs, Forall2 (contains scan w d) post cs -> Forall2 (contains scan w' d) post cs) /\
    (forall f, In f post -> w_files w' f = w_files w f) /\
    kept_bounds o b' lb ub /\ is_bounds d (if given (n_lower o) && given (n_upper o) then seen ++ concat (concat contents) else seen) b' /\
    (if check_on opts then (found' = true <-> found = true \/ exists sets, In sets contents /\ file_flagged lb ub sets) else found' = found).
Proof.
  intros o lb ub post names. induction names as [|n names IH]; intros contents w b dim found seen Ho Hn Hc No Cr Kb Ib Ai.
  - inversion Hc; subst. exists b, dim, found, [], w. split; auto. split; auto. split; auto. split.
    { unfold NdCmdSpec.nd_outputs. destruct (writes opts); constructor. }
    split; auto. split; auto. split; auto. split. { cbn. rewrite app_nil_r. now destruct (_ && _). }
    destruct (check_on opts); auto. split; auto. intros [H|(s & [] & _)]; auto.
  - destruct contents as [|sets contents]; [inversion Hc|].
    assert (Hc1 : contains scan w d n sets) by (inversion Hc; assumption).
    assert (Hc2 : Forall2 (contains scan w d) names contents) by (inversion Hc; assumption).
    destruct (file_sets _ _ _ _ _ Hc1) as [Ns Ws].
    assert (Ai1 : all_inside lb ub (concat sets)). { intros F p Hp. apply (Ai F). cbn [concat]. rewrite concat_app. apply in_or_app. now left. }
    assert (Ai2 : all_inside lb ub (concat (concat contents))). { intros F p Hp. apply (Ai F). cbn [concat]. rewrite concat_app. apply in_or_app. now right. }
    destruct (used_in_loop o b lb ub sets Kb Ai1) as [U1 U2].
    destruct (process_ok o (Some n) dim _ _ _ _ sets w w lb ub Ho (read_input_file junk junk_int scan data_inc Hscan Hinc w n d dim sets Hc1 Hn) Ns Ws U1 U2)
      as (f1 & b1 & s1 & w1 & E1 & Ib1 & R1 & D1 & V1).
    { intros W f Ef. inversion Ef; subst. apply Cr; auto. now left. }
    destruct (IH contents w1 (next_bounds o b b1) d (if f1 then true else found) (if given (n_lower o) && given (n_upper o) then seen ++ concat sets else seen))
      as (b' & dim' & found' & outs & w' & E & Ed & F & D & Kc & Kf & Kb' & Ib' & V); auto.
    { eapply contains_done; eauto. clear - No. intros W. specialize (No W). cbn [app] in No. inversion No as [|? ? N1 N2]; subst. constructor.
      - rewrite Forall_app in N1. tauto.
      - clear - N2. induction names as [|x l IH]; constructor; inversion N2; subst; auto. rewrite Forall_app in H1. tauto. }
    { eapply no_over_tail; eauto. }
    { intros W x Hx. apply Cr; auto. now right. }
    { now apply kept_next. } { now apply bounds_next. }
    exists b', dim', found', (s1 :: outs), w'. split.
    { intros rest. cbn [app NdCmdModel.nd_files]. unfold pbind at 1. fold (@given (list Z)).
      match goal with |- context [process_file ?x1 ?x2 ?x3 ?x4 ?x5 ?x6 ?x7 w] => change (process_file x1 x2 x3 x4 x5 x6 x7 w) with
        (process_file o (Some n) dim (Some (match n_lower o with Some l => l | None => fst b end))
           (Some (match n_upper o with Some u => u | None => snd b end)) (given (n_lower o)) (given (n_upper o)) w) end.
      rewrite E1. cbn [bind]. exact (E rest). }
    split. { subst dim'. now destruct names. }
    split; [constructor; auto|]. split; [eapply outputs_cons; eauto|].
    assert (Tail : no_overwriting (n :: post)).
    { clear - No. intros W. specialize (No W). cbn [app] in No. inversion No as [|? ? N1 N2]; subst. rewrite Forall_app in N1. constructor; [tauto|].
      clear - N2. induction names as [|x l IH]; auto. apply IH. now inversion N2. }
    split. { intros cs Hcs. apply Kc. eapply contains_done; eauto. }
    split. { intros f Hf. rewrite Kf by auto. clear - D1 Tail Hf. unfold file_done, no_overwriting in *. destruct (writes opts); [|now subst].
      specialize (Tail eq_refl). inversion Tail as [|? ? N1 N2]; subst. rewrite Forall_forall in N1. specialize (N1 f Hf).
      destruct D1 as (_ & _ & D1). rewrite D1. destruct (String.eqb_spec f (n ++ suffix_of opts)); auto. subst. congruence. }
    split; auto. split. { cbn [concat]. rewrite concat_app. destruct (given (n_lower o) && given (n_upper o)); auto. rewrite app_assoc. exact Ib'. }
    unfold verdict in V1. fold (file_flagged lb ub sets) in V1. destruct (check_on opts).
    + rewrite V. split.
      * intros [H|(s & Hs & H)].
        -- destruct f1; auto. right. exists sets. split; [now left|]. now apply V1.
        -- right. exists s. split; auto. now right.
      * intros [H|(s & [->|Hs] & H)].
        -- left. now destruct f1.
        -- left. apply V1 in H. now rewrite H.
        -- right. eauto.
    + rewrite V1 in V. auto.
Qed.

(** ** The program *)
Local Notation nd_main := (nd_main sort2d can_create junk junk_int junk_bool scan data_inc strtod fmt fmt_int divide log10 one).
Local Notation nd_bounds := (nd_bounds junk junk_int scan data_inc).

Lemma bound_det : forall arg b best pts lb, bound_held arg b -> bound_is strtod d arg best pts lb ->
  match b with Some buf => vec d buf = Ret lb | None => forall i, (i < d)%nat -> best i pts (coord lb i) end.
Proof.
  intros arg b best pts lb H [L K]. destruct arg as [a|].
  - destruct H as (buf & lb' & -> & P & L' & V). rewrite V. f_equal. eapply point_text_det; eauto.
  - now rewrite H.
Qed.
Lemma crossing_ok : forall o w, holds o opts -> bounds_ordered strtod d opts ->
  match n_lower o, n_upper o with
  | Some l, Some u =>
      l <~ lift (vec (n_dim o) l) ;; u <~ lift (vec (n_dim o) u) ;;
      if any_less_than (n_dim o) u l then exit_ EXIT_FAILURE else pret tt
  | _, _ => pret tt
  end w = Ret (inl tt, w).
Proof using junk strtod Hst d Hd opts. clear Hsort Hscan Hinc Hgoals H2.
  intros o w (_ & _ & _ & _ & _ & _ & _ & _ & _ & Hn & Hl & Hu & _) B. destruct (n_lower o) as [l|]; auto. destruct (n_upper o) as [u|]; auto.
  assert (En : n_dim o = d) by (destruct Hn as [Hn|(_ & Hn & _)]; [auto|discriminate]). rewrite En.
  unfold bound_held in *. destruct (lower_of opts) as [a|] eqn:Ea; [|discriminate]. destruct (upper_of opts) as [c|] eqn:Ec; [|discriminate].
  destruct Hl as (buf & lb & E & P & L & V), Hu as (buf' & ub & E' & P' & L' & V'). inversion E; inversion E'; subst buf buf'.
  unfold pbind, lift. rewrite V. cbn [bind]. rewrite V'. cbn [bind]. rewrite any_less_false; auto.
  intros i Hi. eapply B; eauto.
Qed.

Lemma bounds_single : forall o lb ub pts, holds o opts -> bounds_are strtod d opts pts lb ub -> all_inside lb ub pts ->
  bound_used (n_lower o) true least Z.le pts lb /\ bound_used (n_upper o) true greatest Z.ge pts ub.
Proof.
  intros o lb ub pts (_ & _ & _ & _ & _ & _ & _ & _ & _ & Hn & Hl & Hu & _) [Bl Bu] I. unfold bound_used.
  pose proof (bound_det _ _ _ _ _ Hl Bl) as A. pose proof (bound_det _ _ _ _ _ Hu Bu) as B. destruct Bl as [L1 _], Bu as [L2 _].
  split; (split; [auto|]).
  - destruct (n_lower o); auto. split; auto. intros _ F p i Hp Hi. apply (I F p Hp i Hi).
  - destruct (n_upper o); auto. split; auto. intros _ F p i Hp Hi. apply Z.le_ge. apply (I F p Hp i Hi).
Qed.
Lemma bounds_loop : forall o lb ub pts b, holds o opts -> bounds_are strtod d opts pts lb ub ->
  is_bounds d pts b \/ given (n_lower o) && given (n_upper o) = true -> kept_bounds o b lb ub.
Proof.
  intros o lb ub pts b (_ & _ & _ & _ & _ & _ & _ & _ & _ & Hn & Hl & Hu & _) [Bl Bu] I. unfold kept_bounds, bound_now.
  pose proof (bound_det _ _ _ _ _ Hl Bl) as A. pose proof (bound_det _ _ _ _ _ Hu Bu) as B. destruct Bl as [L1 _], Bu as [L2 _].
  split; (split; [auto|]).
  - destruct (n_lower o); auto. destruct I as [(K1 & K2 & I)|I]; [|discriminate].
    apply (bounds_unique pts least); auto. { intros; eapply least_unique; eauto. } intros i Hi. now apply I.
  - destruct (n_upper o); auto. destruct I as [(K1 & K2 & I)|I]; [|rewrite andb_comm in I; discriminate].
    apply (bounds_unique pts greatest); auto. { intros; eapply greatest_unique; eauto. } intros i Hi. now apply I.
Qed.
Lemma all_stdout : forall s outs w w', delivered_all (Some s) outs w w' -> w_stdout w' = w_stdout w /\ w_stdin w' = w_stdin w.
Proof. intros s outs w w' H. induction H as [|f t rest w w1 w2 (A & B & _) H [C D]]; [auto|]. split; congruence. Qed.

Definition totals_printed (names : list string) (mn mxm : point) (dominated : bool) : text :=
  if verbose_on opts && (2 <=? length names)%nat then total_lines fmt fmt_int (length names) mn mxm dominated else [].

Lemma totals_lines : forall n b f, totals fmt fmt_int n b f = total_lines fmt fmt_int n (fst b) (snd b) f.
Proof. intros. unfold totals, total_lines. now rewrite !spaced_vector. Qed.

Lemma main_files : forall names contents w lb ub, Forall (nd_usable strtod d) opts -> names <> [] ->
  Forall2 (contains scan w d) names contents -> no_overwriting names -> creatable names ->
  bounds_ordered strtod d opts -> bounds_are strtod d opts (concat (concat contents)) lb ub -> all_inside lb ub (concat (concat contents)) ->
  exists outs dominated mn mxm w1 w',
    nd_main opts names w = Ret (inr (Z.b2z dominated), w') /\
    Forall2 (result d opts mx lb ub) contents outs /\
    delivered_all (Some (suffix_of opts)) (nd_outputs lb ub names outs) w w1 /\
    (forall n, w_files w' n = w_files w1 n) /\ w_stdin w' = w_stdin w /\
    w_stdout w' = w_stdout w ++ totals_printed names mn mxm dominated /\
    is_bounds d (concat (concat contents)) (mn, mxm) /\
    (dominated = true <-> check_on opts = true /\ exists sets, In sets contents /\ file_flagged lb ub sets).
Proof.
  intros names contents w lb ub U Nn Hc No Cr Bo Ba Ai. destruct (options_hold opts w U) as (o & Eo & Ho).
  unfold NdCmdModel.nd_main. unfold pbind at 1. rewrite Eo. cbn [bind]. unfold pbind at 1. rewrite (crossing_ok o w Ho Bo). cbn [bind].
  assert (Hn : n_dim o = d \/ n_dim o = 0%nat). { destruct Ho as (_ & _ & _ & _ & _ & _ & _ & _ & _ & Hn & _). tauto. }
  destruct names as [|f names]; [congruence|]. clear Nn. destruct contents as [|sets contents]; [inversion Hc|].
  assert (Hc1 : contains scan w d f sets) by (inversion Hc; assumption).
  assert (Hc2 : Forall2 (contains scan w d) names contents) by (inversion Hc; assumption).
  destruct (file_sets _ _ _ _ _ Hc1) as [Ns Ws].
  destruct names as [|g names].
  - assert (contents = []) by (inversion Hc2; auto). subst contents. cbn [concat] in *. rewrite app_nil_r in *.
    destruct (bounds_single o lb ub (concat sets) Ho Ba Ai) as [U1 U2].
    destruct (process_ok o (Some f) (n_dim o) _ _ _ _ sets w w lb ub Ho (read_input_file junk junk_int scan data_inc Hscan Hinc w f d (n_dim o) sets Hc1 Hn) Ns Ws U1 U2)
      as (f1 & b1 & s1 & w1 & E1 & Ib1 & R1 & D1 & V1).
    { intros W x Ef. inversion Ef; subst. apply Cr; auto. now left. }
    unfold pbind. rewrite E1. cbn [bind fst]. exists [s1], f1, (fst b1), (snd b1), w1, w1.
    assert (D : delivered_all (Some (suffix_of opts)) (nd_outputs lb ub [f] [s1]) w w1).
    { eapply outputs_cons; eauto. unfold NdCmdSpec.nd_outputs. destruct (writes opts); constructor. }
    destruct (all_stdout _ _ _ _ D) as [So Si].
    split; [reflexivity|]. split; auto. split; auto. split; auto. split; auto. split.
    { unfold totals_printed. cbn [length Nat.leb]. rewrite andb_false_r, app_nil_r. auto. }
    split. { now destruct b1. }
    unfold verdict in V1. fold (file_flagged lb ub sets) in V1. destruct (check_on opts).
    + rewrite V1. split. intros H; split; auto. exists sets. split; [now left|auto]. intros (_ & s & [<-|[]] & H). auto.
    + subst f1. split; [discriminate|]. intros [H _]; discriminate.
  - cbv beta iota. set (rest := g :: names) in *.
    assert (L : exists b dim dominated outs w1,
      match n_lower o, n_upper o with
           | Some _, Some _ =>
               r <~ process_file o (Some f) (n_dim o) (n_lower o) (n_upper o) true true ;;
               let '(dominated_found, b, dim) := r in
               nd_files o rest b dim dominated_found
           | _, _ =>
               r <~ nd_bounds (f :: rest) None (n_dim o) ;;
               match fst r with
               | Some b => nd_files o (f :: rest) b (snd r) false
               | None => lift OutOfBounds
               end
      end w = Ret (inl (b, dim, dominated), w1) /\
      Forall2 (result d opts mx lb ub) (sets :: contents) outs /\
      delivered_all (Some (suffix_of opts)) (nd_outputs lb ub (f :: rest) outs) w w1 /\
      is_bounds d (concat (concat (sets :: contents))) b /\
      (dominated = true <-> check_on opts = true /\ exists s, In s (sets :: contents) /\ file_flagged lb ub s)).
    { destruct (given (n_lower o) && given (n_upper o)) eqn:Gv.
      - destruct (n_lower o) as [l|] eqn:El; [|discriminate]. destruct (n_upper o) as [u|] eqn:Eu; [|discriminate]. rewrite <- El, <- Eu.
        assert (Ai1 : all_inside lb ub (concat sets)). { intros F p Hp. apply (Ai F). cbn [concat]. rewrite concat_app. apply in_or_app. now left. }
        assert (Ai2 : all_inside lb ub (concat (concat contents))). { intros F p Hp. apply (Ai F). cbn [concat]. rewrite concat_app. apply in_or_app. now right. }
        destruct (bounds_single o lb ub _ Ho Ba Ai) as [[Ll U1] [Lu U2]]. rewrite El in U1. rewrite Eu in U2. destruct U1 as [U1 _], U2 as [U2 _].
        destruct (process_ok o (Some f) (n_dim o) (n_lower o) (n_upper o) true true sets w w lb ub Ho (read_input_file junk junk_int scan data_inc Hscan Hinc w f d (n_dim o) sets Hc1 Hn) Ns Ws)
          as (f1 & b1 & s1 & w1 & E1 & Ib1 & R1 & D1 & V1).
        { rewrite El. split; auto. split; auto. intros _ F p i Hp Hi. apply (Ai1 F p Hp i Hi). }
        { rewrite Eu. split; auto. split; auto. intros _ F p i Hp Hi. apply Z.le_ge. apply (Ai1 F p Hp i Hi). }
        { intros W x Ef. inversion Ef; subst. apply Cr; auto. now left. }
        destruct (files_ok o lb ub [] rest contents w1 b1 d f1 (concat sets)) as (b & dim & fd & outs & w2 & E & Ed & F & D & _ & _ & Kb & Ib & V); auto.
        { eapply contains_done; eauto. } { rewrite app_nil_r. eapply no_over_tail; eauto. } { intros W x Hx. apply Cr; auto. now right. }
        { eapply bounds_loop; eauto. right. now rewrite El, Eu. }
        specialize (E []). rewrite app_nil_r in E. cbn [NdCmdModel.nd_files] in E.
        exists b, dim, fd, (s1 :: outs), w2. unfold pbind. rewrite E1. cbn [bind]. split; [exact E|]. split; [constructor; auto|].
        split; [eapply outputs_cons; eauto|]. split. { rewrite El, Eu in Ib. cbn [given andb] in Ib. cbn [concat]. rewrite concat_app. exact Ib. }
        unfold verdict in V1. fold (file_flagged lb ub sets) in V1. destruct (check_on opts).
        + rewrite V, V1. split.
          * intros [H|(s & Hs & H)]; (split; [auto|]). exists sets. split; [now left|auto]. exists s. split; [now right|auto].
          * intros (_ & s & [<-|Hs] & H); [now left|right; eauto].
        + rewrite V, V1. split; [discriminate|]. intros [H _]; discriminate.
      - assert (Hm : match n_lower o, n_upper o with Some _, Some _ => False | _, _ => True end).
        { destruct (n_lower o), (n_upper o); auto. discriminate. }
        destruct (hv_ranges_ok junk junk_int scan data_inc Hscan Hinc d (f :: rest) (sets :: contents) w [] None (n_dim o)) as (b0 & E0 & Ib0); auto. { discriminate. }
        cbn [app] in Ib0.
        destruct (files_ok o lb ub [] (f :: rest) (sets :: contents) w b0 d false (concat (concat (sets :: contents)))) as (b & dim & fd & outs & w2 & E & Ed & F & D & _ & _ & Kb & Ib & V); auto.
        { rewrite app_nil_r. auto. } { eapply bounds_loop; eauto. }
        specialize (E []). rewrite app_nil_r in E. exists b, dim, fd, outs, w2. split.
        { assert (Q : (r <~ nd_bounds (f :: rest) None (n_dim o) ;;
               match fst r with
               | Some b => nd_files o (f :: rest) b (snd r) false
               | None => lift OutOfBounds
               end) w = Ret (inl (b, dim, fd), w2)).
          { unfold pbind at 1. change (nd_bounds (f :: rest) None (n_dim o) w) with (hv_ranges junk junk_int scan data_inc (f :: rest) None (n_dim o) w).
            rewrite E0. cbn [bind fst snd]. rewrite E. reflexivity. }
          destruct (n_lower o), (n_upper o); try contradiction; exact Q. }
        split; auto. split; auto. split. { rewrite Gv in Ib. auto. }
        destruct (check_on opts).
        + rewrite V. split. intros [H|H]; [discriminate|auto]. intros [_ H]; auto.
        + rewrite V. split; [discriminate|]. intros [H _]; discriminate. }
    destruct L as (b & dim & dominated & outs & w1 & E & F & D & Ib & V). unfold pbind at 1. rewrite E. cbn [bind].
    destruct (all_stdout _ _ _ _ D) as [So Si].
    assert (Hv : n_verbose o = verbose_on opts) by apply Ho. rewrite Hv. unfold totals_printed.
    replace (2 <=? length (f :: rest))%nat with true by reflexivity. rewrite andb_true_r.
    exists outs, dominated, (fst b), (snd b), w1. destruct (verbose_on opts).
    + eexists. split; [unfold pbind; cbn [fwrite bind]; reflexivity|]. split; auto. split; auto. cbn [w_files w_stdin w_stdout]. split; auto. split; auto.
      split. { rewrite So, totals_lines. reflexivity. } split; auto.
    + exists w1. split; [reflexivity|]. split; auto. split; auto. split; auto. split; auto. split. { now rewrite So, app_nil_r. } split; auto.
Qed.

Lemma main_stdin : forall sets w lb ub, Forall (nd_usable strtod d) opts -> sets_text scan d (w_stdin w) sets ->
  bounds_ordered strtod d opts -> bounds_are strtod d opts (concat sets) lb ub -> all_inside lb ub (concat sets) ->
  exists sets' dominated w',
    nd_main opts [] w = Ret (inr (Z.b2z dominated), w') /\ result d opts mx lb ub sets sets' /\
    (forall n, w_files w' n = w_files w n) /\ w_stdin w' = [] /\
    w_stdout w' = w_stdout w ++ (if writes opts then heading fmt fmt_int "<stdin>" opts mx lb ub ++ sets_lines fmt sets' else []) /\
    (dominated = true <-> check_on opts = true /\ file_flagged lb ub sets).
Proof.
  intros sets w lb ub U Hc Bo Ba Ai. destruct (options_hold opts w U) as (o & Eo & Ho).
  unfold NdCmdModel.nd_main. unfold pbind at 1. rewrite Eo. cbn [bind]. unfold pbind at 1. rewrite (crossing_ok o w Ho Bo). cbn [bind].
  assert (Hn : n_dim o = d \/ n_dim o = 0%nat). { destruct Ho as (_ & _ & _ & _ & _ & _ & _ & _ & _ & Hn & _). tauto. }
  assert (Ds : describes Z scan (w_stdin w) d sets) by (destruct Hc as (_ & _ & Hc); auto).
  destruct (describes_sets _ _ _ _ Ds) as [Ns Ws].
  destruct (bounds_single o lb ub (concat sets) Ho Ba Ai) as [U1 U2].
  destruct (process_ok o None (n_dim o) _ _ _ _ sets w _ lb ub Ho (read_input_stdin junk junk_int scan data_inc Hscan Hinc w d (n_dim o) sets Hc Hn) Ns Ws U1 U2)
      as (f1 & b1 & s1 & w1 & E1 & Ib1 & R1 & D1 & V1).
  { discriminate. }
  unfold pbind. rewrite E1. cbn [bind fst]. exists s1, f1, w1. split; [reflexivity|]. split; auto.
  unfold file_done in D1. split; [|split; [|split]].
  - destruct (writes opts). { apply D1. } now subst w1.
  - destruct (writes opts). { apply D1. } now subst w1.
  - destruct (writes opts). { apply D1. } subst w1. cbn. now rewrite app_nil_r.
  - unfold verdict in V1. fold (file_flagged lb ub sets) in V1. destruct (check_on opts).
    + rewrite V1. split; auto. intros [_ H]; auto.
    + subst f1. split; [discriminate|]. intros [H _]; discriminate.
Qed.

(** ** Failures *)
(** how a file is processed: on its own or as the first of several with both bounds
    given, or in the loop *)
Definition call_ok (o : nd_opts) (lb ub : point) (lbo ubo : option (list Z)) (cmin cmax : bool) : Prop :=
  lbo = n_lower o /\ ubo = n_upper o /\ cmin = true /\ cmax = true \/
  exists b, kept_bounds o b lb ub /\ lbo = Some (match n_lower o with Some l => l | None => fst b end) /\
    ubo = Some (match n_upper o with Some u => u | None => snd b end) /\ cmin = given (n_lower o) /\ cmax = given (n_upper o).

Lemma main_stops : forall pre f post cpre w lb ub pts, Forall (nd_usable strtod d) opts ->
  Forall2 (contains scan w d) pre cpre -> no_overwriting (pre ++ f :: post) -> creatable pre ->
  bounds_ordered strtod d opts -> bounds_are strtod d opts pts lb ub -> all_inside lb ub (concat (concat cpre)) ->
  (forall o, holds o opts -> given (n_lower o) && given (n_upper o) = true \/ pre ++ post = [] \/
     exists b, nd_bounds (pre ++ f :: post) None (n_dim o) w = Ret (inl (Some b, d), w) /\ is_bounds d pts b) ->
  (forall o w1 dim lbo ubo cmin cmax, holds o opts -> w_files w1 f = w_files w f ->
     dim = d \/ pre = [] /\ (dim = n_dim o) ->
     call_ok o lb ub lbo ubo cmin cmax -> process_file o (Some f) dim lbo ubo cmin cmax w1 = Ret (inr EXIT_FAILURE, w1)) ->
  exists outs w1, nd_main opts (pre ++ f :: post) w = Ret (inr EXIT_FAILURE, w1) /\
    Forall2 (result d opts mx lb ub) cpre outs /\ delivered_all (Some (suffix_of opts)) (nd_outputs lb ub pre outs) w w1.
Proof.
  intros pre f post cpre w lb ub pts U Hc No Cr Bo Ba Ai First Bad. destruct (options_hold opts w U) as (o & Eo & Ho).
  assert (Em : forall names, nd_main opts names w = match names with
     | [] => r <~ process_file o None (n_dim o) (n_lower o) (n_upper o) true true ;; exit_ (Z.b2z (fst (fst r)))
     | [f] => r <~ process_file o (Some f) (n_dim o) (n_lower o) (n_upper o) true true ;; exit_ (Z.b2z (fst (fst r)))
     | f :: rest =>
         r <~ match n_lower o, n_upper o with
              | Some _, Some _ =>
                  r <~ process_file o (Some f) (n_dim o) (n_lower o) (n_upper o) true true ;;
                  let '(dominated_found, b, dim) := r in
                  nd_files o rest b dim dominated_found
              | _, _ =>
                  r <~ nd_bounds names None (n_dim o) ;;
                  match fst r with
                  | Some b => nd_files o names b (snd r) false
                  | None => lift OutOfBounds
                  end
              end ;;
         let '(b, dim, dominated_found) := r in
         _ <~ (if n_verbose o then fwrite Stdout (totals fmt fmt_int (length names) b dominated_found) else pret tt) ;;
         exit_ (Z.b2z dominated_found)
     end w).
  { intros names. unfold NdCmdModel.nd_main. unfold pbind at 1. rewrite Eo. cbn [bind]. unfold pbind at 1. rewrite (crossing_ok o w Ho Bo). cbn [bind]. reflexivity. }
  rewrite Em. clear Em Eo.
  assert (Hn : n_dim o = d \/ n_dim o = 0%nat). { destruct Ho as (_ & _ & _ & _ & _ & _ & _ & _ & _ & Hn & _). tauto. }
  specialize (Bad o). specialize (First o Ho).
  assert (Nil : forall w, delivered_all (Some (suffix_of opts)) (nd_outputs lb ub [] []) w w).
  { intros. unfold NdCmdSpec.nd_outputs. destruct (writes opts); constructor. }
  assert (Loop : forall b w1 dim found rest, dim = d -> w_files w1 f = w_files w f -> kept_bounds o b lb ub ->
     nd_files o (f :: rest) b dim found w1 = Ret (inr EXIT_FAILURE, w1)).
  { intros b w1 dim found rest Hdim Hw Kb. cbn [NdCmdModel.nd_files]. unfold pbind at 1. fold (@given (list Z)).
    match goal with |- context [process_file ?x1 ?x2 ?x3 ?x4 ?x5 ?x6 ?x7 w1] => change (process_file x1 x2 x3 x4 x5 x6 x7 w1) with
        (process_file o (Some f) dim (Some (match n_lower o with Some l => l | None => fst b end))
           (Some (match n_upper o with Some u => u | None => snd b end)) (given (n_lower o)) (given (n_upper o)) w1) end.
    rewrite Bad; auto. right. exists b. auto. }
  destruct (list_eq_dec string_dec (pre ++ post) []) as [Ep|Np].
  { apply app_eq_nil in Ep. destruct Ep as [-> ->]. assert (cpre = []) by (inversion Hc; auto). subst cpre. cbn [app]. unfold pbind.
    rewrite (Bad w (n_dim o) (n_lower o) (n_upper o) true true); auto. 2: { left. auto. }
    exists [], w. split; [reflexivity|]. auto. }
  assert (K : exists outs w1, (match n_lower o, n_upper o with
              | Some _, Some _ =>
                  r <~ process_file o (Some (hd f pre)) (n_dim o) (n_lower o) (n_upper o) true true ;;
                  let '(dominated_found, b, dim) := r in
                  nd_files o (tl (pre ++ f :: post)) b dim dominated_found
              | _, _ =>
                  r <~ nd_bounds (pre ++ f :: post) None (n_dim o) ;;
                  match fst r with
                  | Some b => nd_files o (pre ++ f :: post) b (snd r) false
                  | None => lift OutOfBounds
                  end
              end) w = Ret (inr EXIT_FAILURE, w1) /\ Forall2 (result d opts mx lb ub) cpre outs /\
     delivered_all (Some (suffix_of opts)) (nd_outputs lb ub pre outs) w w1).
  { destruct (given (n_lower o) && given (n_upper o)) eqn:Gv.
    - clear First. destruct (n_lower o) as [l|] eqn:El; [|discriminate]. destruct (n_upper o) as [u|] eqn:Eu; [|discriminate]. rewrite <- El, <- Eu.
      destruct pre as [|n pre].
      + assert (cpre = []) by (inversion Hc; auto). subst cpre. cbn [hd]. unfold pbind at 1. rewrite Bad; auto. 2: { left; rewrite El, Eu; auto. }
        exists [], w. split; [reflexivity|]. auto.
      + destruct cpre as [|sets cpre]; [inversion Hc|].
        assert (Hc1 : contains scan w d n sets) by (inversion Hc; assumption).
        assert (Hc2 : Forall2 (contains scan w d) pre cpre) by (inversion Hc; assumption).
        destruct (file_sets _ _ _ _ _ Hc1) as [Ns Ws]. cbn [hd tl app].
        assert (Ai1 : all_inside lb ub (concat sets)). { intros F p Hp. apply (Ai F). cbn [concat]. rewrite concat_app. apply in_or_app. now left. }
        assert (Ai2 : all_inside lb ub (concat (concat cpre))). { intros F p Hp. apply (Ai F). cbn [concat]. rewrite concat_app. apply in_or_app. now right. }
        assert (Kb : forall b, kept_bounds o b lb ub). { intros b. eapply bounds_loop; eauto. right. now rewrite El, Eu. }
        pose proof (Kb (lb, ub)) as [[Ll U1] [Lu U2]]. rewrite El in U1. rewrite Eu in U2.
        destruct (process_ok o (Some n) (n_dim o) (n_lower o) (n_upper o) true true sets w w lb ub Ho (read_input_file junk junk_int scan data_inc Hscan Hinc w n d (n_dim o) sets Hc1 Hn) Ns Ws)
          as (f1 & b1 & s1 & w1 & E1 & Ib1 & R1 & D1 & V1).
        { rewrite El. split; auto. split; auto. intros _ F p i Hp Hi. apply (Ai1 F p Hp i Hi). }
        { rewrite Eu. split; auto. split; auto. intros _ F p i Hp Hi. apply Z.le_ge. apply (Ai1 F p Hp i Hi). }
        { intros W x Ef. inversion Ef; subst. apply Cr; auto. now left. }
        assert (Kept : forall x, In x (pre ++ f :: post) -> w_files w1 x = w_files w x).
        { intros x Hx. unfold file_done, no_overwriting in *. destruct (writes opts); [|now subst].
          specialize (No eq_refl). inversion No as [|? ? N1 N2]; subst. rewrite Forall_forall in N1. specialize (N1 x Hx).
          destruct D1 as (_ & _ & D1). rewrite D1. destruct (String.eqb_spec x (n ++ suffix_of opts)); auto. subst. congruence. }
        destruct (files_ok o lb ub (f :: post) pre cpre w1 b1 d f1 (concat sets)) as (b & dim & fd & outs & w2 & E & Ed & F & D & _ & Kf & _); auto.
        { clear - Hc2 Kept. revert Kept. generalize (f :: post) as q. induction Hc2 as [|x c pre cpre Hx Hc2 IH]; intros q Kept; constructor.
          - unfold contains in *. rewrite Kept; auto. now left.
          - apply (IH q). intros y Hy. apply Kept. now right. }
        { eapply no_over_tail; eauto. } { intros W x Hx. apply Cr; auto. now right. }
        exists (s1 :: outs), w2. unfold pbind at 1. rewrite E1. cbn [bind]. rewrite E. rewrite Loop; auto. 3: { rewrite Kf by now left. apply Kept. apply in_or_app. right. now left. }
        2: { rewrite Ed. now destruct pre. }
        split; [reflexivity|]. split; [constructor; auto|]. eapply outputs_cons; eauto.
    - destruct First as [E|[E|(b0 & E0 & Ib0)]]; [discriminate|contradiction|].
      assert (Hm : match n_lower o, n_upper o with Some _, Some _ => False | _, _ => True end).
      { destruct (n_lower o), (n_upper o); auto. discriminate. }
      assert (Kb : kept_bounds o b0 lb ub). { eapply bounds_loop; eauto. }
      destruct (files_ok o lb ub (f :: post) pre cpre w b0 d false pts) as (b & dim & fd & outs & w2 & E & Ed & F & D & _ & Kf & Kb' & _); auto.
      exists outs, w2. split; auto.
      assert (Q : (r <~ nd_bounds (pre ++ f :: post) None (n_dim o) ;;
             match fst r with
             | Some b => nd_files o (pre ++ f :: post) b (snd r) false
             | None => lift OutOfBounds
             end) w = Ret (inr EXIT_FAILURE, w2)).
      { unfold pbind at 1. rewrite E0. cbn [bind fst snd]. rewrite E. apply Loop; auto. rewrite Ed; now destruct pre. apply Kf. now left. }
      destruct (n_lower o), (n_upper o); try contradiction; exact Q. }
  destruct K as (outs & w1 & E & F & D). exists outs, w1. split; auto.
  assert (S2 : exists x y l, pre ++ f :: post = x :: y :: l /\ x = hd f pre).
  { destruct pre as [|x [|y pre]]; cbn [app hd] in *. destruct post as [|y post]; [congruence|]. eauto. exists x, f, post. auto. exists x, y, (pre ++ f :: post). auto. }
  destruct S2 as (x & y & l & En & Ex). rewrite En in *. cbn [tl] in E. rewrite <- Ex in E. cbv beta iota. unfold pbind at 1. rewrite E. reflexivity.
Qed.

(** a point of the file outside the given bounds *)
Lemma process_outside : forall o filename dim lbo ubo cmin cmax sets w w1 lb ub p i, holds o opts ->
  read_input junk junk_int scan data_inc filename dim w = Ret (inl (layout d sets), w1) ->
  sets <> [] -> (forall S, In S sets -> S <> [] /\ wide d S) -> force_on opts = false ->
  In p (concat sets) -> (i < d)%nat ->
  (match lbo with None => True | Some l => vec d l = Ret lb end) -> (match ubo with None => True | Some u => vec d u = Ret ub end) ->
  (lbo <> None /\ cmin = true /\ coord p i < coord lb i \/ ubo <> None /\ cmax = true /\ coord ub i < coord p i) ->
  process_file o filename dim lbo ubo cmin cmax w = Ret (inr EXIT_FAILURE, w1).
Proof.
  intros o filename dim lbo ubo cmin cmax sets w w1 lb ub p i Ho Er Ne Ws Ff Hp Hi Vl Vu Out.
  pose proof mx_length as Lmx. pose proof Ho as (_ & Hf & Hc & Hb & Hu & _ & Hs & Ha & _).
  assert (Wc : wide d (concat sets)) by (apply wide_concat; intros; now apply Ws).
  assert (Nc : concat sets <> []). { intros E. rewrite E in Hp. destruct Hp. }
  unfold NdCmdModel.process_file. unfold pbind at 1. rewrite Er. cbn [bind].
  cbn [layout ds_cumsizes ds_nsets ds_nobjs ds_data].
  unfold pbind at 1. unfold lift at 1. rewrite last_cum by auto. cbn [bind]. change (@concat (list Z) sets) with (@concat point sets).
  unfold pbind at 1. rewrite minmax_ok by auto. cbn [bind].
  unfold pbind at 1. unfold lift at 1. rewrite all_rows by auto. cbn [bind].
  destruct (data_bounds_new d (concat sets) Wc Nc) as (b & Eb & Ib). unfold pbind at 1. unfold lift at 1.
  match goal with |- context [data_bounds None None ?l] => change (data_bounds None None l) with (data_bounds None None (concat sets)) end. rewrite Eb. cbn [bind].
  destruct Ib as (Lb1 & Lb2 & Ib). destruct (Ib i Hi) as [[_ Hlow] [_ Hhigh]]. specialize (Hlow p Hp). specialize (Hhigh p Hp).
  rewrite Ff in Hb. rewrite Hb. cbn [negb].
  destruct Out as [(Nl & Cm & Lt)|(Nu & Cm & Lt)]; subst.
  - destruct lbo as [l|]; [|congruence]. unfold pbind, lift. rewrite Vl. cbn [bind].
    rewrite (any_less_true (fst b) lb i Hi) by lia. reflexivity.
  - destruct ubo as [u|]; [|congruence].
    assert (El : exists r, match lbo with
        | None => pret (fst b)
        | Some l =>
            l <~ lift (vec d l) ;;
            if cmin && true && any_less_than d (fst b) l then exit_ EXIT_FAILURE else pret l
        end w1 = Ret (r, w1) /\ match r with inl _ => True | inr st => st = EXIT_FAILURE end).
    { destruct lbo as [l|]. 2: { eexists; split; [reflexivity|exact I]. } unfold pbind, lift. rewrite Vl. cbn [bind].
      destruct (cmin && true && any_less_than d (fst b) lb); (eexists; split; [reflexivity|]); cbn; auto. }
    destruct El as ([v|st] & El & Kr). 2: { subst st. unfold pbind at 1. rewrite El. reflexivity. }
    unfold pbind at 1. rewrite El. cbn [bind]. unfold pbind, lift. rewrite Vu. cbn [bind].
    rewrite (any_less_true ub (snd b) i Hi) by lia. reflexivity.
Qed.

Lemma held_given : forall arg b, bound_held arg b -> given b = given arg.
Proof. intros [a|] b H; cbn in H. destruct H as (buf & lb & -> & _). auto. now rewrite H. Qed.

(** [p] violates a bound given on the command line *)
Lemma outside_call : forall o lb ub lbo ubo cmin cmax sets pts p dim filename w w1, holds o opts -> call_ok o lb ub lbo ubo cmin cmax ->
  bounds_are strtod d opts pts lb ub -> read_input junk junk_int scan data_inc filename dim w = Ret (inl (layout d sets), w1) ->
  sets <> [] -> (forall S, In S sets -> S <> [] /\ wide d S) -> force_on opts = false -> In p (concat sets) -> In p pts -> ~ inside d lb ub p ->
  process_file o filename dim lbo ubo cmin cmax w = Ret (inr EXIT_FAILURE, w1).
Proof.
  intros o lb ub lbo ubo cmin cmax sets pts p dim filename w w1 Ho Co Ba Er Ns Ws Ff Hp Hp' Out.
  pose proof Ho as (_ & _ & _ & _ & _ & _ & _ & _ & _ & Hn & Hl & Hu & _). destruct Ba as [Bl Bu].
  pose proof (bound_det _ _ _ _ _ Hl Bl) as Dl. pose proof (bound_det _ _ _ _ _ Hu Bu) as Du.
  assert (X : exists i, (i < d)%nat /\ (coord p i < coord lb i \/ coord ub i < coord p i)).
  { destruct (existsb (fun i => (coord p i <? coord lb i) || (coord ub i <? coord p i)) (seq 0 d)) eqn:Q.
    - apply existsb_exists in Q. destruct Q as (i & Hi & Q). apply in_seq in Hi. exists i. split; [lia|]. apply orb_true_iff in Q. rewrite !Z.ltb_lt in Q. auto.
    - exfalso. apply Out. intros i Hi. destruct (Z.lt_ge_cases (coord p i) (coord lb i)) as [A|A]; [|destruct (Z.lt_ge_cases (coord ub i) (coord p i)) as [B|B]; [|lia]];
        (apply not_true_iff_false in Q; exfalso; apply Q; apply existsb_exists; exists i; split; [apply in_seq; lia|]; apply orb_true_iff; rewrite !Z.ltb_lt; auto). }
  destruct X as (i & Hi & X).
  (* a violated bound was given *)
  assert (Gl : coord p i < coord lb i -> n_lower o <> None).
  { intros L E. rewrite E in Dl. destruct (Dl i Hi) as [_ Q]. specialize (Q p Hp'). lia. }
  assert (Gu : coord ub i < coord p i -> n_upper o <> None).
  { intros L E. rewrite E in Du. destruct (Du i Hi) as [_ Q]. specialize (Q p Hp'). lia. }
  destruct Co as [(-> & -> & -> & ->)|(b & [[L1 K1] [L2 K2]] & -> & -> & -> & ->)].
  - eapply (process_outside _ _ _ _ _ _ _ sets w w1 lb ub p i); eauto. { now destruct (n_lower o). } { now destruct (n_upper o). } destruct X as [X|X]; auto.
  - eapply (process_outside _ _ _ _ _ _ _ sets w w1 lb ub p i); eauto.
    + destruct (n_lower o); auto. rewrite K1. unfold vec. rewrite L1, Nat.leb_refl, <- L1, firstn_all. auto.
    + destruct (n_upper o); auto. rewrite K2. unfold vec. rewrite L2, Nat.leb_refl, <- L2, firstn_all. auto.
    + destruct X as [X|X]; [left|right]; (split; [discriminate|]); split; auto.
      destruct (n_lower o); [auto|]. now apply Gl in X. destruct (n_upper o); [auto|]. now apply Gu in X.
Qed.

Lemma main_outside : forall pre f post cpre sets cpost w lb ub p, Forall (nd_usable strtod d) opts ->
  Forall2 (contains scan w d) (pre ++ f :: post) (cpre ++ sets :: cpost) -> length cpre = length pre ->
  no_overwriting (pre ++ f :: post) -> creatable pre -> bounds_ordered strtod d opts ->
  bounds_are strtod d opts (concat (concat (cpre ++ sets :: cpost))) lb ub -> all_inside lb ub (concat (concat cpre)) ->
  force_on opts = false -> In p (concat sets) -> ~ inside d lb ub p ->
  exists outs w1, nd_main opts (pre ++ f :: post) w = Ret (inr EXIT_FAILURE, w1) /\
    Forall2 (result d opts mx lb ub) cpre outs /\ delivered_all (Some (suffix_of opts)) (nd_outputs lb ub pre outs) w w1.
Proof.
  intros pre f post cpre sets cpost w lb ub p U Hc Lc No Cr Bo Ba Ai Ff Hp Out.
  assert (Hs : Forall2 (contains scan w d) pre cpre /\ contains scan w d f sets).
  { clear - Hc Lc. revert cpre Hc Lc. induction pre as [|x pre IH]; intros [|c cpre] Hc Lc; try discriminate; cbn [app] in Hc; inversion Hc; subst.
    - auto. - destruct (IH cpre) as [A B]; auto. }
  destruct Hs as [Hc1 Hc2]. destruct (file_sets _ _ _ _ _ Hc2) as [Ns Ws].
  assert (Hp' : In p (concat (concat (cpre ++ sets :: cpost)))).
  { rewrite concat_app. cbn [concat]. rewrite !concat_app. apply in_or_app. right. apply in_or_app. now left. }
  apply (main_stops pre f post cpre w lb ub (concat (concat (cpre ++ sets :: cpost)))); auto.
  - intros o Ho. right. right.
    destruct (hv_ranges_ok junk junk_int scan data_inc Hscan Hinc d (pre ++ f :: post) (cpre ++ sets :: cpost) w [] None (n_dim o)) as (b & E & Ib); auto.
    + destruct Ho as (_ & _ & _ & _ & _ & _ & _ & _ & _ & Hn & _). tauto.
    + intros _. now destruct pre.
    + exists b. split; auto. rewrite <- E at 1 || idtac. etransitivity; [exact E|]. now destruct pre.
  - intros o w1 dim lbo ubo cmin cmax Ho Hw Hdim Co. eapply outside_call; eauto.
    apply read_input_file; auto. { unfold contains in *. now rewrite Hw. }
    destruct Ho as (_ & _ & _ & _ & _ & _ & _ & _ & _ & Hn & _). destruct Hdim as [->|[_ ->]]; tauto.
Qed.

(** a file whose output cannot be created *)
Lemma call_bounds : forall o lb ub lbo ubo cmin cmax sets pts, holds o opts -> call_ok o lb ub lbo ubo cmin cmax ->
  bounds_are strtod d opts pts lb ub -> all_inside lb ub (concat sets) -> wide d (concat sets) -> concat sets <> [] ->
  exists lb' ub', bound_used lbo cmin least Z.le (concat sets) lb' /\ bound_used ubo cmax greatest Z.ge (concat sets) ub'.
Proof.
  intros o lb ub lbo ubo cmin cmax sets pts Ho Co Ba Ai Wc Nc.
  destruct Co as [(-> & -> & -> & ->)|(b & Kb & -> & -> & -> & ->)].
  - destruct (data_bounds_new d (concat sets) Wc Nc) as (b & _ & (L1 & L2 & Ib)).
    destruct Ho as (_ & _ & _ & _ & _ & _ & _ & _ & _ & Hn & Hl & Hu & _). destruct Ba as [Bl Bu].
    pose proof (bound_det _ _ _ _ _ Hl Bl) as A. pose proof (bound_det _ _ _ _ _ Hu Bu) as B. destruct Bl as [K1 _], Bu as [K2 _].
    exists (match n_lower o with None => fst b | Some _ => lb end), (match n_upper o with None => snd b | Some _ => ub end). unfold bound_used. split.
    + destruct (n_lower o); (split; [auto|]). { split; auto. intros _ F p i Hp Hi. apply (Ai F p Hp i Hi). } intros i Hi. now apply Ib.
    + destruct (n_upper o); (split; [auto|]). { split; auto. intros _ F p i Hp Hi. apply Z.le_ge. apply (Ai F p Hp i Hi). } intros i Hi. now apply Ib.
  - exists lb, ub. now apply used_in_loop.
Qed.
Lemma main_no_output : forall pre f post cpre sets cpost w lb ub, Forall (nd_usable strtod d) opts ->
  Forall2 (contains scan w d) (pre ++ f :: post) (cpre ++ sets :: cpost) -> length cpre = length pre ->
  no_overwriting (pre ++ f :: post) -> creatable pre -> bounds_ordered strtod d opts ->
  bounds_are strtod d opts (concat (concat (cpre ++ sets :: cpost))) lb ub ->
  all_inside lb ub (concat (concat cpre)) -> all_inside lb ub (concat sets) ->
  writes opts = true -> can_create (f ++ suffix_of opts)%string = false ->
  exists outs w1, nd_main opts (pre ++ f :: post) w = Ret (inr EXIT_FAILURE, w1) /\
    Forall2 (result d opts mx lb ub) cpre outs /\ delivered_all (Some (suffix_of opts)) (nd_outputs lb ub pre outs) w w1.
Proof.
  intros pre f post cpre sets cpost w lb ub U Hc Lc No Cr Bo Ba Ai Ai2 W C.
  assert (Hs : Forall2 (contains scan w d) pre cpre /\ contains scan w d f sets).
  { clear - Hc Lc. revert cpre Hc Lc. induction pre as [|x pre IH]; intros [|c cpre] Hc Lc; try discriminate; cbn [app] in Hc; inversion Hc; subst.
    - auto. - destruct (IH cpre) as [A B]; auto. }
  destruct Hs as [Hc1 Hc2]. destruct (file_sets _ _ _ _ _ Hc2) as [Ns Ws].
  assert (Wc : wide d (concat sets)) by (apply wide_concat; intros; now apply Ws).
  assert (Nc : concat sets <> []). { destruct sets as [|s l]; [congruence|]. destruct (Ws s (or_introl eq_refl)) as [N0 _]. cbn. destruct s; [congruence|discriminate]. }
  apply (main_stops pre f post cpre w lb ub (concat (concat (cpre ++ sets :: cpost)))); auto.
  - intros o Ho. right. right.
    destruct (hv_ranges_ok junk junk_int scan data_inc Hscan Hinc d (pre ++ f :: post) (cpre ++ sets :: cpost) w [] None (n_dim o)) as (b & E & Ib); auto.
    + destruct Ho as (_ & _ & _ & _ & _ & _ & _ & _ & _ & Hn & _). tauto.
    + intros _. now destruct pre.
    + exists b. split; auto. etransitivity; [exact E|]. now destruct pre.
  - intros o w1 dim lbo ubo cmin cmax Ho Hw Hdim Co.
    destruct (call_bounds o lb ub lbo ubo cmin cmax sets _ Ho Co Ba Ai2 Wc Nc) as (lb' & ub' & B1 & B2).
    apply (process_no_output o f dim lbo ubo cmin cmax sets w1 w1 lb' ub'); auto.
    apply read_input_file; auto. { unfold contains in *. now rewrite Hw. }
    destruct Ho as (_ & _ & _ & _ & _ & _ & _ & _ & _ & Hn & _). destruct Hdim as [->|[_ ->]]; tauto.
Qed.

(** a file that cannot be read *)
Definition unreadable (w : world) (pre : list string) (f : string) : Prop :=
  (forall t, w_files w f = Some t -> ~ In vt t /\ ~ In ff t) /\
  (forall d' sets, contains scan w d' f sets -> d' <> d /\ (columns_fixed opts = true \/ pre <> [])).
Lemma process_unreadable : forall o w0 w pre f dim lbo ubo cmin cmax, holds o opts -> unreadable w0 pre f -> w_files w f = w_files w0 f ->
  dim = d \/ pre = [] /\ dim = n_dim o -> process_file o (Some f) dim lbo ubo cmin cmax w = Ret (inr EXIT_FAILURE, w).
Proof using junk strtod Hst d Hd scan Hscan data_inc Hinc junk_int opts. clear Hsort Hgoals H2.
  intros o w0 w pre f dim lbo ubo cmin cmax Ho [T Nr] Ew Hdim. unfold NdCmdModel.process_file. unfold pbind at 1.
  rewrite read_input_refused; auto. { rewrite Ew. auto. }
  intros d' sets Hcn. unfold contains in *. rewrite Ew in Hcn. destruct (Nr d' sets Hcn) as [N1 N2].
  destruct Hdim as [->|[-> ->]]; [split; [auto|lia]|]. destruct N2 as [N2|N2]; [|congruence].
  destruct Ho as (_ & _ & _ & _ & _ & _ & _ & _ & _ & [->|(_ & _ & _ & Q)] & _); [|congruence]. split; [auto|lia].
Qed.

Lemma main_unreadable : forall pre f post cpre w lb ub, Forall (nd_usable strtod d) opts ->
  Forall2 (contains scan w d) pre cpre -> no_overwriting (pre ++ f :: post) -> creatable pre ->
  lower_of opts <> None -> upper_of opts <> None ->
  bounds_ordered strtod d opts -> bounds_are strtod d opts (concat (concat cpre)) lb ub -> all_inside lb ub (concat (concat cpre)) ->
  unreadable w pre f ->
  exists outs w1, nd_main opts (pre ++ f :: post) w = Ret (inr EXIT_FAILURE, w1) /\
    Forall2 (result d opts mx lb ub) cpre outs /\ delivered_all (Some (suffix_of opts)) (nd_outputs lb ub pre outs) w w1.
Proof.
  intros pre f post cpre w lb ub U Hc No Cr Gl Gu Bo Ba Ai Nr.
  apply (main_stops pre f post cpre w lb ub (concat (concat cpre))); auto.
  - intros o (_ & _ & _ & _ & _ & _ & _ & _ & _ & Hn & Hl & Hu & _). left. rewrite (held_given _ _ Hl), (held_given _ _ Hu).
    destruct (lower_of opts); [|congruence]. now destruct (upper_of opts).
  - intros o w1 dim lbo ubo cmin cmax Ho Hw Hdim Co. eapply process_unreadable; eauto.
Qed.

Lemma bounds_refused : forall n post names contents w bounds nobj,
  (nobj = d \/ nobj = 0%nat) -> (nobj = 0%nat -> names = [] -> forall d' sets, ~ contains scan w d' n sets) ->
  Forall2 (contains scan w d) names contents ->
  (forall t, w_files w n = Some t -> ~ In vt t /\ ~ In ff t) ->
  (forall sets, ~ contains scan w d n sets) ->
  nd_bounds (names ++ n :: post) bounds nobj w = Ret (inr EXIT_FAILURE, w).
Proof using junk strtod Hst d Hd scan Hscan data_inc Hinc junk_int opts. clear Hsort Hgoals H2.
  intros n post names. induction names as [|m names IH]; intros contents w bounds nobj Hn H0 Hc T Nn.
  - cbn [app NdCmdModel.nd_bounds]. unfold pbind at 1. unfold file_bounds, pbind at 1.
    rewrite (read_input_refused junk junk_int scan data_inc Hscan Hinc w n nobj T). reflexivity.
    intros d' sets Hcn. split.
    + intros <-. destruct Hn as [->|Hn]. eapply Nn; eauto. eapply H0; eauto.
    + intros E. eapply H0; eauto.
  - inversion Hc as [|? sets ? contents' Q1 Q2]; subst. cbn [app NdCmdModel.nd_bounds].
    destruct (file_sets _ _ _ _ _ Q1) as [Ns Ws].
    assert (Wc : wide d (concat sets)) by (apply wide_concat; intros; now apply Ws).
    assert (Nc : concat sets <> []). { destruct sets as [|s l]; [congruence|]. destruct (Ws s (or_introl eq_refl)) as [N0 _]. cbn. destruct s; [congruence|discriminate]. }
    unfold pbind at 1. unfold file_bounds, pbind.
    rewrite (read_input_file junk junk_int scan data_inc Hscan Hinc w m d nobj sets) by (auto; tauto).
    cbn [bind layout ds_cumsizes ds_nsets ds_nobjs ds_data]. unfold lift. rewrite last_cum by auto. cbn [bind]. rewrite all_rows by auto. cbn [bind].
    assert (B : exists b, data_bounds (option_map fst bounds) (option_map snd bounds) (concat sets) = Ret b).
    { destruct bounds as [b|]; cbn [option_map]. unfold data_bounds. eexists; reflexivity.
      destruct (data_bounds_new d _ Wc Nc) as (b & Eb & _). eauto. }
    destruct B as (b & Eb). change (@concat point sets) with (@concat (list Z) sets) in *. rewrite Eb. cbn [bind pret fst snd].
    apply (IH contents'); auto. intros E. lia.
Qed.

Lemma main_unreadable_early : forall pre f post cpre w, Forall (nd_usable strtod d) opts ->
  Forall2 (contains scan w d) pre cpre -> bounds_ordered strtod d opts -> unreadable w pre f ->
  lower_of opts = None \/ upper_of opts = None \/ pre = [] ->
  nd_main opts (pre ++ f :: post) w = Ret (inr EXIT_FAILURE, w).
Proof using junk strtod Hst d Hd scan Hscan data_inc Hinc junk_int opts. clear Hsort Hgoals H2.
  intros pre f post cpre w U Hc Bo Nr Early. destruct (options_hold opts w U) as (o & Eo & Ho).
  unfold NdCmdModel.nd_main. unfold pbind at 1. rewrite Eo. cbn [bind]. unfold pbind at 1. rewrite (crossing_ok o w Ho Bo). cbn [bind].
  pose proof Ho as (_ & _ & _ & _ & _ & _ & _ & _ & _ & Hn & Hl & Hu & _).
  assert (P : pre = [] -> forall lbo ubo cmin cmax, process_file o (Some f) (n_dim o) lbo ubo cmin cmax w = Ret (inr EXIT_FAILURE, w)).
  { intros E lbo ubo cmin cmax. eapply process_unreadable; eauto. }
  assert (B : nd_bounds (pre ++ f :: post) None (n_dim o) w = Ret (inr EXIT_FAILURE, w)).
  { destruct Nr as [T Nr]. eapply bounds_refused; eauto.
    - tauto.
    - intros E0 Ep d' sets Hcn. destruct (Nr d' sets Hcn) as [_ [Q|Q]]; [|congruence]. destruct Hn as [Hn|(_ & _ & _ & Hn)]; [lia|congruence].
    - intros sets Hcn. now destruct (Nr d sets Hcn). }
  destruct pre as [|x pre].
  - cbn [app] in *. destruct post as [|y post].
    + unfold pbind at 1. now rewrite P.
    + destruct (n_lower o), (n_upper o); unfold pbind at 1; unfold pbind at 1; rewrite ?P, ?B by auto; reflexivity.
  - assert (Q : match n_lower o, n_upper o with Some _, Some _ => False | _, _ => True end).
    { destruct Early as [E|[E|E]]; [rewrite E in Hl; cbn in Hl; now rewrite Hl|rewrite E in Hu; cbn in Hu; rewrite Hu; now destruct (n_lower o)|discriminate]. }
    cbn [app] in *. destruct (pre ++ f :: post) as [|y l] eqn:El; [destruct pre; discriminate|].
    destruct (n_lower o), (n_upper o); try contradiction; unfold pbind at 1; unfold pbind at 1; rewrite B; reflexivity.
Qed.

Lemma main_crossed : forall names w a b la ub i, Forall (nd_usable strtod d) opts ->
  lower_of opts = Some a -> upper_of opts = Some b -> point_text strtod a la -> point_text strtod b ub ->
  (i < d)%nat -> coord ub i < coord la i -> nd_main opts names w = Ret (inr EXIT_FAILURE, w).
Proof using junk strtod Hst d Hd opts. clear Hsort Hscan Hinc Hgoals H2.
  intros names w a b la ub i U Ea Eb Pa Pb Hi Lt. destruct (options_hold opts w U) as (o & Eo & Ho).
  unfold NdCmdModel.nd_main. unfold pbind at 1. rewrite Eo. cbn [bind].
  destruct Ho as (_ & _ & _ & _ & _ & _ & _ & _ & _ & Hn & Hl & Hu & _). rewrite Ea in Hl. rewrite Eb in Hu.
  destruct Hl as (buf & la' & E & P & L & V), Hu as (buf' & ub' & E' & P' & L' & V').
  rewrite (point_text_det _ _ _ _ P Pa) in *. rewrite (point_text_det _ _ _ _ P' Pb) in *. rewrite E, E' in *.
  assert (En : n_dim o = d) by (destruct Hn as [Hn|(_ & Hn & _)]; [auto|discriminate]). rewrite En.
  unfold pbind, lift. rewrite V. cbn [bind]. rewrite V'. cbn [bind]. rewrite (any_less_true ub la i); auto.
Qed.
End Run.
