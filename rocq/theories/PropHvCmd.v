(** C61: the hv program. *)
From Coq Require Import Ascii String List ZArith Lia Bool Arith.
From Verif Require Import Base Spec NondomModel HvSpec HvModel HvMain HvFacts HvShiftModel HvShiftProofs IoModel IoSpec IoMain
  CmdModel CmdSpec CmdProofs CmdLoop CmdExample NondomProofs2d HvCmdModel HvCmdSpec HvCmdProofs.
Import ListNotations.
Local Open Scope list_scope.
Open Scope Z_scope.

(** What is assumed of the C library, and the range of a double. *)
Definition library (sort2d : list point -> list nat) (sortd : (nat -> Z) -> list nat -> list nat)
  (scan : text -> option (Z * text)) (data_inc : nat) (strtod : text -> option (Z * text)) (d : nat) : Prop :=
  valid_sort2d sort2d /\ valid_sort sortd /\ ((d <= 3)%nat \/ stable_sort sortd) /\
  valid_scanner Z scan /\ (0 < data_inc)%nat /\ valid_strtod strtod.
Definition in_range (dbl_max : Z) (d : nat) (ref : point) (pts : list point) : Prop :=
  forall p i, In p pts -> (i < d)%nat -> - dbl_max <= coord p i /\ - dbl_max <= coord p i - coord ref i.
(** the volumes of the sets of one file *)
Definition volumes (opts : list hv_option) (ref : point) (sets : list (list point)) (vs : list Z) : Prop :=
  Forall2 (fun S v => hypervolume S ref v) (sets_of opts sets) vs.

Section C61.
Variable sort2d : list point -> list nat.
Variable sortd : (nat -> Z) -> list nat -> list nat.
Variable dbl_max : Z.
Variable g : hvst.
Variable can_create : string -> bool.
Variable junk : Z.
Variable junk_int : nat.
Variable scan : text -> option (Z * text).
Variable data_inc : nat.
Variable strtod : text -> option (Z * text).
Variable fmt : Z -> text.
Local Notation hv_main := (hv_main sort2d sortd dbl_max g can_create junk junk_int scan data_inc strtod fmt).

Lemma start : forall opts w, valid_strtod strtod -> references_valid strtod opts ->
  exists o, hv_options junk strtod (mkHvOpts None 0 false None false) opts w = Ret (inl o, w) /\
    opts_ok strtod (reference_arg opts) o /\ o_suffix o = suffix_arg opts /\ o_union o = union_asked opts /\
    (forall sets, units o sets = sets_of opts sets).
Proof.
  intros opts w V R. destruct (hv_options_ok strtod V junk opts (mkHvOpts None 0 false None false) None w) as (o & A & B & C & D & _); auto.
  { now split. }
  exists o. split; auto. split; auto. split; auto. split; auto. intros sets. unfold units, sets_of. cbn in D. now rewrite D.
Qed.
Lemma opts_reference : forall opts o d pts ref, opts_ok strtod (reference_arg opts) o -> reference_point strtod d opts pts ref ->
  (o_nobj o = d \/ o_nobj o = 0%nat) /\ length ref = d /\
  match o_reference o with
  | Some r => firstn d r = ref /\ (d <= length r)%nat
  | None => default_reference d pts ref
  end.
Proof.
  intros opts o d pts ref O R. unfold reference_point in R. destruct (reference_arg opts) as [a|]; cbn in O.
  - destruct O as (buf & xs & -> & P & L & F & Lb). destruct R as [R <-]. rewrite (point_text_det strtod _ _ _ R P) in *. auto.
  - destruct O as [-> ->]. destruct R as [L R]. split; auto. split; auto. now split.
Qed.
Lemma in_range_units : forall o d ref contents sets S, in_range dbl_max d ref (concat (concat contents)) -> In sets contents ->
  In S (units o sets) -> finite dbl_max d ref S.
Proof.
  intros o d ref contents sets S H Hs HS p i Hp Hi. apply H; auto.
  assert (In p (concat sets)). { unfold units in HS. destruct (o_union o). destruct HS as [<-|[]]; auto. apply in_concat. eauto. }
  apply in_concat in H0. destruct H0 as (s & Hs' & Hp'). apply in_concat. exists s. split; auto. apply in_concat. eauto.
Qed.

(** For every file, and every set of it, the volume with respect to the reference
    point is written, one per line, to standard output or to the file with the
    suffix; nothing else changes, and the program succeeds. *)
Theorem C61_volumes : forall d opts names contents ref w,
  library sort2d sortd scan data_inc strtod d -> (2 <= d)%nat -> references_valid strtod opts -> names <> [] ->
  Forall2 (contains scan w d) names contents ->
  reference_point strtod d opts (concat (concat contents)) ref ->
  in_range dbl_max d ref (concat (concat contents)) ->
  not_overwritten (suffix_arg opts) names ->
  (forall f s, In f names -> suffix_arg opts = Some s -> can_create (f ++ s)%string = true) ->
  (forall sets S, In sets contents -> In S (sets_of opts sets) -> has_volume d ref S) ->
  exists w' outs, hv_main opts names w = Ret (inr EXIT_SUCCESS, w') /\
    Forall2 (volumes opts ref) contents outs /\
    delivered_all (suffix_arg opts) (combine names (map (listing fmt) outs)) w w'.
Proof.
  intros d opts names contents ref w (L1 & L2 & L3 & L4 & L5 & L6) Hd V N Hc R I No C G.
  destruct (start opts w L6 V) as (o & E & O & Es & Eun & Eu).
  destruct (opts_reference opts o d _ ref O R) as (Hn & Lr & Hr).
  assert (X : forall bounds nobj, (nobj = d \/ nobj = 0%nat) -> (forall sets, In sets contents -> uses_reference d ref o bounds sets) ->
    exists w' outs, hv_files sort2d sortd dbl_max g can_create junk junk_int scan data_inc fmt o names bounds nobj w = Ret (inl tt, w') /\
      Forall2 (volumes opts ref) contents outs /\ delivered_all (suffix_arg opts) (combine names (map (listing fmt) outs)) w w').
  { intros bounds nobj Hn' U. rewrite <- Es in *.
    destruct (hv_files_good sort2d sortd dbl_max g can_create junk junk_int scan data_inc fmt L1 L2 L4 L5 d Hd L3 ref Lr
      o bounds names contents w nobj Hn' Hc No C U) as (w' & outs & A & B & D).
    { intros sets S Hs HS. split. { eapply in_range_units; eauto. } apply (G sets); auto. now rewrite <- Eu. }
    exists w', outs. split; auto. split; auto. clear - B Eu. unfold volumes. induction B; auto. constructor; auto. now rewrite <- Eu. }
  unfold HvCmdModel.hv_main. unfold pbind at 1. rewrite E. cbn [bind].
  destruct names as [|n1 [|n2 names]]; [congruence| |].
  - (* one file *)
    inversion Hc as [|? sets ? c2 H1 H2]; subst. inversion H2; subst. cbn [concat] in *. rewrite app_nil_r in *.
    destruct (X None (o_nobj o) Hn) as (w' & outs & A & B & D).
    { intros s [<-|[]]. unfold uses_reference. destruct (o_reference o); auto. }
    exists w', outs. split; auto. cbn [hv_files] in A. unfold pbind in A |- *.
    destruct (hv_file _ _ _ _ _ _ _ _ _ _ o (Some n1) None (o_nobj o) w) as [[[k|c] w1]| | |]; cbn [bind] in *; try discriminate.
    cbn in A. inversion A; subst. reflexivity.
  - destruct (o_reference o) as [r|] eqn:Er.
    + destruct (X None (o_nobj o) Hn) as (w' & outs & A & B & D).
      { intros s _. unfold uses_reference. rewrite Er. auto. }
      exists w', outs. split; auto. unfold pbind, pret. cbn [bind fst snd]. rewrite A. reflexivity.
    + destruct (hv_ranges_ok junk junk_int scan data_inc L4 L5 d (n1 :: n2 :: names) contents w [] None (o_nobj o) Hn Hc eq_refl) as (b & A & Ib).
      { discriminate. }
      destruct (X (Some b) d) as (w' & outs & A' & B & D); auto.
      { intros s _. unfold uses_reference. rewrite Er. eapply default_ref_ok; eauto. }
      exists w', outs. split; auto. unfold pbind at 1. unfold pbind at 1. rewrite A. cbn [bind fst snd]. unfold pbind. rewrite A'. reflexivity.
Qed.

(** With no file, the sets are those of standard input; the output goes to
    standard output. *)
Theorem C61_volumes_stdin : forall d opts sets ref w,
  library sort2d sortd scan data_inc strtod d -> (2 <= d)%nat -> references_valid strtod opts ->
  sets_text scan d (w_stdin w) sets ->
  reference_point strtod d opts (concat sets) ref ->
  in_range dbl_max d ref (concat sets) ->
  (forall S, In S (sets_of opts sets) -> has_volume d ref S) ->
  exists w' vs, hv_main opts [] w = Ret (inr EXIT_SUCCESS, w') /\
    volumes opts ref sets vs /\
    w_stdin w' = [] /\ w_stdout w' = w_stdout w ++ listing fmt vs /\ forall n, w_files w' n = w_files w n.
Proof.
  intros d opts sets ref w (L1 & L2 & L3 & L4 & L5 & L6) Hd V T R I G.
  destruct (start opts w L6 V) as (o & E & O & Es & Eun & Eu).
  destruct (opts_reference opts o d _ ref O R) as (Hn & Lr & Hr).
  destruct (describes_sets scan _ _ _ (proj2 (proj2 T))) as [Ns Ws].
  destruct (hv_file_good sort2d sortd dbl_max g can_create junk junk_int scan data_inc fmt L1 L2 d Hd L3 ref Lr
    o None None (o_nobj o) sets w (mkWorld (w_files w) [] (w_stdout w))) as (w' & vs & A & D & F); auto.
  { now apply read_input_stdin. }
  { discriminate. }
  { intros S HS. split. { apply (in_range_units o d ref [sets] sets); auto; [|now left]. cbn [concat]. now rewrite app_nil_r. } apply G. now rewrite <- Eu. }
  exists w', vs. unfold HvCmdModel.hv_main. unfold pbind. rewrite E. cbn [bind]. rewrite A. split; auto.
  split. { unfold volumes. now rewrite <- Eu. }
  destruct D as (D1 & D2 & D3). cbn in *. auto.
Qed.

(** The first set none of whose points strictly dominates the reference point
    (its volume is zero) stops the program with a failure; the volumes of the sets
    before it have been written. *)
Theorem C61_stops_at_zero : forall d opts names n post contents sets contents' ok bad rest ref w,
  library sort2d sortd scan data_inc strtod d -> (2 <= d)%nat -> references_valid strtod opts ->
  Forall2 (contains scan w d) (names ++ n :: post) (contents ++ sets :: contents') -> length contents = length names ->
  reference_point strtod d opts (concat (concat (contents ++ sets :: contents'))) ref ->
  in_range dbl_max d ref (concat (concat (contents ++ sets :: contents'))) ->
  not_overwritten (suffix_arg opts) (names ++ n :: post) ->
  (forall f s, In f (names ++ [n]) -> suffix_arg opts = Some s -> can_create (f ++ s)%string = true) ->
  (forall sets' S, In sets' contents -> In S (sets_of opts sets') -> has_volume d ref S) ->
  sets_of opts sets = ok ++ bad :: rest -> (forall S, In S ok -> has_volume d ref S) -> ~ has_volume d ref bad ->
  exists w' outs vs, hv_main opts (names ++ n :: post) w = Ret (inr EXIT_FAILURE, w') /\
    Forall2 (volumes opts ref) contents outs /\ Forall2 (fun S v => hypervolume S ref v) ok vs /\
    delivered_all (suffix_arg opts) (combine (names ++ [n]) (map (listing fmt) (outs ++ [vs]))) w w'.
Proof.
  intros d opts names n post contents sets contents' ok bad rest ref w (L1 & L2 & L3 & L4 & L5 & L6) Hd V Hc Len R I No C G Eok Gok Nb.
  destruct (start opts w L6 V) as (o & E & O & Es & Eun & Eu).
  destruct (opts_reference opts o d _ ref O R) as (Hn & Lr & Hr).
  assert (Hsplit : Forall2 (contains scan w d) names contents /\ contains scan w d n sets).
  { clear - Hc Len. revert contents Len Hc. induction names as [|m names IH]; intros [|c contents] Len Hc; cbn in Len; try lia.
    - inversion Hc; subst. auto.
    - inversion Hc; subst. destruct (IH contents) as [A B]; auto. }
  destruct Hsplit as [Hc1 Hc2].
  assert (X : forall bounds nobj, (nobj = d \/ nobj = 0%nat) -> (forall sets', In sets' (contents ++ [sets]) -> uses_reference d ref o bounds sets') ->
    exists w' outs vs, hv_files sort2d sortd dbl_max g can_create junk junk_int scan data_inc fmt o (names ++ n :: post) bounds nobj w = Ret (inr EXIT_FAILURE, w') /\
      Forall2 (volumes opts ref) contents outs /\ Forall2 (fun S v => hypervolume S ref v) ok vs /\
      delivered_all (suffix_arg opts) (combine (names ++ [n]) (map (listing fmt) (outs ++ [vs]))) w w').
  { intros bounds nobj Hn' U. rewrite <- Es in *.
    assert (F : forall sets' S, In sets' (contents ++ sets :: contents') -> In S (units o sets') -> finite dbl_max d ref S).
    { intros; eapply in_range_units; eauto. }
    assert (Fs : forall S, In S (ok ++ bad :: rest) -> finite dbl_max d ref S).
    { intros S HS. apply (F sets). apply in_or_app. right. now left. rewrite Eu, Eok. auto. }
    destruct (hv_files_bad sort2d sortd dbl_max g can_create junk junk_int scan data_inc fmt L1 L2 L4 L5 d Hd L3 ref Lr
      o bounds n post names contents sets ok bad rest w nobj Hn' Hc1 Hc2 No C U) as (w' & outs & vs & A & B & B2 & D); auto.
    { intros sets' S Hs HS. split. { eapply F; eauto. apply in_or_app. auto. } apply (G sets'); auto. now rewrite <- Eu. }
    { now rewrite Eu. }
    { intros S HS. split. apply Fs. apply in_or_app. auto. auto. }
    { apply Fs. apply in_or_app. right. now left. }
    exists w', outs, vs. split; auto. split; auto. clear - B Eu. unfold volumes. induction B; auto. constructor; auto. now rewrite <- Eu. }
  unfold HvCmdModel.hv_main. unfold pbind at 1. rewrite E. cbn [bind].
  remember (names ++ n :: post) as L eqn:Ea. symmetry in Ea. destruct L as [|n1 [|n2 all]].
  - destruct names; discriminate.
  - (* one file *)
    assert (names = [] /\ n = n1 /\ post = []) as (-> & -> & ->).
    { destruct names as [|? [|? ?]]; inversion Ea; auto. }
    destruct contents; [|discriminate]. cbn [app] in *. inversion Hc as [|? ? ? ? H1 H2]; subst. inversion H2; subst. cbn [concat] in *. rewrite app_nil_r in *.
    destruct (X None (o_nobj o) Hn) as (w' & outs & vs & A & B & B2 & D).
    { intros s [<-|[]]. unfold uses_reference. destruct (o_reference o); auto. }
    exists w', outs, vs. split; auto. cbn [hv_files] in A. unfold pbind in A |- *.
    destruct (hv_file _ _ _ _ _ _ _ _ _ _ o (Some n1) None (o_nobj o) w) as [[[k|c] w1]| | |]; cbn [bind] in *; try discriminate.
    exact A.
  - destruct (o_reference o) as [r|] eqn:Er.
    + destruct (X None (o_nobj o) Hn) as (w' & outs & vs & A & B & B2 & D).
      { intros s _. unfold uses_reference. rewrite Er. auto. }
      exists w', outs, vs. split; auto. unfold pbind, pret. cbn [bind fst snd]. rewrite A. reflexivity.
    + destruct (hv_ranges_ok junk junk_int scan data_inc L4 L5 d (n1 :: n2 :: all) (contents ++ sets :: contents') w [] None (o_nobj o) Hn Hc eq_refl) as (b & A & Ib).
      { discriminate. }
      destruct (X (Some b) d) as (w' & outs & vs & A' & B & B2 & D); auto.
      { intros s _. unfold uses_reference. rewrite Er. eapply default_ref_ok; eauto. }
      exists w', outs, vs. split; auto. unfold pbind at 1. unfold pbind at 1. rewrite A. cbn [bind fst snd]. unfold pbind. rewrite A'. reflexivity.
Qed.

(** An argument of --reference that is not a point: failure, without any effect,
    whatever the other options and files. *)
Theorem C61_reference_refused : forall opts names w, valid_strtod strtod -> ~ references_valid strtod opts ->
  hv_main opts names w = Ret (inr EXIT_FAILURE, w).
Proof.
  intros opts names w V R. unfold HvCmdModel.hv_main. unfold pbind at 1. rewrite hv_options_refused by auto. reflexivity.
Qed.

Lemma ranges_refused : forall d n post names contents w bounds nobj,
  valid_scanner Z scan -> (0 < data_inc)%nat -> (nobj = d \/ nobj = 0%nat /\ names <> []) ->
  Forall2 (contains scan w d) names contents ->
  (forall t, w_files w n = Some t -> ~ In vt t /\ ~ In ff t) -> (0 < d)%nat ->
  (forall sets, ~ contains scan w d n sets) ->
  hv_ranges junk junk_int scan data_inc (names ++ n :: post) bounds nobj w = Ret (inr EXIT_FAILURE, w).
Proof.
  intros d n post names. induction names as [|m names IH]; intros contents w bounds nobj Hs Hi Hn Hc T Hd Nn.
  - cbn [app hv_ranges]. unfold pbind at 1. unfold file_range, pbind at 1.
    rewrite (read_input_refused junk junk_int scan data_inc Hs Hi w n nobj T). reflexivity.
    intros d' sets Hcn. destruct Hn as [->|[_ Hn]]; [|congruence]. split; [|lia]. intros <-. eapply Nn; eauto.
  - inversion Hc as [|? sets ? contents' H1 H2]; subst. cbn [app hv_ranges].
    destruct (contains_sets scan d w m sets H1) as [Ns Ws].
    assert (Wc : wide d (concat sets)) by (apply wide_concat; intros; now apply Ws).
    assert (Nc : concat sets <> []). { destruct sets as [|s l]; [congruence|]. destruct (Ws s (or_introl eq_refl)) as [N0 _]. cbn. destruct s; [congruence|discriminate]. }
    unfold pbind at 1. unfold file_range, pbind.
    rewrite (read_input_file junk junk_int scan data_inc Hs Hi w m d nobj sets) by (auto; tauto).
    cbn [bind layout ds_cumsizes ds_nsets ds_nobjs ds_data]. unfold lift. rewrite last_cum by auto. cbn [bind]. rewrite all_rows by auto. cbn [bind].
    assert (B : exists b, data_bounds (option_map fst bounds) (option_map snd bounds) (concat sets) = Ret b).
    { destruct bounds as [b|]; cbn [option_map]. unfold data_bounds. eexists; reflexivity.
      destruct (data_bounds_new d _ Wc Nc) as (b & Eb & _). eauto. }
    destruct B as (b & Eb). change (@concat point sets) with (@concat (list Z) sets) in *. rewrite Eb. cbn [bind pret fst snd].
    eapply IH; eauto.
Qed.

(** Several files without --reference: a file that cannot be read, or that does not
    contain sets with as many columns as the files before it, is noticed before
    anything is written. *)
Theorem C61_file_refused_early : forall d opts names n post contents w,
  valid_strtod strtod -> valid_scanner Z scan -> (0 < data_inc)%nat -> (0 < d)%nat ->
  references_valid strtod opts -> reference_arg opts = None ->
  names <> [] -> Forall2 (contains scan w d) names contents ->
  (forall t, w_files w n = Some t -> ~ In vt t /\ ~ In ff t) ->
  (forall sets, ~ contains scan w d n sets) ->
  hv_main opts (names ++ n :: post) w = Ret (inr EXIT_FAILURE, w).
Proof.
  intros d opts names n post contents w V Hs Hi Hd R Ra N Hc T Nn.
  destruct (start opts w V R) as (o & E & O & _). rewrite Ra in O. destruct O as [O1 O2].
  unfold HvCmdModel.hv_main. unfold pbind at 1. rewrite E. cbn [bind].
  destruct names as [|m names]; [congruence|].
  assert (K : hv_ranges junk junk_int scan data_inc ((m :: names) ++ n :: post) None (o_nobj o) w = Ret (inr EXIT_FAILURE, w)).
  { eapply (ranges_refused d); eauto. }
  cbn [app] in *. destruct (names ++ n :: post) as [|m2 l] eqn:El; [destruct names; discriminate|].
  rewrite O1. unfold pbind at 1. unfold pbind at 1. rewrite K. reflexivity.
Qed.
(** One file, or --reference: a first file that cannot be read, or whose sets do
    not have as many columns as the reference point. *)
Theorem C61_file_refused : forall d opts n post w,
  valid_strtod strtod -> valid_scanner Z scan -> (0 < data_inc)%nat -> references_valid strtod opts ->
  match reference_arg opts with Some a => exists xs, point_text strtod a xs /\ length xs = d /\ (0 < d)%nat | None => post = [] end ->
  (forall t, w_files w n = Some t -> ~ In vt t /\ ~ In ff t) ->
  (forall d' sets, contains scan w d' n sets -> reference_arg opts <> None /\ d' <> d) ->
  hv_main opts (n :: post) w = Ret (inr EXIT_FAILURE, w).
Proof.
  intros d opts n post w V Hs Hi R Ra T Nn.
  destruct (start opts w V R) as (o & E & O & _).
  assert (K : forall b, hv_file sort2d sortd dbl_max g can_create junk junk_int scan data_inc fmt o (Some n) b (o_nobj o) w = Ret (inr EXIT_FAILURE, w)).
  { intros b. unfold hv_file, pbind at 1. rewrite (read_input_refused junk junk_int scan data_inc Hs Hi w n (o_nobj o) T). reflexivity.
    intros d' sets Hcn. apply Nn in Hcn. destruct Hcn as [H1 H2]. destruct (reference_arg opts) as [a|]; [|congruence].
    destruct Ra as (xs & P & L & Hd). destruct O as (buf & ys & _ & P' & -> & _). rewrite (point_text_det strtod _ _ _ P' P). lia. }
  unfold HvCmdModel.hv_main. unfold pbind at 1. rewrite E. cbn [bind].
  destruct post as [|n2 post].
  - unfold pbind at 1. unfold pbind at 1. now rewrite K.
  - destruct (reference_arg opts) as [a|]; [|discriminate]. destruct O as (buf & xs & -> & _).
    unfold pbind at 1. unfold pbind at 1. unfold pret at 1. cbn [bind fst snd hv_files]. unfold pbind at 1. now rewrite K.
Qed.

(** --suffix: if the first file can be read but its output file cannot be created,
    the program fails and nothing has changed. *)
Theorem C61_output_refused : forall d opts n post sets suffix w,
  valid_strtod strtod -> valid_scanner Z scan -> (0 < data_inc)%nat -> references_valid strtod opts ->
  match reference_arg opts with Some a => exists xs, point_text strtod a xs /\ length xs = d | None => post = [] end ->
  contains scan w d n sets -> suffix_arg opts = Some suffix -> can_create (n ++ suffix)%string = false ->
  hv_main opts (n :: post) w = Ret (inr EXIT_FAILURE, w).
Proof.
  intros d opts n post sets suffix w V Hs Hi R Ra Hc Su C.
  destruct (start opts w V R) as (o & E & O & Es & _).
  assert (Hn : o_nobj o = d \/ o_nobj o = 0%nat).
  { destruct (reference_arg opts) as [a|]; [|destruct O as [_ ->]; auto].
    destruct Ra as (xs & P & L). destruct O as (buf & ys & _ & P' & -> & _). rewrite (point_text_det strtod _ _ _ P' P). auto. }
  assert (K : forall b, hv_file sort2d sortd dbl_max g can_create junk junk_int scan data_inc fmt o (Some n) b (o_nobj o) w = Ret (inr EXIT_FAILURE, w)).
  { intros b. unfold hv_file, pbind at 1. rewrite (read_input_file junk junk_int scan data_inc Hs Hi w n d (o_nobj o) sets Hc Hn).
    cbn [bind]. unfold pbind at 1. rewrite Es, Su. cbn [output_of]. unfold open_output. rewrite C. reflexivity. }
  unfold HvCmdModel.hv_main. unfold pbind at 1. rewrite E. cbn [bind].
  destruct post as [|n2 post].
  - unfold pbind at 1. unfold pbind at 1. now rewrite K.
  - destruct (reference_arg opts) as [a|]; [|discriminate]. destruct O as (buf & xs & -> & _).
    unfold pbind at 1. unfold pbind at 1. unfold pret at 1. cbn [bind fst snd hv_files]. unfold pbind at 1. now rewrite K.
Qed.

(** Without --reference, if all the points of all the files have the same value in
    some coordinate, for instance if there is one point only, the default reference
    point is not strictly dominated by any point: the program fails, without
    having written any volume. *)
Theorem C61_equal_coordinate_fails : forall d opts n post sets contents ref i c w,
  library sort2d sortd scan data_inc strtod d -> (2 <= d)%nat -> reference_arg opts = None -> references_valid strtod opts ->
  Forall2 (contains scan w d) (n :: post) (sets :: contents) ->
  default_reference d (concat (concat (sets :: contents))) ref ->
  in_range dbl_max d ref (concat (concat (sets :: contents))) ->
  not_overwritten (suffix_arg opts) (n :: post) ->
  (forall s, suffix_arg opts = Some s -> can_create (n ++ s)%string = true) ->
  (i < d)%nat -> (forall p, In p (concat (concat (sets :: contents))) -> coord p i = c) ->
  exists w', hv_main opts (n :: post) w = Ret (inr EXIT_FAILURE, w') /\ delivered_all (suffix_arg opts) [(n, [])] w w'.
Proof.
  intros d opts n post sets contents ref i c w Lib Hd Ra V Hc D I No C Hi Eq.
  assert (Ns : sets <> []). { inversion Hc; subst. destruct (contains_sets scan d _ _ _ H2). auto. }
  assert (Su : exists bad rest, sets_of opts sets = bad :: rest /\ incl bad (concat sets)).
  { unfold sets_of. destruct (union_asked opts). eexists _, _; split; [reflexivity|apply incl_refl].
    destruct sets as [|s l]; [congruence|]. exists s, l. split; auto. cbn. apply incl_appl, incl_refl. }
  destruct Su as (bad & rest & Su & Ib).
  destruct (C61_stops_at_zero d opts [] n post [] sets contents [] bad rest ref w) as (w' & outs & vs & A & B & B2 & Dl); auto.
  - unfold reference_point. now rewrite Ra.
  - intros f s [<-|[]]; auto.
  - intros sets' S [].
  - intros S [].
  - intros (p & Hp & Hlt). specialize (Hlt i Hi). destruct D as [_ D]. destruct (D i Hi) as (mn & mx & [(q & Hq & Eq1) _] & [(q' & Hq' & Eq2) _] & Er).
    assert (coord p i = c). { apply Eq. cbn [concat]. rewrite concat_app. apply in_or_app. left. now apply Ib. }
    rewrite (Eq q Hq) in Eq1. rewrite (Eq q' Hq') in Eq2. lia.
  - exists w'. split; auto. inversion B; subst. inversion B2; subst. exact Dl.
Qed.
End C61.

Print Assumptions C61_volumes.
Print Assumptions C61_volumes_stdin.
Print Assumptions C61_stops_at_zero.
Print Assumptions C61_reference_refused.
Print Assumptions C61_file_refused_early.
Print Assumptions C61_file_refused.
Print Assumptions C61_output_refused.
Print Assumptions C61_equal_coordinate_fails.

(** ** Examples *)
Definition no_files : string -> option text := fun _ => None.
Definition files1 : string -> option text := fun n =>
  if String.eqb n "a.txt" then Some (lines ["# first"; "10 30"; "30 10"; ""; "20 20"]%string)
  else if String.eqb n "b.txt" then Some (lines ["10 10"; "40  40"]%string)
  else None.
Definition world1 : world := mkWorld files1 (lines ["50 50"; "10 20"]%string) [].
Definition contents1 : list (list (list point)) := [[[[10; 30]; [30; 10]]; [[20; 20]]]; [[[10; 10]; [40; 40]]]].
Definition run1 := hv_main sort2d_exec sortd_exec 1000000 st0 (fun _ => true) 7 7%nat scanZ 512 strtodZ fmtZ.

Lemma library1 : library sort2d_exec sortd_exec scanZ 512 strtodZ 2.
Proof.
  split. apply sort2d_exec_valid. split. apply sortd_exec_stable. split. auto. split. apply scanZ_valid. split. lia. apply strtodZ_valid.
Qed.
Lemma files1_contain : Forall2 (contains scanZ world1 2) ["a.txt"; "b.txt"]%string contents1.
Proof.
  constructor; [|constructor; [|constructor]]; (eexists; split; [reflexivity|]; apply sets_text_read; [lia|reflexivity|reflexivity|vm_compute; reflexivity]).
Qed.
Lemma in_pairs : forall (P : point -> Prop) l, Forall P l -> forall p, In p l -> P p.
Proof. intros P l H. now apply Forall_forall. Qed.

(** the default reference point is 43 43 *)
Example C61_nonvacuous_default : exists w' outs, run1 [] ["a.txt"; "b.txt"]%string world1 = Ret (inr EXIT_SUCCESS, w') /\
  Forall2 (volumes [] [43; 43]) contents1 outs /\
  delivered_all None (combine ["a.txt"; "b.txt"]%string (map (listing fmtZ) outs)) world1 w' /\
  w_stdout w' = lines ["689"; "529"; "1089"]%string.
Proof.
  destruct (C61_volumes sort2d_exec sortd_exec 1000000 st0 (fun _ => true) 7 7%nat scanZ 512 strtodZ fmtZ
    2 [] ["a.txt"; "b.txt"]%string contents1 [43; 43] world1) as (w' & outs & A & B & C).
  - apply library1.
  - lia.
  - intros a [].
  - discriminate.
  - apply files1_contain.
  - split; auto. intros i Hi. destruct i as [|[|i]]; [| |lia]; exists 10, 40; (split; [split; [exists [10; 10]; cbn; auto 12|]|split; [split; [exists [40; 40]; cbn; auto 12|]|reflexivity]]);
      apply in_pairs; cbn; repeat constructor; cbn; lia.
  - intros p i Hp Hi. revert p Hp. apply in_pairs. destruct i as [|[|i]]; [| |lia]; cbn; repeat constructor; cbn; lia.
  - exact I.
  - discriminate.
  - intros sets S Hs HS. cbn in Hs. destruct Hs as [<-|[<-|[]]]; cbn in HS; intuition subst;
      (eexists; split; [left; reflexivity|intros i Hi; destruct i as [|[|i]]; [| |lia]; cbn; lia]).
  - exists w', outs. split; [exact A|]. split; auto. split; auto.
    assert (R : exists w2, run1 [] ["a.txt"; "b.txt"]%string world1 = Ret (inr EXIT_SUCCESS, w2) /\ w_stdout w2 = lines ["689"; "529"; "1089"]%string).
    { eexists. split; [vm_compute; reflexivity|reflexivity]. }
    destruct R as (w2 & R & E). unfold run1 in R. rewrite A in R. inversion R; subst. auto.
Qed.

(** --reference, --union, --suffix and --shift *)
Example C61_nonvacuous_options : exists w',
  run1 [HvReference (txt "9"); HvSuffix ".x"; HvReference (txt " 50 1e2 "); HvUnion; HvShift; HvSuffix ".hv"] ["a.txt"; "b.txt"]%string world1
    = Ret (inr EXIT_SUCCESS, w') /\
  w_files w' "a.txt.hv"%string = Some (lines ["3300"]%string) /\ w_files w' "b.txt.hv"%string = Some (lines ["3600"]%string) /\
  w_files w' "a.txt.x"%string = None /\ w_stdout w' = [].
Proof. eexists. split; [vm_compute; reflexivity|]. vm_compute. auto. Qed.
Example C61_nonvacuous_point_text : references_valid strtodZ [HvReference (txt "9"); HvReference (txt " 50 1e2 ")] /\
  point_text strtodZ (txt " 50 1e2 ") [50; 100] /\ ~ references_valid strtodZ [HvReference (txt "50 x")].
Proof.
  assert (A : point_text strtodZ (txt " 50 1e2 ") [50; 100]).
  { econstructor; [vm_compute; reflexivity|]. econstructor; [vm_compute; reflexivity|]. constructor; reflexivity. }
  split; [|split; auto].
  - intros a [H|[H|[]]]; inversion H; subst.
    + exists [9]. split; [discriminate|]. econstructor; [vm_compute; reflexivity|]. constructor; reflexivity.
    + exists [50; 100]. split; [discriminate|auto].
  - intros H. destruct (H (txt "50 x")) as (xs & N & P). now left. inversion P as [? E|? ? ? ? E P']; subst; vm_compute in E; inversion E; subst.
    inversion P' as [? ? F|? ? ? ? E']; subst. discriminate F. vm_compute in E'. discriminate.
Qed.
Example C61_nonvacuous_stdin : exists w', run1 [HvReference (txt "60 60")] [] world1 = Ret (inr EXIT_SUCCESS, w') /\ w_stdout w' = lines ["2000"]%string.
Proof. eexists. split; [vm_compute; reflexivity|reflexivity]. Qed.
(** the second set of a.txt is worse than the reference point *)
Example C61_nonvacuous_stops : exists w', run1 [HvReference (txt "31 20")] ["b.txt"; "a.txt"]%string world1 = Ret (inr EXIT_FAILURE, w') /\
  w_stdout w' = lines ["210"; "10"]%string.
Proof. eexists. split; [vm_compute; reflexivity|reflexivity]. Qed.

Example C61_nonvacuous_output : hv_main sort2d_exec sortd_exec 1000000 st0 (fun n => negb (String.eqb n "b.txt.hv")) 7 7%nat scanZ 512 strtodZ fmtZ
  [HvReference (txt "60 60"); HvSuffix ".hv"] ["b.txt"; "a.txt"]%string world1 = Ret (inr EXIT_FAILURE, world1).
Proof. vm_compute. reflexivity. Qed.

(** ** Where the program differs from its documentation *)
(** a file with one point, without --reference: the usage text gives
    max + 0.1 * (max - min), which is the point itself *)
Theorem C61_single_point_refuted : exists w,
  (exists sets, contains scanZ w 2 "p.txt"%string sets /\ sets = [[[3; 4]]]) /\
  run1 [] ["p.txt"%string] w = Ret (inr EXIT_FAILURE, w).
Proof.
  exists (mkWorld (fun n => if String.eqb n "p.txt" then Some (lines ["3 4"]%string) else None) [] []). split.
  - exists [[[3; 4]]]. split; auto. eexists; split; [reflexivity|]. apply sets_text_read; [lia|reflexivity|reflexivity|vm_compute; reflexivity].
  - vm_compute. reflexivity.
Qed.
Print Assumptions C61_single_point_refuted.
(** "when FILE is -, read standard input": the name is taken literally *)
Theorem C61_dash_refuted : exists w,
  (exists v, run1 [] [] w = Ret (inr EXIT_SUCCESS, v) /\ w_stdout v <> []) /\
  run1 [] ["-"%string] w = Ret (inr EXIT_FAILURE, w).
Proof.
  exists (mkWorld no_files (lines ["10 30"; "30 10"]%string) []). split.
  - eexists. split; [vm_compute; reflexivity|discriminate].
  - vm_compute. reflexivity.
Qed.
Print Assumptions C61_dash_refuted.
