(** C65: the ndsort program.
    Specification: NdsCmdSpec.v.  Model: NdsCmdModel.v. *)
From Coq Require Import Ascii String List ZArith QArith Lia Bool Arith.
From Verif Require Import Base Spec NondomModel NondomProofs2d ParetoRankModel ParetoRankProofs PropParetoRank HvSpec Hv2dModel Hv2dProofs HvModel HvMain
  HvShiftModel HvFacts NdsortSpec NdsortModel PropNdsort IoModel IoSpec IoMain OptModel PropOpt
  CmdModel CmdSpec CmdProofs CmdLoop CmdExample DsCmdRun NdsCmdModel NdsCmdSpec.
Import ListNotations.
Local Open Scope list_scope.
Open Scope Z_scope.

Section C65.
Variable sort2d : list point -> list nat.
Variable sortd : (nat -> Z) -> list nat -> list nat.
Variable dbl_max : Z.
Variable g : hvst.
Variable garbage : nat.
Variable debug : bool.
Variable tolerance : Q.
Variable junk : Z.
Variable junk_int : nat.
Variable scan : text -> option (Z * text).
Variable data_inc : nat.
Variable fmt_int : nat -> text.
Variable fmt : Q -> text.
Local Notation ns_main := (ns_main sort2d sortd dbl_max g garbage debug tolerance junk junk_int scan data_inc fmt_int fmt).
Local Notation ns_options := (ns_options junk).
Local Notation ns_option_step := (ns_option_step junk).

(** the parts of the C library that are used *)
Definition libc (d : nat) : Prop := valid_sort2d sort2d /\ valid_sort sortd /\ ((d <= 3)%nat \/ stable_sort sortd) /\ 0 <= dbl_max /\
  valid_scanner Z scan /\ (0 < data_inc)%nat.

(** ** Options *)
Definition held (d : nat) (o : ns_opts) (opts : list ns_option) : Prop :=
  s_verbose o = chatty opts /\ s_rank o = rank_on opts /\ (s_dim o = d \/ s_dim o = 0%nat).
Lemma options_app : forall a b o w, ns_options o (a ++ b) w = (o <~ ns_options o a ;; ns_options o b) w.
Proof.
  induction a as [|x a IH]; intros b o w; cbn [app NdsCmdModel.ns_options]. reflexivity.
  unfold pbind in *. destruct (ns_option_step o x w) as [[[o1|s] w1]| | |]; cbn [bind]; auto.
Qed.
Lemma step_held : forall d o opts x w, ns_usable d x -> held d o opts ->
  exists o', ns_option_step o x w = Ret (inl o', w) /\ held d o' (opts ++ [x]).
Proof.
  intros d o opts x w U H. destruct o as [v r m n]. destruct H as (H1 & H2 & H3). cbn [s_verbose s_rank s_dim] in *.
  assert (E1 : rank_on (opts ++ [x]) = rank_on opts || match x with NsRank => true | _ => false end).
  { unfold rank_on. rewrite existsb_app. cbn. now rewrite orb_false_r. }
  unfold held. rewrite E1. unfold chatty in *. rewrite fold_left_app. cbn [fold_left].
  destruct x; cbn [ns_usable] in U; try contradiction; cbn [NdsCmdModel.ns_option_step]; rewrite ?orb_false_r, ?orb_true_r.
  1-3: (eexists; split; [reflexivity|]; cbn [s_verbose s_rank s_dim]; repeat split; auto).
  destruct U as (L & V & (ch & Hc & Hp)). destruct (C50_directions junk arg n) as (q & Eq & N & X & P).
  unfold pbind, lift. cbn [s_dim]. rewrite Eq. cbn [bind]. destruct q as [buf len| |].
  - destruct (P buf len eq_refl) as (-> & _). eexists; split; [reflexivity|]. cbn [s_verbose s_rank s_dim]. repeat split; auto.
  - exfalso. destruct (proj1 N eq_refl) as (c & Hi & Hn). apply Hn. now apply V.
  - exfalso. destruct (proj1 X eq_refl ch Hc) as [->| ->]; destruct Hp; discriminate.
Qed.
Lemma options_held : forall d opts w, Forall (ns_usable d) opts -> exists o, ns_options ns_opts0 opts w = Ret (inl o, w) /\ held d o opts.
Proof.
  intros d opts w. induction opts as [|x opts IH] using rev_ind; intros U.
  - exists ns_opts0. split; auto. repeat split; auto.
  - apply Forall_app in U. destruct U as [U1 U2]. destruct (IH U1) as (o & E & H).
    destruct (step_held d o opts x w) as (o' & E' & H'); auto. { now inversion U2. }
    exists o'. split; auto. rewrite options_app. unfold pbind at 1. rewrite E. cbn [bind NdsCmdModel.ns_options]. unfold pbind. rewrite E'. reflexivity.
Qed.

(** ** Where the points are read from *)
Definition names_of (source : option string) : list string := match source with None => [] | Some f => [f] end.
Definition source_name (source : option string) : string := match source with None => "<stdin>" | Some f => f end.
(** the text that is read has the sets [sets] of [d] columns *)
Definition supplies (w : world) (source : option string) (d : nat) (sets : list (list point)) : Prop :=
  match source with
  | None => sets_text scan d (w_stdin w) sets
  | Some f => contains scan w d f sets
  end.
(** the world after the text has been read *)
Definition consumed (w : world) (source : option string) : world :=
  match source with None => mkWorld (w_files w) [] (w_stdout w) | Some _ => w end.

Lemma supplies_sets : forall w source d sets, supplies w source d sets -> sets <> [] /\ wide d (concat sets) /\ concat sets <> [].
Proof.
  intros w source d sets H.
  assert (D : exists t, describes Z scan t d sets).
  { destruct source as [f|]; [destruct H as (t & _ & _ & _ & D)|destruct H as (_ & _ & D)]; eauto. }
  destruct D as (t & D). destruct (describes_sets _ _ _ _ D) as [N W]. split; auto. split.
  - apply wide_concat. intros s Hs. apply W. auto.
  - destruct sets as [|s sets]; [now destruct N|]. destruct (W s) as [Ns _]; [now left|]. cbn. intros E. apply app_eq_nil in E. tauto.
Qed.

(** ** The main function after reading *)
Lemma main_source : forall d opts source sets w, libc d -> (0 < d)%nat -> Forall (ns_usable d) opts -> supplies w source d sets ->
  exists minmax, ns_main opts (names_of source) w =
    (let w1 := say (title fmt_int opts (source_name source) (length (concat sets))) (consumed w source) in
     (_ <~ (if rank_on opts then
          rank <~ lift (ndsort_rank sort2d garbage debug (concat sets) d minmax) ;;
          fwrite Stdout (column fmt_int rank)
        else
          order <~ lift (ndsort_order sort2d sortd dbl_max g garbage debug tolerance (concat sets) d minmax) ;;
          fwrite Stdout (column fmt order)) ;;
     exit_ EXIT_SUCCESS) w1).
Proof.
  intros d opts source sets w (_ & _ & _ & _ & Hscan & Hinc) Hd U H. destruct (options_held d opts w U) as (o & E & (Hv & Hr & Hn)).
  destruct (supplies_sets w source d sets H) as (N & W & _).
  assert (R : read_input junk junk_int scan data_inc source (s_dim o) w = Ret (inl (layout d sets), consumed w source)).
  { destruct source as [f|].
    - exact (read_input_file junk junk_int scan data_inc Hscan Hinc w f d (s_dim o) sets H Hn).
    - exact (read_input_stdin junk junk_int scan data_inc Hscan Hinc w d (s_dim o) sets H Hn). }
  exists (match s_minmax o with None => repeat (-1) d | Some m => m end).
  unfold NdsCmdModel.ns_main. unfold pbind at 1. rewrite E. cbn [bind].
  assert (Q : (match names_of source with [] => pret None | [f] => pret (Some f) | _ => exit_ EXIT_FAILURE end) w = Ret (inl source, w)) by (destruct source; reflexivity).
  unfold pbind at 1. rewrite Q. cbn [bind]. unfold pbind at 1. rewrite R. cbn [bind]. unfold layout at 1 2 3. cbn [ds_nobjs ds_nsets ds_cumsizes ds_data].
  unfold pbind at 1. unfold lift at 1. rewrite last_cum by auto. cbn [bind].
  assert (Q2 : (match s_minmax o with None => lift (default_minmax d (-1)) | Some m => pret m end) (consumed w source) =
    Ret (inl (match s_minmax o with None => repeat (-1) d | Some m => m end), consumed w source)).
  { destruct (s_minmax o); [reflexivity|]. unfold lift, default_minmax. destruct (Nat.ltb_spec 0 d); [|lia]. reflexivity. }
  unfold pbind at 1. rewrite Q2. cbn [bind]. unfold pbind at 1. rewrite Hv.
  assert (Q3 : forall t, (if chatty opts then fwrite Stdout t else pret tt) (consumed w source) =
     Ret (inl tt, say (if chatty opts then t else []) (consumed w source))).
  { intros t. destruct (chatty opts); [reflexivity|]. unfold say. rewrite app_nil_r. destruct (consumed w source). reflexivity. }
  rewrite Q3. cbn [bind]. fold (source_name source). fold (title fmt_int opts (source_name source) (length (concat sets))).
  unfold pbind at 1. unfold lift at 1. unfold layout. cbn [ds_nobjs ds_nsets ds_cumsizes ds_data]. rewrite all_rows by auto. cbn [bind]. rewrite Hr. reflexivity.
Qed.

(** With --rank the number of the front of each point is printed.  Only standard
    output changes. *)
Theorem C65_rank : forall d opts source sets w, libc d -> (0 < d)%nat ->
  Forall (ns_usable d) opts -> rank_on opts = true -> supplies w source d sets ->
  exists ranks, fronts d (concat sets) ranks /\
    ns_main opts (names_of source) w = Ret (inr EXIT_SUCCESS,
      mkWorld (w_files w) (w_stdin (consumed w source))
        (w_stdout w ++ title fmt_int opts (source_name source) (length (concat sets)) ++ one_per_line fmt_int ranks)).
Proof.
  intros d opts source sets w L Hd U Hr H. destruct (main_source d opts source sets w L Hd U H) as (mm & ->).
  destruct (supplies_sets w source d sets H) as (_ & W & Ne).
  assert (Hl : (1 <= length (concat sets))%nat) by (destruct (concat sets); [now destruct Ne|cbn; lia]).
  destruct (pareto_rank_ok sort2d garbage debug (concat sets) d (proj1 L) (or_introl Hl)) as (rank & E & Lr & HR).
  exists rank. split; [split; auto|]. cbv beta zeta. rewrite Hr. unfold ndsort_rank. unfold pbind, lift. rewrite E. cbn [bind].
  rewrite fwrite_say. cbn [bind]. rewrite say_say. unfold exit_, say, column. destruct source; reflexivity.
Qed.

(** Without --rank the sort key of each point is printed. *)
Theorem C65_order : forall d opts source sets w, libc d -> (2 <= d)%nat ->
  Forall (ns_usable d) opts -> rank_on opts = false -> supplies w source d sets ->
  exists keys, sort_keys d tolerance (concat sets) keys /\
    ns_main opts (names_of source) w = Ret (inr EXIT_SUCCESS,
      mkWorld (w_files w) (w_stdin (consumed w source))
        (w_stdout w ++ title fmt_int opts (source_name source) (length (concat sets)) ++ one_per_line fmt keys)).
Proof.
  intros d opts source sets w L Hd U Hr H. destruct (main_source d opts source sets w L ltac:(lia) U H) as (mm & ->).
  destruct (supplies_sets w source d sets H) as (_ & W & Ne). destruct L as (L1 & L2 & L3 & L4 & _).
  destruct (C43_ndsort_exact sort2d sortd dbl_max g garbage debug tolerance (concat sets) d mm) as (rank & order & F & ER & EO & LR & LO & HR & H2 & HF & H1).
  { do 3 (split; [assumption|]). split; [apply Forall_forall; exact W|]. split; [assumption|]. split; assumption. }
  exists order. split.
  - split; auto. exists F. split; auto. intros k r Hk Hkr. rewrite (R_unique _ _ _ _ _ Hkr (HR k Hk)).
    destruct (Nat.eqb_spec (nth k rank 0%nat) 1) as [e|n]; [|now apply H2].
    destruct (H1 k Hk e) as (c & C1 & _ & C2). eauto.
  - cbv beta zeta. rewrite Hr. unfold pbind, lift. rewrite EO. cbn [bind].
    rewrite fwrite_say. cbn [bind]. rewrite say_say. unfold exit_, say, column. destruct source; reflexivity.
Qed.

(** ** Failures *)
(** A wrong option, or --keep-uevs: nothing is read or written. *)
Theorem C65_option_refused : forall d pre x post names status w, Forall (ns_usable d) pre -> ns_refused x status ->
  ns_main (pre ++ x :: post) names w = Ret (inr status, w).
Proof.
  intros d pre x post names status w U R. destruct (options_held d pre w U) as (o & E & H). unfold NdsCmdModel.ns_main. unfold pbind at 1.
  assert (Q : ns_options ns_opts0 (pre ++ x :: post) w = Ret (inr status, w)); [|now rewrite Q].
  rewrite options_app. unfold pbind at 1. rewrite E. cbn [bind NdsCmdModel.ns_options]. unfold pbind.
  assert (S : ns_option_step o x w = Ret (inr status, w)); [|now rewrite S].
  destruct x; cbn [ns_refused] in R; try contradiction; cbn [NdsCmdModel.ns_option_step].
  - subst. reflexivity.
  - destruct (C50_directions junk arg (s_dim o)) as (r & Er & N & X & P). unfold pbind, lift. rewrite Er. cbn [bind].
    destruct R as [[R ->]|[R ->]].
    + destruct R as (ch & Hc & Hn). rewrite (proj2 N); [reflexivity|]. exists ch. split; auto.
    + rewrite (proj2 X); [reflexivity|]. auto.
  - subst. reflexivity.
Qed.
(** Two or more file names: nothing is read or written. *)
Theorem C65_several_files : forall d opts names w, Forall (ns_usable d) opts -> (2 <= length names)%nat ->
  ns_main opts names w = Ret (inr EXIT_FAILURE, w).
Proof.
  intros d opts names w U L. destruct (options_held d opts w U) as (o & E & _). unfold NdsCmdModel.ns_main. unfold pbind at 1. rewrite E. cbn [bind].
  destruct names as [|a [|b names]]; cbn in L; try lia. reflexivity.
Qed.
(** A file that does not exist, is not a list of points, or has another number of columns
    than --obj: nothing is written. *)
Theorem C65_file_refused : forall d opts f w, libc d -> Forall (ns_usable d) opts ->
  (forall t, w_files w f = Some t -> ~ In vt t /\ ~ In ff t) ->
  (forall d' sets, contains scan w d' f sets -> d' <> d /\ exists a, In (NsObj a) opts) -> (0 < d)%nat ->
  ns_main opts [f] w = Ret (inr EXIT_FAILURE, w).
Proof.
  intros d opts f w (_ & _ & _ & _ & Hscan & Hinc) U A H Hd. destruct (options_held d opts w U) as (o & E & (_ & _ & Hn)). unfold NdsCmdModel.ns_main. unfold pbind at 1. rewrite E. cbn [bind].
  unfold pbind at 1. unfold pret at 1. cbn [bind]. unfold pbind at 1.
  rewrite (read_input_refused junk junk_int scan data_inc Hscan Hinc w f (s_dim o)); auto.
  intros d' sets Hc. destruct (H d' sets Hc) as (N & a & Ha). assert (Dm : s_dim o = d).
  { clear - U E Ha. revert E Ha. generalize ns_opts0 as o0. revert U.
    assert (K : forall opts o0 o, Forall (ns_usable d) opts -> ns_options o0 opts w = Ret (inl o, w) -> (s_dim o0 = d \/ exists a, In (NsObj a) opts) -> s_dim o = d).
    { clear. induction opts as [|x opts IH]; intros o0 o U E H.
      - inversion E; subst. destruct H as [H|(a & [])]. exact H.
      - inversion U as [|? ? Ux Uo]; subst. cbn [NdsCmdModel.ns_options] in E. unfold pbind at 1 in E.
        assert (S : exists o1, ns_option_step o0 x w = Ret (inl o1, w) /\ (s_dim o1 = d \/ s_dim o1 = s_dim o0 /\ forall a, x <> NsObj a)).
        { destruct x; cbn [ns_usable] in Ux; try contradiction; cbn [NdsCmdModel.ns_option_step].
          1-3: (eexists; split; [reflexivity|]; right; split; [reflexivity|discriminate]).
          destruct Ux as (L & V & (ch & Hc & Hp)). destruct (C50_directions junk arg (s_dim o0)) as (q & Eq & N & X & P).
          unfold pbind, lift. rewrite Eq. cbn [bind]. destruct q as [buf len| |].
          - destruct (P buf len eq_refl) as (-> & _). eexists; split; [reflexivity|]. left. exact L.
          - exfalso. destruct (proj1 N eq_refl) as (c & Hi & Hn). apply Hn. now apply V.
          - exfalso. destruct (proj1 X eq_refl ch Hc) as [->| ->]; destruct Hp; discriminate. }
        destruct S as (o1 & S1 & S2). rewrite S1 in E. cbn [bind] in E. apply (IH o1 o); auto.
        destruct S2 as [S2|[S2 S3]]; auto. destruct H as [H|(a & [Ha|Ha])]; [left; congruence|exfalso; eapply S3; eauto|right; eauto]. }
    intros U o0 E Ha. apply (K opts o0 o); auto. right. eauto. }
  rewrite Dm. split; [congruence|lia].
Qed.

(** ** The directions of --obj have no effect *)
Theorem C65_objectives_ignored : forall d opts a source sets w, libc d -> (2 <= d)%nat ->
  Forall (ns_usable d) opts -> ns_usable d (NsObj a) -> supplies w source d sets ->
  ns_main (NsObj a :: opts) (names_of source) w = ns_main opts (names_of source) w.
Proof.
  intros d opts a source sets w L Hd U Ua H.
  destruct (main_source d (NsObj a :: opts) source sets w L ltac:(lia) (Forall_cons _ Ua U) H) as (mm & ->).
  destruct (main_source d opts source sets w L ltac:(lia) U H) as (mm' & ->).
  destruct (C43_directions_ignored sort2d sortd dbl_max g garbage debug tolerance (concat sets) d mm mm') as [-> ->]. reflexivity.
Qed.
End C65.
Print Assumptions C65_rank.
Print Assumptions C65_order.
Print Assumptions C65_option_refused.
Print Assumptions C65_several_files.
Print Assumptions C65_file_refused.
Print Assumptions C65_objectives_ignored.

(** ** The hypotheses are met *)
Definition fmt5 (n : nat) : text := fmtZ (Z.of_nat n).
(** some way of printing a number: a fraction *)
Definition fmtQ (q : Q) : text :=
  let q := Qred q in
  if (Qden q =? 1)%positive then fmtZ (Qnum q)
  else fmtZ (Qnum q) ++ ["/"%char] ++ fmtZ (Z.pos (Qden q)).
Definition file5 : text := lines ["# comment"; "0 10"; "4 4"; ""; "10 0"; "4 5"; "12 12"]%string.
Definition world5 : world := mkWorld (fun n => if String.eqb n "in" then Some file5 else None) file5 [].
Definition sets5 : list (list point) := [[[0; 10]; [4; 4]]; [[10; 0]; [4; 5]; [12; 12]]].
Definition run5 := ns_main sort2d_exec sortd_exec 1000 st0 7 true (1 # 67108864) 7 7 scanZ 512 fmt5 fmtQ.
Lemma libc5 : libc sort2d_exec sortd_exec 1000 scanZ 512 2.
Proof.
  split; [apply sort2d_exec_valid|]. split; [apply sortd_exec_stable|]. split; [left; lia|]. split; [lia|]. split; [apply scanZ_valid|lia].
Qed.
Lemma stdin5 : sets_text scanZ 2 file5 sets5.
Proof. apply sets_text_read; [lia|vm_compute; reflexivity|vm_compute; reflexivity|vm_compute; reflexivity]. Qed.

Example C65_nonvacuous_order :
  (exists keys, sort_keys 2 (1 # 67108864) (concat sets5) keys /\ one_per_line fmtQ keys = lines ["491/250"; "4271/2500"; "491/250"; "2"; "3"]%string) /\
  run5 [NsVerbose] ["in"%string] world5 = Ret (inr EXIT_SUCCESS,
    mkWorld (w_files world5) file5 (lines ["# file: in"; "# points: 5"; "491/250"; "4271/2500"; "491/250"; "2"; "3"]%string)) /\
  run5 [NsVerbose; NsQuiet; NsObj (txt "+-")] [] world5 = Ret (inr EXIT_SUCCESS,
    mkWorld (w_files world5) [] (lines ["491/250"; "4271/2500"; "491/250"; "2"; "3"]%string)).
Proof.
  split; [|split; vm_compute; reflexivity].
  destruct (C65_order sort2d_exec sortd_exec 1000 st0 7 true (1 # 67108864) 7 7 scanZ 512 fmt5 fmtQ 2 [] None sets5 world5 libc5)
    as (keys & K & E); auto. { exact stdin5. }
  exists keys. split; auto. assert (X : run5 [] [] world5 = Ret (inr EXIT_SUCCESS, mkWorld (w_files world5) []  (lines ["491/250"; "4271/2500"; "491/250"; "2"; "3"]%string))) by (vm_compute; reflexivity).
  cbn [names_of] in E. unfold run5 in X. rewrite E in X. injection X as X. exact X.
Qed.
Example C65_nonvacuous_rank :
  (exists ranks, fronts 2 (concat sets5) ranks) /\
  run5 [NsRank; NsVerbose] [] world5 = Ret (inr EXIT_SUCCESS,
    mkWorld (w_files world5) [] (lines ["# file: <stdin>"; "# points: 5"; "1"; "1"; "1"; "2"; "3"]%string)).
Proof.
  split; [|vm_compute; reflexivity].
  destruct (C65_rank sort2d_exec sortd_exec 1000 st0 7 true (1 # 67108864) 7 7 scanZ 512 fmt5 fmtQ 2 [NsRank] None sets5 world5 libc5)
    as (ranks & K & E); auto. { repeat constructor. } { exact stdin5. }
  exists ranks. exact K.
Qed.
Example C65_nonvacuous_refused :
  run5 [NsKeep] ["in"%string] world5 = Ret (inr EXIT_FAILURE, world5) /\ run5 [NsRank; NsUnknown] [] world5 = Ret (inr EXIT_FAILURE, world5) /\
  run5 [NsObj (txt "-x")] [] world5 = Ret (inr EXIT_FAILURE, world5) /\ run5 [NsObj (txt "00")] [] world5 = Ret (inr EXIT_SUCCESS, world5) /\
  run5 [NsRank] ["in"; "in"]%string world5 = Ret (inr EXIT_FAILURE, world5) /\ run5 [] ["absent"%string] world5 = Ret (inr EXIT_FAILURE, world5) /\
  run5 [NsObj (txt "---")] ["in"%string] world5 = Ret (inr EXIT_FAILURE, world5) /\ ns_usable 3 (NsObj (txt "---")).
Proof.
  do 7 (split; [vm_compute; reflexivity|]). split; [reflexivity|]. split.
  - intros ch [<-|[<-|[<-|[]]]]; cbn; auto.
  - exists "-"%char. cbn. auto.
Qed.

(** The points (1,1) and (2,2), both objectives maximised: the second point is the best
    one, but the program ranks it second. *)
Theorem C65_maximise_refuted :
  let w := mkWorld (fun _ => None) (lines ["1 1"; "2 2"]%string) [] in
  sets_text scanZ 2 (w_stdin w) [[[1; 1]; [2; 2]]] /\ ns_usable 2 (NsObj (txt "++")) /\
  run5 [NsRank; NsObj (txt "++")] [] w = Ret (inr EXIT_SUCCESS, mkWorld (w_files w) [] (lines ["1"; "2"]%string)) /\
  is_rank [true; true] [[1; 1]; [2; 2]] 1 1 /\ ~ is_rank [true; true] [[1; 1]; [2; 2]] 0 1.
Proof.
  set (pts := [[1; 1]; [2; 2]]).
  assert (D : dom [true; true] (row pts 1) (row pts 0)).
  { split.
    - intros d Hd. simpl in Hd. destruct d as [|[|]]; try lia; unfold as_good, coord, row; simpl; lia.
    - exists 0%nat. split; [simpl; lia|]. unfold Spec.better, coord, row; simpl; lia. }
  split; [apply sets_text_read; [lia|vm_compute; reflexivity|vm_compute; reflexivity|vm_compute; reflexivity]|].
  split. { split; [reflexivity|]. split. intros ch [<-|[<-|[]]]; cbn; auto. exists "+"%char. cbn. auto. }
  split; [vm_compute; reflexivity|]. split.
  - split. { constructor. cbn. lia. } intros r' H. inversion H as [|j i r Hj Hi Hd]; subst; auto. exfalso.
    assert (Hj' : (j < length pts)%nat) by (inversion Hj; auto). destruct Hd as [Hd (k & Hk & Hb)]. destruct j as [|[|j]]; cbn in Hj'; try lia;
    destruct k as [|[|k]]; cbn in Hk; try lia; unfold Spec.better, coord, row in Hb; cbn in Hb; lia.
  - intros [_ H]. specialize (H 2%nat). assert (X : (2 <= 1)%nat); [|lia]. apply H. apply (chain_more _ _ 1%nat 0%nat 1%nat); auto; [constructor|]; cbn; lia.
Qed.
Print Assumptions C65_maximise_refuted.
