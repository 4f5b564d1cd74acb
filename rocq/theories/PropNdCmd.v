(** C63: the nondominated program. *)
From Coq Require Import Ascii String List ZArith Lia Bool Arith.
From Verif Require Import Base Spec NondomModel NondomMain NondomExtra NondomProofs2d OptModel PropOpt FbSpec FbModel IoModel IoSpec IoMain
  CmdModel CmdSpec CmdProofs CmdLoop CmdExample HvCmdModel HvCmdSpec HvCmdProofs IndCmdSpec NdCmdModel NdCmdSpec NdCmdProofs NdCmdRun NdImage.
Import ListNotations.
Local Open Scope list_scope.
Open Scope Z_scope.

Section C63.
Variable sort2d : list point -> list nat.
Variable can_create : string -> bool.
Variable junk : Z.
Variable junk_int : nat.
Variable junk_bool : nat -> bool.
Variable scan : text -> option (Z * text).
Variable data_inc : nat.
Variable strtod : text -> option (Z * text).
Variable fmt : Z -> text.
Variable fmt_int : nat -> text.
Variable divide : Z -> Z -> Z.
Variable log10 : Z -> Z.
Variable one : Z.
Local Notation nd_main := (nd_main sort2d can_create junk junk_int junk_bool scan data_inc strtod fmt fmt_int divide log10 one).
Local Notation nd_outputs := (nd_outputs fmt fmt_int log10).
Local Notation result := (result divide log10 one).
Local Notation some_redundant := (some_redundant divide log10 one).

(** the parts of the C library that are used *)
Definition libc : Prop := valid_sort2d sort2d /\ valid_scanner Z scan /\ (0 < data_inc)%nat /\ valid_strtod strtod.

(** no output file is also an input file that is read later, or cannot be created *)
Definition outputs_possible (opts : list nd_option) (names : list string) : Prop :=
  writes opts = true -> not_overwritten (Some (suffix_of opts)) names /\
    forall n, In n names -> can_create (n ++ suffix_of opts)%string = true.
(** the points are inside the bounds, unless --force-bounds removes the others *)
Definition within (d : nat) (opts : list nd_option) (lb ub : point) (pts : list point) : Prop :=
  force_on opts = false -> forall p, In p pts -> inside d lb ub p.
(** the totals that --verbose prints for two or more files *)
Definition totals_text (d : nat) (opts : list nd_option) (names : list string) (pts : list point) (dominated : bool) (t : text) : Prop :=
  if verbose_on opts && (2 <=? length names)%nat then
    exists mn mxm, length mn = d /\ length mxm = d /\
      (forall i, (i < d)%nat -> least i pts (coord mn i) /\ greatest i pts (coord mxm i)) /\
      t = total_lines fmt fmt_int (length names) mn mxm dominated
  else t = [].

Lemma totals_text_ok : forall d opts names pts mn mxm dominated, is_bounds d pts (mn, mxm) ->
  totals_text d opts names pts dominated (totals_printed fmt fmt_int opts names mn mxm dominated).
Proof.
  intros d opts names pts mn mxm dominated (L1 & L2 & B). unfold totals_text, totals_printed.
  destruct (verbose_on opts && (2 <=? length names)%nat); auto. exists mn, mxm. auto.
Qed.

(** Every input file yields an output file, if --filter, --force-bounds, --agree,
    --normalise or a logarithm is asked for: the sets (or their union), without the
    points outside the bounds, with the coordinates transformed, and without the
    dominated and duplicated points.  The exit status is 1 if and only if some set
    has a dominated or duplicated point.  See [C63_plain] for the case without
    --normalise and --log, and PropNdNorm.v for those options. *)
Theorem C63_files : forall d opts mx rg names contents lb ub w, libc ->
  (0 < d)%nat -> d <> 2%nat -> Forall (nd_usable strtod d) opts -> goals d opts mx -> range_is strtod opts rg -> bounds_ordered strtod d opts ->
  names <> [] -> Forall2 (contains scan w d) names contents -> outputs_possible opts names ->
  bounds_are strtod d opts (concat (concat contents)) lb ub -> within d opts lb ub (concat (concat contents)) ->
  exists outs dominated t w1 w',
    nd_main opts names w = Ret (inr (Z.b2z dominated), w') /\
    Forall2 (result d opts mx rg lb ub) contents outs /\
    delivered_all (Some (suffix_of opts)) (nd_outputs opts mx rg lb ub names outs) w w1 /\
    (forall n, w_files w' n = w_files w1 n) /\ w_stdin w' = w_stdin w /\ w_stdout w' = w_stdout w ++ t /\
    totals_text d opts names (concat (concat contents)) dominated t /\
    (dominated = true <-> check_on opts = true /\ exists sets, In sets contents /\ some_redundant d opts mx rg lb ub sets).
Proof.
  intros d opts mx rg names contents lb ub w (Hs & Hc & Hi & Ht) Hd N2 U G Rg Bo N Hf Op Ba Wi.
  destruct (main_files sort2d can_create junk junk_int junk_bool scan data_inc strtod fmt fmt_int divide log10 one Hs Hc Hi Ht d Hd opts mx G (or_introl N2) rg Rg
    names contents w lb ub U N Hf (fun W => proj1 (Op W)) (fun W => proj2 (Op W)) Bo Ba Wi) as (outs & dom & mn & mxm & w1 & w' & E & F & D & K1 & K2 & K3 & Ib & V).
  exists outs, dom, (totals_printed fmt fmt_int opts names mn mxm dom), w1, w'.
  split; auto. split; auto. split; auto. split; auto. split; auto. split; auto. split. { now apply totals_text_ok. }
  assert (Lm : length mx = d) by (eapply mx_length; eauto).
  rewrite V. unfold file_flagged, flagged, NdCmdSpec.some_redundant. rewrite aims_length, Lm. destruct (Nat.eqb_spec d 2); [contradiction|]. tauto.
Qed.

(** With two objectives, without --agree: the outputs are the same, but the exit
    status is 1 if and only if some set has two or more points. *)
Theorem C63_two_objectives : forall opts mx rg names contents lb ub w, libc ->
  agree_of opts = None -> Forall (nd_usable strtod 2) opts -> goals 2 opts mx -> range_is strtod opts rg -> bounds_ordered strtod 2 opts ->
  names <> [] -> Forall2 (contains scan w 2) names contents -> outputs_possible opts names ->
  bounds_are strtod 2 opts (concat (concat contents)) lb ub -> within 2 opts lb ub (concat (concat contents)) ->
  exists outs dominated t w1 w',
    nd_main opts names w = Ret (inr (Z.b2z dominated), w') /\
    Forall2 (result 2 opts mx rg lb ub) contents outs /\
    delivered_all (Some (suffix_of opts)) (nd_outputs opts mx rg lb ub names outs) w w1 /\
    (forall n, w_files w' n = w_files w1 n) /\ w_stdin w' = w_stdin w /\ w_stdout w' = w_stdout w ++ t /\
    totals_text 2 opts names (concat (concat contents)) dominated t /\
    (dominated = true <-> check_on opts = true /\
       exists sets s1 S, In sets contents /\ bounded 2 opts lb ub (united opts sets) s1 /\ In S s1 /\ (2 <= length S)%nat).
Proof.
  intros opts mx rg names contents lb ub w (Hs & Hc & Hi & Ht) Ag U G Rg Bo N Hf Op Ba Wi.
  destruct (main_files sort2d can_create junk junk_int junk_bool scan data_inc strtod fmt fmt_int divide log10 one Hs Hc Hi Ht 2%nat ltac:(lia) opts mx G (or_intror Ag) rg Rg
    names contents w lb ub U N Hf (fun W => proj1 (Op W)) (fun W => proj2 (Op W)) Bo Ba Wi) as (outs & dom & mn & mxm & w1 & w' & E & F & D & K1 & K2 & K3 & Ib & V).
  exists outs, dom, (totals_printed fmt fmt_int opts names mn mxm dom), w1, w'.
  split; auto. split; auto. split; auto. split; auto. split; auto. split; auto. split. { now apply totals_text_ok. }
  assert (Lm : length mx = 2%nat) by (eapply mx_length; eauto).
  rewrite V. unfold file_flagged, flagged. rewrite aims_length, Lm. cbn [Nat.eqb]. split.
  - intros (A & sets & H1 & s1 & S & H2 & H3 & H4). split; auto. exists sets, s1, S. rewrite map_length in H4. auto.
  - intros (A & sets & s1 & S & H1 & H2 & H3 & H4). split; auto. exists sets. split; auto. exists s1, S. rewrite map_length. auto.
Qed.

(** Without file names: standard input to standard output. *)
Theorem C63_stdin : forall d opts mx rg sets lb ub w, libc ->
  (0 < d)%nat -> d <> 2%nat \/ agree_of opts = None -> Forall (nd_usable strtod d) opts -> goals d opts mx -> range_is strtod opts rg -> bounds_ordered strtod d opts ->
  sets_text scan d (w_stdin w) sets -> bounds_are strtod d opts (concat sets) lb ub -> within d opts lb ub (concat sets) ->
  exists sets' dominated w',
    nd_main opts [] w = Ret (inr (Z.b2z dominated), w') /\ result d opts mx rg lb ub sets sets' /\
    (forall n, w_files w' n = w_files w n) /\ w_stdin w' = [] /\
    w_stdout w' = w_stdout w ++ (if writes opts then heading fmt fmt_int log10 "<stdin>" opts mx rg lb ub ++ sets_lines fmt sets' else []) /\
    (d <> 2%nat -> (dominated = true <-> check_on opts = true /\ some_redundant d opts mx rg lb ub sets)).
Proof.
  intros d opts mx rg sets lb ub w (Hs & Hc & Hi & Ht) Hd H2 U G Rg Bo Hf Ba Wi.
  destruct (main_stdin sort2d can_create junk junk_int junk_bool scan data_inc strtod fmt fmt_int divide log10 one Hs Hc Hi Ht d Hd opts mx G H2 rg Rg
    sets w lb ub U Hf Bo Ba Wi) as (sets' & dom & w' & E & F & K1 & K2 & K3 & V).
  exists sets', dom, w'. split; auto. split; auto. split; auto. split; auto. split; auto. intros N2.
  assert (Lm : length mx = d) by (eapply mx_length; eauto).
  rewrite V. unfold file_flagged, flagged, NdCmdSpec.some_redundant. rewrite aims_length, Lm. destruct (Nat.eqb_spec d 2); [contradiction|]. tauto.
Qed.

(** A wrong option ends the program: nothing is read or written. *)
Theorem C63_option_refused : forall d pre x post names status w, valid_strtod strtod -> (0 < d)%nat ->
  Forall (nd_usable strtod d) pre -> nd_refused strtod x status ->
  nd_main (pre ++ x :: post) names w = Ret (inr status, w).
Proof.
  intros d pre x post names status w Ht Hd U R. unfold NdCmdModel.nd_main. unfold pbind at 1.
  rewrite (options_refused junk strtod Ht d Hd pre x post status w U R). reflexivity.
Qed.
(** A lower bound greater than the upper bound. *)
Theorem C63_bounds_crossed : forall d opts names w a b lb ub i, valid_strtod strtod -> (0 < d)%nat ->
  Forall (nd_usable strtod d) opts -> lower_of opts = Some a -> upper_of opts = Some b -> point_text strtod a lb -> point_text strtod b ub ->
  (i < d)%nat -> coord ub i < coord lb i -> nd_main opts names w = Ret (inr EXIT_FAILURE, w).
Proof. intros. eapply main_crossed; eauto. Qed.

(** A point outside the bounds, without --force-bounds: the files before it have been
    processed, the program fails, and nothing is written for its file and the files
    after it. *)
Theorem C63_out_of_bounds : forall d opts mx rg pre f post cpre sets cpost lb ub p w, libc ->
  (0 < d)%nat -> d <> 2%nat \/ agree_of opts = None -> Forall (nd_usable strtod d) opts -> goals d opts mx -> range_is strtod opts rg -> bounds_ordered strtod d opts ->
  Forall2 (contains scan w d) pre cpre -> contains scan w d f sets -> Forall2 (contains scan w d) post cpost ->
  outputs_possible opts (pre ++ f :: post) ->
  bounds_are strtod d opts (concat (concat (cpre ++ sets :: cpost))) lb ub -> within d opts lb ub (concat (concat cpre)) ->
  force_on opts = false -> In p (concat sets) -> ~ inside d lb ub p ->
  exists outs w', nd_main opts (pre ++ f :: post) w = Ret (inr EXIT_FAILURE, w') /\
    Forall2 (result d opts mx rg lb ub) cpre outs /\ delivered_all (Some (suffix_of opts)) (nd_outputs opts mx rg lb ub pre outs) w w'.
Proof.
  intros d opts mx rg pre f post cpre sets cpost lb ub p w (Hs & Hc & Hi & Ht) Hd H2 U G Rg Bo F1 F2 F3 Op Ba Wi Ff Hp Out.
  assert (L : length cpre = length pre) by (clear - F1; induction F1; cbn; auto).
  eapply main_outside; eauto.
  - apply Forall2_app; auto.
  - intros W. now apply Op.
  - intros W n Hn. apply Op; auto. apply in_or_app; auto.
Qed.

(** An output file that cannot be created: the files before it have been processed,
    the program fails, and nothing is written for its file and the files after it. *)
Theorem C63_output_refused : forall d opts mx rg pre f post cpre sets cpost lb ub w, libc ->
  (0 < d)%nat -> d <> 2%nat \/ agree_of opts = None -> Forall (nd_usable strtod d) opts -> goals d opts mx -> range_is strtod opts rg -> bounds_ordered strtod d opts ->
  Forall2 (contains scan w d) pre cpre -> contains scan w d f sets -> Forall2 (contains scan w d) post cpost ->
  writes opts = true -> not_overwritten (Some (suffix_of opts)) (pre ++ f :: post) ->
  (forall n, In n pre -> can_create (n ++ suffix_of opts)%string = true) -> can_create (f ++ suffix_of opts)%string = false ->
  bounds_are strtod d opts (concat (concat (cpre ++ sets :: cpost))) lb ub ->
  within d opts lb ub (concat (concat cpre)) -> within d opts lb ub (concat sets) ->
  exists outs w', nd_main opts (pre ++ f :: post) w = Ret (inr EXIT_FAILURE, w') /\
    Forall2 (result d opts mx rg lb ub) cpre outs /\ delivered_all (Some (suffix_of opts)) (nd_outputs opts mx rg lb ub pre outs) w w'.
Proof.
  intros d opts mx rg pre f post cpre sets cpost lb ub w (Hs & Hc & Hi & Ht) Hd H2 U G Rg Bo F1 F2 F3 W No Cr Cf Ba Wi Wi2.
  assert (L : length cpre = length pre) by (clear - F1; induction F1; cbn; auto).
  eapply main_no_output; eauto.
  - apply Forall2_app; auto.
  - intros _. exact No.
  - intros _. exact Cr.
Qed.

(** a file that cannot be read: it cannot be opened, its contents are wrong, or the
    number of columns is not that of the options and of the files before it *)
Definition unreadable (d : nat) (opts : list nd_option) (w : world) (pre : list string) (f : string) : Prop :=
  (forall t, w_files w f = Some t -> ~ In vt t /\ ~ In ff t) /\
  (forall d' sets, contains scan w d' f sets -> d' <> d /\ (columns_fixed opts = true \/ pre <> [])).
(** If both bounds are given, the files before it have been processed; otherwise it
    is noticed before anything is written. *)
Theorem C63_file_refused : forall d opts mx rg pre f post cpre lb ub w, libc ->
  (0 < d)%nat -> d <> 2%nat \/ agree_of opts = None -> Forall (nd_usable strtod d) opts -> goals d opts mx -> range_is strtod opts rg -> bounds_ordered strtod d opts ->
  Forall2 (contains scan w d) pre cpre -> unreadable d opts w pre f -> outputs_possible opts (pre ++ f :: post) ->
  lower_of opts <> None -> upper_of opts <> None ->
  bounds_are strtod d opts [] lb ub -> within d opts lb ub (concat (concat cpre)) ->
  exists outs w', nd_main opts (pre ++ f :: post) w = Ret (inr EXIT_FAILURE, w') /\
    Forall2 (result d opts mx rg lb ub) cpre outs /\ delivered_all (Some (suffix_of opts)) (nd_outputs opts mx rg lb ub pre outs) w w'.
Proof.
  intros d opts mx rg pre f post cpre lb ub w (Hs & Hc & Hi & Ht) Hd H2 U G Rg Bo F1 Un Op Nl Nu Ba Wi.
  eapply main_unreadable; eauto.
  - intros W. now apply Op.
  - intros W n Hn. apply Op; auto. apply in_or_app; auto.
  - unfold bounds_are, bound_is in *. destruct (lower_of opts); [|congruence]. destruct (upper_of opts); [|congruence]. auto.
Qed.
Theorem C63_file_refused_early : forall d opts pre f post cpre w, libc ->
  (0 < d)%nat -> Forall (nd_usable strtod d) opts -> bounds_ordered strtod d opts ->
  Forall2 (contains scan w d) pre cpre -> unreadable d opts w pre f ->
  lower_of opts = None \/ upper_of opts = None \/ pre = [] ->
  nd_main opts (pre ++ f :: post) w = Ret (inr EXIT_FAILURE, w).
Proof.
  intros d opts pre f post cpre w (Hs & Hc & Hi & Ht) Hd U Bo F1 Un K. eapply main_unreadable_early; eauto.
Qed.

(** Without --normalise and --log: the points that are written are those left after
    removing the points outside the bounds and the dominated and duplicated ones,
    with the objectives turned to maximisation or minimisation. *)
Theorem C63_plain : forall d opts mx lb ub sets, range_of opts = None -> log_of opts = None ->
  length mx = d -> length lb = d -> length ub = d -> (forall S p, In S sets -> In p S -> length p = d) ->
  (forall sets', result d opts mx None lb ub sets sets' ->
     exists s1 s2, bounded d opts lb ub (united opts sets) s1 /\ filtered opts mx s1 s2 /\ sets' = map (map (turned (agree_of opts) mx)) s2) /\
  (some_redundant d opts mx None lb ub sets <->
     exists s1 S, bounded d opts lb ub (united opts sets) s1 /\ In S s1 /\ redundant mx S).
Proof.
  intros d opts mx lb ub sets Nr Nl Lm Ll Lu Hw.
  assert (Im : forall p, length p = d -> image divide log10 one d opts mx None lb ub p = turned (agree_of opts) mx p).
  { intros p Lp. rewrite <- rows_image by auto. unfold logged. now rewrite Nl. }
  assert (Ko : keeps_order (agree_of opts) mx (image divide log10 one d opts mx None lb ub) (fun p => length p = d)).
  { intros p q i Hp Hq Hi. rewrite !Im, !turned_coord by auto. destruct (flips _ _); lia. }
  assert (Ok : forall s1, bounded d opts lb ub (united opts sets) s1 -> forall S p, In S s1 -> In p S -> length p = d).
  { intros s1 B S p HS Hp. apply bounded_in with (S := S) (p := p) in B; auto. destruct B as (S0 & H0 & Hp0). eapply Hw; eauto. }
  split.
  - intros sets' (s1 & B & F). destruct (image_filtered _ _ _ _ Ko opts s1 sets') as (s2 & F2 & ->); auto.
    { intros S p HS Hp. eapply Ok; eauto. }
    exists s1, s2. split; auto. split; auto. apply map_ext_in. intros S HS. apply map_ext_in. intros p Hp. apply Im.
    destruct (filtered_in _ _ _ _ F2 S p HS Hp) as (S0 & H0 & Hp0). eapply Ok; eauto.
  - split; intros (s1 & S & B & HS & R); exists s1, S; (split; [auto|]); (split; [auto|]).
    + apply (image_redundant _ _ _ _ Ko) in R; auto. intros p Hp. eapply Ok; eauto.
    + apply (image_redundant _ _ _ _ Ko); auto. intros p Hp. eapply Ok; eauto.
Qed.
End C63.

Print Assumptions C63_files.
Print Assumptions C63_two_objectives.
Print Assumptions C63_stdin.
Print Assumptions C63_plain.
Print Assumptions C63_option_refused.
Print Assumptions C63_bounds_crossed.
Print Assumptions C63_out_of_bounds.
Print Assumptions C63_file_refused.
Print Assumptions C63_output_refused.
Print Assumptions C63_file_refused_early.

(** ** Examples *)
Definition files3 : string -> option text := fun n =>
  if String.eqb n "a" then Some (lines ["# run 1"; "1 5 3"; "2 6 4"; ""; "3 1 1"; "3 1 1"]%string)
  else if String.eqb n "b" then Some (lines ["4 4 4"; "1 1 9"]%string)
  else if String.eqb n "c" then Some (lines ["1 2"; "2 1"]%string)
  else if String.eqb n "d" then Some (lines ["1 2"; "2 1"; "3 3"]%string)
  else if String.eqb n "e" then Some (lines ["2 3 -4"]%string)
  else None.
Definition fmt_nat (n : nat) : text := fmtZ (Z.of_nat n).
Definition world3 : world := mkWorld files3 (lines ["1 5 3"; "5 1 3"; "5 5 5"]%string) [].
Definition run3 := nd_main sort2d_exec (fun _ => true) 7 7%nat (fun _ => false) scanZ 512 strtodZ fmtZ fmt_nat Z.div Z.log2 1.
Definition contents3 : list (list (list point)) := [[[[1; 5; 3]; [2; 6; 4]]; [[3; 1; 1]; [3; 1; 1]]]; [[[4; 4; 4]; [1; 1; 9]]]].

Lemma libc3 : libc sort2d_exec scanZ 512 strtodZ.
Proof. split. apply sort2d_exec_valid. split. apply scanZ_valid. split. lia. apply strtodZ_valid. Qed.
Ltac read_file := eexists; split; [reflexivity|]; apply sets_text_read; [lia|reflexivity|reflexivity|vm_compute; reflexivity].
Lemma files3_contain : Forall2 (contains scanZ world3 3) ["a"; "b"]%string contents3.
Proof. constructor; [read_file|constructor; [read_file|constructor]]. Qed.
Lemma in_each : forall (P : point -> Prop) l, Forall P l -> forall p, In p l -> P p.
Proof. intros P l H. now apply Forall_forall. Qed.

(** --filter with the default bounds, which are those of the points of all the files *)
Example C63_nonvacuous_files : exists w',
  run3 [NdFilter; NdVerbose; NdSuffix ".nd"] ["a"; "b"]%string world3 = Ret (inr 1, w') /\
  w_files w' "a.nd"%string = Some (lines ["# file: a"; "# objectives (3): ---"; "# agree: no"; "# lower bound: 1 1 1"; "# upper bound: 4 6 9";
    "1 5 3"; ""; "3 1 1"; ""]%string) /\
  w_files w' "b.nd"%string = Some (lines ["# file: b"; "# objectives (3): ---"; "# agree: no"; "# lower bound: 1 1 1"; "# upper bound: 4 6 9";
    "4 4 4"; "1 1 9"; ""]%string) /\
  w_stdout w' = lines ["# Total files: 2"; "# Total minimum:1 1 1"; "# Total maximum:4 6 9"; "# Nondominated: FALSE"]%string /\
  exists outs, Forall2 (result Z.div Z.log2 1 3 [NdFilter; NdVerbose; NdSuffix ".nd"] [false; false; false] None [1; 1; 1] [4; 6; 9]) contents3 outs.
Proof.
  set (opts := [NdFilter; NdVerbose; NdSuffix ".nd"]).
  destruct (C63_files sort2d_exec (fun _ => true) 7 7%nat (fun _ => false) scanZ 512 strtodZ fmtZ fmt_nat Z.div Z.log2 1
    3 opts [false; false; false] None ["a"; "b"]%string contents3 [1; 1; 1] [4; 6; 9] world3) as (outs & dom & t & w1 & w' & E & F & _).
  - apply libc3.
  - lia.
  - lia.
  - repeat constructor.
  - reflexivity.
  - reflexivity.
  - intros a b lb ub H. discriminate.
  - discriminate.
  - apply files3_contain.
  - intros _. split; [|auto]. cbn. repeat constructor; discriminate.
  - split; (split; [reflexivity|]); intros i Hi; (split; [|apply in_each; cbn [concat app contents3]; destruct i as [|[|[|i]]]; [| | |lia]; repeat constructor; cbn; lia]);
      destruct i as [|[|[|i]]]; [| | |lia| | | |lia].
    + exists [1; 5; 3]. cbn; auto 12.
    + exists [3; 1; 1]. cbn; auto 12.
    + exists [3; 1; 1]. cbn; auto 12.
    + exists [4; 4; 4]. cbn; auto 12.
    + exists [2; 6; 4]. cbn; auto 12.
    + exists [1; 1; 9]. cbn; auto 12.
  - intros _. apply in_each. cbn [concat app contents3].
    repeat (apply Forall_cons; [intros i Hi; destruct i as [|[|[|i]]]; try lia; cbn; lia|]). apply Forall_nil.
  - assert (R : exists w2, run3 opts ["a"; "b"]%string world3 = Ret (inr 1, w2) /\
      w_files w2 "a.nd"%string = Some (lines ["# file: a"; "# objectives (3): ---"; "# agree: no"; "# lower bound: 1 1 1"; "# upper bound: 4 6 9";
        "1 5 3"; ""; "3 1 1"; ""]%string) /\
      w_files w2 "b.nd"%string = Some (lines ["# file: b"; "# objectives (3): ---"; "# agree: no"; "# lower bound: 1 1 1"; "# upper bound: 4 6 9";
        "4 4 4"; "1 1 9"; ""]%string) /\
      w_stdout w2 = lines ["# Total files: 2"; "# Total minimum:1 1 1"; "# Total maximum:4 6 9"; "# Nondominated: FALSE"]%string).
    { eexists. split; [vm_compute; reflexivity|]. split; [vm_compute; reflexivity|]. split; vm_compute; reflexivity. }
    destruct R as (w2 & R & R'). exists w2. split; auto. split; [apply R'|]. split; [apply R'|]. split; [apply R'|]. exists outs. exact F.
Qed.
(** --force-bounds, --union, --agree, mixed directions, and a bound from the command line *)
Example C63_nonvacuous_options : exists w',
  run3 [NdForce; NdFilter; NdUnion; NdObj (txt "-+-"); NdAgree (txt "max"); NdUpper (txt "3 6 3")] ["a"; "b"]%string world3 = Ret (inr 1, w') /\
  w_files w' "a_dat"%string = Some (lines ["# file: a"; "# objectives (3): -+-"; "# agree: max"; "# lower bound: 1 1 1"; "# upper bound: 3 6 3";
    "-1 5 -3"; "-3 1 -1"; ""]%string) /\ w_stdout w' = [] /\
  Forall (nd_usable strtodZ 3) [NdForce; NdFilter; NdUnion; NdObj (txt "-+-"); NdAgree (txt "max"); NdUpper (txt "3 6 3")].
Proof.
  eexists. split; [vm_compute; reflexivity|]. split; [vm_compute; reflexivity|]. split; [vm_compute; reflexivity|].
  repeat constructor.
  - exists [false; true; false]. split; auto. repeat constructor.
  - exists [3; 6; 3]. split; auto. repeat (econstructor; [vm_compute; reflexivity|]). constructor; reflexivity.
Qed.
Example C63_nonvacuous_stdin : exists w', run3 [NdFilter] [] world3 = Ret (inr 1, w') /\
  w_stdout w' = lines ["# file: <stdin>"; "# objectives (3): ---"; "# agree: no"; "# lower bound: 1 1 3"; "# upper bound: 5 5 5"; "1 5 3"; "5 1 3"; ""]%string.
Proof. eexists. split; vm_compute; reflexivity. Qed.
(** a clean file; a check only *)
Example C63_nonvacuous_clean : run3 [] ["b"%string] world3 = Ret (inr 0, world3).
Proof. vm_compute. reflexivity. Qed.
(** (2, 6, 4) of the first file is outside the bounds; the second file is written first *)
Example C63_nonvacuous_outside : exists w', run3 [NdFilter; NdUpper (txt "9 5 9")] ["b"; "a"]%string world3 = Ret (inr EXIT_FAILURE, w') /\
  w_files w' "a_dat"%string = None /\ w_files w' "b_dat"%string = Some (lines ["# file: b"; "# objectives (3): ---"; "# agree: no"; "# lower bound: 1 1 1"; "# upper bound: 9 5 9";
    "4 4 4"; "1 1 9"; ""]%string).
Proof. eexists. split; [vm_compute; reflexivity|]. split; vm_compute; reflexivity. Qed.
(** the output of the second file cannot be created *)
Definition run_no_a := nd_main sort2d_exec (fun n => negb (String.eqb n "a_dat"%string)) 7 7%nat (fun _ => false) scanZ 512 strtodZ fmtZ fmt_nat Z.div Z.log2 1.
Example C63_nonvacuous_output : exists w', run_no_a [NdFilter] ["b"; "a"]%string world3 = Ret (inr EXIT_FAILURE, w') /\
  w_files w' "a_dat"%string = None /\ w_files w' "b_dat"%string <> None.
Proof. eexists. split; [vm_compute; reflexivity|]. split; [vm_compute; reflexivity|vm_compute; discriminate]. Qed.
Example C63_nonvacuous_refused : exists w',
  run3 [NdFilter; NdUpper (txt "9 9 9"); NdLower (txt "0 0 0")] ["b"; "c"; "a"]%string world3 = Ret (inr EXIT_FAILURE, w') /\
  w_files w' "a_dat"%string = None /\ w_files w' "b_dat"%string <> None /\
  run3 [NdFilter; NdUpper (txt "9 9 9")] ["b"; "c"; "a"]%string world3 = Ret (inr EXIT_FAILURE, world3) /\
  run3 [NdFilter] ["absent"%string] world3 = Ret (inr EXIT_FAILURE, world3) /\
  run3 [NdUpper (txt "9 9 9"); NdLower (txt "0 10 0")] ["a"%string] world3 = Ret (inr EXIT_FAILURE, world3) /\
  run3 [NdFilter; NdAgree (txt "maximum")] ["a"%string] world3 = Ret (inr EXIT_FAILURE, world3) /\
  nd_refused strtodZ (NdAgree (txt "maximum")) EXIT_FAILURE /\
  unreadable scanZ 3 [NdFilter; NdUpper (txt "9 9 9")] world3 ["b"%string] "c"%string.
Proof.
  eexists. split; [vm_compute; reflexivity|]. split; [vm_compute; reflexivity|]. split; [vm_compute; discriminate|].
  do 4 (split; [vm_compute; reflexivity|]). split. { split; [|split; [|reflexivity]]; vm_compute; discriminate. }
  split.
  - intros t Et. inversion Et; subst. split; intros H; cbn in H; intuition discriminate.
  - intros d' sets D.
    assert (C : contains scanZ world3 2 "c"%string [[[1; 2]; [2; 1]]]) by read_file.
    pose proof (read_input_file 7 7%nat scanZ 512 scanZ_valid ltac:(lia) _ _ _ 0%nat _ D (or_intror eq_refl)) as R1.
    pose proof (read_input_file 7 7%nat scanZ 512 scanZ_valid ltac:(lia) _ _ _ 0%nat _ C (or_intror eq_refl)) as R2.
    rewrite R1 in R2. assert (d' = 2%nat) by (inversion R2; auto). split; [lia|]. right. discriminate.
Qed.

(** ** Where the program differs from its documentation *)
(** Two objectives: the exit status of a check is 1 although no point is dominated
    or duplicated (see C45). *)
Theorem C63_clean_file_refuted : contains scanZ world3 2 "c"%string [[[1; 2]; [2; 1]]] /\
  ~ redundant [false; false] [[1; 2]; [2; 1]] /\ run3 [] ["c"%string] world3 = Ret (inr 1, world3).
Proof.
  split; [read_file|]. split; [|vm_compute; reflexivity].
  intros (i & j & Hi & Hj & N & W). cbn in Hi, Hj.
  assert (K : (i = 0 /\ j = 1 \/ i = 1 /\ j = 0)%nat) by lia.
  destruct K as [[-> ->]|[-> ->]]; cbn in W; unfold wdom in W; [specialize (W 1%nat)|specialize (W 0%nat)]; cbn in W; lia.
Qed.
(** Two objectives, --agree=min stops at an assertion. *)
Theorem C63_agree_min_refuted : run3 [NdAgree (txt "min")] ["c"%string] world3 = AssertFailed.
Proof. vm_compute. reflexivity. Qed.
(** Two objectives, --agree=max --filter keeps the dominated point and removes the
    nondominated ones. *)
Theorem C63_agree_max_refuted : exists w', contains scanZ world3 2 "d"%string [[[1; 2]; [2; 1]; [3; 3]]] /\
  dom [false; false] [1; 2] [3; 3] /\
  run3 [NdFilter; NdAgree (txt "max")] ["d"%string] world3 = Ret (inr 1, w') /\
  w_files w' "d_dat"%string = Some (lines ["# file: d"; "# objectives (2): --"; "# agree: max"; "# lower bound: 1 1"; "# upper bound: 3 3"; "-3 -3"; ""]%string).
Proof.
  eexists. split; [read_file|]. split. { split. intros i Hi. destruct i as [|[|i]]; cbn in *; lia. exists 0%nat. cbn. lia. }
  split; [vm_compute; reflexivity|]. vm_compute. reflexivity.
Qed.
(** A lower and an upper bound with different numbers of coordinates are accepted;
    the coordinate that is not there is the value that strtod returned at the end of
    the argument. *)
Theorem C63_bound_lengths_refuted : exists w',
  run3 [NdFilter; NdUpper (txt "4 5"); NdLower (txt "1 2 -9")] ["e"%string] world3 = Ret (inr 0, w') /\
  w_files w' "e_dat"%string = Some (lines ["# file: e"; "# objectives (3): ---"; "# agree: no"; "# lower bound: 1 2 -9"; "# upper bound: 4 5 0"; "2 3 -4"; ""]%string).
Proof. eexists. split; vm_compute; reflexivity. Qed.
Print Assumptions C63_clean_file_refuted.
Print Assumptions C63_agree_min_refuted.
Print Assumptions C63_agree_max_refuted.
Print Assumptions C63_bound_lengths_refuted.
