(** Proofs about the structure shared by the epsilon and igd programs. *)
From Coq Require Import Ascii String List ZArith QArith Reals Lia Bool Arith.
From Verif Require Import Base Spec NondomModel NondomMain OptModel PropOpt IndSpec IoModel IoSpec IoMain CmdModel CmdSpec CmdProofs CmdLoop
  IndCmdModel IndCmdSpec.
Import ListNotations.
Local Open Scope list_scope.
Open Scope Z_scope.

Lemma asks_direction : forall a mx k, asks a mx -> (k < length mx)%nat ->
  direction (nth k a "?"%char) = Some (nth k (minmax_from_bool mx) 0).
Proof.
  intros a mx k H. revert k. induction H as [|c b a mx E H IH]; intros [|k] Hk; cbn in Hk; try lia; cbn [nth].
  - subst c. now destruct b.
  - unfold minmax_from_bool in *. cbn [map nth]. apply IH. lia.
Qed.
Lemma read_minmax_asks : forall junk a mx d nobj, asks a mx -> length mx = d -> (0 < d)%nat -> (nobj = d \/ nobj = 0%nat) ->
  read_minmax junk a nobj = Ret (Parsed (minmax_from_bool mx) d).
Proof.
  intros junk a mx d nobj H L Hd Hn. assert (La : length a = d) by (rewrite <- L; clear - H; induction H; cbn; auto).
  destruct (C50_directions junk a nobj) as (r & E & N & X & P). rewrite E. f_equal.
  assert (V : forall ch, In ch a -> ch = "+"%char \/ ch = "-"%char).
  { clear - H. induction H as [|c b a mx E H IH]; intros ch []; subst; auto. destruct b; auto. }
  destruct r as [v n| |].
  - destruct (P v n eq_refl) as (-> & Lv & Hv). rewrite La in *. replace (Nat.max d nobj) with d in * by lia. f_equal.
    apply (nth_ext _ _ 0 0). { unfold minmax_from_bool. now rewrite map_length, L. }
    intros k Hk. rewrite Lv in Hk. specialize (Hv k Hk). rewrite Nat.mod_small in Hv by lia.
    rewrite (asks_direction a mx k H) in Hv by lia. congruence.
  - exfalso. destruct (proj1 N eq_refl) as (ch & Hin & Hv). apply Hv. destruct (V ch Hin) as [-> | ->]; cbn; auto.
  - exfalso. destruct a as [|c a]; [cbn in La; lia|]. destruct (proj1 X eq_refl c (or_introl eq_refl)) as [-> | ->];
      destruct (V _ (or_introl eq_refl)); discriminate.
Qed.

Section I.
Variable can_create : string -> bool.
Variable junk : Z.
Variable junk_int : nat.
Variable scan : text -> option (Z * text).
Variable data_inc : nat.
Variables X M : Type.
Variable other : X -> M -> M.
Variable mode0 : M.
Variable body : M -> ofile -> nat -> list Z -> list point -> list point -> prog unit.
Hypothesis Hscan : valid_scanner Z scan.
Hypothesis Hinc : (0 < data_inc)%nat.
Variable d : nat.
Hypothesis Hd : (0 < d)%nat.

Local Notation ind_options := (ind_options junk junk_int scan data_inc X M other).
Local Notation do_file := (do_file can_create junk junk_int scan data_inc M body).
Local Notation do_files := (do_files can_create junk junk_int scan data_inc M body).
Local Notation ind_main := (ind_main can_create junk junk_int scan data_inc X M other mode0 body).

(** ** Options *)
Definition state_ok (w : world) (ra : option string) (oa : option text) (o : ind_opts M) : Prop :=
  match ra with
  | None => i_reference o = None
  | Some f => exists R, contains scan w d f [R] /\ i_reference o = Some (concat R, length R) /\ i_nobj o = d
  end /\
  match oa with
  | None => i_minmax o = None
  | Some a => exists mx, asks a mx /\ length mx = d /\ i_minmax o = Some (minmax_from_bool mx)
  end /\
  (i_nobj o = d \/ i_nobj o = 0%nat).

Lemma read_reference_ok : forall w f R nobj, contains scan w d f [R] -> (nobj = d \/ nobj = 0%nat) ->
  read_reference_set junk junk_int scan data_inc f nobj w = Ret (inl (concat R, length R, d), w) /\ R <> [] /\ wide d R.
Proof.
  intros w f R nobj H Hn. destruct (file_sets _ _ _ _ _ H) as [_ W]. destruct (W R (or_introl eq_refl)) as [NR WR].
  split; auto. unfold read_reference_set, pbind. rewrite (read_input_file junk junk_int scan data_inc Hscan Hinc w f d nobj [R] H Hn).
  cbn. now rewrite app_nil_r.
Qed.

Lemma ind_options_ok : forall opts o ra oa w, state_ok w ra oa o -> Forall (usable scan w d) opts ->
  exists o', ind_options o opts w = Ret (inl o', w) /\
    state_ok w (fold_left (fun acc o => match o with OptReference f => Some f | _ => acc end) opts ra)
               (fold_left (fun acc o => match o with OptObj a => Some a | _ => acc end) opts oa) o' /\
    i_suffix o' = fold_left (fun acc o => match o with OptSuffix s => Some s | _ => acc end) opts (i_suffix o) /\
    i_mode o' = fold_left (fun m x => other x m) (others opts) (i_mode o).
Proof.
  induction opts as [|opt opts IH]; intros o ra oa w H U.
  - exists o. cbn. auto.
  - apply Forall_cons_iff in U. destruct U as [U1 U]. cbn [fold_left].
    destruct opt as [a|f|s|x| |]; cbn [IndCmdModel.ind_options ind_option_step usable] in *; try contradiction.
    + destruct U1 as (mx & Ha & L). destruct H as (H1 & H2 & H3).
      unfold pbind at 1. unfold pbind at 1. unfold lift at 1. rewrite (read_minmax_asks junk a mx d) by auto. cbn [bind pret].
      apply (IH (mkInd (i_reference o) d (Some (minmax_from_bool mx)) (i_suffix o) (i_mode o)) ra (Some a) w); auto.
      split; [|split; [exists mx; auto|auto]]. destruct ra; auto. destruct H1 as (R & A & B & C). exists R. auto.
    + destruct U1 as (R & Hc). destruct H as (H1 & H2 & H3).
      destruct (read_reference_ok w f R (i_nobj o) Hc H3) as (E & NR & WR).
      unfold pbind at 1. unfold pbind at 1. rewrite E. cbn [bind].
      destruct (Nat.eqb_spec (length R) 0) as [L0|_]; [destruct R; [congruence|discriminate]|].
      apply (IH (mkInd (Some (concat R, length R)) d (i_minmax o) (i_suffix o) (i_mode o)) (Some f) oa w); auto.
      split; [exists R; auto|split; auto].
    + unfold pbind at 1. unfold pret at 1. cbn [bind].
      apply (IH (mkInd (i_reference o) (i_nobj o) (i_minmax o) (Some s) (i_mode o)) ra oa w); auto.
    + unfold pbind at 1. unfold pret at 1. cbn [bind].
      apply (IH (mkInd (i_reference o) (i_nobj o) (i_minmax o) (i_suffix o) (other x (i_mode o))) ra oa w); auto.
Qed.

Lemma ind_start : forall opts w mx R, Forall (usable scan w d) opts -> directions d opts mx -> reference_is scan w d opts R ->
  exists o, ind_options (mkInd None 0 None None mode0) opts w = Ret (inl o, w) /\
    i_reference o = Some (concat R, length R) /\ i_nobj o = d /\ R <> [] /\ wide d R /\
    (i_minmax o = Some (minmax_from_bool mx) \/ i_minmax o = None /\ minmax_from_bool mx = repeat (-1) d) /\ length mx = d /\
    i_suffix o = suffix_asked opts /\ i_mode o = fold_left (fun m x => other x m) (others opts) mode0.
Proof.
  intros opts w mx R U D (f & Ef & Hc).
  destruct (ind_options_ok opts (mkInd None 0 None None mode0) None None w) as (o & E & (S1 & S2 & S3) & Es & Em); auto.
  { repeat split; auto. }
  exists o. split; auto. unfold reference_file in Ef. rewrite Ef in S1. destruct S1 as (R' & Hc' & Er & En).
  assert (concat R' = concat R /\ length R' = length R) as [EQ1 EQ2].
  { pose proof (read_input_file junk junk_int scan data_inc Hscan Hinc w f d d [R] Hc (or_introl eq_refl)) as E1.
    rewrite (read_input_file junk junk_int scan data_inc Hscan Hinc w f d d [R'] Hc' (or_introl eq_refl)) in E1.
    inversion E1 as [[Q1 Q2]]. cbn in Q1, Q2. rewrite ?app_nil_r in *. auto. }
  rewrite EQ1, EQ2 in Er. destruct (file_sets _ _ _ _ _ Hc) as [_ W]. destruct (W R (or_introl eq_refl)) as [NR WR].
  split; auto. split; auto. split; auto. split; auto. unfold directions, obj_arg in D.
  destruct (fold_left _ opts None) as [a|] eqn:Ea in D; rewrite Ea in S2.
  - destruct D as [Da L]. destruct S2 as (mx' & Ha' & L' & Em').
    assert (mx' = mx). { clear - Da Ha'. revert mx' Ha'. induction Da as [|c b a mx E H IH]; intros mx' K; inversion K as [|? b' ? mx'' E' K']; subst; auto.
      f_equal; auto. now destruct b, b'. }
    subst mx'. auto.
  - subst mx. split. { right. split; auto. unfold minmax_from_bool. clear. induction d; cbn; auto. now f_equal. }
    rewrite repeat_length. auto.
Qed.

(** ** Files *)
Section F.
Variable o : ind_opts M.
Variable R : list point.
Variable mx : list bool.
Hypothesis HR : wide d R.
Hypothesis Hmx : length mx = d.
Hypothesis Hmm : i_minmax o = Some (minmax_from_bool mx) \/ i_minmax o = None /\ minmax_from_bool mx = repeat (-1) d.

Local Notation set_body := (fun f => body (i_mode o) f d (minmax_from_bool mx) R).

Lemma do_file_run : forall filename nobj sets w w0 (P : (nat + Z) * world -> Prop),
  read_input junk junk_int scan data_inc filename nobj w = Ret (inl (layout d sets), w0) ->
  (forall s, In s sets -> s <> [] /\ wide d s) ->
  (forall f s, filename = Some f -> i_suffix o = Some s -> can_create (f ++ s)%string = true) ->
  (forall f w1, is_open f w1 ->
    (forall txt w2, written f txt w1 w2 ->
      delivered (match filename with None => None | Some _ => i_suffix o end) (match filename with None => EmptyString | Some f => f end) txt w0 w2) ->
    exists r w', run_sets (set_body f) sets w1 = Ret (r, w') /\ P (match r with inl _ => inl d | inr c => inr c end, w')) ->
  exists r, do_file o (concat R, length R) filename nobj w = Ret r /\ P r.
Proof.
  intros filename nobj sets w w0 P E W C K.
  assert (Ws : forall s, In s sets -> wide d s) by (intros; now apply W).
  unfold IndCmdModel.do_file. unfold pbind at 1. rewrite E. cbn [bind].
  destruct (output_delivered can_create filename (i_suffix o) w0 C) as (f & w1 & Eo & Op & Sd & D).
  unfold pbind at 1. rewrite Eo. cbn [bind layout ds_cumsizes ds_nsets ds_nobjs ds_data fst snd].
  assert (Lm : length (minmax_from_bool mx) = d) by (unfold minmax_from_bool; now rewrite map_length).
  assert (EM : (match i_minmax o with
            | None => lift (default_minmax d (-1))
            | Some m => if (d <=? length m)%nat then pret (firstn d m) else lift OutOfBounds
            end) w1 = Ret (inl (minmax_from_bool mx), w1)).
  { destruct Hmm as [-> | [-> Er]].
    - rewrite Lm, Nat.leb_refl. rewrite <- Lm at 1. now rewrite firstn_all.
    - unfold lift, default_minmax. replace (0 <? d)%nat with true by (symmetry; now apply Nat.ltb_lt). cbn. now rewrite Er. }
  unfold pbind at 1. rewrite EM. cbn [bind]. unfold pbind at 1. unfold lift at 1.
  rewrite (rows_at_ok d R 0 (length R)) by (auto; cbn; lia). cbn [bind skipn]. rewrite firstn_all.
  unfold pbind. rewrite (for_sets_ok _ d sets w1 Ws).
  destruct (K f w1 Op D) as (r & w' & Er & HP). cbn in Er. rewrite Er.
  cbn [bind]. destruct r as [[]|c]; (eexists; split; [reflexivity|exact HP]).
Qed.

Variable ok : list point -> Prop.
Variable line : list point -> text -> Prop.
Hypothesis Hbody : forall f S w, S <> [] -> wide d S -> ok S -> is_open f w ->
  exists t w', set_body f S w = Ret (inl tt, w') /\ line S t /\ written f t w w'.

Lemma do_file_good : forall filename nobj sets w w0,
  read_input junk junk_int scan data_inc filename nobj w = Ret (inl (layout d sets), w0) ->
  (forall s, In s sets -> s <> [] /\ wide d s) ->
  (forall f s, filename = Some f -> i_suffix o = Some s -> can_create (f ++ s)%string = true) ->
  (forall S, In S sets -> ok S) ->
  exists w' ts, do_file o (concat R, length R) filename nobj w = Ret (inl d, w') /\ Forall2 line sets ts /\
    delivered (match filename with None => None | Some _ => i_suffix o end) (match filename with None => EmptyString | Some f => f end) (concat ts) w0 w'.
Proof.
  intros filename nobj sets w w0 E W C G.
  destruct (do_file_run filename nobj sets w w0 (fun r => fst r = inl d /\ exists ts, Forall2 line sets ts /\
    delivered (match filename with None => None | Some _ => i_suffix o end) (match filename with None => EmptyString | Some f => f end) (concat ts) w0 (snd r)) E W C)
    as ([r w'] & A & B & ts & F & D).
  - intros f w1 Op D. destruct (sets_good set_body d ok line Hbody f sets w1) as (w' & ts & A & F & Wr); auto.
    { intros S HS. split; [|split]; [apply W|apply W|apply G]; auto. }
    exists (inl tt), w'. split; [auto|]. split; [auto|]. exists ts. split; [auto|]. cbn [snd]. now apply D.
  - cbn in B. subst r. eauto.
Qed.

Lemma do_files_good : forall names contents w nobj, (nobj = d \/ nobj = 0%nat) ->
  Forall2 (contains scan w d) names contents -> not_overwritten (i_suffix o) names ->
  (forall f s, In f names -> i_suffix o = Some s -> can_create (f ++ s)%string = true) ->
  (forall sets S, In sets contents -> In S sets -> ok S) ->
  exists w' outs, do_files o (concat R, length R) names nobj w = Ret (inl tt, w') /\
    Forall2 (Forall2 line) contents outs /\ delivered_all (i_suffix o) (combine names (map (@concat ascii) outs)) w w'.
Proof.
  induction names as [|n names IH]; intros contents w nobj Hn Hc No C G.
  - inversion Hc. exists w, []. split; auto. split; auto. constructor.
  - destruct contents as [|sets contents']; [inversion Hc|].
    assert (H1 : contains scan w d n sets) by (inversion Hc; assumption). assert (H2 : Forall2 (contains scan w d) names contents') by (inversion Hc; assumption). cbn [IndCmdModel.do_files].
    destruct (file_sets _ _ _ _ _ H1) as [Ns Ws].
    destruct (do_file_good (Some n) nobj sets w w) as (w1 & ts & E & F & D); auto.
    { now apply read_input_file. } { intros f s Ef Es. inversion Ef as [Ef']. rewrite <- Ef' in *. apply C; auto. now left. }
    { intros S HS. apply (G sets); auto. now left. }
    unfold pbind at 1. rewrite E. cbn [bind].
    assert (Hk : forall x, In x names -> match i_suffix o with None => True | Some s => (n ++ s)%string <> x end).
    { unfold not_overwritten in No. destruct (i_suffix o); auto. inversion No as [|? ? No1 No2]; subst. rewrite Forall_forall in No1. auto. }
    destruct (IH contents' w1 d) as (w' & outs & E' & F' & D'); auto.
    { clear - H2 D Hk. induction H2; auto. constructor.
      - eapply kept; eauto. apply Hk. now left.
      - apply IHForall2. intros; apply Hk; now right. }
    { unfold not_overwritten in *. destruct (i_suffix o); auto. now inversion No. }
    { intros; apply C; auto. now right. } { intros; eapply G; eauto. now right. }
    exists w', (ts :: outs). split; auto. split; auto. cbn [map combine]. econstructor; eauto.
Qed.

(** the first set at which the program ends *)
Variable bad : list point -> Prop.
Variable last_line : list point -> text -> Prop.
Variable status : Z.
Hypothesis Hbad : forall f S w, S <> [] -> wide d S -> bad S -> is_open f w ->
  exists t w', set_body f S w = Ret (inr status, w') /\ last_line S t /\ written f t w w'.

Lemma do_file_bad : forall filename nobj good S rest w w0,
  read_input junk junk_int scan data_inc filename nobj w = Ret (inl (layout d (good ++ S :: rest)), w0) ->
  (forall s, In s (good ++ S :: rest) -> s <> [] /\ wide d s) ->
  (forall f s, filename = Some f -> i_suffix o = Some s -> can_create (f ++ s)%string = true) ->
  (forall S, In S good -> ok S) -> bad S ->
  exists w' ts t, do_file o (concat R, length R) filename nobj w = Ret (inr status, w') /\ Forall2 line good ts /\ last_line S t /\
    delivered (match filename with None => None | Some _ => i_suffix o end) (match filename with None => EmptyString | Some f => f end) (concat ts ++ t) w0 w'.
Proof.
  intros filename nobj good S rest w w0 E W C G B.
  destruct (do_file_run filename nobj (good ++ S :: rest) w w0 (fun r => fst r = inr status /\ exists ts t, Forall2 line good ts /\ last_line S t /\
    delivered (match filename with None => None | Some _ => i_suffix o end) (match filename with None => EmptyString | Some f => f end) (concat ts ++ t) w0 (snd r)) E W C)
    as ([r w'] & A & B' & ts & t & F & L & D).
  - intros f w1 Op D. destruct (sets_bad set_body d ok line Hbody bad last_line status Hbad f good S rest w1) as (w' & ts & t & A & F & L & Wr); auto.
    { intros S' HS. assert (In S' (good ++ S :: rest)) by (apply in_or_app; auto). split; [|split]; [apply W|apply W|apply G]; auto. }
    { apply W. apply in_or_app. right. now left. } { apply W. apply in_or_app. right. now left. }
    exists (inr status), w'. split; [auto|]. split; [auto|]. exists ts, t. split; [auto|]. split; [auto|]. cbn [snd]. now apply D.
  - cbn in B'. subst r. eauto 8.
Qed.
Lemma do_files_bad : forall n post good S rest names contents w nobj, (nobj = d \/ nobj = 0%nat) ->
  Forall2 (contains scan w d) names contents -> contains scan w d n (good ++ S :: rest) -> not_overwritten (i_suffix o) (names ++ n :: post) ->
  (forall f s, In f (names ++ [n]) -> i_suffix o = Some s -> can_create (f ++ s)%string = true) ->
  (forall sets S, In sets contents -> In S sets -> ok S) -> (forall S, In S good -> ok S) -> bad S ->
  exists w' outs ts t, do_files o (concat R, length R) (names ++ n :: post) nobj w = Ret (inr status, w') /\
    Forall2 (Forall2 line) contents outs /\ Forall2 line good ts /\ last_line S t /\
    delivered_all (i_suffix o) (combine (names ++ [n]) (map (@concat ascii) outs ++ [concat ts ++ t])) w w'.
Proof.
  intros n post good S rest names. induction names as [|m names IH]; intros contents w nobj Hn Hc Hs No C G Gg B.
  - inversion Hc. cbn [app IndCmdModel.do_files]. destruct (file_sets _ _ _ _ _ Hs) as [Ns Ws].
    destruct (do_file_bad (Some n) nobj good S rest w w) as (w1 & ts & t & E & F & L & D); auto.
    { now apply read_input_file. } { intros f s Ef Es. inversion Ef as [Ef']. rewrite <- Ef' in *. apply C; auto. now left. }
    exists w1, [], ts, t. unfold pbind. rewrite E. cbn [bind]. split; auto. split; auto. split; auto. split; auto.
    cbn. econstructor; eauto. constructor.
  - destruct contents as [|sets contents']; [inversion Hc|].
    assert (H1 : contains scan w d m sets) by (inversion Hc; assumption). assert (H2 : Forall2 (contains scan w d) names contents') by (inversion Hc; assumption). cbn [app IndCmdModel.do_files].
    destruct (file_sets _ _ _ _ _ H1) as [Ns Ws].
    destruct (do_file_good (Some m) nobj sets w w) as (w1 & ts1 & E & F & D); auto.
    { now apply read_input_file. } { intros f s Ef Es. inversion Ef as [Ef']. rewrite <- Ef' in *. apply C; auto. now left. }
    { intros S' HS. apply (G sets); auto. now left. }
    unfold pbind at 1. rewrite E. cbn [bind].
    assert (Hk : forall x, In x (names ++ n :: post) -> match i_suffix o with None => True | Some s => (m ++ s)%string <> x end).
    { unfold not_overwritten in No. destruct (i_suffix o); auto. inversion No as [|? ? No1 No2]; subst. rewrite Forall_forall in No1. auto. }
    destruct (IH contents' w1 d) as (w' & outs & ts & t & E' & F' & F2 & L' & D'); auto.
    { clear - H2 D Hk. induction H2; auto. constructor.
      - eapply kept; eauto. apply Hk. now left.
      - apply IHForall2. intros; apply Hk; now right. }
    { eapply kept; eauto. apply Hk. apply in_or_app. right. now left. }
    { unfold not_overwritten in *. destruct (i_suffix o); auto. now inversion No. }
    { intros; apply C; auto. now right. } { intros; eapply G; eauto. now right. }
    exists w', (ts1 :: outs), ts, t. split; auto. split; auto. split; auto. split; auto. cbn [map combine app]. econstructor; eauto.
Qed.
End F.

(** ** The programs *)
Lemma main_files : forall opts n names w o, ind_options (mkInd None 0 None None mode0) opts w = Ret (inl o, w) ->
  forall reference, i_reference o = Some reference ->
  ind_main opts (n :: names) w = (_ <~ do_files o reference (n :: names) (i_nobj o) ;; exit_ EXIT_SUCCESS) w.
Proof. intros opts n names w o E reference Er. unfold IndCmdModel.ind_main. unfold pbind at 1. rewrite E. cbn [bind]. now rewrite Er. Qed.

Section G.
Variable R : list point.
Variable mx : list bool.
Variable mode : M.
Variable ok : list point -> Prop.
Variable line : list point -> text -> Prop.
Hypothesis Hbody : R <> [] -> wide d R -> forall f S w, S <> [] -> wide d S -> ok S -> is_open f w ->
  exists t w', body mode f d (minmax_from_bool mx) R S w = Ret (inl tt, w') /\ line S t /\ written f t w w'.

Theorem ind_good : forall opts names contents w,
  Forall (usable scan w d) opts -> directions d opts mx -> reference_is scan w d opts R ->
  fold_left (fun m x => other x m) (others opts) mode0 = mode -> names <> [] ->
  Forall2 (contains scan w d) names contents -> not_overwritten (suffix_asked opts) names ->
  (forall f s, In f names -> suffix_asked opts = Some s -> can_create (f ++ s)%string = true) ->
  (forall sets S, In sets contents -> In S sets -> ok S) ->
  exists w' outs, ind_main opts names w = Ret (inr EXIT_SUCCESS, w') /\
    Forall2 (Forall2 line) contents outs /\ delivered_all (suffix_asked opts) (combine names (map (@concat ascii) outs)) w w'.
Proof.
  intros opts names contents w U D Rf Em N Hc No C G.
  destruct (ind_start opts w mx R U D Rf) as (o & E & Er & En & NR & WR & Hmm & Lmx & Es & Emo).
  destruct names as [|n names]; [congruence|]. rewrite (main_files opts n names w o E _ Er). rewrite <- Es in *.
  destruct (do_files_good o R mx WR Lmx Hmm ok line) with (names := n :: names) (contents := contents) (w := w) (nobj := i_nobj o)
    as (w' & outs & A & F & Dl); auto.
  { rewrite Emo, Em. auto. }
  exists w', outs. unfold pbind. rewrite A. auto.
Qed.
Theorem ind_good_stdin : forall opts sets w,
  Forall (usable scan w d) opts -> directions d opts mx -> reference_is scan w d opts R ->
  fold_left (fun m x => other x m) (others opts) mode0 = mode ->
  sets_text scan d (w_stdin w) sets -> (forall S, In S sets -> ok S) ->
  exists w' ts, ind_main opts [] w = Ret (inr EXIT_SUCCESS, w') /\ Forall2 line sets ts /\
    w_stdin w' = [] /\ w_stdout w' = w_stdout w ++ concat ts /\ forall n, w_files w' n = w_files w n.
Proof.
  intros opts sets w U D Rf Em T G.
  destruct (ind_start opts w mx R U D Rf) as (o & E & Er & En & NR & WR & Hmm & Lmx & Es & Emo).
  destruct (describes_sets scan _ _ _ (proj2 (proj2 T))) as [Ns Ws].
  destruct (do_file_good o R mx WR Lmx Hmm ok line) with (filename := @None string) (nobj := i_nobj o) (sets := sets) (w := w) (w0 := mkWorld (w_files w) [] (w_stdout w))
    as (w' & ts & A & F & D1 & D2 & D3); auto.
  { rewrite Emo, Em. auto. } { apply read_input_stdin; auto. } { discriminate. }
  exists w', ts. unfold IndCmdModel.ind_main. unfold pbind. rewrite E. cbn [bind]. rewrite Er. rewrite A. split; auto.
Qed.

Variable bad : list point -> Prop.
Variable last_line : list point -> text -> Prop.
Variable status : Z.
Hypothesis Hbad : R <> [] -> wide d R -> forall f S w, S <> [] -> wide d S -> bad S -> is_open f w ->
  exists t w', body mode f d (minmax_from_bool mx) R S w = Ret (inr status, w') /\ last_line S t /\ written f t w w'.
Theorem ind_bad : forall opts names n post contents good S rest w,
  Forall (usable scan w d) opts -> directions d opts mx -> reference_is scan w d opts R ->
  fold_left (fun m x => other x m) (others opts) mode0 = mode ->
  Forall2 (contains scan w d) names contents -> contains scan w d n (good ++ S :: rest) ->
  not_overwritten (suffix_asked opts) (names ++ n :: post) ->
  (forall f s, In f (names ++ [n]) -> suffix_asked opts = Some s -> can_create (f ++ s)%string = true) ->
  (forall sets S, In sets contents -> In S sets -> ok S) -> (forall S, In S good -> ok S) -> bad S ->
  exists w' outs ts t, ind_main opts (names ++ n :: post) w = Ret (inr status, w') /\
    Forall2 (Forall2 line) contents outs /\ Forall2 line good ts /\ last_line S t /\
    delivered_all (suffix_asked opts) (combine (names ++ [n]) (map (@concat ascii) outs ++ [concat ts ++ t])) w w'.
Proof.
  intros opts names n post contents good S rest w U D Rf Em Hc Hs No C G Gg B.
  destruct (ind_start opts w mx R U D Rf) as (o & E & Er & En & NR & WR & Hmm & Lmx & Es & Emo).
  rewrite <- Es in *.
  destruct (do_files_bad o R mx WR Lmx Hmm ok line) with (bad := bad) (last_line := last_line) (status := status) (n := n) (post := post) (good := good) (S := S) (rest := rest)
     (names := names) (contents := contents) (w := w) (nobj := i_nobj o)
    as (w' & outs & ts & t & A & F & F2 & L & Dl); auto.
  { rewrite Emo, Em. auto. } { rewrite Emo, Em. auto. }
  exists w', outs, ts, t. assert (Q : exists a l, names ++ n :: post = a :: l) by (destruct names; cbn; eauto).
  destruct Q as (a & l & Q). rewrite Q in *. rewrite (main_files opts a l w o E _ Er). unfold pbind. rewrite A. auto.
Qed.
End G.


(** ** Refusals *)
Lemma ind_options_app : forall a b o w, ind_options o (a ++ b) w = (o' <~ ind_options o a ;; ind_options o' b) w.
Proof.
  induction a as [|x a IH]; intros b o w; cbn [app IndCmdModel.ind_options]; auto. unfold pbind at 1. unfold pbind at 1. unfold pbind at 1.
  destruct (ind_option_step _ _ _ _ _ _ _ o x w) as [[[o'|c] w1]| | |]; cbn [bind]; auto. rewrite IH. reflexivity.
Qed.
Lemma ref_none : forall opts acc, fold_left (fun acc (o : ind_option X) => match o with OptReference f => Some f | _ => acc end) opts acc = None ->
  acc = None /\ forall f, ~ In (OptReference f) opts.
Proof.
  induction opts as [|x opts IH]; intros acc H. { split; auto. }
  cbn in H. destruct (IH _ H) as [A B]. destruct x; try discriminate; split; auto; intros f0 [E|K]; try discriminate; eapply B; eauto.
Qed.
Lemma obj_none : forall opts acc, fold_left (fun acc (o : ind_option X) => match o with OptObj f => Some f | _ => acc end) opts acc = None ->
  acc = None /\ forall f, ~ In (OptObj f) opts.
Proof.
  induction opts as [|x opts IH]; intros acc H. { split; auto. }
  cbn in H. destruct (IH _ H) as [A B]. destruct x; try discriminate; split; auto; intros f0 [E|K]; try discriminate; eapply B; eauto.
Qed.
Lemma ind_options_nobj : forall opts o w o', ind_options o opts w = Ret (inl o', w) -> Forall (usable scan w d) opts ->
  (i_nobj o = d \/ i_nobj o = 0%nat) ->
  (i_nobj o = d \/ Exists (fun x => match x with OptObj _ | OptReference _ => True | _ => False end) opts) -> i_nobj o' = d.
Proof.
  induction opts as [|opt opts IH]; intros o w o' E U K Q.
  - cbn in E. inversion E; subst. destruct Q as [Q|Q]; auto. inversion Q.
  - apply Forall_cons_iff in U. destruct U as [U1 U]. cbn [IndCmdModel.ind_options] in E.
    destruct opt as [a|f|s|x| |]; cbn [ind_option_step usable] in *; try contradiction.
    + destruct U1 as (mx & Ha & L). unfold pbind at 1 in E. unfold pbind at 1 in E. unfold lift in E. rewrite (read_minmax_asks junk a mx d) in E by auto. cbn [bind pret] in E.
      eapply (IH _ _ _ E); cbn; auto.
    + destruct U1 as (R & Hc). destruct (read_reference_ok w f R (i_nobj o) Hc K) as (Er & NR & WR).
      unfold pbind at 1 in E. unfold pbind at 1 in E. rewrite Er in E. cbn [bind] in E.
      destruct (Nat.eqb_spec (length R) 0) as [L0|_]; [destruct R; [congruence|discriminate]|].
      eapply (IH _ _ _ E); cbn; auto.
    + unfold pbind at 1 in E. cbn [pret bind] in E. eapply (IH _ _ _ E); cbn; auto. destruct Q as [Q|Q]; auto. inversion Q; subst; auto. contradiction.
    + unfold pbind at 1 in E. cbn [pret bind] in E. eapply (IH _ _ _ E); cbn; auto. destruct Q as [Q|Q]; auto. inversion Q; subst; auto. contradiction.
Qed.

Lemma options_pre : forall pre w, Forall (usable scan w d) pre ->
  exists o, ind_options (mkInd None 0 None None mode0) pre w = Ret (inl o, w) /\ (i_nobj o = d \/ i_nobj o = 0%nat) /\ (fixes_columns pre -> i_nobj o = d) /\
    (reference_file pre = None -> i_reference o = None).
Proof.
  intros pre w U. destruct (ind_options_ok pre (mkInd None 0 None None mode0) None None w) as (o & E & (S1 & S2 & S3) & _); auto.
  { repeat split; auto. }
  exists o. split; auto. split; auto. split.
  - intros Q. eapply ind_options_nobj; eauto. right. destruct Q as (q & Hq & Q). apply Exists_exists. exists q. auto.
  - intros Ef. unfold reference_file in Ef. rewrite Ef in S1. auto.
Qed.

Theorem ind_option_refused : forall pre opt post names w status,
  Forall (usable scan w d) pre -> refused scan w d pre opt status ->
  ind_main (pre ++ opt :: post) names w = Ret (inr status, w).
Proof.
  intros pre opt post names w status U Rf. destruct (options_pre pre w U) as (o & E & Ho & Hf & _).
  assert (S : ind_option_step junk junk_int scan data_inc X M other o opt w = Ret (inr status, w)).
  { destruct opt as [a|f|s|x| |]; cbn [ind_option_step refused] in *; try contradiction.
    - destruct (C50_directions junk a (i_nobj o)) as (r & Er & N & Q & _). unfold pbind, lift. rewrite Er. cbn [bind].
      destruct Rf as [[H ->]|[H ->]].
      + rewrite (proj2 N). reflexivity. destruct H as (ch & Hin & K). exists ch. split; auto.
      + rewrite (proj2 Q H). reflexivity.
    - destruct Rf as (T & K & ->). unfold pbind at 1. unfold read_reference_set, pbind.
      rewrite (read_input_refused junk junk_int scan data_inc Hscan Hinc w f (i_nobj o) T). reflexivity.
      intros d' sets Hc. destruct (K d' sets Hc) as [K1 K2]. rewrite (Hf K1). split; lia.
    - subst status. reflexivity. }
  unfold IndCmdModel.ind_main, pbind at 1. rewrite ind_options_app. unfold pbind at 1. rewrite E. cbn [bind IndCmdModel.ind_options].
  unfold pbind at 1. rewrite S. reflexivity.
Qed.

Theorem ind_no_reference : forall opts names w, Forall (usable scan w d) opts -> reference_file opts = None ->
  ind_main opts names w = Ret (inr EXIT_FAILURE, w).
Proof.
  intros opts names w U Rf. destruct (options_pre opts w U) as (o & E & _ & _ & Hr).
  unfold IndCmdModel.ind_main, pbind at 1. rewrite E. cbn [bind]. rewrite (Hr Rf). reflexivity.
Qed.

Theorem ind_several_sets : forall pre f d' s1 s2 sets post names w,
  Forall (usable scan w d) pre -> contains scan w d' f (s1 :: s2 :: sets) -> (fixes_columns pre -> d' = d) ->
  ind_main (pre ++ OptReference f :: post) names w = AssertFailed.
Proof.
  intros pre f d' s1 s2 sets post names w U Hc H1. destruct (options_pre pre w U) as (o & E & Ho & Hf & _).
  assert (Hn : i_nobj o = d' \/ i_nobj o = 0%nat).
  { destruct Ho as [Ho|Ho]; auto. left.
    assert (D : fixes_columns pre \/ forall q, In q pre -> match q with OptObj _ | OptReference _ => False | _ => True end).
    { clear. induction pre as [|q pre IH]; [right; intros q []|]. destruct IH as [(q' & A & B)|IH].
      - left. exists q'. split; auto. now right.
      - destruct q; first [left; eexists; split; [left; reflexivity|exact I] | right; intros q' [<-|A]; [exact I|apply IH; auto]]. }
    destruct D as [D|D]. { rewrite (H1 D). auto. }
    assert (Z0 : forall opts o o', ind_options o opts w = Ret (inl o', w) -> (forall q, In q opts -> match q with OptObj _ | OptReference _ => False | _ => True end) -> i_nobj o' = i_nobj o).
    { clear. induction opts as [|q opts IH]; intros o o' E Q. { cbn in E. now inversion E. }
      cbn [IndCmdModel.ind_options] in E. pose proof (Q q (or_introl eq_refl)) as Qq. destruct q; try contradiction; cbn [ind_option_step] in E; unfold pbind at 1 in E; cbn in E; try discriminate.
      - apply IH in E; auto. intros; apply Q; now right.
      - apply IH in E; auto. intros; apply Q; now right. }
    rewrite (Z0 _ _ _ E D) in Ho. cbn in Ho. lia. }
  unfold IndCmdModel.ind_main, pbind at 1. rewrite ind_options_app. unfold pbind at 1. rewrite E. cbn [bind IndCmdModel.ind_options ind_option_step].
  unfold pbind at 1. unfold pbind at 1. unfold read_reference_set. unfold pbind at 1.
  rewrite (read_input_file junk junk_int scan data_inc Hscan Hinc w f d' (i_nobj o) _ Hc Hn). reflexivity.
Qed.

Theorem ind_file_refused : forall opts n post w R, Forall (usable scan w d) opts -> reference_is scan w d opts R ->
  (forall t, w_files w n = Some t -> ~ In vt t /\ ~ In ff t) -> (forall sets, ~ contains scan w d n sets) ->
  ind_main opts (n :: post) w = Ret (inr EXIT_FAILURE, w).
Proof.
  intros opts n post w R U (f & Ef & Hc) T Nn.
  destruct (ind_options_ok opts (mkInd None 0 None None mode0) None None w) as (o & E & (S1 & S2 & S3) & _); auto.
  { repeat split; auto. }
  unfold reference_file in Ef. rewrite Ef in S1. destruct S1 as (R' & _ & Er & En).
  rewrite (main_files opts n post w o E _ Er). cbn [IndCmdModel.do_files]. unfold pbind at 1. unfold pbind at 1. unfold IndCmdModel.do_file, pbind at 1.
  rewrite (read_input_refused junk junk_int scan data_inc Hscan Hinc w n (i_nobj o) T). reflexivity.
  intros d' sets Hcn. rewrite En. split; [|lia]. intros <-. eapply Nn; eauto.
Qed.

Theorem ind_output_refused : forall opts n post w R sets suffix, Forall (usable scan w d) opts -> reference_is scan w d opts R ->
  contains scan w d n sets -> suffix_asked opts = Some suffix -> can_create (n ++ suffix)%string = false ->
  ind_main opts (n :: post) w = Ret (inr EXIT_FAILURE, w).
Proof.
  intros opts n post w R sets suffix U (f & Ef & Hc) Hcn Su C.
  destruct (ind_options_ok opts (mkInd None 0 None None mode0) None None w) as (o & E & (S1 & S2 & S3) & Es & _); auto.
  { repeat split; auto. }
  unfold reference_file in Ef. rewrite Ef in S1. destruct S1 as (R' & _ & Er & En).
  cbn [i_suffix] in Es. change (i_suffix o = suffix_asked opts) in Es.
  rewrite (main_files opts n post w o E _ Er). cbn [IndCmdModel.do_files]. unfold pbind at 1. unfold pbind at 1. unfold IndCmdModel.do_file, pbind at 1.
  rewrite (read_input_file junk junk_int scan data_inc Hscan Hinc w n d (i_nobj o) sets Hcn (or_introl En)).
  cbn [bind]. unfold pbind at 1. rewrite Es, Su. cbn [output_of]. unfold open_output. rewrite C. reflexivity.
Qed.
End I.
