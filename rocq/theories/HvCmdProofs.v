(** Proofs about the hv program. *)
From Coq Require Import Ascii String List ZArith Lia Bool Arith.
From Verif Require Import Base Spec NondomModel HvSpec HvModel HvMain HvFacts HvShiftModel HvShiftProofs IoModel IoSpec IoMain
  CmdModel CmdSpec CmdProofs CmdLoop HvCmdModel HvCmdSpec.
Import ListNotations.
Local Open Scope list_scope.
Open Scope Z_scope.

(** ** Options *)
Section O.
Variable strtod : text -> option (Z * text).
Hypothesis Hst : valid_strtod strtod.
Variable junk : Z.

Definition opts_ok (r : option text) (o : hv_opts) : Prop :=
  match r with
  | None => o_reference o = None /\ o_nobj o = 0%nat
  | Some a => exists buf xs, o_reference o = Some buf /\ point_text strtod a xs /\ o_nobj o = length xs /\
                firstn (length xs) buf = xs /\ (length xs <= length buf)%nat
  end.
Lemma hv_options_ok : forall opts o r w, opts_ok r o -> references_valid strtod opts ->
  exists o', hv_options junk strtod o opts w = Ret (inl o', w) /\
    opts_ok (fold_left (fun acc o => match o with HvReference a => Some a | _ => acc end) opts r) o' /\
    o_suffix o' = fold_left (fun acc o => match o with HvSuffix a => Some a | _ => acc end) opts (o_suffix o) /\
    o_union o' = o_union o || union_asked opts /\ o_shift o' = o_shift o || shift_asked opts.
Proof.
  induction opts as [|opt opts IH]; intros o r w Ho V.
  - exists o. cbn. rewrite !orb_false_r. repeat split; auto.
  - assert (V' : references_valid strtod opts) by (intros a Ha; apply V; now right).
    destruct opt as [a| |s| |]; cbn [hv_options hv_option_step fold_left union_asked shift_asked existsb]; unfold pbind, lift, pret.
    + destruct (V a) as (xs & N & P). now left.
      destruct (read_point_ok strtod Hst junk a xs P N) as (buf & E & F & L). rewrite E. cbn [bind].
      destruct (IH (mkHvOpts (Some buf) (length xs) (o_union o) (o_suffix o) (o_shift o)) (Some a) w) as (o' & A & B); auto.
      { cbn. exists buf, xs. auto. }
      exists o'. split; auto.
    + cbn [bind]. destruct (IH (mkHvOpts (o_reference o) (o_nobj o) true (o_suffix o) (o_shift o)) r w) as (o' & A & B & C & D & E); auto.
      exists o'. split; [auto|]. split; [auto|]. split; [auto|]. cbn in D, E. split; [|auto]. rewrite D. now destruct (o_union o).
    + cbn [bind]. destruct (IH (mkHvOpts (o_reference o) (o_nobj o) (o_union o) (Some s) (o_shift o)) r w) as (o' & A & B); auto.
      exists o'. split; auto.
    + cbn [bind]. destruct (IH (mkHvOpts (o_reference o) (o_nobj o) (o_union o) (o_suffix o) true) r w) as (o' & A & B & C & D & E); auto.
      exists o'. split; [auto|]. split; [auto|]. split; [auto|]. split; [auto|]. cbn in E. rewrite E. now destruct (o_shift o).
    + cbn [bind]. apply (IH o r w); auto.
Qed.
Lemma hv_options_refused : forall opts o w, ~ references_valid strtod opts ->
  hv_options junk strtod o opts w = Ret (inr EXIT_FAILURE, w).
Proof.
  induction opts as [|opt opts IH]; intros o w V.
  - exfalso. apply V. intros a [].
  - destruct opt as [a| |s| |]; cbn [hv_options hv_option_step]; unfold pbind, lift, pret.
    2,3,4,5: cbn [bind]; apply IH; intros V'; apply V; intros a [E|Ha]; [discriminate|auto].
    assert (D : (exists xs, xs <> [] /\ point_text strtod a xs) \/ ~ (exists xs, xs <> [] /\ point_text strtod a xs)).
    { destruct (read_point_loop_ok strtod Hst (S (length a)) [] 0 0 a ltac:(lia) ltac:(cbn; lia)) as (_ & xs & c & _ & _ & _ & _ & P).
      destruct (forallb isspace c) eqn:Ec, xs as [|x xs].
      - right. intros (ys & N & Q). apply P in Q. destruct Q. congruence.
      - left. exists (x :: xs). split; [discriminate|]. apply P. auto.
      - right. intros (ys & N & Q). apply P in Q. destruct Q. congruence.
      - right. intros (ys & N & Q). apply P in Q. destruct Q. congruence. }
    destruct D as [(xs & N & P)|D].
    + destruct (read_point_ok strtod Hst junk a xs P N) as (buf & E & F & L). rewrite E. cbn [bind].
      apply IH. intros V'. apply V. intros b [Eb|Hb]; [|auto]. inversion Eb; subst. eauto.
    + rewrite (read_point_refused strtod Hst junk a D). reflexivity.
Qed.
End O.

(** ** Bounds *)
Definition is_bounds (d : nat) (pts : list point) (b : point * point) : Prop :=
  length (fst b) = d /\ length (snd b) = d /\
  forall i, (i < d)%nat -> least i pts (coord (fst b) i) /\ greatest i pts (coord (snd b) i).

Lemma map2_length : forall f a b, length a = length b -> length (map2 f a b) = length a.
Proof. induction a; intros [|y b] H; cbn in *; try lia; auto. Qed.
Lemma map2_coord : forall f a b i, length a = length b -> (i < length a)%nat -> coord (map2 f a b) i = f (coord a i) (coord b i).
Proof.
  induction a as [|x a IH]; intros [|y b] i H Hi; cbn in *; try lia. destruct i as [|i]; cbn; auto.
  apply IH; lia.
Qed.
Lemma lower_min : forall a b, lower a b = Z.min a b.
Proof. intros. unfold lower. rewrite Z.gtb_ltb. destruct (Z.ltb_spec b a); lia. Qed.
Lemma higher_max : forall a b, higher a b = Z.max a b.
Proof. intros. unfold higher. destruct (Z.ltb_spec a b); lia. Qed.

Lemma fold_bounds : forall d rows pts mn mx, wide d rows -> is_bounds d pts (mn, mx) ->
  is_bounds d (pts ++ rows) (fold_left (fun m x => map2 lower m x) rows mn, fold_left (fun m x => map2 higher m x) rows mx).
Proof.
  induction rows as [|r rows IH]; intros pts mn mx W H; cbn [fold_left].
  - now rewrite app_nil_r.
  - replace (pts ++ r :: rows) with ((pts ++ [r]) ++ rows) by (rewrite <- app_assoc; reflexivity).
    apply IH. { intros x Hx. apply W. now right. }
    destruct H as (L1 & L2 & H). cbn [fst snd] in *. assert (Lr : length r = d) by (apply W; now left).
    split; cbn [fst snd]. rewrite map2_length; lia. split. rewrite map2_length; lia.
    intros i Hi. rewrite !map2_coord, lower_min, higher_max by lia. destruct (H i Hi) as [[(p & Hp & Ep) Hl] [(q & Hq & Eq) Hg]].
    split; (split; [|intros x Hx; apply in_app_iff in Hx; destruct Hx as [Hx|[<-|[]]]; [specialize (Hl x Hx); specialize (Hg x Hx)|]; lia]).
    + destruct (Z.le_gt_cases (coord mn i) (coord r i)).
      * exists p. rewrite in_app_iff. split; auto. lia.
      * exists r. rewrite in_app_iff. split; [right; now left|]. lia.
    + destruct (Z.le_gt_cases (coord r i) (coord mx i)).
      * exists q. rewrite in_app_iff. split; auto. lia.
      * exists r. rewrite in_app_iff. split; [right; now left|]. lia.
Qed.
Lemma data_bounds_new : forall d rows, wide d rows -> rows <> [] ->
  exists b, data_bounds None None rows = Ret b /\ is_bounds d rows b.
Proof.
  intros d [|r rows] W N; [congruence|]. unfold data_bounds. cbn [rd nth_error bind skipn]. eexists. split; [reflexivity|].
  apply (fold_bounds d rows [r]). { intros x Hx. apply W. now right. }
  assert (Lr : length r = d) by (apply W; now left). split; auto. split; auto. intros i Hi. cbn [fst snd].
  split; (split; [exists r; split; [now left|auto]|intros p [<-|[]]; lia]).
Qed.
Lemma data_bounds_more : forall d pts b rows, wide d rows -> is_bounds d pts b ->
  exists b', data_bounds (Some (fst b)) (Some (snd b)) rows = Ret b' /\ is_bounds d (pts ++ rows) b'.
Proof.
  intros d pts [mn mx] rows W H. unfold data_bounds. cbn [bind skipn fst snd]. eexists. split; [reflexivity|]. now apply fold_bounds.
Qed.

Lemma default_ref_ok : forall d pts b ref, is_bounds d pts b -> default_reference d pts ref ->
  map2 default_ref (fst b) (snd b) = ref.
Proof.
  intros d pts [mn mx] ref (L1 & L2 & H) (L3 & K). cbn [fst snd] in *.
  apply (nth_ext _ _ 0 0). rewrite map2_length; lia. intros i Hi. rewrite map2_length in Hi by lia.
  change (coord (map2 default_ref mn mx) i = coord ref i). rewrite map2_coord by lia.
  destruct (H i ltac:(lia)) as [[(p & Hp & Ep) Hl] [(q & Hq & Eq) Hg]].
  destruct (K i ltac:(lia)) as (m & M & [(p' & Hp' & Ep') Hl'] & [(q' & Hq' & Eq') Hg'] & E).
  assert (m = coord mn i). { specialize (Hl p' Hp'). specialize (Hl' p Hp). lia. }
  assert (M = coord mx i). { specialize (Hg q' Hq'). specialize (Hg' q Hq). lia. }
  subst m M. unfold default_ref.
  replace (coord mx i - coord mn i) with ((coord ref i - coord mx i) * 10) by lia. rewrite Z.div_mul by lia. lia.
Qed.

Lemma hypervolume_zero : forall d S ref v, wf_points d S -> length ref = d -> hypervolume S ref v -> (v = 0 <-> ~ has_volume d ref S).
Proof.
  intros d S ref v W Hr (L & N & I & ->). unfold has_volume. split.
  - intros HL (p & Hp & Hlt). assert (In p L).
    { apply I. split. { unfold wf_points in W. rewrite Forall_forall in W. rewrite W by auto. auto. }
      rewrite Hr. split; auto. exists p. split; auto. intros; lia. }
    destruct L; simpl in *; [contradiction|lia].
  - intros Hn. destruct L as [|z L]; auto. exfalso. apply Hn.
    destruct (proj1 (I z) (or_introl eq_refl)) as (_ & (p & Hp & Hle) & Hlt).
    exists p. split; auto. intros i Hi. rewrite Hr in *. specialize (Hle i Hi). specialize (Hlt i Hi). lia.
Qed.

Section Sets.
Variable sort2d : list point -> list nat.
Variable sortd : (nat -> Z) -> list nat -> list nat.
Variable dbl_max : Z.
Variable g : hvst.
Variable fmt : Z -> text.
Hypothesis Hs2 : valid_sort2d sort2d.
Hypothesis Hsd : valid_sort sortd.
Variable d : nat.
Hypothesis Hd : (2 <= d)%nat.
Hypothesis Hst : (d <= 3)%nat \/ stable_sort sortd.
Variable ref : point.
Hypothesis Href : length ref = d.

Definition finite (S : list point) : Prop :=
  forall p i, In p S -> (i < d)%nat -> - dbl_max <= coord p i /\ - dbl_max <= coord p i - coord ref i.

Lemma hv_set_ok : forall o f S w, wide d S -> finite S -> is_open f w ->
  exists v, hypervolume S ref v /\
    ((has_volume d ref S /\ exists w', hv_set sort2d sortd dbl_max g fmt o f d ref S w = Ret (inl tt, w') /\ written f (fmt v ++ [nl]) w w') \/
     (~ has_volume d ref S /\ hv_set sort2d sortd dbl_max g fmt o f d ref S w = Ret (inr EXIT_FAILURE, w))).
Proof.
  intros o f S w W F Op. assert (Wf : wf_points d S) by (apply Forall_forall; exact W).
  assert (H3 : (d <= 3)%nat \/ stable_sort sortd \/ no_ties S d) by tauto.
  assert (K : exists v, (if o_shift o then r <- fpli_hv_shift sort2d sortd dbl_max g S d ref ;; Ret (fst r)
                  else fpli_hv sort2d sortd dbl_max g S d ref) = Ret v /\ hypervolume S ref v).
  { destruct (o_shift o).
    - destruct (fpli_hv_shift_ok sort2d sortd dbl_max g S d ref Hs2 Hsd H3 Wf Href ltac:(lia)) as (v & S' & E & Hv & _).
      { intros. now apply F. }
      rewrite E. cbn [bind fst]. eauto.
    - destruct (fpli_hv_ok_gen sort2d sortd dbl_max g S d ref Hs2 Hsd H3 Wf Href Hd) as (v & E & Hv); eauto.
      intros. now apply F. }
  destruct K as (v & E & Hv). exists v. split; auto. unfold hv_set, pbind, lift. rewrite E. cbn [bind].
  pose proof (hypervolume_zero d S ref v Wf Href Hv) as Z0. destruct (Z.eqb_spec v 0) as [->|N].
  - right. split; [now apply Z0|reflexivity].
  - left. split. { destruct Hv as (L & _ & I & Ev). destruct L as [|z L]; [cbn in Ev; lia|].
      destruct (proj1 (I z) (or_introl eq_refl)) as (_ & (p & Hp & Hle) & Hlt).
      exists p. split; auto. intros i Hi. rewrite Href in *. specialize (Hle i Hi). specialize (Hlt i Hi). lia. }
    destruct (fwrite_ok f (fmt v ++ [nl]) w Op) as (w' & A & B). eauto.
Qed.

Lemma run_good : forall o f sets w, (forall S, In S sets -> wide d S /\ finite S /\ has_volume d ref S) -> is_open f w ->
  exists w' vs, run_sets (hv_set sort2d sortd dbl_max g fmt o f d ref) sets w = Ret (inl tt, w') /\
    written f (listing fmt vs) w w' /\ Forall2 (fun S v => hypervolume S ref v) sets vs.
Proof.
  induction sets as [|S sets IH]; intros w H Op; cbn [run_sets].
  - exists w, []. split; auto. split; auto. now apply written_nil.
  - destruct (H S (or_introl eq_refl)) as (W & F & V).
    destruct (hv_set_ok o f S w W F Op) as (v & Hv & [(_ & w1 & E & R)|(N & _)]); [|contradiction].
    unfold pbind. rewrite E. cbn [bind].
    destruct (IH w1) as (w' & vs & E' & R' & F'). { intros; apply H; now right. } { eapply written_open; eauto. }
    exists w', (v :: vs). split; auto. split; auto. change (listing fmt (v :: vs)) with ((fmt v ++ [nl]) ++ listing fmt vs).
    eapply written_app; eauto.
Qed.
Lemma run_bad : forall o f good bad rest w, (forall S, In S good -> wide d S /\ finite S /\ has_volume d ref S) ->
  wide d bad -> finite bad -> ~ has_volume d ref bad -> is_open f w ->
  exists w' vs, run_sets (hv_set sort2d sortd dbl_max g fmt o f d ref) (good ++ bad :: rest) w = Ret (inr EXIT_FAILURE, w') /\
    written f (listing fmt vs) w w' /\ Forall2 (fun S v => hypervolume S ref v) good vs.
Proof.
  induction good as [|S sets IH]; intros bad rest w H Wb Fb Nb Op; cbn [app run_sets].
  - destruct (hv_set_ok o f bad w Wb Fb Op) as (v & Hv & [(V & _)|(_ & E)]); [contradiction|].
    unfold pbind. rewrite E. exists w, []. split; auto. split; auto. now apply written_nil.
  - destruct (H S (or_introl eq_refl)) as (W & F & V).
    destruct (hv_set_ok o f S w W F Op) as (v & Hv & [(_ & w1 & E & R)|(N & _)]); [|contradiction].
    unfold pbind. rewrite E. cbn [bind].
    destruct (IH bad rest w1) as (w' & vs & E' & R' & F'); auto. { intros; apply H; now right. } { eapply written_open; eauto. }
    exists w', (v :: vs). split; auto. split; auto. change (listing fmt (v :: vs)) with ((fmt v ++ [nl]) ++ listing fmt vs).
    eapply written_app; eauto.
Qed.
End Sets.

Section Files.
Variable sort2d : list point -> list nat.
Variable sortd : (nat -> Z) -> list nat -> list nat.
Variable dbl_max : Z.
Variable g : hvst.
Variable can_create : string -> bool.
Variable junk : Z.
Variable junk_int : nat.
Variable scan : text -> option (Z * text).
Variable data_inc : nat.
Variable fmt : Z -> text.
Hypothesis Hs2 : valid_sort2d sort2d.
Hypothesis Hsd : valid_sort sortd.
Hypothesis Hscan : valid_scanner Z scan.
Hypothesis Hinc : (0 < data_inc)%nat.
Variable d : nat.
Hypothesis Hd : (2 <= d)%nat.
Hypothesis Hst : (d <= 3)%nat \/ stable_sort sortd.
Variable ref : point.
Hypothesis Href : length ref = d.

Local Notation hv_file := (hv_file sort2d sortd dbl_max g can_create junk junk_int scan data_inc fmt).
Local Notation finite := (finite dbl_max d ref).

Definition units (o : hv_opts) (sets : list (list point)) := if o_union o then [concat sets] else sets.

(** the reference point used for a file *)
Definition uses_reference (o : hv_opts) (bounds : option (point * point)) (sets : list (list point)) : Prop :=
  match o_reference o with
  | Some r => firstn d r = ref /\ (d <= length r)%nat
  | None => match bounds with
            | Some b => map2 default_ref (fst b) (snd b) = ref
            | None => default_reference d (concat sets) ref
            end
  end.

Lemma hv_file_run : forall o filename bounds nobj sets w w0 (P : (nat + Z) * world -> Prop),
  read_input junk junk_int scan data_inc filename nobj w = Ret (inl (layout d sets), w0) ->
  sets <> [] -> (forall s, In s sets -> s <> [] /\ wide d s) -> uses_reference o bounds sets ->
  (forall f s, filename = Some f -> o_suffix o = Some s -> can_create (f ++ s)%string = true) ->
  (forall f w1, is_open f w1 ->
    (forall txt w2, written f txt w1 w2 -> w_stdin w1 = w_stdin w0 /\
      delivered (match filename with None => None | Some _ => o_suffix o end) (match filename with None => EmptyString | Some f => f end) txt w0 w2) ->
    exists r w', run_sets (hv_set sort2d sortd dbl_max g fmt o f d ref) (units o sets) w1 = Ret (r, w') /\
      P (match r with inl _ => inl d | inr c => inr c end, w')) ->
  exists r, hv_file o filename bounds nobj w = Ret r /\ P r.
Proof.
  intros o filename bounds nobj sets w w0 P E N W U C K.
  assert (Ws : forall s, In s sets -> wide d s) by (intros; now apply W).
  assert (Wc : wide d (concat sets)) by now apply wide_concat.
  assert (Nc : concat sets <> []). { destruct sets as [|s l]; [congruence|]. destruct (W s (or_introl eq_refl)) as [Ns _]. cbn. destruct s; [congruence|discriminate]. }
  unfold HvCmdModel.hv_file. unfold pbind at 1. rewrite E. cbn [bind].
  destruct (output_delivered can_create filename (o_suffix o) w0 C) as (f & w1 & Eo & Op & Sd & D).
  unfold pbind at 1. rewrite Eo. cbn [bind layout ds_cumsizes ds_nsets ds_nobjs ds_data].
  assert (CN : exists cs nr, (if o_union o then last <- rd (cum_from 0 sets) (length sets - 1) ;;
                                cs <- wr (cum_from 0 sets) 0 last ;; Ret (cs, 1%nat)
              else Ret (cum_from 0 sets, length sets)) = Ret (cs, nr) /\ rd cs (nr - 1) = Ret (length (concat sets)) /\
       forall body w, for_sets body (concat (concat sets)) d cs 0 nr 0 w = run_sets body (units o sets) w).
  { unfold units. destruct (o_union o).
    - rewrite last_cum by auto. cbn [bind]. destruct sets as [|s l]; [congruence|]. cbn [cum_from wr length Nat.ltb Nat.leb bind upd].
      eexists _, _. split; [reflexivity|]. split; [reflexivity|]. intros body w2.
      rewrite <- (for_sets_ok body d [concat (s :: l)]) by (intros x [<-|[]]; auto).
      cbn [for_sets length]. change (concat [concat (s :: l)]) with (concat (s :: l) ++ []). rewrite app_nil_r. reflexivity.
    - exists (cum_from 0 sets), (length sets). split; auto. split. now apply last_cum. intros. now apply for_sets_ok. }
  destruct CN as (cs & nr & Ec & El & Ef). unfold pbind at 1. unfold lift at 1. rewrite Ec. cbn [bind].
  assert (B : exists b, (match bounds with
       | Some b => pret b
       | None =>
           last <~ lift (rd cs (nr - 1)) ;;
           rows <~ lift (rows_at (concat (concat sets)) d 0 last) ;;
           lift (data_bounds None None rows)
       end) w1 = Ret (inl b, w1) /\ (o_reference o = None -> map2 default_ref (fst b) (snd b) = ref)).
  { unfold uses_reference in U. destruct bounds as [b|].
    - exists b. split; auto. intros HN. rewrite HN in U. auto.
    - destruct (data_bounds_new d (concat sets) Wc Nc) as (b & Eb & Ib). exists b. split.
      + unfold pbind, lift. rewrite El. cbn [bind]. rewrite all_rows by auto. cbn [bind]. change (@concat point sets) with (@concat (list Z) sets). now rewrite Eb.
      + intros HN. rewrite HN in U. eapply default_ref_ok; eauto. }
  destruct B as (b & Eb & Rb). unfold pbind at 1. rewrite Eb. cbn [bind].
  assert (R : (match o_reference o with
               | Some r => if (d <=? length r)%nat then pret (firstn d r) else lift OutOfBounds
               | None => pret (map2 default_ref (fst b) (snd b))
               end) w1 = Ret (inl ref, w1)).
  { unfold uses_reference in U. destruct (o_reference o) as [r|].
    - destruct U as [<- L]. apply Nat.leb_le in L. now rewrite L.
    - unfold pret. now rewrite Rb. }
  unfold pbind at 1. rewrite R. cbn [bind]. unfold pbind. rewrite Ef.
  destruct (K f w1 Op) as (r & w' & -> & HP). { intros txt w2 Hw. split; auto. }
  cbn [bind]. destruct r as [[]|c]; (eexists; split; [reflexivity|exact HP]).
Qed.

Definition good (S : list point) := finite S /\ has_volume d ref S.

Lemma units_wide : forall o sets S, (forall s, In s sets -> wide d s) -> In S (units o sets) -> wide d S.
Proof. intros o sets S W. unfold units. destruct (o_union o); [|auto]. intros [<-|[]]. now apply wide_concat. Qed.

Lemma hv_file_good : forall o filename bounds nobj sets w w0,
  read_input junk junk_int scan data_inc filename nobj w = Ret (inl (layout d sets), w0) ->
  sets <> [] -> (forall s, In s sets -> s <> [] /\ wide d s) -> uses_reference o bounds sets ->
  (forall f s, filename = Some f -> o_suffix o = Some s -> can_create (f ++ s)%string = true) ->
  (forall S, In S (units o sets) -> good S) ->
  exists w' vs, hv_file o filename bounds nobj w = Ret (inl d, w') /\
    delivered (match filename with None => None | Some _ => o_suffix o end) (match filename with None => EmptyString | Some f => f end)
      (listing fmt vs) w0 w' /\
    Forall2 (fun S v => hypervolume S ref v) (units o sets) vs.
Proof.
  intros o filename bounds nobj sets w w0 E N W U C G.
  destruct (hv_file_run o filename bounds nobj sets w w0
    (fun r => fst r = inl d /\ exists vs, delivered (match filename with None => None | Some _ => o_suffix o end) (match filename with None => EmptyString | Some f => f end)
      (listing fmt vs) w0 (snd r) /\ Forall2 (fun S v => hypervolume S ref v) (units o sets) vs) E N W U C) as ([r w'] & A & B & vs & D & F).
  - intros f w1 Op D.
    destruct (run_good sort2d sortd dbl_max g fmt Hs2 Hsd d Hd Hst ref Href o f (units o sets) w1) as (w' & vs & A & B & F); auto.
    { intros S HS. split. { eapply units_wide; eauto. intros; now apply W. } now apply G. }
    exists (inl tt), w'. split; auto. split; auto. exists vs. split; auto. cbn [snd]. now apply D.
  - cbn in B. subst r. eauto.
Qed.
Lemma hv_file_bad : forall o filename bounds nobj sets w w0 ok bad rest,
  read_input junk junk_int scan data_inc filename nobj w = Ret (inl (layout d sets), w0) ->
  sets <> [] -> (forall s, In s sets -> s <> [] /\ wide d s) -> uses_reference o bounds sets ->
  (forall f s, filename = Some f -> o_suffix o = Some s -> can_create (f ++ s)%string = true) ->
  units o sets = ok ++ bad :: rest -> (forall S, In S ok -> good S) -> finite bad -> ~ has_volume d ref bad ->
  exists w' vs, hv_file o filename bounds nobj w = Ret (inr EXIT_FAILURE, w') /\
    delivered (match filename with None => None | Some _ => o_suffix o end) (match filename with None => EmptyString | Some f => f end)
      (listing fmt vs) w0 w' /\
    Forall2 (fun S v => hypervolume S ref v) ok vs.
Proof.
  intros o filename bounds nobj sets w w0 ok bad rest E N W U C Eu G Fb Nb.
  destruct (hv_file_run o filename bounds nobj sets w w0
    (fun r => fst r = inr EXIT_FAILURE /\ exists vs, delivered (match filename with None => None | Some _ => o_suffix o end) (match filename with None => EmptyString | Some f => f end)
      (listing fmt vs) w0 (snd r) /\ Forall2 (fun S v => hypervolume S ref v) ok vs) E N W U C) as ([r w'] & A & B & vs & D & F).
  - intros f w1 Op D.
    assert (Wu : forall S, In S (ok ++ bad :: rest) -> wide d S).
    { rewrite <- Eu. intros S HS. eapply units_wide; eauto. intros; now apply W. }
    destruct (run_bad sort2d sortd dbl_max g fmt Hs2 Hsd d Hd Hst ref Href o f ok bad rest w1) as (w' & vs & A & B & F); auto.
    { intros S HS. split. { apply Wu. apply in_or_app. auto. } now apply G. }
    { apply Wu. apply in_or_app. right. now left. }
    rewrite Eu. exists (inr EXIT_FAILURE), w'. split; auto. split; auto. exists vs. split; auto. cbn [snd]. now apply D.
  - cbn in B. subst r. eauto.
Qed.

Local Notation hv_files := (hv_files sort2d sortd dbl_max g can_create junk junk_int scan data_inc fmt).

Lemma contains_kept : forall suffix f txt w w' d' n sets, delivered suffix f txt w w' ->
  match suffix with None => True | Some s => (f ++ s)%string <> n end -> contains scan w d' n sets -> contains scan w' d' n sets.
Proof.
  intros suffix f txt w w' d' n sets (_ & D) H (t & E & T). exists t. split; auto. destruct suffix as [s|]; destruct D as [_ D]; rewrite D; auto.
  destruct (String.eqb_spec n (f ++ s)); congruence.
Qed.
Lemma contains_sets : forall w n sets, contains scan w d n sets -> sets <> [] /\ forall s, In s sets -> s <> [] /\ wide d s.
Proof. intros w n sets (t & _ & _ & _ & D). eapply describes_sets; eauto. Qed.

Definition file_results (o : hv_opts) (sets : list (list point)) (vs : list Z) := Forall2 (fun S v => hypervolume S ref v) (units o sets) vs.

Lemma hv_files_good : forall o bounds names contents w nobj, (nobj = d \/ nobj = 0%nat) ->
  Forall2 (contains scan w d) names contents -> not_overwritten (o_suffix o) names ->
  (forall f s, In f names -> o_suffix o = Some s -> can_create (f ++ s)%string = true) ->
  (forall sets, In sets contents -> uses_reference o bounds sets) ->
  (forall sets S, In sets contents -> In S (units o sets) -> good S) ->
  exists w' outs, hv_files o names bounds nobj w = Ret (inl tt, w') /\
    Forall2 (file_results o) contents outs /\ delivered_all (o_suffix o) (combine names (map (listing fmt) outs)) w w'.
Proof.
  intros o bounds names. induction names as [|n names IH]; intros contents w nobj Hn Hc No C U G.
  - inversion Hc; subst. exists w, []. split; auto. split; auto. constructor.
  - inversion Hc as [|? sets ? contents' H1 H2]; subst. cbn [HvCmdModel.hv_files].
    destruct (contains_sets _ _ _ H1) as [Ns Ws].
    destruct (hv_file_good o (Some n) bounds nobj sets w w) as (w1 & vs & E & D & F).
    { now apply read_input_file. } { auto. } { auto. } { apply U. now left. } { intros f s Ef Es. inversion Ef; subst. apply C; auto. now left. }
    { intros S HS. eapply G; eauto. now left. }
    unfold pbind at 1. rewrite E. cbn [bind].
    destruct (IH contents' w1 d) as (w' & outs & E' & F' & D'); auto.
    { clear - H2 D No. unfold not_overwritten in No.
      assert (Hk : forall x, In x names -> match o_suffix o with None => True | Some s => (n ++ s)%string <> x end).
      { destruct (o_suffix o); auto. inversion No; subst. rewrite Forall_forall in H1. auto. }
      clear No. induction H2; auto. constructor.
      - eapply contains_kept; eauto. apply Hk. now left.
      - apply IHForall2. intros; apply Hk; now right. }
    { unfold not_overwritten in *. destruct (o_suffix o); auto. now inversion No. }
    { intros; apply C; auto. now right. } { intros; apply U; now right. } { intros; eapply G; eauto. now right. }
    exists w', (vs :: outs). split; auto. split; auto. cbn [map combine]. econstructor; eauto.
Qed.
(** the first set without volume *)
Lemma hv_files_bad : forall o bounds n post names contents sets ok bad rest w nobj, (nobj = d \/ nobj = 0%nat) ->
  Forall2 (contains scan w d) names contents -> contains scan w d n sets -> not_overwritten (o_suffix o) (names ++ n :: post) ->
  (forall f s, In f (names ++ [n]) -> o_suffix o = Some s -> can_create (f ++ s)%string = true) ->
  (forall sets', In sets' (contents ++ [sets]) -> uses_reference o bounds sets') ->
  (forall sets' S, In sets' contents -> In S (units o sets') -> good S) ->
  units o sets = ok ++ bad :: rest -> (forall S, In S ok -> good S) -> finite bad -> ~ has_volume d ref bad ->
  exists w' outs vs, hv_files o (names ++ n :: post) bounds nobj w = Ret (inr EXIT_FAILURE, w') /\
    Forall2 (file_results o) contents outs /\ Forall2 (fun S v => hypervolume S ref v) ok vs /\
    delivered_all (o_suffix o) (combine (names ++ [n]) (map (listing fmt) (outs ++ [vs]))) w w'.
Proof.
  intros o bounds n post names. induction names as [|m names IH]; intros contents sets ok bad rest w nobj Hn Hc Hs No C U G Eu Gk Fb Nb.
  - inversion Hc; subst. cbn [app HvCmdModel.hv_files]. destruct (contains_sets _ _ _ Hs) as [Ns Ws].
    destruct (hv_file_bad o (Some n) bounds nobj sets w w ok bad rest) as (w1 & vs & E & D & F); auto.
    { now apply read_input_file. } { apply U. now left. } { intros f s Ef Es. inversion Ef; subst. apply C; auto. now left. }
    exists w1, [], vs. unfold pbind. rewrite E. cbn [bind]. split; auto. split; auto. split; auto.
    cbn. econstructor; eauto. constructor.
  - inversion Hc as [|? sets1 ? contents' H1 H2]; subst. cbn [app HvCmdModel.hv_files].
    destruct (contains_sets _ _ _ H1) as [Ns Ws].
    destruct (hv_file_good o (Some m) bounds nobj sets1 w w) as (w1 & vs1 & E & D & F).
    { now apply read_input_file. } { auto. } { auto. } { apply U. now left. } { intros f s Ef Es. inversion Ef; subst. apply C; auto. now left. }
    { intros S HS. eapply G; eauto. now left. }
    unfold pbind at 1. rewrite E. cbn [bind].
    assert (Hk : forall x, In x (names ++ n :: post) -> match o_suffix o with None => True | Some s => (m ++ s)%string <> x end).
    { unfold not_overwritten in No. destruct (o_suffix o); auto. inversion No as [|? ? No1 No2]; subst. rewrite Forall_forall in No1. auto. }
    destruct (IH contents' sets ok bad rest w1 d) as (w' & outs & vs & E' & F' & F2 & D'); auto.
    { clear - H2 D Hk. induction H2; auto. constructor.
      - eapply contains_kept; eauto. apply Hk. now left.
      - apply IHForall2. intros; apply Hk; now right. }
    { eapply contains_kept; eauto. apply Hk. apply in_or_app. right. now left. }
    { unfold not_overwritten in *. destruct (o_suffix o); auto. now inversion No. }
    { intros; apply C; auto. now right. } { intros; apply U; now right. } { intros; eapply G; eauto. now right. }
    exists w', (vs1 :: outs), vs. split; auto. split; auto. split; auto. cbn [map combine app]. econstructor; eauto.
Qed.

Lemma hv_ranges_ok : forall names contents w pts bounds nobj, (nobj = d \/ nobj = 0%nat) ->
  Forall2 (contains scan w d) names contents ->
  match bounds with None => pts = [] | Some b => is_bounds d pts b end ->
  (bounds = None -> names <> []) ->
  exists b, hv_ranges junk junk_int scan data_inc names bounds nobj w = Ret (inl (Some b, match names with [] => nobj | _ => d end), w) /\
    is_bounds d (pts ++ concat (concat contents)) b.
Proof.
  clear Href Hd Hst. intros names. induction names as [|n names IH]; intros contents w pts bounds nobj Hn Hc Hb Hne.
  - inversion Hc; subst. destruct bounds as [b|]; [|now specialize (Hne eq_refl)]. exists b. split; auto. cbn. now rewrite app_nil_r.
  - inversion Hc as [|? sets ? contents' H1 H2]; subst. cbn [hv_ranges]. destruct (contains_sets _ _ _ H1) as [Ns Ws].
    assert (Wc : wide d (concat sets)) by (apply wide_concat; intros; now apply Ws).
    assert (Nc : concat sets <> []). { destruct sets as [|s l]; [congruence|]. destruct (Ws s (or_introl eq_refl)) as [N0 _]. cbn. destruct s; [congruence|discriminate]. }
    assert (F : exists b, file_range junk junk_int scan data_inc n bounds nobj w = Ret (inl (b, d), w) /\ is_bounds d (pts ++ concat sets) b).
    { unfold file_range, pbind. rewrite (read_input_file junk junk_int scan data_inc Hscan Hinc w n d nobj sets) by auto.
      cbn [bind layout ds_cumsizes ds_nsets ds_nobjs ds_data]. unfold lift. rewrite last_cum by auto. cbn [bind]. rewrite all_rows by auto. cbn [bind].
      destruct bounds as [b0|].
      - destruct (data_bounds_more d pts b0 (concat sets) Wc Hb) as (b & Eb & Ib). exists b. cbn [option_map]. rewrite Eb. auto.
      - subst pts. destruct (data_bounds_new d (concat sets) Wc Nc) as (b & Eb & Ib). exists b. cbn [option_map]. rewrite Eb. auto. }
    destruct F as (b & E & Ib). unfold pbind at 1. rewrite E. cbn [bind fst snd].
    destruct (IH contents' w (pts ++ concat sets) (Some b) d) as (b' & E' & Ib'); auto. { discriminate. }
    exists b'. split. { rewrite E'. now destruct names. }
    cbn [concat]. rewrite concat_app, app_assoc. auto.
Qed.
End Files.
