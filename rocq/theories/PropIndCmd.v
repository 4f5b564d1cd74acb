(** C62: the epsilon and igd programs: what they print for every set of every file,
    and how they fail. *)
From Coq Require Import Ascii String List ZArith QArith Reals Lia Bool Arith.
From Verif Require Import Base Spec NondomModel OptModel PropOpt IndSpec IgdSpec EpsModel EpsProofs PropEps IgdModel IgdProofs PropIgd
  IoModel IoSpec IoMain CmdModel CmdSpec CmdProofs CmdLoop CmdExample IndCmdModel IndCmdSpec IndCmdProofs.
Import ListNotations.
Local Open Scope list_scope.
Open Scope Z_scope.

Lemma lines_values : forall {A B} (P : A -> B -> Prop) (g : B -> text) (sets : list A) ts,
  Forall2 (fun S t => exists v, t = g v /\ P S v) sets ts -> exists vs, ts = map g vs /\ Forall2 P sets vs.
Proof.
  intros A B P g sets ts H. induction H as [|S t sets ts (v & -> & Hv) H (vs & -> & F)].
  - exists []. auto.
  - exists (v :: vs). auto.
Qed.
Lemma files_values : forall {A B} (P : A -> B -> Prop) (g : B -> text) (contents : list (list A)) outs,
  Forall2 (Forall2 (fun S t => exists v, t = g v /\ P S v)) contents outs ->
  exists vals, map (@concat ascii) outs = map (fun vs => concat (map g vs)) vals /\ Forall2 (Forall2 P) contents vals.
Proof.
  intros A B P g contents outs H. induction H as [|S t sets ts H1 H (vs & E & F)].
  - exists []. auto.
  - destruct (lines_values P g _ _ H1) as (v & -> & Hv). exists (v :: vs). cbn. rewrite E. auto.
Qed.

Section Eps.
Variable can_create : string -> bool.
Variable junk : Z.
Variable junk_int : nat.
Variable scan : text -> option (Z * text).
Variable data_inc : nat.
Variable fmt : ext Q -> text.
Local Notation eps_main := (eps_main can_create junk junk_int scan data_inc fmt).
Local Notation fmtq := (fun v : Q => fmt (Fin v)).

Lemma mx_nonempty : forall d (mx : list bool), (1 <= d)%nat -> length mx = d -> mx <> [].
Proof. intros d [|b mx] H L; [cbn in L; lia|discriminate]. Qed.

Lemma eps_value : forall additive mx A R, mx <> [] -> A <> [] -> R <> [] ->
  (additive = false -> positive (length mx) A /\ positive (length mx) R) ->
  exists v, (if additive then pret (ext_map inject_Z (epsilon_additive_minmax (length mx) (minmax_from_bool mx) A R))
              else match epsilon_mult_minmax (length mx) (minmax_from_bool mx) A R with
                   | AssertFailed => exit_ EXIT_FAILURE
                   | r => lift r
                   end) = pret (Fin v) /\ epsilon_is additive mx A R v.
Proof.
  intros [|] mx A R Hm HA HR P.
  - destruct (C15_additive_epsilon_is_least_shift mx A R Hm HA HR) as (v & E & C & L). unfold epsilon_additive in E.
    exists (inject_Z v). rewrite E. split; auto. split; auto.
  - destruct (P eq_refl) as [PA PR].
    destruct (C16_multiplicative_epsilon_is_least_factor mx A R Hm HA HR PA PR) as (v & E & C & L). unfold epsilon_mult in E.
    exists v. rewrite E. split; auto. split; auto.
Qed.
Lemma better_value : forall additive mx A R v, epsilon_is additive mx A R v -> (better_than additive mx A R <-> (v < neutral additive)%Q).
Proof.
  intros additive mx A R v [C L]. split.
  - intros (e & Ce & He). eapply Qle_lt_trans; [apply L; eauto|auto].
  - intros H. exists v. auto.
Qed.
Lemma eps_flag : forall opts, fold_left (fun m x => eps_other x m) (others opts) true = additive_asked opts.
Proof. intros. reflexivity. Qed.

Lemma stops_flag : forall additive v, (additive && negb (eleb Qle_bool (Fin 0%Q) (Fin v))) || (negb additive && negb (eleb Qle_bool (Fin 1%Q) (Fin v))) = true
  <-> (v < neutral additive)%Q.
Proof.
  intros additive v. unfold eleb, neutral.
  assert (K : forall a, negb (Qle_bool a v) = true <-> (v < a)%Q).
  { intros a. rewrite negb_true_iff. destruct (Qle_bool a v) eqn:E.
    - split; [discriminate|]. apply Qle_bool_iff in E. intros H. exfalso. apply (Qlt_irrefl v). eapply Qlt_le_trans; eauto.
    - split; auto. intros _. apply Qnot_le_lt. intros H. apply Qle_bool_iff in H. congruence. }
  destruct additive; cbn [andb negb orb]; rewrite ?orb_false_r; apply K.
Qed.

Lemma eps_body_good : forall additive mx R d, length mx = d -> (1 <= d)%nat -> (additive = false -> positive d R) ->
  R <> [] -> wide d R -> forall f S w, S <> [] -> wide d S ->
  ((additive = false -> positive d S) /\ ~ better_than additive mx S R) -> is_open f w ->
  exists t w', eps_body fmt additive f d (minmax_from_bool mx) R S w = Ret (inl tt, w') /\
    (exists v, t = fmt (Fin v) ++ [nl] /\ epsilon_is additive mx S R v) /\ written f t w w'.
Proof.
  intros additive mx R d L Hd PR NR WR f S w NS WS [PS NB] Op. subst d.
  destruct (eps_value additive mx S R) as (v & E & Hv); auto. { eapply mx_nonempty; eauto. }
  unfold eps_body. rewrite E. unfold pbind at 1. unfold pret at 1. cbn [bind].
  destruct (fwrite_ok f (fmt (Fin v) ++ [nl]) w Op) as (w' & E' & Wr). unfold pbind. rewrite E'. cbn [bind].
  rewrite (better_value _ _ _ _ _ Hv), <- stops_flag in NB. apply not_true_is_false in NB. rewrite NB.
  exists (fmt (Fin v) ++ [nl]), w'. split; auto. split; auto. exists v. auto.
Qed.
Lemma eps_body_better : forall additive mx R d, length mx = d -> (1 <= d)%nat -> (additive = false -> positive d R) ->
  R <> [] -> wide d R -> forall f S w, S <> [] -> wide d S ->
  ((additive = false -> positive d S) /\ better_than additive mx S R) -> is_open f w ->
  exists t w', eps_body fmt additive f d (minmax_from_bool mx) R S w = Ret (inr EXIT_FAILURE, w') /\
    (exists v, t = fmt (Fin v) ++ [nl] /\ epsilon_is additive mx S R v) /\ written f t w w'.
Proof.
  intros additive mx R d L Hd PR NR WR f S w NS WS [PS NB] Op. subst d.
  destruct (eps_value additive mx S R) as (v & E & Hv); auto. { eapply mx_nonempty; eauto. }
  unfold eps_body. rewrite E. unfold pbind at 1. unfold pret at 1. cbn [bind].
  destruct (fwrite_ok f (fmt (Fin v) ++ [nl]) w Op) as (w' & E' & Wr). unfold pbind. rewrite E'. cbn [bind].
  rewrite (better_value _ _ _ _ _ Hv), <- stops_flag in NB. rewrite NB.
  exists (fmt (Fin v) ++ [nl]), w'. split; auto. split; auto. exists v. auto.
Qed.
Lemma eps_body_nonpositive : forall mx R d, length mx = d -> (1 <= d)%nat ->
  R <> [] -> wide d R -> forall f S w, S <> [] -> wide d S -> ~ (positive d S /\ positive d R) -> is_open f w ->
  exists t w', eps_body fmt false f d (minmax_from_bool mx) R S w = Ret (inr EXIT_FAILURE, w') /\ t = [] /\ written f t w w'.
Proof.
  intros mx R d L Hd NR WR f S w NS WS NP Op. subst d.
  assert (K : exists a i, (In a S \/ In a R) /\ (i < length mx)%nat /\ coord a i <= 0).
  { assert (D : forall A, (exists a i, In a A /\ (i < length mx)%nat /\ coord a i <= 0) \/ positive (length mx) A).
    { induction A as [|a A [(b & i & H1 & H2)|IH]]. { right. intros a []. } { left. exists b, i. split; auto. now right. }
      assert (Q : forall n, (exists i, (i < n)%nat /\ coord a i <= 0) \/ forall i, (i < n)%nat -> 0 < coord a i).
      { clear. induction n as [|n [(i & H)|IH]]. right; intros; lia. left; exists i; split; [lia|tauto].
        destruct (Z_le_gt_dec (coord a n) 0). left; exists n; split; [lia|auto]. right. intros i Hi. destruct (Nat.eq_dec i n); [subst; lia|apply IH; lia]. }
      destruct (Q (length mx)) as [(i & H1 & H2)|Q']. left; exists a, i; split; [now left|auto]. right. intros p [<-|Hp]; auto. }
    destruct (D S) as [(a & i & H)|D1]. { exists a, i. tauto. } destruct (D R) as [(a & i & H)|D2]. { exists a, i. tauto. } tauto. }
  destruct K as (a & i & Ha & Hi & Hc). pose proof (C16_nonpositive_data_is_an_error mx S R a i NS NR Ha Hi Hc) as E. unfold epsilon_mult in E.
  exists [], w. unfold eps_body. rewrite E. split; auto. split; auto. now apply written_nil.
Qed.

(** For every file, and every set of it, the epsilon indicator with respect to the
    reference set is written, one per line; nothing else changes, and the program
    succeeds.  The numbers must be positive if the multiplicative indicator is asked
    for, and no set may be better than the reference set. *)
Theorem C62_epsilon : forall d opts mx R names contents w,
  valid_scanner Z scan -> (0 < data_inc)%nat -> (1 <= d)%nat ->
  Forall (usable scan w d) opts -> directions d opts mx -> reference_is scan w d opts R -> names <> [] ->
  Forall2 (contains scan w d) names contents -> not_overwritten (suffix_asked opts) names ->
  (forall f s, In f names -> suffix_asked opts = Some s -> can_create (f ++ s)%string = true) ->
  (additive_asked opts = false -> positive d R /\ forall sets S, In sets contents -> In S sets -> positive d S) ->
  (forall sets S, In sets contents -> In S sets -> ~ better_than (additive_asked opts) mx S R) ->
  exists w' vals, eps_main opts names w = Ret (inr EXIT_SUCCESS, w') /\
    Forall2 (Forall2 (fun S v => epsilon_is (additive_asked opts) mx S R v)) contents vals /\
    delivered_all (suffix_asked opts) (combine names (map (listing fmtq) vals)) w w'.
Proof.
  intros d opts mx R names contents w Hs Hi Hd U D Rf N Hc No C P B.
  destruct (ind_start junk junk_int scan data_inc eps_option bool eps_other true Hs Hi d Hd opts w mx R U D Rf) as (o & _ & _ & _ & _ & _ & _ & Lmx & _).
  destruct (ind_good can_create junk junk_int scan data_inc eps_option bool eps_other true (eps_body fmt) Hs Hi d Hd R mx (additive_asked opts)
    (fun S => (additive_asked opts = false -> positive d S) /\ ~ better_than (additive_asked opts) mx S R)
    (fun S t => exists v, t = fmt (Fin v) ++ [nl] /\ epsilon_is (additive_asked opts) mx S R v)) with (opts := opts) (names := names) (contents := contents) (w := w)
    as (w' & outs & A & F & Dl); auto.
  { apply eps_body_good; auto. intros Ea. now destruct (P Ea). }
  { intros sets S H1 H2. split; [|eauto]. intros Ea. destruct (P Ea) as [_ P2]. eapply P2; eauto. }
  destruct (files_values _ (fun v => fmt (Fin v) ++ [nl]) _ _ F) as (vals & Ev & Fv).
  exists w', vals. split; auto. split; auto. rewrite Ev in Dl. exact Dl.
Qed.

Theorem C62_epsilon_stdin : forall d opts mx R sets w,
  valid_scanner Z scan -> (0 < data_inc)%nat -> (1 <= d)%nat ->
  Forall (usable scan w d) opts -> directions d opts mx -> reference_is scan w d opts R ->
  sets_text scan d (w_stdin w) sets ->
  (additive_asked opts = false -> positive d R /\ forall S, In S sets -> positive d S) ->
  (forall S, In S sets -> ~ better_than (additive_asked opts) mx S R) ->
  exists w' vs, eps_main opts [] w = Ret (inr EXIT_SUCCESS, w') /\
    Forall2 (fun S v => epsilon_is (additive_asked opts) mx S R v) sets vs /\
    w_stdin w' = [] /\ w_stdout w' = w_stdout w ++ listing fmtq vs /\ forall n, w_files w' n = w_files w n.
Proof.
  intros d opts mx R sets w Hs Hi Hd U D Rf T P B.
  destruct (ind_start junk junk_int scan data_inc eps_option bool eps_other true Hs Hi d Hd opts w mx R U D Rf) as (o & _ & _ & _ & _ & _ & _ & Lmx & _).
  destruct (ind_good_stdin can_create junk junk_int scan data_inc eps_option bool eps_other true (eps_body fmt) Hs Hi d Hd R mx (additive_asked opts)
    (fun S => (additive_asked opts = false -> positive d S) /\ ~ better_than (additive_asked opts) mx S R)
    (fun S t => exists v, t = fmt (Fin v) ++ [nl] /\ epsilon_is (additive_asked opts) mx S R v)) with (opts := opts) (sets := sets) (w := w)
    as (w' & ts & A & F & Dl); auto.
  { apply eps_body_good; auto. intros Ea. now destruct (P Ea). }
  { intros S H2. split; [|eauto]. intros Ea. destruct (P Ea) as [_ P2]. eapply P2; eauto. }
  destruct (lines_values _ (fun v => fmt (Fin v) ++ [nl]) _ _ F) as (vals & -> & Fv).
  exists w', vals. split; auto.
Qed.

(** The first set that is better than the reference set (its indicator is below 0,
    or 1) ends the program with a failure: its value is still written, the sets and
    files after it are not processed. *)
Theorem C62_epsilon_stops : forall d opts mx R names n post contents good S rest w,
  valid_scanner Z scan -> (0 < data_inc)%nat -> (1 <= d)%nat ->
  Forall (usable scan w d) opts -> directions d opts mx -> reference_is scan w d opts R ->
  Forall2 (contains scan w d) names contents -> contains scan w d n (good ++ S :: rest) ->
  not_overwritten (suffix_asked opts) (names ++ n :: post) ->
  (forall f s, In f (names ++ [n]) -> suffix_asked opts = Some s -> can_create (f ++ s)%string = true) ->
  (additive_asked opts = false -> positive d R /\ forall sets S', In sets (contents ++ [good ++ [S]]) -> In S' sets -> positive d S') ->
  (forall sets S', In sets (contents ++ [good]) -> In S' sets -> ~ better_than (additive_asked opts) mx S' R) ->
  better_than (additive_asked opts) mx S R ->
  exists w' vals vs, eps_main opts (names ++ n :: post) w = Ret (inr EXIT_FAILURE, w') /\
    Forall2 (Forall2 (fun S v => epsilon_is (additive_asked opts) mx S R v)) (contents ++ [good ++ [S]]) (vals ++ [vs]) /\
    delivered_all (suffix_asked opts) (combine (names ++ [n]) (map (listing fmtq) (vals ++ [vs]))) w w'.
Proof.
  intros d opts mx R names n post contents good S rest w Hs Hi Hd U D Rf Hc Hn No C P B BS.
  destruct (ind_start junk junk_int scan data_inc eps_option bool eps_other true Hs Hi d Hd opts w mx R U D Rf) as (o & _ & _ & _ & _ & _ & _ & Lmx & _).
  set (line := fun S t => exists v, t = fmt (Fin v) ++ [nl] /\ epsilon_is (additive_asked opts) mx S R v).
  destruct (ind_bad can_create junk junk_int scan data_inc eps_option bool eps_other true (eps_body fmt) Hs Hi d Hd R mx (additive_asked opts)
    (fun S => (additive_asked opts = false -> positive d S) /\ ~ better_than (additive_asked opts) mx S R) line) with
    (bad := fun S => (additive_asked opts = false -> positive d S) /\ better_than (additive_asked opts) mx S R) (last_line := line) (status := EXIT_FAILURE)
    (opts := opts) (names := names) (n := n) (post := post) (contents := contents) (good := good) (S := S) (rest := rest) (w := w)
    as (w' & outs & ts & t & A & F & F2 & L & Dl); auto.
  { apply eps_body_good; auto. intros Ea. now destruct (P Ea). }
  { apply eps_body_better; auto. intros Ea. now destruct (P Ea). }
  { intros sets S' H1 H2. split. { intros Ea. destruct (P Ea) as [_ P2]. eapply P2; eauto. apply in_or_app; auto. } eapply B; eauto. apply in_or_app; auto. }
  { intros S' H2. split. intros Ea. eapply (proj2 (P Ea)). apply in_or_app. right. left. reflexivity. apply in_or_app; auto.
    eapply B; [|eauto]. apply in_or_app. right. now left. }
  { split; auto. intros Ea. eapply (proj2 (P Ea)). apply in_or_app. right. left. reflexivity. apply in_or_app. right. now left. }
  destruct (files_values _ (fun v => fmt (Fin v) ++ [nl]) _ _ F) as (vals & Ev & Fv).
  destruct (lines_values _ (fun v => fmt (Fin v) ++ [nl]) _ _ F2) as (vs & -> & Fs).
  destruct L as (v & -> & Hv). exists w', vals, (vs ++ [v]). split; auto. split.
  - apply Forall2_app; auto. constructor; auto. apply Forall2_app; auto.
  - rewrite map_app. cbn [map]. unfold listing at 2. rewrite map_app, concat_app. cbn [map concat]. rewrite app_nil_r.
    rewrite Ev in Dl. exact Dl.
Qed.

(** --multiplicative and a number that is not positive, in a set or in the
    reference set: the program fails; the values of the sets before have been
    written. *)
Theorem C62_epsilon_nonpositive : forall d opts mx R names n post contents good S rest w,
  valid_scanner Z scan -> (0 < data_inc)%nat -> (1 <= d)%nat ->
  Forall (usable scan w d) opts -> directions d opts mx -> reference_is scan w d opts R -> additive_asked opts = false ->
  Forall2 (contains scan w d) names contents -> contains scan w d n (good ++ S :: rest) ->
  not_overwritten (suffix_asked opts) (names ++ n :: post) ->
  (forall f s, In f (names ++ [n]) -> suffix_asked opts = Some s -> can_create (f ++ s)%string = true) ->
  (forall sets S', In sets (contents ++ [good]) -> In S' sets -> positive d S' /\ positive d R /\ ~ better_than false mx S' R) ->
  ~ (positive d S /\ positive d R) ->
  exists w' vals vs, eps_main opts (names ++ n :: post) w = Ret (inr EXIT_FAILURE, w') /\
    Forall2 (Forall2 (fun S v => epsilon_is false mx S R v)) (contents ++ [good]) (vals ++ [vs]) /\
    delivered_all (suffix_asked opts) (combine (names ++ [n]) (map (listing fmtq) (vals ++ [vs]))) w w'.
Proof.
  intros d opts mx R names n post contents good S rest w Hs Hi Hd U D Rf Ad Hc Hn No C B BS.
  destruct (ind_start junk junk_int scan data_inc eps_option bool eps_other true Hs Hi d Hd opts w mx R U D Rf) as (o & _ & _ & _ & _ & _ & _ & Lmx & _).
  set (line := fun S t => exists v, t = fmt (Fin v) ++ [nl] /\ epsilon_is false mx S R v).
  destruct (ind_bad can_create junk junk_int scan data_inc eps_option bool eps_other true (eps_body fmt) Hs Hi d Hd R mx false
    (fun S => positive d S /\ positive d R /\ ~ better_than false mx S R) line) with
    (bad := fun S => ~ (positive d S /\ positive d R)) (last_line := fun (S : list point) (t : text) => t = []) (status := EXIT_FAILURE)
    (opts := opts) (names := names) (n := n) (post := post) (contents := contents) (good := good) (S := S) (rest := rest) (w := w)
    as (w' & outs & ts & t & A & F & F2 & L & Dl); auto.
  { intros NR WR f S' w0 NS WS (P1 & P2 & P3) Op. apply eps_body_good; auto. }
  { apply eps_body_nonpositive; auto. }
  { intros sets S' H1 H2. eapply B; eauto. apply in_or_app; auto. }
  { intros S' H2. eapply B; [|eauto]. apply in_or_app. right. now left. }
  destruct (files_values _ (fun v => fmt (Fin v) ++ [nl]) _ _ F) as (vals & Ev & Fv).
  destruct (lines_values _ (fun v => fmt (Fin v) ++ [nl]) _ _ F2) as (vs & -> & Fs).
  rewrite L, app_nil_r in Dl. exists w', vals, vs. split; auto. split.
  - apply Forall2_app; auto.
  - rewrite map_app. cbn [map]. rewrite Ev in Dl. exact Dl.
Qed.
End Eps.

(** ** igd *)
Section Igd.
Variable can_create : string -> bool.
Variable junk : Z.
Variable junk_int : nat.
Variable scan : text -> option (Z * text).
Variable data_inc : nat.
Variable atoi : text -> Z.
Variable uint_size : Z.
Variable fmt : ext R -> text.
Local Notation igd_main := (igd_main can_create junk junk_int scan data_inc atoi uint_size fmt).
Definition igd_line (l : list R) : text := tabbed (map (fun v => fmt (Fin v)) l) ++ [nl].

Local Notation mode_of xs m0 := (fold_left (fun acc x => igd_other atoi uint_size x acc) xs m0).
Lemma mode_flags : forall xs m, let r := mode_of xs m in
  m_gd r = m_gd m || existsb (metric_option MGD) xs /\ m_igd r = m_igd m || existsb (metric_option MIGD) xs /\
  m_gdp r = m_gdp m || existsb (metric_option MGDp) xs /\ m_igdp r = m_igdp m || existsb (metric_option MIGDp) xs /\
  m_igdplus r = m_igdplus m || existsb (metric_option MIGDplus) xs /\ m_hausdorff r = m_hausdorff m || existsb (metric_option MHausdorff) xs.
Proof.
  induction xs as [|x xs IH]; intros m; cbn [fold_left existsb].
  - rewrite !orb_false_r. auto 8.
  - destruct (IH (igd_other atoi uint_size x m)) as (A & B & C & D & E & F). cbv zeta. rewrite A, B, C, D, E, F.
    destruct x; cbn; rewrite ?orb_true_r, ?orb_true_l; auto 8.
Qed.
Lemma mode_exponent : forall xs m e, m_exponent m = Z.to_nat (e mod uint_size) ->
  m_exponent (mode_of xs m) = Z.to_nat (fold_left (fun acc x => match x with IgdExponent a => atoi a | _ => acc end) xs e mod uint_size).
Proof.
  induction xs as [|x xs IH]; intros m e H; cbn [fold_left]; auto. apply IH. destruct x; cbn; auto.
Qed.

(** the mode is what the options ask for *)
Definition mode_ok (opts : list (ind_option igd_option)) (p : nat) (m : igd_mode) : Prop :=
  m_gd m = metric_asked opts MGD /\ m_igd m = metric_asked opts MIGD /\ m_gdp m = metric_asked opts MGDp /\
  m_igdp m = metric_asked opts MIGDp /\ m_igdplus m = metric_asked opts MIGDplus /\ m_hausdorff m = metric_asked opts MHausdorff /\ m_exponent m = p.
Lemma mode_asked : forall opts p, exponent_is atoi opts p -> Z.of_nat p < uint_size -> 1 < uint_size -> mode_ok opts p (mode_of (others opts) igd_mode0).
Proof.
  intros opts p E L L1. destruct (mode_flags (others opts) igd_mode0) as (A & B & C & D & F & G).
  unfold mode_ok. cbv zeta in *. rewrite A, B, C, D, F, G. cbn. repeat split; auto.
  rewrite (mode_exponent _ igd_mode0 1). 2: { rewrite Z.mod_small by lia. reflexivity. }
  rewrite <- E. rewrite Z.mod_small by lia. apply Nat2Z.id.
Qed.

(** one more value on the line *)
Lemma print_value : forall flag v (vs : list R) line sep, (line, sep) = (tabbed (map (fun v => fmt (Fin v)) vs), match vs with [] => [] | _ => [tab] end) ->
  print_value_if fmt flag (Fin v) (line, sep) =
    (tabbed (map (fun v => fmt (Fin v)) (vs ++ if flag then [v] else [])), match vs ++ (if flag then [v] else []) with [] => [] | _ => [tab] end).
Proof.
  intros flag v vs line sep H. unfold print_value_if. destruct flag; [|now rewrite app_nil_r]. inversion H; subst. cbn [fst snd]. f_equal.
  - clear. rewrite map_app. cbn [map]. induction vs as [|a vs IH]; auto. cbn [map app]. destruct vs as [|b vs].
    + cbn. auto.
    + cbn [map app] in *. change (tabbed (fmt (Fin a) :: fmt (Fin b) :: map (fun v0 => fmt (Fin v0)) vs)) with (fmt (Fin a) ++ tab :: tabbed (fmt (Fin b) :: map (fun v0 => fmt (Fin v0)) vs)).
      change (tabbed (fmt (Fin a) :: fmt (Fin b) :: map (fun v0 => fmt (Fin v0)) vs ++ [fmt (Fin v)])) with (fmt (Fin a) ++ tab :: tabbed (fmt (Fin b) :: map (fun v0 => fmt (Fin v0)) vs ++ [fmt (Fin v)])).
      rewrite <- IH. rewrite <- app_assoc. reflexivity.
  - now destruct vs.
Qed.

Lemma igd_body_good : forall opts m mx R d p, length mx = d -> (1 <= p)%nat -> mode_ok opts p m ->
  R <> [] -> wide d R -> forall f S w, S <> [] -> wide d S -> True -> is_open f w ->
  exists t w', igd_body fmt m f d (minmax_from_bool mx) R S w = Ret (inl tt, w') /\
    (exists l, t = igd_line l /\ Forall2 (metric_is mx p S R) (filter (metric_asked opts) all_metrics) l) /\ written f t w w'.
Proof.
  intros opts m mx R d p Lm Hp (M1 & M2 & M3 & M4 & M5 & M6 & M7) NR _ f S w NS _ _ Op. subst d.
  destruct (C18_gd_igd_definition mx S R NS NR) as [(v1 & ms1 & E1 & N1 & V1) (v2 & ms2 & E2 & N2 & V2)].
  destruct (C18_gd_p_definition mx S R p NS NR Hp) as (v3 & E3 & V3).
  destruct (C18_igd_p_definition mx S R p NS NR Hp) as (v4 & E4 & V4).
  destruct (C19_igd_plus_definition mx S R NS NR) as (v5 & ms5 & E5 & N5 & V5).
  destruct (C18_avg_hausdorff_definition mx S R p NS NR Hp) as (v6 & g6 & i6 & E6 & G6 & I6 & V6 & _).
  unfold GD, IGD, GD_p, IGD_p, IGD_plus, avg_Hausdorff_dist in *. cbv zeta in E6.
  unfold igd_body. cbv zeta. rewrite M7, M1, M2, M3, M4, M5, M6, E6, E1, E2, E3, E4, E5.
  set (flags := metric_asked opts).
  rewrite (print_value _ _ []) by reflexivity. rewrite (print_value _ _ ([] ++ (if flags MGD then [v1] else []))) by reflexivity.
  erewrite (print_value _ v3) by reflexivity. erewrite (print_value _ v4) by reflexivity. erewrite (print_value _ v5) by reflexivity. erewrite (print_value _ v6) by reflexivity.
  cbn [fst]. match goal with |- context [tabbed (map _ ?l)] => set (vs := l) end.
  destruct (fwrite_ok f (igd_line vs) w Op) as (w' & E' & Wr).
  exists (igd_line vs), w'. split; [exact E'|]. split; [|exact Wr]. exists vs. split; [reflexivity|].
  assert (H1 : metric_is mx p S R MGD v1) by (exists ms1; auto).
  assert (H2 : metric_is mx p S R MIGD v2) by (exists ms2; auto).
  assert (H5 : metric_is mx p S R MIGDplus v5) by (exists ms5; auto).
  assert (H6 : metric_is mx p S R MHausdorff v6) by (exists g6, i6; auto).
  unfold vs, all_metrics. cbn [filter app]. subst flags. clear M1 M2 M3 M4 M5 M6.
  destruct (metric_asked opts MGD), (metric_asked opts MIGD), (metric_asked opts MGDp), (metric_asked opts MIGDp), (metric_asked opts MIGDplus), (metric_asked opts MHausdorff);
    cbn [app]; repeat (apply Forall2_cons || apply Forall2_nil); auto.
Qed.

(** For every file, and every set of it, a line with the values of the indicators
    that are asked for, in a fixed order, separated by tabs, is written.  IGD_p is
    always among them. *)
Theorem C62_igd : forall d opts mx R p names contents w,
  valid_scanner Z scan -> (0 < data_inc)%nat -> (1 <= d)%nat ->
  exponent_is atoi opts p -> (1 <= p)%nat -> Z.of_nat p < uint_size -> 1 < uint_size ->
  Forall (usable scan w d) opts -> directions d opts mx -> reference_is scan w d opts R -> names <> [] ->
  Forall2 (contains scan w d) names contents -> not_overwritten (suffix_asked opts) names ->
  (forall f s, In f names -> suffix_asked opts = Some s -> can_create (f ++ s)%string = true) ->
  exists w' vals, igd_main opts names w = Ret (inr EXIT_SUCCESS, w') /\
    Forall2 (Forall2 (fun S l => Forall2 (metric_is mx p S R) (filter (metric_asked opts) all_metrics) l)) contents vals /\
    delivered_all (suffix_asked opts) (combine names (map (fun ls => concat (map igd_line ls)) vals)) w w'.
Proof.
  intros d opts mx R p names contents w Hs Hi Hd Ep Hp Lp Lu U D Rf N Hc No C.
  destruct (ind_start junk junk_int scan data_inc igd_option igd_mode (igd_other atoi uint_size) igd_mode0 Hs Hi d Hd opts w mx R U D Rf) as (o & _ & _ & _ & _ & _ & _ & Lmx & _).
  destruct (ind_good can_create junk junk_int scan data_inc igd_option igd_mode (igd_other atoi uint_size) igd_mode0 (igd_body fmt) Hs Hi d Hd R mx
    (fold_left (fun m x => igd_other atoi uint_size x m) (others opts) igd_mode0) (fun _ => True)
    (fun S t => exists l, t = igd_line l /\ Forall2 (metric_is mx p S R) (filter (metric_asked opts) all_metrics) l)) with (opts := opts) (names := names) (contents := contents) (w := w)
    as (w' & outs & A & F & Dl); auto.
  { apply igd_body_good; auto. now apply mode_asked. }
  destruct (files_values _ igd_line _ _ F) as (vals & Ev & Fv).
  exists w', vals. split; auto. split; auto. rewrite Ev in Dl. exact Dl.
Qed.
Theorem C62_igd_stdin : forall d opts mx R p sets w,
  valid_scanner Z scan -> (0 < data_inc)%nat -> (1 <= d)%nat ->
  exponent_is atoi opts p -> (1 <= p)%nat -> Z.of_nat p < uint_size -> 1 < uint_size ->
  Forall (usable scan w d) opts -> directions d opts mx -> reference_is scan w d opts R ->
  sets_text scan d (w_stdin w) sets ->
  exists w' ls, igd_main opts [] w = Ret (inr EXIT_SUCCESS, w') /\
    Forall2 (fun S l => Forall2 (metric_is mx p S R) (filter (metric_asked opts) all_metrics) l) sets ls /\
    w_stdin w' = [] /\ w_stdout w' = w_stdout w ++ concat (map igd_line ls) /\ forall n, w_files w' n = w_files w n.
Proof.
  intros d opts mx R p sets w Hs Hi Hd Ep Hp Lp Lu U D Rf T.
  destruct (ind_start junk junk_int scan data_inc igd_option igd_mode (igd_other atoi uint_size) igd_mode0 Hs Hi d Hd opts w mx R U D Rf) as (o & _ & _ & _ & _ & _ & _ & Lmx & _).
  destruct (ind_good_stdin can_create junk junk_int scan data_inc igd_option igd_mode (igd_other atoi uint_size) igd_mode0 (igd_body fmt) Hs Hi d Hd R mx
    (fold_left (fun m x => igd_other atoi uint_size x m) (others opts) igd_mode0) (fun _ => True)
    (fun S t => exists l, t = igd_line l /\ Forall2 (metric_is mx p S R) (filter (metric_asked opts) all_metrics) l)) with (opts := opts) (sets := sets) (w := w)
    as (w' & ts & A & F & Dl); auto.
  { apply igd_body_good; auto. now apply mode_asked. }
  destruct (lines_values _ igd_line _ _ F) as (vals & -> & Fv).
  exists w', vals. split; auto.
Qed.
End Igd.

(** ** Both programs: refusals *)
Section Both.
Variable can_create : string -> bool.
Variable junk : Z.
Variable junk_int : nat.
Variable scan : text -> option (Z * text).
Variable data_inc : nat.
Variable fmtq : ext Q -> text.
Variable atoi : text -> Z.
Variable uint_size : Z.
Variable fmtr : ext R -> text.
Local Notation eps_main := (eps_main can_create junk junk_int scan data_inc fmtq).
Local Notation igd_main := (igd_main can_create junk junk_int scan data_inc atoi uint_size fmtr).

(** an option that cannot be used ends the program before anything is written *)
Theorem C62_option_refused : forall d w, valid_scanner Z scan -> (0 < data_inc)%nat -> (1 <= d)%nat ->
  (forall pre opt post names status, Forall (usable scan w d) pre -> refused scan w d pre opt status ->
    eps_main (pre ++ opt :: post) names w = Ret (inr status, w)) /\
  (forall pre opt post names status, Forall (usable scan w d) pre -> refused scan w d pre opt status ->
    igd_main (pre ++ opt :: post) names w = Ret (inr status, w)).
Proof. intros d w Hs Hi Hd. split; intros; eapply ind_option_refused; eauto. Qed.
(** there must be a reference set *)
Theorem C62_no_reference : forall d w names, valid_scanner Z scan -> (0 < data_inc)%nat -> (1 <= d)%nat ->
  (forall opts, Forall (usable scan w d) opts -> reference_file opts = None -> eps_main opts names w = Ret (inr EXIT_FAILURE, w)) /\
  (forall opts, Forall (usable scan w d) opts -> reference_file opts = None -> igd_main opts names w = Ret (inr EXIT_FAILURE, w)).
Proof. intros d w names Hs Hi Hd. split; intros; eapply ind_no_reference; eauto. Qed.
(** a first file that cannot be read, or has another number of columns than the
    reference set *)
Theorem C62_file_refused : forall d w n post, valid_scanner Z scan -> (0 < data_inc)%nat -> (1 <= d)%nat ->
  (forall t, w_files w n = Some t -> ~ In vt t /\ ~ In ff t) -> (forall sets, ~ contains scan w d n sets) ->
  (forall opts R, Forall (usable scan w d) opts -> reference_is scan w d opts R -> eps_main opts (n :: post) w = Ret (inr EXIT_FAILURE, w)) /\
  (forall opts R, Forall (usable scan w d) opts -> reference_is scan w d opts R -> igd_main opts (n :: post) w = Ret (inr EXIT_FAILURE, w)).
Proof. intros d w n post Hs Hi Hd T N. split; intros; eapply ind_file_refused; eauto. Qed.
(** --suffix: the first file can be read but its output file cannot be created *)
Theorem C62_output_refused : forall d w n post sets suffix, valid_scanner Z scan -> (0 < data_inc)%nat -> (1 <= d)%nat ->
  contains scan w d n sets -> can_create (n ++ suffix)%string = false ->
  (forall opts R, Forall (usable scan w d) opts -> reference_is scan w d opts R -> suffix_asked opts = Some suffix ->
    eps_main opts (n :: post) w = Ret (inr EXIT_FAILURE, w)) /\
  (forall opts R, Forall (usable scan w d) opts -> reference_is scan w d opts R -> suffix_asked opts = Some suffix ->
    igd_main opts (n :: post) w = Ret (inr EXIT_FAILURE, w)).
Proof. intros d w n post sets suffix Hs Hi Hd Hc C. split; intros; eapply ind_output_refused; eauto. Qed.
(** A reference file with several sets is not refused: an assertion fails (the
    program aborts, or uses the first set only if assertions are disabled). *)
Theorem C62_several_reference_sets_abort : forall d w f d' s1 s2 sets names, valid_scanner Z scan -> (0 < data_inc)%nat -> (1 <= d)%nat ->
  contains scan w d' f (s1 :: s2 :: sets) ->
  (forall pre post, Forall (usable scan w d) pre -> (fixes_columns pre -> d' = d) -> eps_main (pre ++ OptReference f :: post) names w = AssertFailed) /\
  (forall pre post, Forall (usable scan w d) pre -> (fixes_columns pre -> d' = d) -> igd_main (pre ++ OptReference f :: post) names w = AssertFailed).
Proof. intros d w f d' s1 s2 sets names Hs Hi Hd Hc. split; intros; eapply ind_several_sets; eauto. Qed.
End Both.

Print Assumptions C62_epsilon.
Print Assumptions C62_epsilon_stdin.
Print Assumptions C62_epsilon_stops.
Print Assumptions C62_epsilon_nonpositive.
Print Assumptions C62_igd.
Print Assumptions C62_igd_stdin.
Print Assumptions C62_option_refused.
Print Assumptions C62_output_refused.
Print Assumptions C62_no_reference.
Print Assumptions C62_file_refused.
Print Assumptions C62_several_reference_sets_abort.

(** ** Examples *)
Definition fmtQ (x : ext Q) : text :=
  match x with
  | NegInf => txt "-inf" | PosInf => txt "inf"
  | Fin q => let q := Qred q in fmtZ (Qnum q) ++ (if Pos.eqb (Qden q) 1 then [] else "/"%char :: fmtZ (Zpos (Qden q)))
  end.
Definition atoiZ (a : text) : Z := match strtodZ a with Some (x, _) => x | None => 0 end.
Definition files2 : string -> option text := fun n =>
  if String.eqb n "ref" then Some (lines ["10 1"; "6 1"; "2 2"; "1 6"; "1 10"]%string)
  else if String.eqb n "a" then Some (lines ["9 2"; "5 5"; "2 9"; ""; "# second"; "8 4"; "5 3"; "2 8"]%string)
  else if String.eqb n "b" then Some (lines ["10 1"; "3 3"; "1 10"]%string)
  else if String.eqb n "better" then Some (lines ["10 10"; ""; "0 0"; ""; "5 5"]%string)
  else if String.eqb n "two" then Some (lines ["1 2"; ""; "2 1"]%string)
  else if String.eqb n "wide" then Some (lines ["1 2 3"; "4 5 6"]%string)
  else None.
Definition world2 : world := mkWorld files2 (lines ["9 2"; "5 5"; "2 9"]%string) [].
Definition ref2 : list point := [[10; 1]; [6; 1]; [2; 2]; [1; 6]; [1; 10]].
Definition contents2 : list (list (list point)) := [[[[9; 2]; [5; 5]; [2; 9]]; [[8; 4]; [5; 3]; [2; 8]]]; [[[10; 1]; [3; 3]; [1; 10]]]].
Definition run_eps := eps_main (fun _ => true) 7 7%nat scanZ 512 fmtQ.
Definition run_igd := igd_main (fun _ => true) 7 7%nat scanZ 512 atoiZ 4294967296.

Ltac read_file := eexists; split; [reflexivity|]; apply sets_text_read; [lia|reflexivity|reflexivity|vm_compute; reflexivity].
Lemma ref2_contains : contains scanZ world2 2 "ref" [ref2].
Proof. read_file. Qed.
Lemma files2_contain : Forall2 (contains scanZ world2 2) ["a"; "b"]%string contents2.
Proof. constructor; [|constructor; [|constructor]]; read_file. Qed.
Lemma not_better_add : forall mx A R v, mx <> [] -> A <> [] -> R <> [] -> epsilon_additive A R mx = Fin v -> 0 <= v -> ~ better_than true mx A R.
Proof.
  intros mx A R v H1 H2 H3 E L. destruct (C15_additive_epsilon_is_least_shift mx A R H1 H2 H3) as (v' & E' & C & M).
  rewrite E in E'. inversion E'; subst v'. intros (e & Ce & He). apply M in Ce. cbn in He.
  apply (Qlt_irrefl 0). eapply Qle_lt_trans; [|exact He]. eapply Qle_trans; [|exact Ce]. change 0%Q with (inject_Z 0). now rewrite <- Zle_Qle.
Qed.

Example C62_nonvacuous_epsilon : exists w' vals,
  run_eps [OptReference "ref"; OptSuffix ".x"; OptObj (txt "--"); OptSuffix ".eps"] ["a"; "b"]%string world2 = Ret (inr EXIT_SUCCESS, w') /\
  Forall2 (Forall2 (fun S v => epsilon_is true [false; false] S ref2 v)) contents2 vals /\
  w_files w' "a.eps"%string = Some (lines ["3"; "3"]%string) /\ w_files w' "b.eps"%string = Some (lines ["2"]%string) /\ w_stdout w' = [].
Proof.
  set (opts := [OptReference "ref"; OptSuffix ".x"; OptObj (txt "--"); OptSuffix ".eps"] : list (ind_option eps_option)).
  destruct (C62_epsilon (fun _ => true) 7 7%nat scanZ 512 fmtQ 2 opts [false; false] ref2 ["a"; "b"]%string contents2 world2) as (w' & vals & A & B & C).
  - apply scanZ_valid.
  - lia.
  - lia.
  - repeat constructor; cbn; auto. { exists ref2. apply ref2_contains. } { exists [false; false]. split; auto. repeat constructor. }
  - split; auto. repeat constructor.
  - exists "ref"%string. split; auto. apply ref2_contains.
  - discriminate.
  - apply files2_contain.
  - cbn. repeat constructor; discriminate.
  - reflexivity.
  - discriminate.
  - assert (K : forall S, In S (concat contents2) -> exists v, S <> [] /\ epsilon_additive S ref2 [false; false] = Fin v /\ 0 <= v).
    { intros S [<-|[<-|[<-|[]]]]; (eexists; split; [discriminate|split; [vm_compute; reflexivity|lia]]). }
    intros sets S H1 H2. destruct (K S) as (v & N & E & L). { apply in_concat; eauto. }
    apply (not_better_add [false; false] S ref2 v); auto; discriminate.
  - exists w', vals. split; [exact A|]. split; auto.
    assert (Q : exists w2, run_eps opts ["a"; "b"]%string world2 = Ret (inr EXIT_SUCCESS, w2) /\
      w_files w2 "a.eps"%string = Some (lines ["3"; "3"]%string) /\ w_files w2 "b.eps"%string = Some (lines ["2"]%string) /\ w_stdout w2 = []).
    { eexists. split; [vm_compute; reflexivity|]. vm_compute. auto. }
    destruct Q as (w2 & Q & Q'). unfold run_eps in Q. rewrite A in Q. inversion Q; subst. auto.
Qed.
(** --multiplicative, and standard input *)
Example C62_nonvacuous_epsilon_multiplicative : exists w1 w2,
  run_eps [OptOther EpsMultiplicative; OptReference "ref"] ["b"; "a"]%string world2 = Ret (inr EXIT_SUCCESS, w1) /\ w_stdout w1 = lines ["5/3"; "5/2"; "3"]%string /\
  run_eps [OptOther EpsMultiplicative; OptReference "ref"; OptObj (txt "++"); OptOther EpsAdditive] [] world2 = Ret (inr EXIT_SUCCESS, w2) /\
  w_stdout w2 = lines ["1"]%string.
Proof. eexists _, _. split; [vm_compute; reflexivity|]. split; [vm_compute; reflexivity|]. split; [vm_compute; reflexivity|]. vm_compute. reflexivity. Qed.
(** the second set is better than the reference set; the third is not processed *)
Example C62_nonvacuous_epsilon_stops : exists w1, run_eps [OptReference "ref"] ["a"; "better"; "b"]%string world2 = Ret (inr EXIT_FAILURE, w1) /\
  w_stdout w1 = lines ["3"; "3"; "9"; "-1"]%string /\ better_than true [false; false] [[0; 0]] ref2.
Proof.
  eexists. split; [vm_compute; reflexivity|]. split; [vm_compute; reflexivity|].
  exists (inject_Z (-1)). split; [|reflexivity].
  destruct (C15_additive_epsilon_is_least_shift [false; false] [[0; 0]] ref2) as (v & E & Cv & _); try (unfold ref2; discriminate).
  vm_compute in E. inversion E; subst v. exact Cv.
Qed.
Example C62_nonvacuous_epsilon_nonpositive : exists w1, run_eps [OptOther EpsMultiplicative; OptReference "ref"] ["b"; "better"]%string world2 = Ret (inr EXIT_FAILURE, w1) /\
  w_stdout w1 = lines ["5/3"; "10"]%string /\ ~ (positive 2 [[0; 0]] /\ positive 2 ref2).
Proof.
  eexists. split; [vm_compute; reflexivity|]. split; [vm_compute; reflexivity|].
  intros [H _]. specialize (H [0; 0] (or_introl eq_refl) 0%nat ltac:(lia)). cbn in H. lia.
Qed.
(** refused options *)
Example C62_nonvacuous_refused :
  refused scanZ world2 2 [] (@OptObj eps_option (txt "-x")) EXIT_FAILURE /\ refused scanZ world2 2 [] (@OptObj eps_option (txt "0i")) EXIT_SUCCESS /\
  refused scanZ world2 2 [] (@OptReference eps_option "absent") EXIT_FAILURE /\
  run_eps [OptObj (txt "-x"); OptReference "ref"] ["a"%string] world2 = Ret (inr EXIT_FAILURE, world2) /\
  run_eps [OptReference "ref"; OptObj (txt "0i")] ["a"%string] world2 = Ret (inr EXIT_SUCCESS, world2) /\
  run_eps [OptReference "absent"] ["a"%string] world2 = Ret (inr EXIT_FAILURE, world2) /\
  run_eps [OptObj (txt "--"); OptReference "wide"] ["a"%string] world2 = Ret (inr EXIT_FAILURE, world2) /\
  run_eps [] ["a"%string] world2 = Ret (inr EXIT_FAILURE, world2) /\
  run_eps [OptReference "ref"] ["wide"%string] world2 = Ret (inr EXIT_FAILURE, world2) /\
  run_eps [OptReference "two"] ["a"%string] world2 = AssertFailed.
Proof.
  split. { left. split; auto. exists "x"%char. split. cbn; auto. cbn. intuition discriminate. }
  split. { right. split; auto. intros ch [<-|[<-|[]]]; auto. }
  split. { split. discriminate. split; auto. intros d' sets (t & E & _). discriminate. }
  repeat (split; [vm_compute; reflexivity|]). vm_compute; reflexivity.
Qed.

Example C62_nonvacuous_output :
  eps_main (fun _ => false) 7 7%nat scanZ 512 (fun _ => txt "v") [OptSuffix ".eps"; OptReference "ref"] ["a"%string] world2 = Ret (inr EXIT_FAILURE, world2).
Proof. vm_compute. reflexivity. Qed.
Example C62_nonvacuous_igd : exists w' vals,
  run_igd (fun _ => txt "v") [OptOther IgdHausdorff; OptReference "ref"; OptOther (IgdExponent (txt "2")); OptOther IgdGD] ["a"; "b"]%string world2 = Ret (inr EXIT_SUCCESS, w') /\
  Forall2 (Forall2 (fun S l => Forall2 (metric_is [false; false] 2 S ref2) [MGD; MIGDp; MHausdorff] l)) contents2 vals /\
  w_stdout w' = concat (map (fun _ => txt "v" ++ tab :: txt "v" ++ tab :: txt "v" ++ [nl]) (concat contents2)).
Proof.
  set (opts := [OptOther IgdHausdorff; OptReference "ref"; OptOther (IgdExponent (txt "2")); OptOther IgdGD]).
  destruct (C62_igd (fun _ => true) 7 7%nat scanZ 512 atoiZ 4294967296 (fun _ => txt "v") 2 opts [false; false] ref2 2 ["a"; "b"]%string contents2 world2) as (w' & vals & A & B & C).
  - apply scanZ_valid.
  - lia.
  - lia.
  - vm_compute. reflexivity.
  - lia.
  - reflexivity.
  - reflexivity.
  - repeat constructor; cbn; auto. exists ref2. apply ref2_contains.
  - reflexivity.
  - exists "ref"%string. split; auto. apply ref2_contains.
  - discriminate.
  - apply files2_contain.
  - exact I.
  - discriminate.
  - exists w', vals. split; [exact A|]. split; auto. apply delivered_all_stdout in C. destruct C as [C _]. rewrite C.
    inversion B as [|? v1 ? ? B1 B2]; subst. inversion B2 as [|? v2 ? ? B3 B4]; subst. inversion B4; subst.
    inversion B1 as [|? l1 ? ? L1 B5]; subst. inversion B5 as [|? l2 ? ? L2 B6]; subst. inversion B6; subst.
    inversion B3 as [|? l3 ? ? L3 B7]; subst. inversion B7; subst.
    assert (K : forall S l, Forall2 (metric_is [false; false] 2 S ref2) (filter (metric_asked opts) all_metrics) l -> igd_line (fun _ => txt "v") l = txt "v" ++ tab :: txt "v" ++ tab :: txt "v" ++ [nl]).
    { intros S l H. cbn in H. inversion H as [|? a ? ? _ H1]; subst. inversion H1 as [|? b ? ? _ H2]; subst. inversion H2 as [|? c ? ? _ H3]; subst. inversion H3; subst. reflexivity. }
    cbn [map combine snd concat app]. rewrite !(K _ _ L1), !(K _ _ L2), !(K _ _ L3). rewrite !app_nil_r. reflexivity.
Qed.

(** ** Where the programs differ from their documentation *)
(** The number of directions of --obj is compared with the number of columns of the
    reference set only if --reference comes later.  Otherwise the numbers of the
    reference set are divided into rows of another length: here the reference set
    is {(1,2,3), (4,5,6)}, and it is used as {(1,2), (3,4)}. *)
Theorem C62_reference_columns_refuted : exists w',
  contains scanZ world2 3 "wide" [[[1; 2; 3]; [4; 5; 6]]] /\
  run_eps [OptReference "wide"; OptObj (txt "--")] ["b"%string] world2 = Ret (inr EXIT_SUCCESS, w') /\ w_stdout w' = lines ["2"]%string /\
  run_eps [OptObj (txt "--"); OptReference "wide"] ["b"%string] world2 = Ret (inr EXIT_FAILURE, world2).
Proof. eexists. split; [read_file|]. split; [vm_compute; reflexivity|]. split; vm_compute; reflexivity. Qed.
(** with more directions than columns, the program reads after the end of the
    reference set *)
Theorem C62_reference_overrun_refuted : run_eps [OptReference "ref"; OptObj (txt "---")] ["wide"%string] world2 = OutOfBounds.
Proof. vm_compute. reflexivity. Qed.
(** An objective that --obj says to ignore is not ignored by the additive indicator:
    it counts as a difference of 0, so that the value is never negative. Here the
    second objective is ignored; with the first alone the value is -1. *)
Theorem C62_ignored_objective_refuted : exists w1, run_eps [OptReference "ref"; OptObj (txt "-0")] ["better"%string] world2 = Ret (inr EXIT_SUCCESS, w1) /\
  w_stdout w1 = lines ["9"; "0"; "4"]%string /\ epsilon_is true [false] [[0]] [[10]; [6]; [2]; [1]; [1]] (inject_Z (-1)).
Proof.
  eexists. split; [vm_compute; reflexivity|]. split; [vm_compute; reflexivity|].
  destruct (C15_additive_epsilon_is_least_shift [false] [[0]] [[10]; [6]; [2]; [1]; [1]]) as (v & E & Cv & Lv); try discriminate.
  vm_compute in E. inversion E; subst v. split; auto.
Qed.
Print Assumptions C62_reference_columns_refuted.
Print Assumptions C62_reference_overrun_refuted.
Print Assumptions C62_ignored_objective_refuted.
