(** Properties C57 and C58: the output and the options of the eaf program.

    Specification: EafMainSpec.v, EafSpec.v, Eaf3dSpec.v.  Model: EafMainModel.v. *)
From Coq Require Import Ascii String List ZArith Lia Bool Arith QArith.
From Verif Require Import Base Spec EafSpec EafModel BitArrayModel EafStoreModel EafTop Eaf3dSpec Eaf3dModel EafMain
  EafMainSpec EafMainModel EafMainProofs.
Import ListNotations.
Local Open Scope list_scope.
Open Scope Z_scope.

(** ** C58: the options *)

(** Any arguments of --level that are lists of integers (fewer than 50 in all, in
    the range of int) are understood exactly; any other argument is rejected
    (unless 50 numbers or more are read). *)
Theorem C58_level_lists : forall strs lss,
  Forall2 (fun s xs => int_list s xs /\ xs <> []) strs lss -> (length (concat lss) < 50)%nat ->
  Forall (fun x => - 2 ^ 31 <= x < 2 ^ 31) (concat lss) ->
  read_all_options Z 0 strtol_int strs = Ret (Some (concat lss)).
Proof.
  intros strs lss F H50 Hr. unfold read_all_options.
  assert (G : exists rs, length lss = length rs /\
    Forall2 (fun s xr => parses Z strtol_int s (fst xr) (snd xr)) strs (combine lss rs) /\
    Forall (fun r => forallb isspace r = true) rs /\ Forall (fun xs => xs <> []) lss).
  { clear H50. induction F as [|s xs strs lss [I N] F IH].
    - exists []. cbn. auto.
    - cbn [concat] in Hr. apply Forall_app in Hr. destruct Hr as [Hx Hr].
      destruct (IH Hr) as (rs & A & B & C & D). destruct (int_list_parses s xs I) as (r & P & Q).
      assert (Em : map as_int xs = xs).
      { clear - Hx. induction Hx; cbn; auto. rewrite as_int_id, IHHx by auto. auto. }
      rewrite Em in P. exists (r :: rs). cbn [combine length]. repeat split; auto. }
  destruct G as (rs & A & B & C & D).
  exact (read_options_ok Z 0 strtol_int strtol_len strs lss rs B A C D [] (repeat 0 50) ltac:(rewrite repeat_length; lia) eq_refl).
Qed.
Theorem C58_level_lists_only : forall strs vs,
  read_all_options Z 0 strtol_int strs = Ret (Some vs) ->
  exists lss, Forall2 (fun s xs => int_list s xs /\ xs <> []) strs lss /\ length vs = length (concat lss) /\
    (Forall (fun x => - 2 ^ 31 <= x < 2 ^ 31) (concat lss) -> vs = concat lss).
Proof.
  intros strs vs E. apply (read_options_inv Z 0 strtol_int strtol_len strs [] (repeat 0 50) vs eq_refl) in E.
  destruct E as (xss & rs & -> & L & F & Fr & Fx). cbn [app].
  assert (G : exists lss, Forall2 (fun s xs => int_list s xs /\ xs <> []) strs lss /\ concat xss = map as_int (concat lss)).
  { revert strs rs L F Fr. induction Fx as [|xs xss Hx Fx IH]; intros strs rs L F Fr.
    - destruct rs; [|discriminate]. cbn [combine] in F. inversion F; subst. exists []. auto.
    - destruct rs as [|r rs]; [discriminate|]. cbn [combine] in F. inversion F as [|s ? strs' ? P F']; subst. inversion Fr as [|? ? R0 Fr']; subst.
      destruct (IH strs' rs ltac:(simpl in L; lia) F' Fr') as (lss & A & B). cbn [fst snd] in P.
      destruct (parses_int_list s xs r P R0) as (zs & I & ->). exists (zs :: lss). split.
      + constructor; auto. split; auto. intros ->. now apply Hx.
      + cbn [concat]. now rewrite map_app, B. }
  destruct G as (lss & A & B). exists lss. split; auto. rewrite B, map_length. split; auto.
  intros Hr. clear - Hr. induction Hr; cbn; auto. rewrite as_int_id, IHHr by auto. auto.
Qed.

(** The levels computed are those asked for; if no levels answer the request
    (a level or percentile out of range), the program stops. *)
Theorem C58_levels : forall best median worst ps levels n, (1 <= n)%nat -> (forall p, In p ps -> p <> PNan) ->
  (exists ls, choose_levels best median worst ps levels (Z.of_nat n) = Ret (Some (map Z.of_nat ls)) /\
     asked_levels tolerance best median worst ps levels n ls /\ Forall (fun l => (1 <= l <= n)%nat) ls) \/
  (choose_levels best median worst ps levels (Z.of_nat n) = Ret None /\
     forall ls, ~ asked_levels tolerance best median worst ps levels n ls).
Proof.
  intros best median worst ps levels n Hn Hnan. unfold choose_levels, asked_levels.
  destruct best. { left. exists [1%nat]. split; auto. }
  destruct median.
  { left. exists [((n + 1) / 2)%nat].
    assert (E : percentile2level 50 (Z.of_nat n) = Ret (Z.of_nat ((n + 1) / 2))).
    { destruct (percentile2level_ok 50 (Z.of_nat n) ltac:(lia)) as [E [R1 R2]]. { split; discriminate. }
      rewrite E. f_equal. set (l := Z.max 1 (round_level (pct_x 50 (Z.of_nat n)))) in *.
      assert (X : (pct_x 50 (Z.of_nat n) == inject_Z (Z.of_nat n) * (1 # 2))%Q).
      { unfold pct_x. field. }
      pose proof (Nat.div_mod (n + 1) 2 ltac:(lia)) as Dm. pose proof (Nat.mod_upper_bound (n + 1) 2 ltac:(lia)) as Mb.
      set (h := ((n + 1) / 2)%nat) in *. clearbody h.
      assert (K : forall m : Z, round_level (pct_x 50 (Z.of_nat n)) <= m <-> Z.of_nat h <= m).
      { intros m. rewrite round_level_iff, X. unfold Qle, Qminus, Qplus, Qopp, Qmult, inject_Z, tolerance. cbn -[Z.mul Z.add Z.of_nat Z.sub].
        clear - Dm Mb. revert Dm Mb. generalize ((n + 1) mod 2)%nat. intros. lia. }
      unfold l. apply Z.le_antisymm.
      - apply Z.max_lub; [lia|]. apply K. lia.
      - transitivity (round_level (pct_x 50 (Z.of_nat n))); [|lia]. apply (proj1 (K _)). lia. }
    rewrite E. cbn [bind]. split; auto. split; auto. constructor; auto.
    pose proof (Nat.div_mod (n + 1) 2 ltac:(lia)). pose proof (Nat.mod_upper_bound (n + 1) 2 ltac:(lia)). lia. }
  destruct worst. { left. exists [n]. cbn. split; auto. }
  destruct ps as [|p ps]; cbn [length Nat.ltb Nat.leb].
  - destruct levels as [|l levels]; cbn [length Nat.ltb Nat.leb].
    + left. exists (seq 1 n). split.
      { rewrite Nat2Z.id. do 2 f_equal. rewrite <- seq_shift, map_map. apply map_ext. intros. lia. }
      split; auto. apply Forall_forall. intros x Hx. apply in_seq in Hx. lia.
    + destruct (check_levels (l :: levels) (Z.of_nat n)) eqn:E.
      * left. apply check_levels_iff in E. exists (map Z.to_nat (l :: levels)).
        assert (M : map Z.of_nat (map Z.to_nat (l :: levels)) = l :: levels).
        { rewrite map_map. rewrite <- (map_id (l :: levels)) at 2. apply map_ext_in. intros a Ha.
          rewrite Forall_forall in E. specialize (E a Ha). lia. }
        rewrite M. assert (Fl : Forall (fun l0 => (1 <= l0 <= n)%nat) (map Z.to_nat (l :: levels))).
        { apply Forall_forall. intros x Hx. apply in_map_iff in Hx. destruct Hx as (a & <- & Ha).
          rewrite Forall_forall in E. specialize (E a Ha). lia. }
        auto.
      * right. split; auto. intros ls [A B]. assert (C : check_levels (l :: levels) (Z.of_nat n) = true); [|congruence].
        apply check_levels_iff. rewrite A. apply Forall_forall. intros x Hx. apply in_map_iff in Hx. destruct Hx as (a & <- & Ha).
        rewrite Forall_forall in B. specialize (B a Ha). lia.
  - destruct (levels_of_percentiles_ok (p :: ps) n Hn Hnan) as [(F & ls & E & Fl)|(F & E)].
    + left. exists ls. split; auto.
      split.
      * clear - F Fl. induction Fl; constructor; inversion F; subst; auto. destruct x; [|contradiction]. split; auto.
      * clear - Fl. induction Fl; constructor; auto. apply H.
    + right. split; auto. intros ls Fl. apply F. clear - Fl. induction Fl; constructor; auto. destruct x; [|contradiction]. apply H.
Qed.

(** The streams: the coordinates go to the last --output, the indices and the
    differences where asked, when the files named explicitly are different; the
    program stops exactly when one of the files cannot be opened. *)
Theorem C58_streams : forall openable opts,
  let out := output_stream opts in
  let ind := requested out (last_indices opts) in
  let dif := requested out (last_diff opts) in
  (forall a, last_indices opts = Some (Some a) -> named a <> Stdout -> out <> named a) ->
  (forall a, last_diff opts = Some (Some a) -> named a <> Stdout -> out <> named a /\ ind <> Some (named a)) ->
  open_files openable (fold_left opt_file opts init_files) =
  if forallb (fun s => match s with Some (File a) => openable a | _ => true end) [Some out; ind; dif]
  then Some (Some out, ind, dif) else None.
Proof.
  intros openable opts out ind dif H1 H2.
  assert (Nf : forall a, dash a = false -> named a = File a /\ named a <> Stdout).
  { intros a H. rewrite named_file by auto. split; congruence. }
  pose proof (open_files_ok openable opts) as K. cbv zeta in K. fold out ind dif in K. rewrite K.
  - cbn [forallb]. now rewrite andb_true_r, andb_assoc.
  - intros a [E D]. destruct (Nf a D) as [<- N]. auto.
  - intros a [E D]. destruct (Nf a D) as [<- N]. auto.
Qed.

(** *** Limits of the options *)
Definition str (s : string) : text := list_ascii_of_string s.

(** a list of 50 levels is written past the end of the array of 50 elements *)
Theorem C58_fifty_levels_refuted : exists strs lss,
  Forall2 (fun s xs => int_list s xs /\ xs <> []) strs lss /\ length (concat lss) = 50%nat /\
  Forall (fun x => x = 1) (concat lss) /\ read_all_options Z 0 strtol_int strs = OutOfBounds.
Proof.
  assert (I : forall m, int_list (concat (repeat (str ",1") m)) (repeat 1 m)).
  { induction m. now constructor. cbn [repeat concat]. change (str ",1") with [","%char; "1"%char]. cbn [app].
    constructor. { left; auto. }
    change ("1"%char :: concat (repeat [","%char; "1"%char] m)) with ([] ++ [] ++ ["1"%char] ++ concat (repeat [","%char; "1"%char] m)).
    change (1 :: repeat 1 m) with (1 * decimal ["1"%char] :: repeat 1 m). apply IL_num; auto. discriminate.
    destruct m; reflexivity. }
  exists [concat (repeat (str ",1") 50)], [repeat 1 50]. repeat split.
  - constructor; auto. split; auto. discriminate.
  - cbn [concat]. rewrite app_nil_r. apply Forall_forall. intros x Hx. now apply repeat_spec in Hx.
Qed.
(** a level beyond the range of int is not rejected but taken modulo 2^32 *)
Theorem C58_large_level_refuted : exists s x, int_list s [x] /\ x > 2 ^ 31 /\
  read_all_options Z 0 strtol_int [s] = Ret (Some [1]).
Proof.
  exists (str "4294967297"), 4294967297. split; [|split]; [|lia|reflexivity].
  change (str "4294967297") with ([] ++ [] ++ str "4294967297" ++ []).
  change 4294967297 with (1 * decimal (str "4294967297")). apply IL_num; auto; try discriminate. now constructor.
Qed.
(** --percentile nan is not rejected, and its conversion to a level is undefined *)
Theorem C58_nan_refuted : choose_levels false false false [PNan] [] 3 <> Ret None.
Proof. discriminate. Qed.
(** --indices with the file name of --output writes no indices at all *)
Theorem C58_same_file_refuted : exists opts,
  output_stream opts = File "out" /\ requested (output_stream opts) (last_indices opts) = Some (File "out") /\
  open_files (fun _ => true) (fold_left opt_file opts init_files) = Some (Some (File "out"), None, None).
Proof. exists [OptO "out"; OptI (Some "out"%string)]. repeat split. Qed.

Example C58_values :
  read_all_options Z 0 strtol_int [str "1, 3;+2 "; str "-7"] = Ret (Some [1; 3; 2; -7]) /\
  read_all_options Z 0 strtol_int [str "1 , 3"] = Ret None /\
  read_all_options Z 0 strtol_int [str ","] = Ret None /\
  choose_levels false true false [] [] 5 = Ret (Some [3]) /\
  choose_levels false false false [PQ 100; PQ (1 # 10)] [] 5 = Ret (Some [5; 1]) /\
  choose_levels false false false [] [2; 6] 5 = Ret None /\
  open_files (fun _ => true) (fold_left opt_file [OptO "a"; OptI None; OptD (Some "b"%string)] init_files)
    = Some (Some (File "a"), Some (File "a"), Some (File "b")).
Proof. vm_compute. repeat split. Qed.

(** ** C57: the output *)

(** the indices of a point tell which sets attain it *)
Definition indicators (dim : nat) (runs : list (list point)) (p : point) (flags : list bool) : Prop :=
  Forall2 (fun (b : bool) r => b = true <-> attains dim r p) flags runs.
Definition printed (dim : nat) (runs : list (list point)) (ls : list nat) (out : stream) (ind dif : option stream)
  (w : list (stream * token)) : Prop :=
  exists pss : list (list (point * list bool)),
    Forall2 (fun l ps => is_surface dim runs l (map fst ps) /\
                         Forall (fun pf => indicators dim runs (fst pf) (snd pf)) ps) ls pss /\
    forall f, written_to f w =
      concat (map (fun ps => concat (map (fun pf => line f (Some out) ind dif (fst pf) (snd pf)) ps) ++ level_end f (Some out)) pss).

Lemma flags_indicators : forall dim runs p flags, length flags = length runs ->
  (forall k, (k < length runs)%nat -> (nth k flags false = true <-> attains dim (nth k runs []) p)) ->
  indicators dim runs p flags.
Proof.
  unfold indicators. induction runs as [|r runs IH]; intros p [|b flags] L H; try discriminate; constructor.
  - apply (H 0%nat). simpl. lia.
  - apply IH; [simpl in L; lia|]. intros k Hk. apply (H (S k)). simpl. lia.
Qed.

Section Program.
Variables (runs : list (list point)) (sortx sorty sortz : list point -> list nat) (junk : nat -> Z)
  (grow : nat -> nat -> nat) (lo hi : Z) (strtod : text -> option (pct * text)) (openable : string -> bool)
  (o : options) (lss : list (list Z)) (pc : list pct) (ls : list nat).
Let n := length runs.
Let out := output_stream (o_files o).
Let ind := requested out (last_indices (o_files o)).
Let dif := requested out (last_diff (o_files o)).
Definition request_ok : Prop :=
  Forall2 (fun s xs => int_list s xs /\ xs <> []) (o_levels o) lss /\ (length (concat lss) < 50)%nat /\
  Forall (fun x => - 2 ^ 31 <= x < 2 ^ 31) (concat lss) /\
  read_all_options pct (PQ 0) strtod (o_percentiles o) = Ret (Some pc) /\ (forall p, In p pc -> p <> PNan) /\
  asked_levels tolerance (o_best o) (o_median o) (o_worst o) pc (concat lss) n ls /\
  (forall a, last_indices (o_files o) = Some (Some a) -> named a <> Stdout -> out <> named a) /\
  (forall a, last_diff (o_files o) = Some (Some a) -> named a <> Stdout -> out <> named a /\ ind <> Some (named a)) /\
  (forall a, In (Some (File a)) [Some out; ind; dif] -> openable a = true).

Lemma asked_det : (1 <= n)%nat -> (forall p, In p pc -> p <> PNan) ->
  asked_levels tolerance (o_best o) (o_median o) (o_worst o) pc (concat lss) n ls ->
  choose_levels (o_best o) (o_median o) (o_worst o) pc (concat lss) (Z.of_nat n) = Ret (Some (map Z.of_nat ls)) /\
  Forall (fun l => (1 <= l <= n)%nat) ls.
Proof.
  intros Hn Hp A.
  destruct (C58_levels (o_best o) (o_median o) (o_worst o) pc (concat lss) n Hn Hp) as [(ls' & E & A' & F)|(_ & E)].
  2:{ exfalso. now apply (E ls). }
  enough (ls = ls') by (subst; auto). clear - A A'. unfold asked_levels in *.
  destruct (o_best o); [congruence|]. destruct (o_median o); [congruence|]. destruct (o_worst o); [congruence|].
  destruct pc as [|p ps].
  - destruct (concat lss) as [|l lv]; [congruence|]. destruct A as [A _], A' as [A' _]. rewrite A in A'. clear - A'.
    revert ls' A'. induction ls; intros [|b ls'] H; cbn in H; try discriminate; auto. inversion H. f_equal; auto. lia.
  - revert A A'. generalize (p :: ps). intros qs A. revert ls'. induction A as [|q l qs ls A As IH]; intros ls' A'; inversion A'; subst; auto.
    f_equal; auto. destruct q; [|contradiction]. destruct A as (_ & _ & A), H1 as (_ & _ & B).
    pose proof (proj1 (A l) (le_n _)) as A1. pose proof (proj1 (B y) (le_n _)) as B1.
    pose proof (proj2 (A y) B1). pose proof (proj2 (B l) A1). lia.
Qed.

Lemma program_ok : forall dim es ss, (2 <= n)%nat -> (2 <= dim)%nat -> request_ok ->
  attsurf sortx sorty sortz junk grow lo hi (concat runs) dim (cumsizes runs) n (map Z.of_nat ls) = Ret (Some es) ->
  Forall2 (EafStoreProofs.holds dim n) es ss ->
  Forall (Forall (fun o : point * list bool => length (fst o) = dim /\ length (snd o) = n)) ss ->
  Forall2 (fun l s => is_surface dim runs l (map fst s) /\ forall p flags, In (p, flags) s -> length flags = n /\
       forall k, (k < n)%nat -> (nth k flags false = true <-> attains dim (nth k runs []) p)) ls ss ->
  exists w, eaf_main sortx sorty sortz junk grow lo hi strtod openable o (concat runs) dim (cumsizes runs) n = Ret (Some w) /\
    printed dim runs ls out ind dif w.
Proof.
  intros dim es ss Hn Hd (R1 & R2 & R3 & R4 & R5 & R6 & R7 & R8 & R9) Ea Fh Fl Fs. unfold eaf_main.
  rewrite (C58_level_lists _ lss R1 R2 R3), R4. cbn [bind].
  pose proof (C58_streams openable (o_files o) R7 R8) as St. cbv zeta in St. fold out ind dif in St. rewrite St.
  replace (forallb (fun s => match s with Some (File a) => openable a | _ => true end) [Some out; ind; dif]) with true.
  2:{ symmetry. apply forallb_forall. intros [[| |a]|] Hx; auto. }
  destruct (asked_det ltac:(lia) R5 R6) as [Ec Fc]. rewrite Ec. cbn [bind].
  assert (Ev : exists x, (if o_verbose o then (if (n =? 0)%nat then OutOfBounds else rd (cumsizes runs) (n - 1)) else Ret 0%nat) = Ret x).
  { destruct (o_verbose o); [|eauto]. destruct (Nat.eqb_spec n 0); [lia|].
    rewrite (rd_ok _ _ _ 0%nat). eauto.
    assert (Lc : forall a rs, length (cumsizes_from a rs) = length rs) by (intros a rs; revert a; induction rs; simpl; auto).
    unfold cumsizes. rewrite Lc. fold n. lia. }
  destruct Ev as (x & Ev). rewrite Ev. cbn [bind]. rewrite Ea. cbn [bind].
  destruct (print_ok dim n out ind dif Hd Hn es ss Fh Fl) as (w & Ew & W). rewrite Ew. cbn [bind].
  exists w. split; auto. exists ss. split; auto.
  clear - Fs. induction Fs; constructor; auto. destruct H as [A B]. split; auto.
  apply Forall_forall. intros [p flags] Hin. cbn [fst snd]. destruct (B p flags Hin). now apply flags_indicators.
Qed.
End Program.

(** Two objectives: for any two or more non-empty sets and any options as above,
    the program writes, for every level asked for, one line per point of the exact
    attainment surface: to each stream the columns sent to it (coordinates, the
    indices of the sets that attain the point, how many of the first half and of
    the second half of the sets attain it), and an empty line after each level to
    the stream of the coordinates. *)
Theorem C57_output_2d : forall runs sortx sorty sortz junk grow lo hi strtod openable o lss pc ls,
  (2 <= length runs)%nat -> (forall r, In r runs -> r <> []) -> wf_points 2 (concat runs) ->
  is_datax (concat runs) (sortx (concat runs)) -> is_datay (concat runs) (sorty (concat runs)) ->
  (forall i, 0 <= junk i < 2 ^ 64) -> (forall m r, (m <= grow m r)%nat) ->
  Z.of_nat (length (concat runs)) <= (2 ^ 31 - 1) / 2 ->
  request_ok runs strtod openable o lss pc ls ->
  exists w, eaf_main sortx sorty sortz junk grow lo hi strtod openable o (concat runs) 2 (cumsizes runs) (length runs) = Ret (Some w) /\
    let out := output_stream (o_files o) in
    printed 2 runs ls out (requested out (last_indices (o_files o))) (requested out (last_diff (o_files o))) w.
Proof.
  intros runs sortx sorty sortz junk grow lo hi strtod openable o lss pc ls Hn Hne Hwf Hx Hy Hj Hg Hsz Hreq.
  assert (Hr : runs <> []) by (intros ->; simpl in Hn; lia).
  destruct (asked_det runs o lss pc ls ltac:(lia)) as [_ Fl]; [apply Hreq|apply Hreq|].
  destruct (attsurf2_ok runs sortx sorty sortz junk grow lo hi Hr Hne Hj Hg ls Hwf Hx Hy Hsz Fl) as (es & ss & A & B & C & D).
  exact (program_ok runs sortx sorty sortz junk grow lo hi strtod openable o lss pc ls 2 es ss Hn (le_n 2) Hreq A B C D).
Qed.
(** Three objectives. *)
Theorem C57_output_3d : forall runs sortx sorty sortz junk grow lo hi strtod openable o lss pc ls, lo < hi ->
  (2 <= length runs)%nat -> (forall r, In r runs -> r <> []) -> wf_points 3 (concat runs) ->
  (forall p, In p (concat runs) -> lo < coord p 0 < hi /\ lo < coord p 1 < hi) ->
  is_dataz (concat runs) (sortz (concat runs)) ->
  (forall i, 0 <= junk i < 2 ^ 64) -> (forall m r, (m <= grow m r)%nat) ->
  Z.of_nat (length (concat runs)) * Z.of_nat (length (concat runs)) <= (2 ^ 31 - 1) / 2 ->
  request_ok runs strtod openable o lss pc ls ->
  exists w, eaf_main sortx sorty sortz junk grow lo hi strtod openable o (concat runs) 3 (cumsizes runs) (length runs) = Ret (Some w) /\
    let out := output_stream (o_files o) in
    printed 3 runs ls out (requested out (last_indices (o_files o))) (requested out (last_diff (o_files o))) w.
Proof.
  intros runs sortx sorty sortz junk grow lo hi strtod openable o lss pc ls LH Hn Hne Hwf Hb Hz Hj Hg Hsz Hreq.
  assert (Hr : runs <> []) by (intros ->; simpl in Hn; lia).
  destruct (asked_det runs o lss pc ls ltac:(lia)) as [_ Fl]; [apply Hreq|apply Hreq|].
  destruct (attsurf3_ok runs sortx sorty sortz junk grow lo hi Hr Hne Hj Hg ls LH Hwf Hb Hz Hsz Fl) as (es & ss & A & B & C & D).
  exact (program_ok runs sortx sorty sortz junk grow lo hi strtod openable o lss pc ls 3 es ss Hn ltac:(lia) Hreq A B C D).
Qed.

(** any other number of objectives is refused *)
Theorem C57_other_dimensions : forall sortx sorty sortz junk grow lo hi strtod openable o data nobj cs nruns w,
  nobj <> 2%nat -> nobj <> 3%nat ->
  eaf_main sortx sorty sortz junk grow lo hi strtod openable o data nobj cs nruns <> Ret (Some w).
Proof.
  intros. unfold eaf_main. destruct (read_all_options Z 0 strtol_int (o_levels o)); try discriminate. cbn [bind].
  destruct (read_all_options pct (PQ 0) strtod (o_percentiles o)); try discriminate. cbn [bind].
  destruct a; try discriminate. destruct a0; try discriminate. destruct (open_files _ _) as [[[cf inf] df]|]; try discriminate.
  destruct (choose_levels _ _ _ _ _ _) as [[lv|]| | |]; try discriminate. cbn [bind].
  destruct (if o_verbose o then _ else _); try discriminate. cbn [bind].
  destruct nobj as [|[|[|[|?]]]]; try congruence; discriminate.
Qed.

(** the conversion of percentiles used in the examples: one digit *)
Definition strtod_ex (s : text) : option (pct * text) :=
  match strtol_int s with Some (v, r) => Some (PQ (inject_Z v), r) | None => None end.
Definition opts_ex (files : list fileopt) (levels : list text) : options := mkOptions true false false false levels [] files.

Example C57_hypotheses_met :
  let runs := [[[1; 3]; [3; 1]]; [[2; 2]]; [[0; 4]; [4; 0]]] in
  let o := opts_ex [OptI None; OptD (Some "d"%string)] [str "1,3"] in
  request_ok runs strtod_ex (fun _ => true) o [[1; 3]] [] [1; 3]%nat /\
  is_datax (concat runs) (sortx_exec (concat runs)) /\ is_datay (concat runs) (sorty_exec (concat runs)).
Proof.
  cbv zeta. split; [|split; [apply sortx_exec_ok|apply sorty_exec_ok]].
  unfold request_ok. cbn [o_levels o_files o_percentiles o_best o_median o_worst opts_ex].
  split; [|split; [|split; [|split; [|split; [|split; [|split; [|split]]]]]]].
  - constructor; auto. split; [|discriminate].
    change (str "1,3") with ([] ++ [] ++ ["1"%char] ++ [","%char; "3"%char]).
    change [1; 3] with [1 * decimal ["1"%char]; 3]. apply IL_num; auto; try discriminate.
    constructor. { left; auto. }
    change ["3"%char] with ([] ++ [] ++ ["3"%char] ++ []). change 3 with (1 * decimal ["3"%char]).
    apply IL_num; auto; try discriminate. now constructor.
  - cbn. lia.
  - cbn. repeat constructor; lia.
  - reflexivity.
  - intros p [].
  - cbn. split; auto. repeat constructor.
  - cbn. intros a H. discriminate.
  - cbn. intros a H _. inversion H. subst. split; discriminate.
  - auto.
Qed.
Example C57_values :
  eaf_main sortx_exec sorty_exec sortz_exec junk_exec grow_exec (-100) 100 strtod_ex (fun _ => true)
    (opts_ex [OptI None; OptD (Some "d"%string)] [str "2"])
    [[1; 3]; [3; 1]; [2; 2]; [0; 4]; [4; 0]] 2 [2; 3; 5]%nat 3
  = Ret (Some (let c x y i j k a b := [(Stdout, TNum x); (Stdout, TSp); (Stdout, TNum y); (Stdout, TTab);
                 (Stdout, TInt i); (Stdout, TSp); (Stdout, TInt j); (Stdout, TSp); (Stdout, TInt k); (Stdout, TNl);
                 (File "d", TInt a); (File "d", TSp); (File "d", TInt b); (File "d", TNl)] in
      c 1 4 1 0 1 1 1 ++ c 2 3 1 1 0 1 1 ++ c 3 2 1 1 0 1 1 ++ c 4 1 1 0 1 1 1 ++ [(Stdout, TNl)])).
Proof. vm_compute. reflexivity. Qed.

(** *** Limits of the output *)

(** With a single set the indices have two columns, and the differences count
    the set in both halves. *)
Theorem C57_single_set_refuted : exists p flags w,
  indicators 2 [[p]] p flags /\
  eaf_main sortx_exec sorty_exec sortz_exec junk_exec grow_exec (-100) 100 strtod_ex (fun _ => true)
    (opts_ex [OptI None; OptD None] []) [p] 2 [1%nat] 1 = Ret (Some w) /\
  written_to Stdout w <> line Stdout (Some Stdout) (Some Stdout) (Some Stdout) p flags ++ [TNl] /\
  written_to Stdout w = coordinates p ++ [TTab; TInt 1; TSp; TInt 1; TTab; TInt 1; TSp; TInt 1; TNl; TNl].
Proof.
  exists [5; 7], [true].
  destruct (eaf_main sortx_exec sorty_exec sortz_exec junk_exec grow_exec (-100) 100 strtod_ex (fun _ => true)
    (opts_ex [OptI None; OptD None] []) [[5; 7]] 2 [1%nat] 1) as [[w|]| | |] eqn:E; vm_compute in E; try discriminate.
  exists w. inversion E; subst. split; [|split; [|split]]; auto.
  - constructor; auto. split; auto. intros _. exists [5; 7]. split; [simpl; auto|]. apply wdom2_iff. cbn. lia.
  - discriminate.
Qed.
(** An empty input is not refused: the message on stderr reads before the
    beginning of the array of sizes. *)
Theorem C57_empty_input_refuted :
  eaf_main sortx_exec sorty_exec sortz_exec junk_exec grow_exec (-100) 100 strtod_ex (fun _ => true)
    (opts_ex [] []) [] 0 [] 0 = OutOfBounds.
Proof. reflexivity. Qed.

Print Assumptions C57_output_2d.
Print Assumptions C57_output_3d.
Print Assumptions C57_other_dimensions.
Print Assumptions C58_level_lists.
Print Assumptions C58_level_lists_only.
Print Assumptions C58_levels.
Print Assumptions C58_streams.
