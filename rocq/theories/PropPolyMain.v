(** C75: what eaf --polygons prints.

    Specification: PolyMainSpec.v, PolySpec.v, EafMainSpec.v.  Model: PolyMainModel.v. *)
From Coq Require Import Ascii String List ZArith Lia Bool Arith QArith.
From Verif Require Import Base Spec EafSpec RectSpec PolySpec EafModel EafProofs EafMain EafStoreModel EafStoreProofs
  BitArrayProofs EafTop RectModel RectProofs RectTop PolyModel PolyProofs PolyTop EafMainSpec EafMainModel EafMainProofs
  PropEafMain PropPoly PolyMainSpec PolyMainModel PolyMainProofs.
Import ListNotations.
Local Open Scope list_scope.
Open Scope Z_scope.

(** what the polygons between two levels are: horizontal and vertical edges; every
    location attained by at least [l] but not by [m] sets lies in exactly one polygon,
    whose colour is the difference at that location; no other location lies in a
    polygon *)
Definition polygons_between (runs : list (list point)) (l m : nat) (ps : list (list vertex * Z)) : Prop :=
  (forall P c, In (P, c) ps -> orthogonal P /\ (4 <= length P)%nat /\ Nat.Even (length P)) /\
  (forall z, length z = 2%nat -> attained_by_at_least 2 l runs z -> ~ attained_by_at_least 2 m runs z ->
     exists P c, containing ps z = [(P, c)] /\ count_difference runs z c) /\
  (forall z, length z = 2%nat -> ~ (attained_by_at_least 2 l runs z /\ ~ attained_by_at_least 2 m runs z) ->
     containing ps z = []).

Section Program.
Variables (runs : list (list point)) (sortx sorty sortz : list point -> list nat) (junk : nat -> Z)
  (grow : nat -> nat -> nat) (lo hi : Z).
Hypothesis Hn : (2 <= length runs)%nat.
Hypothesis Hev : Nat.Even (length runs).
Hypothesis Hne : forall r, In r runs -> r <> [].
Hypothesis Hwf : wf_points 2 (concat runs).
Hypothesis Hsx : is_datax (concat runs) (sortx (concat runs)).
Hypothesis Hsy : is_datay (concat runs) (sorty (concat runs)).
Hypothesis Hjunk : forall i, 0 <= junk i < 2 ^ 64.
Hypothesis Hgrow : forall m r, (m <= grow m r)%nat.
Hypothesis Hsize : Z.of_nat (length (concat runs)) <= (2 ^ 31 - 1) / 2.
Let n := length runs.

Lemma area_ok : forall l m, (1 <= l)%nat -> (l + m <= n)%nat ->
  exists es ps, attsurf sortx sorty sortz junk grow lo hi (concat runs) 2 (cumsizes runs) n (map Z.of_nat (seq l (S m))) = Ret (Some es) /\
    (forall debug, eaf_compute_area debug es = Ret (layout ps, map snd ps)) /\
    (forall k, eaf_check_polygons (layout (firstn k ps)) = Ret tt) /\ polygons_between runs l (l + m) ps.
Proof.
  intros l m Hl Hm. assert (Hr : runs <> []) by (intros E; rewrite E in Hn; simpl in Hn; lia).
  destruct (stored_ok runs sortx sorty junk grow Hr Hne Hwf Hsx Hsy Hjunk Hgrow Hsize (seq l (S m))) as (ss & es & E1 & E2 & F1 & F2).
  { apply Forall_forall. intros x Hx. apply in_seq in Hx. fold n. lia. }
  fold n in E1, E2, F2.
  destruct (levels_ok runs m l ss es ([], []) Hl Hm F1 F2) as (ps & E & T1 & T2 & T3 & _ & T5). cbn [fst snd app] in E.
  assert (Nn : forall k p, In p (firstn k ps) -> fst p <> []).
  { intros k [P c] Hp E'. cbn in E'. subst.
    assert (I : In ([], c) ps) by (rewrite <- (firstn_skipn k ps); apply in_app_iff; auto).
    destruct (T1 [] c I) as (_ & L & _). simpl in L. lia. }
  assert (C : forall k, eaf_check_polygons (layout (firstn k ps)) = Ret tt).
  { intros k. apply check_ok. exact (Nn k). apply FOP_firstn. exact T5. }
  exists es, ps. split; [|split; [|split; [exact C|]]].
  - cbn [attsurf]. rewrite E1. cbn [bind]. rewrite E2. reflexivity.
  - assert (Ep : eaf_compute_polygon es = Ret (layout ps, map snd ps)).
    { unfold eaf_compute_polygon. destruct es as [|e0 es]. { inversion F2; subst. inversion F1. }
      cbn [rd nth_error bind].
      assert (En : e_nruns e0 = n) by (inversion F2 as [|? ? ? ? H _]; subst; apply H).
      rewrite En. destruct Hev as (h & Eh). fold n in Eh. rewrite Eh at 1.
      replace (2 * h)%nat with (h * 2)%nat by lia. rewrite Nat.mod_mul by lia. cbn [Nat.eqb assert_ bind]. exact E. }
    intros debug. unfold eaf_compute_area. rewrite Ep. cbn [bind fst]. destruct debug; auto.
    pose proof (C (length ps)) as C'. rewrite firstn_all in C'. rewrite C'. reflexivity.
  - split; [|split; auto]. intros P c I. destruct (T1 P c I) as (O & L4 & L2). split; auto. split; auto.
    exists (length P / 2)%nat. pose proof (Nat.div_mod_eq (length P) 2). lia.
Qed.

(** For any even number of non-empty sets and any request for consecutive levels
    (all levels by default), with or without the self-check of debug builds, the
    program succeeds.  It writes the polygons between the first and the last level
    to the stream of --output, and nothing to any other stream. *)
Theorem C75_output : forall debug strtod openable o lss pc l m,
  (l <= m)%nat -> request_ok runs strtod openable o lss pc (seq l (S m - l)) ->
  exists w ps,
    eaf_main_polygons sortx sorty sortz junk grow lo hi debug strtod openable o (concat runs) (cumsizes runs) (length runs) = Ret (Some w) /\
    polygons_between runs l m ps /\
    forall f, pwritten_to f w = if stream_eqb f (output_stream (o_files o)) then polygons_text ps else [].
Proof.
  intros debug strtod openable o lss pc l m Hlm Hreq.
  replace (S m - l)%nat with (S (m - l)) in Hreq by lia.
  destruct (asked_det runs o lss pc (seq l (S (m - l))) ltac:(lia)) as [Ec Fl]; [apply Hreq|apply Hreq|].
  rewrite Forall_forall in Fl.
  assert (B1 : (1 <= l)%nat) by (apply (Fl l); apply in_seq; lia).
  assert (B2 : (m <= n)%nat) by (apply (Fl m); apply in_seq; lia).
  destruct (area_ok l (m - l) B1 ltac:(lia)) as (es & ps & Ea & Ep & _ & Pb).
  replace (l + (m - l))%nat with m in Pb by lia.
  destruct Hreq as (R1 & R2 & R3 & R4 & R5 & R6 & R7 & R8 & R9).
  unfold eaf_main_polygons. rewrite (C58_level_lists _ lss R1 R2 R3), R4. cbn [bind].
  pose proof (C58_streams openable (o_files o) R7 R8) as St. cbv zeta in St. rewrite St.
  replace (forallb _ _) with true.
  2:{ symmetry. apply forallb_forall. intros [[| |a]|] Hx; auto. }
  rewrite Ec. cbn [bind].
  assert (Ev : exists x, (if o_verbose o then (if (length runs =? 0)%nat then OutOfBounds else rd (cumsizes runs) (length runs - 1)) else Ret 0%nat) = Ret x).
  { destruct (o_verbose o); [|eauto]. destruct (Nat.eqb_spec (length runs) 0); [lia|].
    rewrite (rd_ok _ _ _ 0%nat). eauto.
    assert (Lc : forall a rs, length (cumsizes_from a rs) = length rs) by (intros a rs; revert a; induction rs; simpl; auto).
    unfold cumsizes. rewrite Lc. lia. }
  destruct Ev as (x & Ev). rewrite Ev. cbn [bind]. fold n. rewrite Ea. cbn [bind]. rewrite Ep. cbn [bind fst snd].
  eexists. exists ps. split; [reflexivity|]. split; auto.
  intros f. rewrite print_polygon_ok. reflexivity.
Qed.

(** The self-check of debug builds never fails, neither at the end nor (with
    DEBUG_POLYGONS > 0) after any of the polygons. *)
Theorem C75_self_check : forall l m, (1 <= l <= m)%nat -> (m <= length runs)%nat ->
  exists es ps,
    attsurf sortx sorty sortz junk grow lo hi (concat runs) 2 (cumsizes runs) (length runs) (map Z.of_nat (seq l (S m - l))) = Ret (Some es) /\
    eaf_compute_polygon es = Ret (layout ps, map snd ps) /\
    forall k, eaf_check_polygons (layout (firstn k ps)) = Ret tt.
Proof.
  intros l m Hl Hm. destruct (area_ok l (m - l)) as (es & ps & Ea & Ep & C & _); try (fold n); try lia.
  replace (S m - l)%nat with (S (m - l)) by lia.
  exists es, ps. split; auto. split; auto.
  specialize (Ep false). unfold eaf_compute_area in Ep. destruct (eaf_compute_polygon es) as [p| | |]; auto; discriminate.
Qed.
End Program.

(** The text determines the polygons and their colours. *)
Theorem C75_readable : forall ps qs, polygons_text ps = polygons_text qs -> ps = qs.
Proof. exact text_inj. Qed.

(** ** What goes wrong for other requests *)

(** Levels that are not consecutive: in a debug build eaf --polygons -l 2,5,6 aborts,
    because two of its polygons overlap (both contain the location (9,5)); in a
    release build it prints them. *)
Definition opts75 (files : list fileopt) (levels : list text) : options := mkOptions false false false false levels [] files.
Definition run75 (debug : bool) (runs : list (list point)) (o : options) :=
  eaf_main_polygons sortx_exec sorty_exec Eaf3dModel.sortz_exec (fun i => 17 * (Z.of_nat i mod 1000)) grow_exec (-100) 100
    debug strtod_ex (fun _ => true) o (concat runs) (cumsizes runs) (length runs).
Theorem C75_selected_levels_refuted :
  run75 true px (opts75 [] [str "2,5,6"]) = AssertFailed /\
  exists w ps, run75 false px (opts75 [] [str "2,5,6"]) = Ret (Some w) /\ pwritten_to Stdout w = polygons_text ps /\
    length (containing ps [9; 5]) = 2%nat.
Proof.
  split. vm_compute. reflexivity.
  destruct (run75 false px (opts75 [] [str "2,5,6"])) as [[w|]| | |] eqn:E; vm_compute in E; try discriminate.
  exists w, [([(At 2, Infty); (At 2, At 4); (Infty, At 4); (Infty, Infty)], 2);
             ([(At 5, At 4); (At 5, At 2); (Infty, At 2); (Infty, At 4)], 0);
             ([(At 8, At 6); (At 8, At 5); (Infty, At 5); (Infty, At 6)], 1)].
  inversion E; subst. split; auto.
Qed.
(** Levels in decreasing order violate an assertion of the polygon computation. *)
Theorem C75_decreasing_levels_refuted : run75 false px (opts75 [] [str "6,1"]) = AssertFailed.
Proof. vm_compute. reflexivity. Qed.
(** So does an odd number of sets.  (Builds without assertions go on in both cases;
    what they print is not modelled.) *)
Theorem C75_odd_refuted : run75 false [[[1; 2]]; [[2; 1]]; [[0; 3]]] (opts75 [] []) = AssertFailed.
Proof. vm_compute. reflexivity. Qed.

(** ** A concrete case *)
Example C75_hypotheses_met :
  let o := opts75 [OptO "f"%string; OptI None; OptD (Some "d"%string)] [str "2,3"] in
  request_ok px strtod_ex (fun _ => true) o [[2; 3]] [] (seq 2 2).
Proof.
  cbv zeta. unfold request_ok. cbn [o_levels o_files o_percentiles o_best o_median o_worst opts75].
  split; [|split; [|split; [|split; [|split; [|split; [|split; [|split]]]]]]].
  - constructor; auto. split; [|discriminate].
    change (str "2,3") with ([] ++ [] ++ ["2"%char] ++ [","%char; "3"%char]).
    change [2; 3] with [1 * decimal ["2"%char]; 3]. apply IL_num; auto; try discriminate.
    constructor. { left; auto. }
    change ["3"%char] with ([] ++ [] ++ ["3"%char] ++ []). change 3 with (1 * decimal ["3"%char]).
    apply IL_num; auto; try discriminate. now constructor.
  - cbn. lia.
  - cbn. repeat constructor; lia.
  - reflexivity.
  - intros p [].
  - cbn. split; auto. repeat constructor.
  - cbn. intros a H. discriminate.
  - cbn. intros a H _. inversion H. subst. split; discriminate.
  - auto.
Qed.
Example C75_values :
  let v a b := [(File "f", a); (File "f", PTok TSp); (File "f", b); (File "f", PTok TNl)] in
  let k x := PTok (TNum x) in
  run75 true px (opts75 [OptO "f"%string; OptI None; OptD (Some "d"%string)] [str "2,3"]) = Ret (Some (
    v (k 2) PInf ++ v (k 2) (k 4) ++ v (k 4) (k 4) ++ v (k 4) PInf ++ v PMinusInf PMinusInf ++
    v (k 5) (k 4) ++ v (k 5) (k 2) ++ v PInf (k 2) ++ v PInf (k 4) ++ v PMinusInf PMinusInf ++
    [(File "f", PText "# col ="); (File "f", PTok TSp); (File "f", PTok (TInt 2)); (File "f", PTok TSp);
     (File "f", PTok (TInt 0)); (File "f", PTok TNl)])).
Proof. vm_compute. reflexivity. Qed.

Print Assumptions C75_output.
Print Assumptions C75_self_check.
Print Assumptions C75_readable.
Print Assumptions C75_selected_levels_refuted.
