(** C73: the options --normalise and --log of the nondominated program. *)
From Coq Require Import Ascii String List ZArith Lia Bool Arith.
From Verif Require Import Base Spec NondomModel NondomMain FbSpec IoModel IoSpec CmdModel CmdSpec CmdProofs CmdLoop CmdExample HvCmdModel HvCmdSpec HvCmdProofs IndCmdSpec IndCmdProofs
  NdCmdModel NdCmdSpec NdCmdProofs NdCmdRun NdImage PropNdCmd.
Import ListNotations.
Local Open Scope list_scope.
Open Scope Z_scope.

Section C73.
Variable divide : Z -> Z -> Z.
Variable log10 : Z -> Z.
Variable one : Z.
Local Notation image := (image divide log10 one).
Local Notation result := (result divide log10 one).
Local Notation some_redundant := (some_redundant divide log10 one).
Local Notation logged := (logged log10).

(** the arithmetic of the C code: a quotient that is a whole number of units is
    exact, and the logarithm of positive numbers is strictly increasing *)
Definition arithmetic : Prop :=
  (forall v b, b <> 0 -> divide (v * b) b = v) /\ one <> 0 /\ (forall x y, 0 < x -> x < y -> log10 x < log10 y).
(** the column is in logarithmic scale *)
Definition log_column (opts : list nd_option) (i : nat) : Prop :=
  match log_of opts with Some a => nth i a "0"%char = "1"%char | None => False end.
Definition logs_defined (d : nat) (opts : list nd_option) (lb : point) : Prop := forall i, (i < d)%nat -> log_column opts i -> 0 < coord lb i.
(** the transformed coordinates are whole numbers of units *)
Definition representable (d : nat) (opts : list nd_option) (rg : option (Z * Z)) (lb ub p : point) : Prop :=
  match rg with
  | None => True
  | Some (lo, hi) => forall i, (i < d)%nat -> exists v,
      v * (coord (logged opts ub) i - coord (logged opts lb) i) = (hi - lo) * (coord (logged opts p) i - coord (logged opts lb) i)
  end.
Definition proper (rg : option (Z * Z)) : Prop := match rg with Some (lo, hi) => lo < hi | None => True end.

Lemma logged_coord : forall opts p i, (i < length p)%nat -> coord (logged opts p) i = coord p i /\ ~ log_column opts i \/
  coord (logged opts p) i = log10 (coord p i) /\ log_column opts i.
Proof.
  intros opts p i Hi. unfold NdCmdSpec.logged, log_column. destruct (log_of opts) as [a|]; [|auto].
  rewrite coord_seq by auto. destruct (Ascii.eqb_spec (nth i a "0"%char) "1"); auto.
Qed.
(** the order of two numbers that are positive if the column is logarithmic *)
Lemma logged_order : forall d opts lb p q i, arithmetic -> logs_defined d opts lb -> (i < d)%nat -> length p = d -> length q = d ->
  coord lb i <= coord p i ->
  (coord p i = coord q i -> coord (logged opts p) i = coord (logged opts q) i) /\
  (coord p i < coord q i -> coord (logged opts p) i < coord (logged opts q) i).
Proof.
  intros d opts lb p q i (_ & _ & Hlog) Ld Hi Lp Lq Hb. specialize (Ld i Hi).
  destruct (logged_coord opts p i) as [[-> N]|[-> C]]; [lia| |]; (destruct (logged_coord opts q i) as [[-> N']|[-> C']]; [lia| |]); try contradiction.
  - lia.
  - specialize (Ld C). split. congruence. apply Hlog. lia.
Qed.
Lemma logged_le : forall d opts lb p q i, arithmetic -> logs_defined d opts lb -> (i < d)%nat -> length p = d -> length q = d ->
  coord lb i <= coord p i -> coord p i <= coord q i -> coord (logged opts p) i <= coord (logged opts q) i.
Proof.
  intros d opts lb p q i Ar Ld Hi Lp Lq Hb H. destruct (logged_order d opts lb p q i Ar Ld Hi Lp Lq Hb) as [E L].
  destruct (Z.eq_dec (coord p i) (coord q i)) as [Q|Q]. specialize (E Q); lia. specialize (L ltac:(lia)). lia.
Qed.

(** The lower bound of a column becomes the lower end of the range and the upper
    bound the upper end, or the other way round if the objective is turned around;
    between them the transformation is linear (in the logarithm, with --log), and
    nothing is outside the range. *)
Theorem C73_values : forall d opts mx lo hi lb ub p i, arithmetic ->
  length mx = d -> length lb = d -> length ub = d -> length p = d -> logs_defined d opts lb ->
  inside d lb ub p -> representable d opts (Some (lo, hi)) lb ub p -> lo < hi -> (i < d)%nat ->
  let l := coord (logged opts lb) i in let u := coord (logged opts ub) i in let x := coord (logged opts p) i in
  let v := coord (image d opts mx (Some (lo, hi)) lb ub p) i in
  (v - lo) * (u - l) = (hi - lo) * (if flips (agree_of opts) (nth i mx false) then u - x else x - l) /\
  lo <= v <= hi /\ l <= x <= u /\ (l = u -> v = lo).
Proof.
  intros d opts mx lo hi lb ub p i Ar Lm Ll Lu Lp Ld In_ Re Hr Hi l u x v.
  specialize (Re i Hi). fold l u x in Re. destruct Re as (k & Ek).
  assert (Ox : l <= x <= u). { destruct (In_ i Hi) as [I1 I2]. split; eapply logged_le; eauto; lia. }
  assert (Dv : forall w, w * (u - l) = (hi - lo) * (if flips (agree_of opts) (nth i mx false) then u - x else x - l) -> (l = u -> w = 0) -> v = lo + w).
  { intros w Ew Zw. unfold v, NdCmdSpec.image. rewrite coord_seq by auto. unfold placed. fold l u x. rewrite <- Ew. f_equal.
    destruct Ar as (Dv & O1 & _). destruct (Z.eqb_spec u l) as [Q|Q].
    - rewrite Q, Z.sub_diag, Z.mul_0_r. rewrite (Zw (eq_sym Q)). rewrite <- (Dv 0 one) at 2 by auto. reflexivity.
    - apply Dv. lia. }
  assert (Ev : exists w, w * (u - l) = (hi - lo) * (if flips (agree_of opts) (nth i mx false) then u - x else x - l) /\ (l = u -> w = 0)).
  { destruct (Z.eq_dec l u) as [Q|Q].
    - exists 0. split; auto. destruct (flips _ _); nia.
    - destruct (flips _ _); [exists (hi - lo - k)|exists k]; split; try lia. }
  destruct Ev as (w & Ew & Zw). rewrite (Dv w Ew Zw). split; [lia|]. split; [|split; [auto|intros Q; rewrite (Zw Q); lia]].
  destruct (Z.eq_dec l u) as [Q|Q]. { rewrite (Zw Q). lia. }
  assert (0 <= w <= hi - lo); [|lia]. clear - Ew Ox Hr Q. destruct (flips _ _); split; nia.
Qed.

Lemma inside_length_order : forall d opts mx rg lb ub, arithmetic -> length mx = d -> length lb = d -> length ub = d -> logs_defined d opts lb -> proper rg ->
  keeps_order (agree_of opts) mx (image d opts mx rg lb ub) (fun p => length p = d /\ inside d lb ub p /\ representable d opts rg lb ub p).
Proof.
  intros d opts mx rg lb ub Ar Lm Ll Lu Ld Pr p q i (Lp & Ip & Rp) (Lq & Iq & Rq) Hi. rewrite Lm in Hi.
  destruct (logged_order d opts lb p q i Ar Ld Hi Lp Lq (proj1 (Ip i Hi))) as [E L]. split.
  - intros Q. unfold NdCmdSpec.image. rewrite !coord_seq by auto. now rewrite (E Q).
  - intros Q. specialize (L Q). destruct rg as [[lo hi]|].
    + destruct (C73_values d opts mx lo hi lb ub p i Ar Lm Ll Lu Lp Ld Ip Rp Pr Hi) as (E1 & _ & O1 & _).
      destruct (C73_values d opts mx lo hi lb ub q i Ar Lm Ll Lu Lq Ld Iq Rq Pr Hi) as (E2 & _ & O2 & _). unfold proper in Pr.
      set (v := coord (image d opts mx (Some (lo, hi)) lb ub p) i) in *. set (w := coord (image d opts mx (Some (lo, hi)) lb ub q) i) in *.
      set (l := coord (logged opts lb) i) in *. set (u := coord (logged opts ub) i) in *.
      set (x := coord (logged opts p) i) in *. set (y := coord (logged opts q) i) in *. clearbody v w l u x y.
      destruct (flips _ _); nia.
    + unfold NdCmdSpec.image. rewrite !coord_seq by auto. unfold placed. destruct (flips _ _); lia.
Qed.

(** The transformations do not change which points are written, nor the exit status:
    the points written are the transformed points that are left after removing the
    dominated and duplicated ones. *)
Theorem C73_selection : forall d opts mx rg lb ub sets, arithmetic ->
  length mx = d -> length lb = d -> length ub = d -> (forall S p, In S sets -> In p S -> length p = d) ->
  logs_defined d opts lb -> proper rg ->
  (force_on opts = false -> forall S p, In S sets -> In p S -> inside d lb ub p) ->
  (forall S p, In S sets -> In p S -> inside d lb ub p -> representable d opts rg lb ub p) ->
  (forall sets', result d opts mx rg lb ub sets sets' ->
     exists s1 s2, bounded d opts lb ub (united opts sets) s1 /\ filtered opts mx s1 s2 /\ sets' = map (map (image d opts mx rg lb ub)) s2) /\
  (some_redundant d opts mx rg lb ub sets <->
     exists s1 S, bounded d opts lb ub (united opts sets) s1 /\ In S s1 /\ redundant mx S).
Proof.
  intros d opts mx rg lb ub sets Ar Lm Ll Lu Hw Ld Pr Wi Re.
  pose proof (inside_length_order d opts mx rg lb ub Ar Lm Ll Lu Ld Pr) as Ko.
  assert (Ok : forall s1, bounded d opts lb ub (united opts sets) s1 -> forall S p, In S s1 -> In p S ->
    length p = d /\ inside d lb ub p /\ representable d opts rg lb ub p).
  { intros s1 B S p HS Hp. destruct (bounded_from _ _ _ _ _ _ _ _ B HS Hp) as [(S0 & H0 & Hp0) If].
    destruct (united_in _ _ _ _ H0 Hp0) as (S1 & H1 & Hp1).
    assert (I : inside d lb ub p). { destruct (force_on opts) eqn:Q; auto. eapply Wi; eauto. }
    split; [eapply Hw; eauto|]. split; auto. eapply Re; eauto. }
  split.
  - intros sets' (s1 & B & F). destruct (image_filtered _ _ _ _ Ko opts s1 sets') as (s2 & F2 & ->); auto.
    { intros S p HS Hp. eapply Ok; eauto. }
    exists s1, s2. auto.
  - split; intros (s1 & S & B & HS & R); exists s1, S; (split; [auto|]); (split; [auto|]).
    + apply (image_redundant _ _ _ _ Ko) in R; auto. intros p Hp. eapply Ok; eauto.
    + apply (image_redundant _ _ _ _ Ko); auto. intros p Hp. eapply Ok; eauto.
Qed.
End C73.

(** All runs of the program with these options: the output files, the heading with
    the scale, the range and the bounds in that scale, and the exit status. *)
Theorem C73_run : forall sort2d can_create junk junk_int junk_bool scan data_inc strtod fmt fmt_int divide log10 one d opts mx rg names contents lb ub w,
  libc sort2d scan data_inc strtod -> arithmetic divide log10 one ->
  (0 < d)%nat -> d <> 2%nat -> Forall (nd_usable strtod d) opts -> goals d opts mx -> range_is strtod opts rg -> bounds_ordered strtod d opts ->
  names <> [] -> Forall2 (contains scan w d) names contents -> outputs_possible can_create opts names ->
  bounds_are strtod d opts (concat (concat contents)) lb ub -> within d opts lb ub (concat (concat contents)) ->
  logs_defined d opts lb ->
  (forall p, In p (concat (concat contents)) -> inside d lb ub p -> representable log10 d opts rg lb ub p) ->
  exists kept dominated t w1 w',
    nd_main sort2d can_create junk junk_int junk_bool scan data_inc strtod fmt fmt_int divide log10 one opts names w = Ret (inr (Z.b2z dominated), w') /\
    Forall2 (fun sets s2 => exists s1, bounded d opts lb ub (united opts sets) s1 /\ filtered opts mx s1 s2) contents kept /\
    delivered_all (Some (suffix_of opts))
      (nd_outputs fmt fmt_int log10 opts mx rg lb ub names (map (map (map (image divide log10 one d opts mx rg lb ub))) kept)) w w1 /\
    (forall n, w_files w' n = w_files w1 n) /\ w_stdin w' = w_stdin w /\ w_stdout w' = w_stdout w ++ t /\
    totals_text fmt fmt_int d opts names (concat (concat contents)) dominated t /\
    (dominated = true <-> check_on opts = true /\ exists sets s1 S, In sets contents /\ bounded d opts lb ub (united opts sets) s1 /\ In S s1 /\ redundant mx S).
Proof.
  intros sort2d can_create junk junk_int junk_bool scan data_inc strtod fmt fmt_int divide log10 one d opts mx rg names contents lb ub w
    Lc Ar Hd N2 U G Rg Bo Nn Hf Op Ba Wi Ld Re.
  destruct (C63_files sort2d can_create junk junk_int junk_bool scan data_inc strtod fmt fmt_int divide log10 one d opts mx rg names contents lb ub w
    Lc Hd N2 U G Rg Bo Nn Hf Op Ba Wi) as (outs & dom & t & w1 & w' & E & F & D & K1 & K2 & K3 & T & V).
  assert (Lm : length mx = d) by (eapply mx_length; eauto).
  assert (Ll : length lb = d) by apply Ba. assert (Lu : length ub = d) by apply Ba.
  assert (Pr : proper rg).
  { destruct Lc as (_ & _ & _ & Ht). unfold proper. destruct (options_hold junk strtod Ht d Hd opts w U) as (o & _ & Ho). clear - Rg U.
    destruct rg as [[lo hi]|]; auto. unfold range_is in Rg. destruct (range_of opts) as [a|] eqn:Ea; [|discriminate].
    destruct Rg as (lo' & hi' & R & Q). injection Q as <- <-.
    assert (I : In (NdNormalise a) opts).
    { clear - Ea. unfold range_of in Ea. revert Ea. induction opts as [|x opts IH] using rev_ind; cbn; [discriminate|].
      rewrite fold_left_app. cbn. intros Ea. apply in_or_app. destruct x; auto. injection Ea as <-. right. now left. }
    rewrite Forall_forall in U. destruct (U _ I) as (lo' & hi' & R' & L). apply range_ok in R, R'. congruence. }
  assert (Sel : forall sets, In sets contents ->
    (forall sets', result divide log10 one d opts mx rg lb ub sets sets' ->
       exists s1 s2, bounded d opts lb ub (united opts sets) s1 /\ filtered opts mx s1 s2 /\ sets' = map (map (image divide log10 one d opts mx rg lb ub)) s2) /\
    (some_redundant divide log10 one d opts mx rg lb ub sets <->
       exists s1 S, bounded d opts lb ub (united opts sets) s1 /\ In S s1 /\ redundant mx S)).
  { intros sets Hs.
    assert (I : forall S p, In S sets -> In p S -> In p (concat (concat contents))).
    { intros S p HS Hp. apply in_concat. exists S. split; auto. apply in_concat. exists sets. auto. }
    apply C73_selection; auto.
    - intros S p HS Hp. assert (C : exists n, contains scan w d n sets).
      { clear - Hf Hs. induction Hf as [|n c ns cs C Hf IH]; [easy|]. destruct Hs as [<-|Hs]; eauto. }
      destruct C as (n & C). destruct (file_sets _ _ _ _ _ C) as [_ W]. now apply (W S HS).
    - intros Q S p HS Hp. apply (Wi Q). eauto.
    - intros S p HS Hp. apply Re. eauto. }
  assert (Kept : exists kept, outs = map (map (map (image divide log10 one d opts mx rg lb ub))) kept /\
     Forall2 (fun sets s2 => exists s1, bounded d opts lb ub (united opts sets) s1 /\ filtered opts mx s1 s2) contents kept).
  { clear - F Sel. induction F as [|sets sets' l l' R F IH].
    - exists []. split; constructor.
    - destruct IH as (kept & -> & F2). { intros s Hs. apply Sel. now right. }
      destruct (proj1 (Sel sets (or_introl eq_refl)) sets' R) as (s1 & s2 & B & Fi & ->). exists (s2 :: kept). split; auto. constructor; eauto. }
  destruct Kept as (kept & -> & Fk). exists kept, dom, t, w1, w'.
  split; auto. split; auto. split; auto. split; auto. split; auto. split; auto. split; auto.
  rewrite V. split; intros (A & sets & H).
  - split; auto. destruct H as [Hs R]. apply (proj2 (Sel sets Hs)) in R. destruct R as (s1 & S & R). exists sets, s1, S. tauto.
  - split; auto. destruct H as (s1 & S & Hs & R). exists sets. split; auto. apply (proj2 (Sel sets Hs)). eauto.
Qed.
Print Assumptions C73_values.
Print Assumptions C73_selection.
Print Assumptions C73_run.

(** ** Examples *)
Definition files_n : string -> option text := fun n =>
  if String.eqb n "a" then Some (lines ["10 5 300"; "20 5 400"; "10 9 400"; "40 3 100"]%string)
  else if String.eqb n "r" then Some (lines ["0 3 0"; "1 2 0"; "3 0 0"]%string)
  else None.
Definition world_n : world := mkWorld files_n [] [].
(** some strictly increasing function *)
Definition log_n (x : Z) : Z := 2 * x - 7.
Definition run_n := nd_main sort2d_exec (fun _ => true) 7 7%nat (fun _ => false) scanZ 512 strtodZ fmtZ fmt_nat Z.div log_n 1.
Lemma arithmetic_n : arithmetic Z.div log_n 1.
Proof. split. intros v b H. now apply Z.div_mul. split. lia. intros x y _ H. unfold log_n. lia. Qed.
Definition opts_n : list nd_option := [NdFilter; NdNormalise (txt "1 19 "); NdObj (txt "-+-"); NdAgree (txt "min"); NdLog (txt "001"); NdUpper (txt "40 9 700"); NdLower (txt "10 3 100")].
(** all the options together: the third objective is logarithmic, the second one is
    turned around, and the bounds are given; the second point is dominated *)
Example C73_nonvacuous_run : exists w', run_n opts_n ["a"%string] world_n = Ret (inr 1, w') /\
  w_files w' "a_dat"%string = Some (lines ["# file: a"; "# objectives (3): -+-"; "# agree: min"; "# logarithm: 001"; "# range: 1 19";
    "# lower bound: 10 3 193"; "# upper bound: 40 9 1393"; "1 13 7"; "1 1 10"; "19 19 1"; ""]%string) /\
  exists kept, Forall2 (fun sets s2 => exists s1, bounded 3 opts_n [10; 3; 100] [40; 9; 700] (united opts_n sets) s1 /\ filtered opts_n [false; true; false] s1 s2)
    [[[[10; 5; 300]; [20; 5; 400]; [10; 9; 400]; [40; 3; 100]]]] kept.
Proof.
  destruct (C73_run sort2d_exec (fun _ => true) 7 7%nat (fun _ => false) scanZ 512 strtodZ fmtZ fmt_nat Z.div log_n 1
    3 opts_n [false; true; false] (Some (1, 19)) ["a"%string] [[[[10; 5; 300]; [20; 5; 400]; [10; 9; 400]; [40; 3; 100]]]] [10; 3; 100] [40; 9; 700] world_n)
    as (kept & dom & t & w1 & w' & E & F & _).
  - apply libc3.
  - apply arithmetic_n.
  - lia.
  - lia.
  - repeat apply Forall_cons; try apply Forall_nil; cbn [nd_usable]; auto.
    + exists 1, 19. split; [|lia]. do 2 eexists. split; [vm_compute; reflexivity|]. split; [vm_compute; reflexivity|]. cbn. intros c [<-|[]]. reflexivity.
    + exists [false; true; false]. split; auto. repeat constructor.
    + split; [|reflexivity]. cbn. intros ch H. intuition.
    + exists [40; 9; 700]. split; auto. repeat (econstructor; [vm_compute; reflexivity|]). constructor; reflexivity.
    + exists [10; 3; 100]. split; auto. repeat (econstructor; [vm_compute; reflexivity|]). constructor; reflexivity.
  - split; auto. repeat constructor.
  - exists 1, 19. split; [|reflexivity]. do 2 eexists. split; [vm_compute; reflexivity|]. split; [vm_compute; reflexivity|]. cbn. intros c [<-|[]]. reflexivity.
  - intros a b lb ub Ha Hb Pa Pb i Hi. injection Ha as <-. injection Hb as <-.
    assert (lb = [10; 3; 100]).
    { eapply (point_text_det strtodZ). exact Pa. repeat (econstructor; [vm_compute; reflexivity|]). constructor; reflexivity. }
    assert (ub = [40; 9; 700]).
    { eapply (point_text_det strtodZ). exact Pb. repeat (econstructor; [vm_compute; reflexivity|]). constructor; reflexivity. }
    subst. destruct i as [|[|[|i]]]; cbn; lia.
  - discriminate.
  - constructor; [read_file|constructor].
  - intros _. split; [|auto]. cbn. repeat constructor; discriminate.
  - split; (split; [reflexivity|]); cbn; repeat (econstructor; [vm_compute; reflexivity|]); constructor; reflexivity.
  - intros _. apply in_each. cbn [concat app].
    repeat (apply Forall_cons; [intros i Hi; destruct i as [|[|[|i]]]; try lia; cbn; lia|]). apply Forall_nil.
  - intros i Hi C. destruct i as [|[|[|i]]]; cbn; lia.
  - intros p Hp _. revert p Hp. apply in_each. cbn [concat app].
    repeat (apply Forall_cons; [intros i Hi; destruct i as [|[|[|i]]]; [| | |lia]; cbn;
      match goal with |- exists v, v * ?b = ?c => exists (c / b); reflexivity end|]). apply Forall_nil.
  - eexists. split; [vm_compute; reflexivity|]. split; [vm_compute; reflexivity|]. exists kept. exact F.
Qed.
(** wrong arguments *)
Example C73_nonvacuous_refused :
  run_n [NdFilter; NdNormalise (txt "1")] ["a"%string] world_n = Ret (inr EXIT_FAILURE, world_n) /\
  run_n [NdFilter; NdNormalise (txt "2 1")] ["a"%string] world_n = Ret (inr EXIT_FAILURE, world_n) /\
  run_n [NdFilter; NdNormalise (txt "1 2 x")] ["a"%string] world_n = Ret (inr EXIT_FAILURE, world_n) /\
  run_n [NdFilter; NdLog (txt "01x")] ["a"%string] world_n = Ret (inr EXIT_FAILURE, world_n) /\
  nd_refused strtodZ (NdNormalise (txt "2 1")) EXIT_FAILURE /\ nd_refused strtodZ (NdLog (txt "01x")) EXIT_FAILURE.
Proof.
  do 4 (split; [vm_compute; reflexivity|]). split.
  - split; auto. intros lo hi H. apply range_ok in H. vm_compute in H. injection H as <- <-. lia.
  - split; auto. exists "x"%char. cbn. split; auto. split; discriminate.
Qed.
(** --log with zeros only changes nothing, and writes nothing by itself *)
Example C73_log_zeros : run_n [NdLog (txt "000")] ["a"%string] world_n = Ret (inr 1, world_n).
Proof. vm_compute. reflexivity. Qed.

(** ** Where the program differs from its documentation *)
(** The vector of --log is read beyond its end if another option, given after it, has
    another number of objectives, or if it is empty. *)
Theorem C73_log_length_refuted : run_n [NdLog (txt "1"); NdObj (txt "---")] ["a"%string] world_n = OutOfBounds /\
  run_n [NdLog (txt "")] ["a"%string] world_n = OutOfBounds.
Proof. split; vm_compute; reflexivity. Qed.
(** The points are compared after they have been transformed.  If quotients are
    rounded (here, to whole numbers), a point that no point dominates can be removed
    by --filter --normalise, and the exit status is 1. *)
Theorem C73_rounded_refuted : exists w', contains scanZ world_n 3 "r"%string [[[0; 3; 0]; [1; 2; 0]; [3; 0; 0]]] /\
  ~ redundant [false; false; false] [[0; 3; 0]; [1; 2; 0]; [3; 0; 0]] /\
  run_n [NdFilter; NdNormalise (txt "0 1")] ["r"%string] world_n = Ret (inr 1, w') /\
  w_files w' "r_dat"%string = Some (lines ["# file: r"; "# objectives (3): ---"; "# agree: no"; "# range: 0 1";
    "# lower bound: 0 0 0"; "# upper bound: 3 3 0"; "0 0 0"; ""]%string).
Proof.
  eexists. split; [read_file|]. split; [|split; vm_compute; reflexivity].
  intros (i & j & Hi & Hj & N & W). cbn in Hi, Hj. pose proof (W 0%nat ltac:(cbn; lia)) as W0. pose proof (W 1%nat ltac:(cbn; lia)) as W1.
  destruct i as [|[|[|i]]], j as [|[|[|j]]]; try lia; cbn in W0, W1; lia.
Qed.
Print Assumptions C73_log_length_refuted.
Print Assumptions C73_rounded_refuted.
