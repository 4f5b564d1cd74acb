(** Properties C46 (agreeing objectives), C50 (option arguments) and C51 (ignored
    objectives). *)
From Coq Require Import List ZArith Lia Bool Arith Ascii String.
From Verif Require Import Base Spec NondomModel NondomProofs NondomProofs2d NondomMain OptModel.
Import ListNotations.
Open Scope Z_scope.

(** ** C50: what a direction string means *)
Definition direction (ch : ascii) : option Z :=
  if ascii_dec ch "+" then Some 1
  else if ascii_dec ch "-" then Some (-1)
  else if ascii_dec ch "0" then Some 0
  else if ascii_dec ch "i" then Some 0
  else None.
Definition valid_char (ch : ascii) : Prop := In ch ["+"; "-"; "0"; "i"]%char.

Lemma direction_valid : forall ch, direction ch <> None <-> valid_char ch.
Proof.
  intros. unfold direction, valid_char. simpl.
  destruct (ascii_dec ch "+"); [subst; split; [auto|discriminate]|].
  destruct (ascii_dec ch "-"); [subst; split; [auto|discriminate]|].
  destruct (ascii_dec ch "0"); [subst; split; [auto|discriminate]|].
  destruct (ascii_dec ch "i"); [subst; split; [auto|discriminate]|].
  split; [congruence|]. intros [|[|[|[|[]]]]]; congruence.
Qed.

Definition dirz (ch : ascii) : Z := match direction ch with Some d => d | None => 0 end.

Lemma wr_set : forall A (buf : list A) i v, (i < List.length buf)%nat -> wr buf i v = Ret (upd buf i v).
Proof. intros. now apply wr_ok. Qed.

Lemma minmax_loop_eq : forall str i buf ign, (i + List.length str <= List.length buf)%nat ->
  (exists ch, In ch str /\ ~ valid_char ch) /\ minmax_loop str i buf ign = Ret None \/
  (forall ch, In ch str -> valid_char ch) /\
  exists buf', minmax_loop str i buf ign = Ret (Some (buf', ign && forallb (fun ch => dirz ch =? 0) str)) /\
    List.length buf' = List.length buf /\
    (forall k, (k < List.length str)%nat -> nth (i + k) buf' 0 = dirz (nth k str "0"%char)) /\
    (forall k, (k < i)%nat -> nth k buf' 0 = nth k buf 0).
Proof.
  induction str as [|ch str IH]; intros i buf ign L; simpl in L.
  - right. split; [intros ? []|]. exists buf. cbn [minmax_loop forallb]. rewrite andb_true_r.
    split; auto. split; auto. split; [simpl; intros; lia|auto].
  - assert (G : forall v b, direction ch = Some v -> b = (ign && (v =? 0)) ->
      (x <- wr buf i v ;; minmax_loop str (S i) x b) = minmax_loop (ch :: str) i buf ign ->
      (exists ch', In ch' (ch :: str) /\ ~ valid_char ch') /\ minmax_loop (ch :: str) i buf ign = Ret None \/
      (forall ch', In ch' (ch :: str) -> valid_char ch') /\
      exists buf', minmax_loop (ch :: str) i buf ign
            = Ret (Some (buf', ign && forallb (fun ch => dirz ch =? 0) (ch :: str))) /\
        List.length buf' = List.length buf /\
        (forall k, (k < List.length (ch :: str))%nat -> nth (i + k) buf' 0 = dirz (nth k (ch :: str) "0"%char)) /\
        (forall k, (k < i)%nat -> nth k buf' 0 = nth k buf 0)).
    { intros v b Dv -> <-. rewrite wr_set by lia. cbn [bind].
      assert (Vc : valid_char ch) by (apply direction_valid; congruence).
      assert (Dz : dirz ch = v) by (unfold dirz; now rewrite Dv).
      destruct (IH (S i) (upd buf i v) (ign && (v =? 0))) as [[(c & Hc & Nc) E]|[Hv (buf' & E & L' & H1 & H2)]].
      { rewrite upd_length. lia. }
      - left. split; auto. exists c. simpl; auto.
      - right. split. { intros c [<-|Hc]; auto. }
        exists buf'. rewrite upd_length in L'. cbn [forallb]. rewrite Dz, andb_assoc. split; auto. split; auto. split.
        + intros [|k] Hk; cbn [nth].
          * rewrite Nat.add_0_r, H2 by lia. rewrite nth_upd_same by lia. auto.
          * rewrite <- H1 by (simpl in Hk; lia). f_equal. lia.
        + intros k Hk. rewrite H2 by lia. apply nth_upd_other. lia. }
    cbn [minmax_loop] in *. unfold direction in G.
    destruct (ascii_dec ch "+"). { apply (G 1 false); auto. cbn. now rewrite andb_false_r. }
    destruct (ascii_dec ch "-"). { apply (G (-1) false); auto. cbn. now rewrite andb_false_r. }
    destruct (ascii_dec ch "0"). { apply (G 0 ign); auto. cbn. now rewrite andb_true_r. }
    destruct (ascii_dec ch "i"). { apply (G 0 ign); auto. cbn. now rewrite andb_true_r. }
    left. split; auto. exists ch. split; simpl; auto. unfold valid_char. simpl. intuition congruence.
Qed.

Lemma cycle_ok : forall f len m i buf, (0 < len)%nat -> List.length buf = (len + i + m)%nat ->
  (forall k, (k < len + i)%nat -> nth k buf 0 = f (Nat.modulo k len)) ->
  exists buf', cycle_loop len (seq i m) buf = Ret buf' /\ List.length buf' = List.length buf /\
    forall k, (k < len + i + m)%nat -> nth k buf' 0 = f (Nat.modulo k len).
Proof.
  induction m; intros i buf Hl L H; cbn [seq cycle_loop].
  - exists buf. split; auto. split; auto. intros. apply H. lia.
  - rewrite (rd_ok _ buf i 0) by lia. cbn [bind]. rewrite wr_set by lia. cbn [bind].
    destruct (IHm (S i) (upd buf (len + i) (nth i buf 0)) Hl) as (buf' & E & L' & H').
    + rewrite upd_length. lia.
    + intros k Hk. destruct (Nat.eq_dec k (len + i)) as [->|N].
      * rewrite nth_upd_same by lia. rewrite H by lia. f_equal.
        replace (len + i)%nat with (i + 1 * len)%nat by lia. now rewrite Nat.mod_add by lia.
      * rewrite nth_upd_other by lia. apply H. lia.
    + exists buf'. split; auto. rewrite upd_length in L'. split; auto. intros. apply H'. lia.
Qed.

(** For every argument of -o and every number of objectives known so far, the
    argument is rejected iff it has a character other than + - 0 i; the program
    ends iff no objective is left; otherwise entry [k] of the result is the
    direction given by character [k], the string being repeated as often as
    needed, and the number of objectives becomes the length of the string. *)
Theorem C50_directions : forall garbage str nobj,
  exists r, read_minmax garbage str nobj = Ret r /\
    (r = ParsedNull <-> exists ch, In ch str /\ ~ valid_char ch) /\
    (r = ParsedExit <-> forall ch, In ch str -> ch = "0"%char \/ ch = "i"%char) /\
    forall v n, r = Parsed v n ->
      n = List.length str /\ List.length v = Nat.max (List.length str) nobj /\
      forall k, (k < Nat.max (List.length str) nobj)%nat ->
        direction (nth (Nat.modulo k (List.length str)) str "?"%char) = Some (nth k v 0).
Proof.
  intros. unfold read_minmax.
  assert (ZI : forall ch, valid_char ch -> (dirz ch = 0 <-> ch = "0"%char \/ ch = "i"%char)).
  { intros ch H. unfold valid_char in H. simpl in H.
    destruct H as [<-|[<-|[<-|[<-|[]]]]]; vm_compute; intuition congruence. }
  set (len := List.length str).
  destruct (minmax_loop_eq str 0 (repeat garbage (Nat.max len nobj)) true)
    as [[(c & Hc & Nc) E]|[Hv (buf' & E & L' & H1 & _)]].
  { rewrite repeat_length. unfold len. lia. }
  - rewrite E. cbn [bind]. exists ParsedNull. split; auto. split; [split; eauto|].
    split; [|discriminate]. split; [discriminate|]. intros A. exfalso. apply Nc.
    unfold valid_char. simpl. destruct (A c Hc) as [->| ->]; auto.
  - rewrite E. cbn [bind andb]. rewrite repeat_length in L'.
    destruct (forallb (fun ch => dirz ch =? 0) str) eqn:Ef.
    + exists ParsedExit. split; auto. split; [split; [discriminate|intros (c & Hc & Nc); exfalso; auto]|].
      split; [|discriminate]. split; auto. intros _ c Hc. rewrite forallb_forall in Ef.
      apply ZI; auto. specialize (Ef c Hc). lia.
    + assert (Hn : ~ (forall ch, In ch str -> ch = "0"%char \/ ch = "i"%char)).
      { intros A. assert (forallb (fun ch => dirz ch =? 0) str = true); [|congruence].
        apply forallb_forall. intros c Hc. apply Z.eqb_eq. apply ZI; auto. }
      assert (Hl : (0 < len)%nat). { unfold len. destruct str; simpl in *; try discriminate; lia. }
      set (f := fun k => dirz (nth k str "0"%char)).
      assert (H1' : forall k, (k < len + 0)%nat -> nth k buf' 0 = f (Nat.modulo k len)).
      { intros k Hk. rewrite Nat.mod_small by lia. apply H1. unfold len in *. lia. }
      assert (EX : exists buf, (if (len <? nobj)%nat then cycle_loop len (seq 0 (nobj - len)) buf' else Ret buf') = Ret buf /\
        List.length buf = Nat.max len nobj /\
        forall k, (k < Nat.max len nobj)%nat -> nth k buf 0 = f (Nat.modulo k len)).
      { destruct (Nat.ltb_spec len nobj).
        - destruct (cycle_ok f len (nobj - len) 0 buf' Hl) as (b & Eb & Lb & Hb); auto. { rewrite L'. lia. }
          exists b. split; auto. split; [lia|]. intros k Hk. apply Hb. lia.
        - exists buf'. split; auto. split; auto. intros k Hk. apply H1'. lia. }
      destruct EX as (buf & E2 & L2 & H2). rewrite E2. cbn [bind]. exists (Parsed buf len). split; auto.
      split; [split; [discriminate|intros (c & Hc & Nc); exfalso; auto]|].
      split; [split; [discriminate|intros A; exfalso; auto]|].
      intros v n Ev. inversion Ev; subst v n. split; auto. split; auto. intros k Hk. rewrite H2 by auto.
      assert (Hm : (Nat.modulo k len < List.length str)%nat) by (apply Nat.mod_upper_bound; lia).
      unfold f, dirz. rewrite (nth_indep str "?"%char "0"%char Hm).
      destruct (direction (nth (Nat.modulo k len) str "0"%char)) eqn:Ed; auto.
      exfalso. apply (proj2 (direction_valid (nth (Nat.modulo k len) str "0"%char))); auto. apply Hv. now apply nth_In.
Qed.
Print Assumptions C50_directions.

Example C50_directions_examples :
  let chars := list_ascii_of_string in
  read_minmax 99 (chars "-+0i"%string) 0 = Ret (Parsed [-1;1;0;0] 4) /\
  read_minmax 99 (chars "-+"%string) 5 = Ret (Parsed [-1;1;-1;1;-1] 2) /\
  read_minmax 99 (chars "-x"%string) 0 = Ret ParsedNull /\
  read_minmax 99 (chars "00i"%string) 0 = Ret ParsedExit /\
  read_minmax 99 [] 3 = Ret ParsedExit.
Proof. repeat split; vm_compute; reflexivity. Qed.

Lemma bit_loop_eq : forall str i buf, (i + List.length str <= List.length buf)%nat ->
  (exists ch, In ch str /\ ch <> "0"%char /\ ch <> "1"%char) /\ bitvector_loop str i buf = Ret None \/
  (forall ch, In ch str -> ch = "0"%char \/ ch = "1"%char) /\
  exists buf', bitvector_loop str i buf = Ret (Some buf') /\
    List.length buf' = List.length buf /\
    (forall k, (k < List.length str)%nat -> (nth (i + k) buf' false = true <-> nth k str "0"%char = "1"%char)) /\
    (forall k, (k < i)%nat -> nth k buf' false = nth k buf false).
Proof.
  induction str as [|ch str IH]; intros i buf L; simpl in L.
  - right. split; [intros ? []|]. exists buf. split; auto. split; auto. split; [simpl; intros; lia|auto].
  - cbn [bitvector_loop].
    assert (G : forall b, (ch = "0"%char \/ ch = "1"%char) -> (b = true <-> ch = "1"%char) ->
      (exists ch', In ch' (ch :: str) /\ ch' <> "0"%char /\ ch' <> "1"%char) /\
        (x <- wr buf i b ;; bitvector_loop str (S i) x) = Ret None \/
      (forall ch', In ch' (ch :: str) -> ch' = "0"%char \/ ch' = "1"%char) /\
      exists buf', (x <- wr buf i b ;; bitvector_loop str (S i) x) = Ret (Some buf') /\
        List.length buf' = List.length buf /\
        (forall k, (k < List.length (ch :: str))%nat ->
           (nth (i + k) buf' false = true <-> nth k (ch :: str) "0"%char = "1"%char)) /\
        (forall k, (k < i)%nat -> nth k buf' false = nth k buf false)).
    { intros b Hc Hb. rewrite wr_set by lia. cbn [bind].
      destruct (IH (S i) (upd buf i b)) as [[(c & Ic & Nc) E]|[Hv (buf' & E & L' & H1 & H2)]].
      { rewrite upd_length. lia. }
      - left. split; auto. exists c. simpl; auto.
      - right. split. { intros c [<-|Ic]; auto. }
        exists buf'. rewrite upd_length in L'. split; auto. split; auto. split.
        + intros [|k] Hk; cbn [nth].
          * rewrite Nat.add_0_r, H2 by lia. rewrite nth_upd_same by lia. auto.
          * rewrite <- H1 by (simpl in Hk; lia). replace (S i + k)%nat with (i + S k)%nat by lia. reflexivity.
        + intros k Hk. rewrite H2 by lia. apply nth_upd_other. lia. }
    destruct (ascii_dec ch "1"). { apply (G true); subst; intuition congruence. }
    destruct (ascii_dec ch "0"). { apply (G false); subst; intuition congruence. }
    left. split; auto. exists ch. simpl; auto.
Qed.

Theorem C50_bitvector : forall garbage str nobj,
  exists r, read_bitvector garbage (Some str) nobj = Ret r /\
    (r = ParsedNull <-> exists ch, In ch str /\ ch <> "0"%char /\ ch <> "1"%char) /\
    r <> ParsedExit /\
    forall v n, r = Parsed v n -> n = List.length str /\ List.length v = List.length str /\
      forall k, (k < List.length str)%nat -> (nth k v false = true <-> nth k str "0"%char = "1"%char).
Proof.
  intros. unfold read_bitvector.
  destruct (bit_loop_eq str 0 (repeat garbage (List.length str))) as [[(c & Hc & Nc) E]|[Hv (buf' & E & L' & H1 & _)]].
  { rewrite repeat_length. lia. }
  - rewrite E. cbn [bind]. eexists. split; eauto. split; [split; eauto|]. split; discriminate.
  - rewrite E. cbn [bind]. rewrite repeat_length in L'. eexists. split; eauto.
    split; [split; [discriminate|intros (c & Hc & N0 & N1); destruct (Hv c Hc); congruence]|].
    split; [discriminate|]. intros v n Ev. inversion Ev; subst. auto.
Qed.
Print Assumptions C50_bitvector.

Example C50_bitvector_examples :
  let chars := list_ascii_of_string in
  read_bitvector true (Some (chars "010"%string)) 0 = Ret (Parsed [false;true;false] 3) /\
  read_bitvector true (Some (chars "0+0"%string)) 0 = Ret ParsedNull /\
  read_bitvector true None 2 = Ret (Parsed [false;false] 2).
Proof. repeat split; vm_compute; reflexivity. Qed.

(** The array holds only as many directions as the string, or the number of
    objectives known when -o is read.  If a longer -l follows, its length becomes
    the number of objectives and reading the direction of the last objective is
    outside the array: "nondominated -o -+ -l 000". *)
Theorem C50_later_option_refuted :
  exists v w n dim, read_minmax 99 (list_ascii_of_string "-+"%string) 0 = Ret (Parsed v n) /\
    read_bitvector true (Some (list_ascii_of_string "000"%string)) n = Ret (Parsed w dim) /\
    rd v (dim - 1) = OutOfBounds.
Proof. exists [-1;1], [false;false;false], 2%nat, 3%nat. repeat split; vm_compute; reflexivity. Qed.
Print Assumptions C50_later_option_refuted.

(** ** C46 for a number of objectives other than two *)
Definition is_direction (m : Z) : Prop := m = -1 \/ m = 1.

Lemma coord_agree_row : forall mm agree p d, List.length mm = List.length p ->
  coord (agree_row mm agree p) d =
  if ((0 <? agree) && (coord mm d <? 0)) || ((agree <? 0) && (0 <? coord mm d)) then - coord p d else coord p d.
Proof.
  induction mm as [|m mm IH]; intros agree [|x p] d L; simpl in L; try lia.
  - cbn. unfold coord. destruct d; destruct ((0 <? agree) && _ || _); reflexivity.
  - cbn [agree_row]. destruct d as [|d]; [reflexivity|]. unfold coord. cbn [nth].
    apply (IH agree p d). lia.
Qed.

Lemma leq_pair_agree : forall agree mm pj pk dims d a b,
  agree = -1 \/ agree = 0 \/ agree = 1 ->
  List.length mm = List.length pj -> List.length mm = List.length pk ->
  (forall i, (i < d + dims)%nat -> is_direction (coord mm i)) ->
  leq_pair agree mm (agree_row mm agree pj) (agree_row mm agree pk) d dims a b =
  leq_pair 0 mm pj pk d dims a b.
Proof.
  induction dims as [|dims IH]; intros d a b Ha Lj Lk Hm; cbn [leq_pair]; auto.
  rewrite !coord_agree_row by auto.
  destruct (Hm d ltac:(lia)) as [E|E]; rewrite E;
  destruct Ha as [->|[->| ->]]; cbn [Z.ltb Z.compare Z.opp andb orb]; rewrite IH by (auto; intros; apply Hm; lia);
    f_equal; f_equal; rewrite ?(Z.leb_antisym); try (destruct (Z.leb_spec (coord pj d) (coord pk d)), (Z.leb_spec (- coord pk d) (- coord pj d)); lia);
    repeat match goal with |- context [?x <? ?y] => destruct (Z.ltb_spec x y) end; auto; lia.
Qed.

Lemma nd_inner_agree : forall pts dim mm agree fd kw k js nd,
  agree = -1 \/ agree = 0 \/ agree = 1 -> List.length mm = dim -> wf_points dim pts -> Forall is_direction mm ->
  nd_inner (agree_objectives pts mm agree) dim mm agree fd kw k js nd = nd_inner pts dim mm 0 fd kw k js nd.
Proof.
  intros * Ha Lm Hw Hd. revert nd. induction js as [|j js IH]; intros nd; cbn [nd_inner]; auto.
  destruct (rd nd k) as [nk| | |]; cbn [bind]; auto. destruct nk; cbn [negb]; auto.
  destruct (rd nd j) as [nj| | |]; cbn [bind]; auto. destruct nj; cbn [negb]; auto.
  assert (RD : forall i, rd (agree_objectives pts mm agree) i = (p <- rd pts i ;; Ret (agree_row mm agree p))).
  { intros. unfold agree_objectives, rd. rewrite nth_error_map. destruct (nth_error pts i); reflexivity. }
  rewrite !RD. unfold rd. destruct (nth_error pts k) as [pk|] eqn:Ek; cbn [bind]; auto.
  destruct (nth_error pts j) as [pj|] eqn:Ej; cbn [bind]; auto.
  unfold wf_points in Hw. rewrite Forall_forall in Hw.
  rewrite leq_pair_agree; auto.
  - destruct (leq_pair 0 mm pj pk 0 dim true true) as [a b].
    repeat match goal with
    | |- context [wr ?x ?i ?v] => destruct (wr x i v); cbn [bind]; auto
    end.
    repeat match goal with
    | |- context [nth_error ?x ?i] => destruct (nth_error x i); cbn [bind]; auto
    end.
    match goal with |- context [assert_ ?b] => destruct (assert_ b); cbn [bind]; auto end.
    match goal with |- context [if ?b then _ else _] => destruct b; auto end.
  - rewrite Lm. symmetry. apply Hw. eapply nth_error_In; eauto.
  - rewrite Lm. symmetry. apply Hw. eapply nth_error_In; eauto.
  - intros i Hi. rewrite Forall_forall in Hd. apply Hd. apply nth_In. lia.
Qed.

Lemma nd_outer_agree : forall pts dim mm agree fd kw ks nd,
  agree = -1 \/ agree = 0 \/ agree = 1 -> List.length mm = dim -> wf_points dim pts -> Forall is_direction mm ->
  nd_outer (agree_objectives pts mm agree) dim mm agree fd kw ks nd = nd_outer pts dim mm 0 fd kw ks nd.
Proof.
  intros * Ha Lm Hw Hd. revert nd. induction ks as [|k ks IH]; intros nd; cbn [nd_outer]; auto.
  rewrite nd_inner_agree by auto. replace (List.length (agree_objectives pts mm agree)) with (List.length pts)
    by (unfold agree_objectives; now rewrite map_length).
  destruct (nd_inner _ _ _ _ _ _ _ _ _) as [[nd' [pos|]]| | |]; cbn [bind]; auto.
Qed.

(** With any agree mode the verdict of every set and every kept flag are those
    without it.  Full claim: also for two objectives, and with ignored
    objectives; see the refuted theorems here and in PropNondom.v. *)
Theorem C46_agree_same_verdict_partial :
  forall sort2d (sets : list (list point)) dim mm agree,
  agree = AGREE_MINIMISE \/ agree = AGREE_NONE \/ agree = AGREE_MAXIMISE ->
  List.length mm = dim -> dim <> 2%nat -> Forall is_direction mm -> Forall (wf_points dim) sets ->
  check_nondominated sort2d (map (fun s => agree_objectives s mm agree) sets) dim mm agree =
  check_nondominated sort2d sets dim mm AGREE_NONE.
Proof.
  intros * Ha Lm Hd Hm Hw. induction Hw as [|s sets Hs Hw IH]; [reflexivity|].
  cbn [map check_nondominated]. rewrite IH. clear IH.
  unfold find_nondominated_set_agree, find_nondominated_set_.
  replace (List.length (agree_objectives s mm agree)) with (List.length s)
    by (unfold agree_objectives; now rewrite map_length).
  destruct (List.length s <? 2)%nat; auto. destruct (Nat.eqb_spec dim 2); try contradiction.
  rewrite nd_outer_agree by auto. reflexivity.
Qed.
Print Assumptions C46_agree_same_verdict_partial.

Example C46_nonvacuous :
  let sets := [[[1;5;2];[2;4;2];[0;6;3]]; [[1;1;1]; [1;1;0]]] in
  Forall is_direction [-1;1;1] /\ Forall (wf_points 3) sets /\
  check_nondominated sort2d_exec (map (fun s => agree_objectives s [-1;1;1] AGREE_MINIMISE) sets) 3 [-1;1;1] AGREE_MINIMISE
    = Ret ([false;false;true;true;false], true) /\
  check_nondominated sort2d_exec (map (fun s => agree_objectives s [-1;1;1] AGREE_MAXIMISE) sets) 3 [-1;1;1] AGREE_MAXIMISE
    = Ret ([false;false;true;true;false], true).
Proof.
  split. { repeat constructor; unfold is_direction; lia. } split. { repeat constructor. }
  split; vm_compute; reflexivity.
Qed.

(** With an ignored objective the agree option changes the verdict: objective 2
    is ignored, so (1,1,9) dominates (2,2,0); with --agree=min both are kept. *)
Theorem C46_agree_ignored_refuted :
  exists s mm found, wf_points 3 s /\ read_minmax 99 (list_ascii_of_string "--0"%string) 0 = Ret (Parsed mm 3) /\
    check_nondominated sort2d_exec [s] 3 mm AGREE_NONE = Ret ([true;false], true) /\
    check_nondominated sort2d_exec [agree_objectives s mm AGREE_MINIMISE] 3 mm AGREE_MINIMISE = Ret ([true;true], found).
Proof.
  exists [[1;1;9];[2;2;0]], [-1;-1;0], false. split; [repeat constructor|]. repeat split; vm_compute; reflexivity.
Qed.
Print Assumptions C46_agree_ignored_refuted.

(** ** C51: ignored objectives *)

(** at least as good / better, over the objectives that are not ignored *)
Definition wdom_dir (mm : list Z) (p q : point) : Prop :=
  forall d, (d < List.length mm)%nat ->
    (nth d mm 0 < 0 -> coord p d <= coord q d) /\ (0 < nth d mm 0 -> coord q d <= coord p d).
Definition dom_dir (mm : list Z) (p q : point) : Prop :=
  wdom_dir mm p q /\ exists d, (d < List.length mm)%nat /\
    ((nth d mm 0 < 0 /\ coord p d < coord q d) \/ (0 < nth d mm 0 /\ coord q d < coord p d)).

Lemma wdomA_dir : forall mm p q, wdomA 0 mm (List.length mm) p q = true <-> wdom_dir mm p q.
Proof.
  intros. unfold wdomA, wdom_dir. rewrite forallb_forall. unfold goodA. cbn [Z.ltb Z.compare]. split.
  - intros H d Hd. specialize (H d ltac:(apply in_seq; lia)). unfold coord at 1 4 in H.
    destruct (Z.ltb_spec (nth d mm 0) 0); [split; intros; lia|].
    destruct (Z.ltb_spec 0 (nth d mm 0)); split; intros; lia.
  - intros H d Hd. apply in_seq in Hd. destruct (H d ltac:(lia)) as [A B]. unfold coord at 1 4.
    destruct (Z.ltb_spec (nth d mm 0) 0); [apply Z.leb_le; auto|].
    destruct (Z.ltb_spec 0 (nth d mm 0)); [apply Z.leb_le; auto|reflexivity].
Qed.

Lemma dom_dir_iff : forall mm p q, dom_dir mm p q <-> wdom_dir mm p q /\ ~ wdom_dir mm q p.
Proof.
  intros. split.
  - intros [W (d & Hd & H)]. split; auto. intros C. destruct (C d Hd). lia.
  - intros [W N]. split; auto.
    assert (K : forall n, (n <= List.length mm)%nat ->
       (forall d, (d < n)%nat -> (nth d mm 0 < 0 -> coord q d <= coord p d) /\ (0 < nth d mm 0 -> coord p d <= coord q d)) \/
       exists d, (d < n)%nat /\ ((nth d mm 0 < 0 /\ coord p d < coord q d) \/ (0 < nth d mm 0 /\ coord q d < coord p d))).
    { induction n; intros Hn. left; intros; lia.
      destruct IHn as [A|(d & Hd & A)]; [lia| |right; exists d; split; [lia|auto]].
      destruct (W n ltac:(lia)) as [W1 W2].
      destruct (Z_lt_ge_dec (nth n mm 0) 0) as [G|G].
      - destruct (Z_lt_ge_dec (coord p n) (coord q n)).
        + right. exists n. split; [lia|]. left. lia.
        + left. intros d Hd. destruct (Nat.eq_dec d n) as [->|]; [split; intros; lia|apply A; lia].
      - destruct (Z_lt_ge_dec 0 (nth n mm 0)).
        + destruct (Z_lt_ge_dec (coord q n) (coord p n)).
          * right. exists n. split; [lia|]. right. lia.
          * left. intros d Hd. destruct (Nat.eq_dec d n) as [->|]; [split; intros; lia|apply A; lia].
        + left. intros d Hd. destruct (Nat.eq_dec d n) as [->|]; [split; intros; lia|apply A; lia]. }
    destruct (K (List.length mm)) as [A|(d & Hd & A)]; [lia| |exists d; split; [lia|auto]].
    exfalso. apply N. exact A.
Qed.

(** For any directions, including ignored objectives, and a number of objectives
    other than two: exactly the rows that no row dominates in the remaining
    objectives are kept. *)
Theorem C51_ignored_weak_partial :
  (* full claim: also for two objectives -- refuted below *)
  forall sort2d (pts : list point) mm, List.length mm <> 2%nat ->
  exists nd r, find_weak_nondominated_set sort2d pts (List.length mm) mm (nondom_init (List.length pts)) = Ret (nd, r) /\
    List.length nd = List.length pts /\
    forall i, (i < List.length pts)%nat ->
      (nth i nd false = true <->
       ~ exists j, (j < List.length pts)%nat /\ dom_dir mm (row pts j) (row pts i)).
Proof.
  intros sort2d pts mm H2. unfold find_weak_nondominated_set, find_nondominated_set_.
  destruct (Nat.ltb_spec (List.length pts) 2) as [Hn|Hn].
  { exists (nondom_init (List.length pts)), (Z.of_nat (List.length pts)). split; auto.
    split; [apply repeat_length|]. intros i Hi. rewrite nondom_init_nth by auto. split; auto.
    intros _ (j & Hj & D). replace j with i in D by lia. apply dom_dir_iff in D. tauto. }
  destruct (Nat.eqb_spec (List.length mm) 2); try contradiction.
  destruct (nd_outer_ok pts (List.length mm) mm AGREE_NONE false true
                 (List.length pts - 1) 0 (nondom_init (List.length pts))) as (nd & r & E & _ & E1 & E3); try lia.
  { apply nd_init_inv. }
  rewrite E. cbn [bind]. rewrite (E1 eq_refl) in *. eexists nd, _. split; eauto. split. { destruct E3; auto. }
  intros i Hi. rewrite (inv_final pts (List.length mm) mm AGREE_NONE true nd E3 i Hi).
  unfold beats. split.
  - intros H (j & Hj & D). specialize (H j Hj). apply dom_dir_iff in D. destruct D as [D1 D2].
    apply wdomA_dir in D1. rewrite <- wdomA_dir in D2. unfold AGREE_NONE in H. rewrite D1 in H.
    destruct (wdomA 0 mm (List.length mm) (row pts i) (row pts j)); [tauto|]. discriminate.
  - intros H j Hj. unfold AGREE_NONE. destruct (wdomA 0 mm (List.length mm) (row pts j) (row pts i)) eqn:E4; auto.
    destruct (wdomA 0 mm (List.length mm) (row pts i) (row pts j)) eqn:E5; auto.
    exfalso. apply H. exists j. split; auto. apply dom_dir_iff. split. now apply wdomA_dir.
    rewrite <- wdomA_dir. congruence.
Qed.
Print Assumptions C51_ignored_weak_partial.

(** Without the weak option: no kept row is weakly dominated by another kept
    row, and every row is weakly dominated by a kept one. *)
Theorem C51_ignored_strict_partial :
  forall sort2d (pts : list point) mm, List.length mm <> 2%nat ->
  exists nd r, find_nondominated_set sort2d pts (List.length mm) mm (nondom_init (List.length pts)) = Ret (nd, r) /\
    List.length nd = List.length pts /\
    (forall i j, (i < List.length pts)%nat -> (j < List.length pts)%nat -> i <> j ->
       nth i nd false = true -> nth j nd false = true -> ~ wdom_dir mm (row pts j) (row pts i)) /\
    (forall i, (i < List.length pts)%nat -> exists j, (j < List.length pts)%nat /\
       nth j nd false = true /\ wdom_dir mm (row pts j) (row pts i)).
Proof.
  intros sort2d pts mm H2. unfold find_nondominated_set, find_nondominated_set_.
  destruct (Nat.ltb_spec (List.length pts) 2) as [Hn|Hn].
  { exists (nondom_init (List.length pts)), (Z.of_nat (List.length pts)). split; auto.
    split; [apply repeat_length|]. split. { intros; lia. }
    intros i Hi. exists i. rewrite nondom_init_nth by auto. split; auto. split; auto.
    intros d Hd. split; intros; lia. }
  destruct (Nat.eqb_spec (List.length mm) 2); try contradiction.
  destruct (nd_outer_ok pts (List.length mm) mm AGREE_NONE false false
                 (List.length pts - 1) 0 (nondom_init (List.length pts))) as (nd & r & E & _ & E1 & E3); try lia.
  { apply nd_init_inv. }
  rewrite E. cbn [bind]. rewrite (E1 eq_refl) in *. eexists nd, _. split; eauto. split. { destruct E3; auto. }
  pose proof (inv_final pts (List.length mm) mm AGREE_NONE false nd E3) as IF. unfold AGREE_NONE in IF.
  split.
  - intros i j Hi Hj Hne Ki Kj W. apply wdomA_dir in W.
    destruct (Nat.lt_ge_cases i j).
    + rewrite (IF i Hi) in Ki. specialize (Ki j Hj). unfold beats in Ki. rewrite W in Ki. cbn [andb negb] in Ki.
      replace (i <? j)%nat with true in Ki by (symmetry; now apply Nat.ltb_lt). rewrite orb_true_r in Ki. discriminate.
    + rewrite (IF i Hi) in Ki. specialize (Ki j Hj). rewrite (IF j Hj) in Kj. specialize (Kj i Hi).
      unfold beats in Ki, Kj. rewrite W in Ki, Kj.
      destruct (wdomA 0 mm (List.length mm) (row pts i) (row pts j)); cbn [andb negb orb] in *; try discriminate.
      replace (j <? i)%nat with true in Kj by (symmetry; apply Nat.ltb_lt; lia). discriminate.
  - intros i Hi. destruct (nth i nd false) eqn:Ki.
    + exists i. split; auto. split; auto. intros d Hd; split; intros; lia.
    + set (B := beats (fun a b => wdomA 0 mm (List.length mm) (row pts a) (row pts b)) false).
      destruct (unbeaten_exists (List.length pts) B) with (x := i) as (a & Ha & HBa & HU); auto.
      * intros; apply B_irr.
      * intros a b c _ _ _; apply B_trans.
      * destruct E3 as (_ & A2 & _). destruct (A2 i Hi Ki) as (b & Hb & Bb). exists b. auto.
      * exists a. split; auto. split. { apply IF; auto. }
        apply wdomA_dir. unfold B, beats in HBa. now apply andb_true_iff in HBa.
Qed.
Print Assumptions C51_ignored_strict_partial.

Example C51_nonvacuous :
  find_weak_nondominated_set sort2d_exec [[1;1;9];[2;2;0];[1;1;5];[0;7;7]] 3 [-1;-1;0] (nondom_init 4)
    = Ret ([true;false;true;true], 3) /\
  find_nondominated_set sort2d_exec [[1;1;9];[2;2;0];[1;1;5];[0;7;7]] 3 [-1;-1;0] (nondom_init 4)
    = Ret ([false;false;true;true], 2).
Proof. split; vm_compute; reflexivity. Qed.

(** With two objectives an ignored objective is minimised: objective 2 is
    ignored, (1,9) dominates (2,0), but both are kept. *)
Theorem C51_ignored_2d_refuted :
  exists pts mm r, wf_points 2 pts /\ read_minmax 99 (list_ascii_of_string "-0"%string) 0 = Ret (Parsed mm 2) /\
    dom_dir mm (row pts 0) (row pts 1) /\
    find_weak_nondominated_set sort2d_exec pts 2 mm (nondom_init 2) = Ret ([true;true], r).
Proof.
  exists [[1;9];[2;0]], [-1;0], 0. split; [repeat constructor|]. split; [vm_compute; reflexivity|].
  split; [|vm_compute; reflexivity]. apply dom_dir_iff. split.
  - intros [|[|]] Hd; simpl in Hd; try lia; unfold coord, row; simpl; split; intros; lia.
  - intros C. destruct (C 0%nat) as [A _]; simpl; try lia. unfold coord, row in A. simpl in A. lia.
Qed.
Print Assumptions C51_ignored_2d_refuted.
