(** C69: data sets in R: read_datasets, write_datasets, rbind_datasets. *)
From Coq Require Import List ZArith Lia Bool Arith Ascii String Sorted.
From Verif Require Import Base IoModel IoSpec IoProofs IoMain IoFmt GroupModel GroupSpec GroupProofs RMatModel RMatSpec RMatProofs RVorobModel RFileModel RFileSpec RFileProofs PyEafProofs PropREaf PropRVorob REafSpec PropIo.
Import ListNotations.
Open Scope Z_scope.
Notation length := List.length.

(** ** Texts put together *)
Lemma lines_of_app : forall a b, lines_of (a ++ nl :: b) = lines_of a ++ lines_of b.
Proof.
  induction a as [|c a IH]; intros b; cbn [app lines_of].
  - rewrite Ascii.eqb_refl. reflexivity.
  - destruct (c =? nl)%char; [now rewrite IH|]. rewrite IH. destruct (lines_of a) as [|l ls] eqn:E; [now apply lines_of_not_nil in E|]. reflexivity.
Qed.
Lemma starts_app : forall num (rs1 rs2 : list (option (list num))), starts_with_row num (rs1 ++ None :: rs2) = starts_with_row num rs1.
Proof. intros num [|[r|] rs1] rs2; reflexivity. Qed.
Lemma group_none : forall num (rs1 rs2 : list (option (list num))), group num (rs1 ++ None :: rs2) = group num rs1 ++ group num rs2.
Proof.
  intros num. induction rs1 as [|[r|] rs1 IH]; intros rs2; cbn [app group]; auto.
  rewrite starts_app, IH. destruct (starts_with_row num rs1) eqn:E; [|reflexivity].
  destruct rs1 as [|[r'|] rs1]; try discriminate. destruct (group num (Some r' :: rs1)) as [|g gs] eqn:G; [|reflexivity].
  exfalso. cbn [group] in G. destruct (starts_with_row num rs1); [destruct (group num rs1)|]; discriminate.
Qed.
Lemma wide_app : forall num w (a b : list (option (list num))), all_of_width num w (a ++ b) <-> all_of_width num w a /\ all_of_width num w b.
Proof.
  intros num w a b. unfold all_of_width. split.
  - intros H. split; intros xs Hx; apply H, in_or_app; auto.
  - intros [H1 H2] xs Hx. apply in_app_or in Hx. destruct Hx; auto.
Qed.
Lemma describes_trailing : forall num scan t w sets, describes num scan (t ++ [nl]) w sets <-> describes num scan t w sets.
Proof.
  intros num scan t w sets. unfold describes. rewrite lines_of_app. split.
  - intros (rs & F & W & -> & N). apply Forall2_app_inv_l in F. destruct F as (r1 & r2 & F1 & F2 & ->).
    inversion F2 as [|? o ? rr L F3]; subst. inversion F3; subst. assert (o = None). { inversion L as [|? xs NS]; subst; auto. exfalso. apply NS. right. constructor. } subst o.
    exists r1. apply wide_app in W. rewrite group_none in *. cbn [group] in *. rewrite app_nil_r in *. repeat split; tauto.
  - intros (rs & F & W & -> & N). exists (rs ++ [None]). rewrite group_none. cbn [group]. rewrite app_nil_r. repeat split; auto.
    + apply Forall2_app; auto. constructor; auto. constructor. right. constructor.
    + apply wide_app. split; auto. intros xs [H|[]]. discriminate.
Qed.
(** two texts with an empty line between them describe the sets of both *)
Lemma describes_both : forall num scan t1 t2 w s1 s2, describes num scan t1 w s1 -> describes num scan t2 w s2 ->
  describes num scan (t1 ++ [nl; nl] ++ t2) w (s1 ++ s2).
Proof.
  intros num scan t1 t2 w s1 s2 (r1 & F1 & W1 & -> & N1) (r2 & F2 & W2 & -> & N2). cbn [app].
  unfold describes. rewrite lines_of_app. change (nl :: t2) with ([] ++ nl :: t2). rewrite lines_of_app. exists (r1 ++ [None] ++ r2). cbn [app]. rewrite group_none. repeat split; auto.
  - apply Forall2_app; auto. cbn [lines_of app]. constructor; auto. constructor. right. constructor.
  - apply wide_app. split; auto. intros xs [H|H]; [discriminate|]. auto.
  - destruct (group num r1); [easy|]. discriminate.
Qed.
Lemma describes_comment : forall num scan c t w sets, ~ In nl c -> describes num scan t w sets -> describes num scan ((hash :: c) ++ nl :: t) w sets.
Proof.
  intros num scan c t w sets H (rs & F & W & -> & N). unfold describes. rewrite lines_of_line. 2:{ intros [E|E]; [|contradiction]. revert E. apply hash_not_nl. }
  exists (None :: rs). repeat split; auto.
  - constructor; auto. constructor. left. eauto.
  - intros xs [E|E]; [discriminate|]. auto.
Qed.

Section C69.
Variables (junk : Z) (junk_int : nat) (scan : text -> option (Z * text)) (inc : nat) (fresh : nat -> Z) (one : Z) (itoa : nat -> text).
Definition reader_ok : Prop := valid_scanner Z scan /\ (0 < inc)%nat.
Definition plain (t : text) : Prop := ~ In vt t /\ ~ In ff t.
Local Notation r_read_datasets := (r_read_datasets junk junk_int scan inc fresh one itoa).
Local Notation r_read_text := (r_read_text junk junk_int scan inc fresh one itoa).
Local Notation describes := (describes Z scan).

(** ** Reading *)
(** the names of the columns of the result *)
Definition names_for (w : nat) (col_names : option (list text)) (names : list text) : Prop :=
  match col_names with
  | Some ns => length ns = w /\ names = ns ++ [set_name]
  | None => names = map (fun i => "V"%char :: itoa i) (seq 1 w) ++ [set_name]
  end.

(** the rows of the file in their order, with the number of their set in the last column *)
Theorem C69_read : forall t w sets col_names names, reader_ok -> plain t -> describes t w sets -> names_for w col_names names ->
  exists m, r_read_datasets t col_names = Ret (m, names) /\ has_rows m (S w) (numbered one sets).
Proof.
  intros t w sets col_names names [HS HI] G D N. destruct (R_read_ok junk junk_int scan inc fresh one HS HI t w sets G D) as (m & E & HR).
  exists m. split; auto. unfold RFileModel.r_read_datasets. rewrite E. cbn [bind]. rewrite (proj1 (proj2 HR)). cbn [Nat.sub]. rewrite Nat.sub_0_r.
  unfold names_for in N. destruct col_names as [ns|].
  - destruct N as [L ->]. rewrite app_length, L. cbn [length]. rewrite Nat.add_comm. cbn [Nat.add]. rewrite Nat.eqb_refl. reflexivity.
  - subst names. rewrite app_length, map_length, seq_length. cbn [length]. rewrite Nat.add_comm. cbn [Nat.add]. rewrite Nat.eqb_refl. reflexivity.
Qed.

(** a wrong number of names is an error *)
Theorem C69_read_names : forall t w sets ns, reader_ok -> plain t -> describes t w sets -> length ns <> w -> r_read_datasets t (Some ns) = AssertFailed.
Proof.
  intros t w sets ns [HS HI] G D N. destruct (R_read_ok junk junk_int scan inc fresh one HS HI t w sets G D) as (m & E & HR).
  unfold RFileModel.r_read_datasets. rewrite E. cbn [bind]. rewrite (proj1 (proj2 HR)). rewrite app_length. cbn [length].
  destruct (Nat.eqb_spec (length ns + 1) (S w)); [lia|]. reflexivity.
Qed.

(** the argument text gives the same as a file with this text *)
Theorem C69_read_text : forall t w sets col_names names, reader_ok -> plain t -> describes t w sets -> names_for w col_names names ->
  exists m, r_read_text [t] col_names = Ret (m, names) /\ has_rows m (S w) (numbered one sets).
Proof.
  intros t w sets col_names names HR G D N. unfold RFileModel.r_read_text, write_lines. cbn [flat_map]. rewrite app_nil_r. apply C69_read; auto.
  - destruct G as [G1 G2]. split; intros H; apply in_app_or in H; destruct H as [H|[H|[]]]; auto; discriminate.
  - now apply describes_trailing.
Qed.

(** a file that does not describe sets but has a line that is no comment and is not blank
    is refused *)
Theorem C69_read_refused : forall t col_names, reader_ok -> plain t -> (forall w sets, ~ describes t w sets) -> ~ Forall separator (lines_of t) ->
  r_read_datasets t col_names = AssertFailed.
Proof.
  intros t col_names [HS HI] [G1 G2] ND NS. unfold RFileModel.r_read_datasets, R_read_datasets.
  change (mk_ds Z 0 [] 0 []) with (@layout Z 0 []). assert (VS : valid_start Z 0 []) by (left; auto).
  destruct (C31_every_text Z scan t HS) as [(w & sets & D)|[E|(w & rs & l & F & [B|(xs & N & L & Y)])]].
  - now apply ND in D.
  - contradiction.
  - destruct (C31_conversion_error Z junk junk_int scan inc t 0 w [] rs l) as (d & X); auto. rewrite X. reflexivity.
  - destruct (C31_column_error Z junk junk_int scan inc t 0 w [] rs l xs) as (d & X); auto. rewrite X. destruct (group Z rs); reflexivity.
Qed.

(** ** Writing *)
Variable fmt : Z -> text.
(** the number that is read where [x] was written (15 significant digits) *)
Variable val : Z -> Z.
Local Notation r_write_datasets := (r_write_datasets fmt).

Definition set_lines_text (S : list (list Z)) : text := flat_map (fun r => vector_fprintf Z fmt r ++ [nl]) S.
Lemma paste_vector : forall r, paste_collapse [space] (map fmt r) = vector_fprintf Z fmt r.
Proof. intros [|a r]; cbn [map paste_collapse vector_fprintf]; auto. f_equal. induction r as [|b r IH]; cbn [map flat_map]; auto. rewrite IH. reflexivity. Qed.
Lemma flat_map_ext_in : forall A B (f g : A -> list B) l, (forall a, In a l -> f a = g a) -> flat_map f l = flat_map g l.
Proof. intros A B f g l H. rewrite !flat_map_concat_map. f_equal. apply map_ext_in. exact H. Qed.
Lemma write_table_ok : forall x d rows, has_rows x d rows -> write_table fmt x = set_lines_text rows.
Proof.
  intros x d rows H. unfold write_table, set_lines_text. rewrite (proj1 H). rewrite (list_by_nth rows []) at 2. rewrite (flat_map_concat_map _ (map _ _)), map_map, <- flat_map_concat_map.
  apply flat_map_ext_in. intros i Hi. apply in_seq in Hi. do 2 f_equal. rewrite (proj1 (proj2 H)). rewrite <- paste_vector.
  assert (L : length (nth i rows []) = d). { pose proof (proj1 (proj2 (proj2 (proj2 H)))) as F. rewrite Forall_forall in F. apply F, nth_In. lia. }
  rewrite (list_by_nth (nth i rows []) 0) at 1. rewrite L. rewrite map_map. f_equal. apply map_ext_in. intros j Hj. apply in_seq in Hj. f_equal. apply (has_rows_cell 0 x d rows); auto; lia.
Qed.
Lemma fold_text : forall d xs Ss file, Forall2 (fun y S => has_rows y d S) xs Ss ->
  fold_left (fun file xi => put_text true (put_text true file [nl]) (write_table fmt xi)) xs file ++ [nl] =
  file ++ [nl] ++ flat_map (set_text Z fmt) Ss.
Proof.
  intros d xs. induction xs as [|x xs IH]; intros Ss file F; inversion F as [|? S ? Ss' H F']; subst; cbn [fold_left flat_map app]; auto.
  rewrite (IH Ss') by auto. unfold put_text. rewrite (write_table_ok x d S H). unfold set_text. fold (set_lines_text S). rewrite <- !app_assoc. reflexivity.
Qed.
Lemma labels_unique : forall labels vs, distinct_labels labels vs -> vs = np_unique labels.
Proof.
  intros labels vs [SS H].
  assert (T : forall l1 l2, StronglySorted Z.lt l1 -> StronglySorted Z.lt l2 -> (forall v, In v l1 <-> In v l2) -> l1 = l2).
  { induction l1 as [|a l1 IH]; intros [|b l2] S1 S2 E; auto.
    - exfalso. apply (proj2 (E b)). now left.
    - exfalso. apply (proj1 (E a)). now left.
    - inversion S1 as [|? ? S1' F1]; subst. inversion S2 as [|? ? S2' F2]; subst. rewrite Forall_forall in F1, F2.
      assert (a = b). { destruct (proj1 (E a) (or_introl eq_refl)) as [|Ha]; [congruence|]. destruct (proj2 (E b) (or_introl eq_refl)) as [|Hb]; [congruence|]. specialize (F1 _ Hb). specialize (F2 _ Ha). lia. }
      subst b. f_equal. apply IH; auto. intros v. split; intros Hv.
      + destruct (proj1 (E v) (or_intror Hv)) as [->|]; auto. specialize (F1 _ Hv). lia.
      + destruct (proj2 (E v) (or_intror Hv)) as [->|]; auto. specialize (F2 _ Hv). lia. }
  apply T; auto.
  - pose proof (np_unique_sorted labels) as SU. pose proof (np_unique_NoDup labels) as ND. clear - SU ND. induction SU as [|a l SU IH F]; constructor.
    + apply IH. now inversion ND.
    + rewrite Forall_forall in *. intros v Hv. specialize (F v Hv). inversion ND as [|? ? N _]; subst. assert (a <> v) by (intros ->; contradiction). lia.
  - intros v. rewrite H. symmetry. apply np_unique_In.
Qed.

(** the names of columns must not contain characters that end a line *)
Definition plain_names (names : option (list text)) : Prop :=
  match names with None => True | Some ns => forall n, In n ns -> ~ In nl n /\ plain n end.

Lemma paste_chars : forall sep l c, In c (paste_collapse sep l) -> In c sep \/ exists n, In n l /\ In c n.
Proof.
  intros sep [|a l] c H; cbn [paste_collapse] in H; [contradiction|]. apply in_app_or in H. destruct H as [H|H]. { right. exists a. split; auto. now left. }
  apply in_flat_map in H. destruct H as (b & Hb & H). apply in_app_or in H. destruct H; auto. right. exists b. split; auto. now right.
Qed.
Lemma firstn_in : forall A n (l : list A) x, In x (firstn n l) -> In x l.
Proof. intros A n l x H. rewrite <- (firstn_skipn n l). apply in_or_app. now left. Qed.

(** what write_datasets writes is read back: the same rows, every number as it is read
    from its text, the sets in increasing order of their numbers and renumbered 1, 2, ...
    The previous contents of the file are lost. *)
Theorem C69_write_read : forall x names d rows labels vs old, reader_ok -> valid_printer scan fmt val -> (1 <= d)%nat ->
  labelled x None d rows labels -> distinct_labels labels vs -> plain_names names ->
  exists t m, r_write_datasets x names old = Ret t /\ r_read_datasets t None = Ret (m, map (fun i => "V"%char :: itoa i) (seq 1 d) ++ [set_name]) /\
    has_rows m (S d) (numbered one (map (fun v => map (map val) (rows_with rows labels v)) vs)).
Proof.
  intros x names d rows labels vs old HR HP Hd HL DL PN. pose proof HL as (LL & NE & HX & W).
  assert (NC : ncol x = S d) by apply HX.
  assert (SP : r_split (r_init 0 x) (r_col 0 x d) = r_split (r_init 0 x) labels /\ has_rows (r_init 0 x) d rows).
  { assert (FA : map (firstn d) (attach rows labels) = rows).
    { unfold attach. rewrite map_map. clear - W LL. revert labels LL. induction rows as [|r rows IH]; intros [|l labels] LL; cbn [combine map] in *; auto; try discriminate.
      cbn [fst snd]. rewrite IH; auto. 2:{ now inversion W. } f_equal. assert (H : length r = d) by now inversion W. rewrite <- H. rewrite firstn_app, Nat.sub_diag. cbn [firstn]. rewrite app_nil_r. apply firstn_all. }
    split. { f_equal. rewrite (col_rows 0 x (S d) _ d HX) by lia. unfold attach. rewrite map_map. clear - W LL. revert labels LL. induction rows as [|r rows IH]; intros [|l labels] LL; cbn [combine map] in *; auto; try discriminate.
      cbn [fst snd]. rewrite IH; auto. 2:{ now inversion W. } f_equal. assert (H : length r = d) by now inversion W. rewrite app_nth2 by lia. rewrite H, Nat.sub_diag. reflexivity. }
    rewrite <- FA at 1. apply init_rows. exact HX. }
  destruct SP as [SP HI]. pose proof (split_ok (r_init 0 x) d rows labels HI LL) as F. rewrite <- (labels_unique labels vs DL) in F.
  assert (NV : vs <> []). { destruct labels as [|l labels]; [destruct rows; easy|]. intros ->. apply (proj2 DL l). now left. }
  assert (WD : wide Z d (map (rows_with rows labels) vs)).
  { intros S r HS Hr. apply in_map_iff in HS. destruct HS as (v & <- & _). unfold wf_points in W. rewrite Forall_forall in W. apply W. clear - Hr. revert labels Hr. induction rows as [|a rows IH]; intros [|l labels] Hr; cbn [rows_with] in Hr; try contradiction.
    destruct (l =? v); [destruct Hr as [->|Hr]; [now left|]|]; right; eauto. }
  assert (FN : filter (nonempty Z) (map (rows_with rows labels) vs) = map (rows_with rows labels) vs).
  { assert (H : forall S, In S (map (rows_with rows labels) vs) -> S <> []).
    { intros S HS. apply in_map_iff in HS. destruct HS as (v & <- & Hv). apply rows_with_nonempty; auto. now apply (proj2 DL). }
    clear - H. induction (map (rows_with rows labels) vs) as [|S Ss IH]; cbn [filter]; auto. rewrite IH by (intros; apply H; now right). destruct S; auto. exfalso. now apply (H [] (or_introl eq_refl)). }
  pose proof (written_describes Z scan inc (proj2 HR) fmt val HP d (map (rows_with rows labels) vs) WD ltac:(lia)) as DS. rewrite FN in DS. specialize (DS ltac:(destruct vs; [easy|discriminate])).
  rewrite map_map in DS.
  unfold RFileModel.r_write_datasets. rewrite NC. replace (S d <=? 1)%nat with false by (symmetry; apply Nat.leb_gt; lia). cbn [bind Nat.sub]. rewrite Nat.sub_0_r. rewrite SP.
  destruct vs as [|v0 vs]; [easy|]. cbn [map] in F. inversion F as [|x1 S0 xs Ss H1 F']; subst.
  rewrite (write_table_ok x1 d _ H1).
  set (body := fold_left (fun file xi => put_text true (put_text true file [nl]) (write_table fmt xi)) xs (set_lines_text (rows_with rows labels v0))).
  assert (EB : body ++ [nl] = flat_map (set_text Z fmt) (map (rows_with rows labels) (v0 :: vs))).
  { unfold body. rewrite (fold_text d xs _ _ F'). cbn [map flat_map]. unfold set_text at 2. fold (set_lines_text (rows_with rows labels v0)). rewrite <- app_assoc. reflexivity. }
  assert (DB : describes body d (map (fun v => map (map val) (rows_with rows labels v)) (v0 :: vs))). { apply describes_trailing. rewrite EB. exact DS. }
  assert (GB : plain body). { pose proof (written_good Z scan fmt val HP (map (rows_with rows labels) (v0 :: vs))) as [G1 G2]. rewrite <- EB in G1, G2. split; intros Hc; [apply G1|apply G2]; apply in_or_app; now left. }
  assert (READ : forall t, plain t -> describes t d (map (fun v => map (map val) (rows_with rows labels v)) (v0 :: vs)) ->
    exists m, r_read_datasets t None = Ret (m, map (fun i => "V"%char :: itoa i) (seq 1 d) ++ [set_name]) /\ has_rows m (S d) (numbered one (map (fun v => map (map val) (rows_with rows labels v)) (v0 :: vs)))).
  { intros t G D. apply C69_read; auto. reflexivity. }
  destruct names as [ns|]; cbn [option_map].
  - unfold put_text at 2 3. set (hdr := hash :: space :: paste_collapse [tab] (firstn d ns) ++ [space]).
    assert (EH : [hash; space] ++ paste_collapse [tab] (firstn d ns) ++ [space; nl] = hdr ++ [nl]). { unfold hdr. cbn [app]. rewrite <- app_assoc. reflexivity. }
    assert (FT : forall xs pre file, fold_left (fun file xi => put_text true (put_text true file [nl]) (write_table fmt xi)) xs (pre ++ file) =
      pre ++ fold_left (fun file xi => put_text true (put_text true file [nl]) (write_table fmt xi)) xs file).
    { clear. induction xs as [|x xs IH]; intros pre file; cbn [fold_left]; auto. rewrite <- IH. f_equal. unfold put_text. rewrite <- !app_assoc. reflexivity. }
    change (put_text false old ([hash; space] ++ paste_collapse [tab] (firstn d ns) ++ [space; nl])) with ([hash; space] ++ paste_collapse [tab] (firstn d ns) ++ [space; nl]).
    rewrite EH. unfold put_text at 1. rewrite FT. fold body.
    assert (HC : forall c, In c hdr -> c = hash \/ c = space \/ c = tab \/ exists n, In n ns /\ In c n).
    { intros c Hc. unfold hdr in Hc. destruct Hc as [<-|[<-|Hc]]; auto. apply in_app_or in Hc. destruct Hc as [Hc|[<-|[]]]; auto.
      apply paste_chars in Hc. destruct Hc as [[<-|[]]|(n & Hn & Hc)]; auto. right; right; right. exists n. split; auto. eapply firstn_in; eauto. }
    assert (NN : ~ In nl hdr). { intros Hc. apply HC in Hc. destruct Hc as [E|[E|[E|(n & Hn & Hc)]]]; try discriminate. destruct (PN n Hn) as (? & ? & ?); contradiction. }
    assert (PH : plain hdr). { split; intros Hc; apply HC in Hc; destruct Hc as [E|[E|[E|(n & Hn & Hc)]]]; try discriminate; destruct (PN n Hn) as (? & ? & ?); contradiction. }
    exists ((hdr ++ [nl]) ++ body). assert (PT : plain ((hdr ++ [nl]) ++ body)).
    { destruct GB, PH. split; intros Hc; rewrite !in_app_iff in Hc; destruct Hc as [[Hc|[Hc|[]]]|Hc]; auto; discriminate. }
    destruct (READ ((hdr ++ [nl]) ++ body)) as (m & E & HM); auto.
    { rewrite <- app_assoc. cbn [app]. unfold hdr. apply describes_comment; auto. intros Hc. apply NN. now right. }
    exists m. split; auto.
  - exists body. destruct (READ body GB DB) as (m & E & HM). exists m. split; auto.
Qed.

(** a matrix without rows is refused *)
Theorem C69_write_empty : forall x names d old, (2 <= d)%nat -> has_rows x d [] -> r_write_datasets x names old = AssertFailed.
Proof.
  intros x names d old Hd H. unfold RFileModel.r_write_datasets. rewrite (proj1 (proj2 H)). replace (d <=? 1)%nat with false by (symmetry; apply Nat.leb_gt; lia). cbn [bind].
  assert (E : r_split (r_init 0 x) (r_col 0 x (d - 1)) = []).
  { unfold r_split. cbn [r_init nrow matrix_of]. rewrite (proj1 H). reflexivity. }
  rewrite E. destruct names; reflexivity.
Qed.

(** ** Combining *)
Lemma attach_last : forall d rows labels r, wf_points d rows -> length labels = length rows -> In r (attach rows labels) -> exists p l, r = p ++ [l] /\ length p = d /\ In l labels.
Proof.
  intros d rows labels r W L Hr. unfold attach in Hr. apply in_map_iff in Hr. destruct Hr as ([p l] & <- & Hr). exists p, l. cbn [fst snd]. repeat split.
  - apply in_combine_l in Hr. unfold wf_points in W. rewrite Forall_forall in W. auto.
  - now apply in_combine_r in Hr.
Qed.
Lemma last_snoc : forall (p : list Z) l, set_of_row (p ++ [l]) = l.
Proof. intros. apply last_last. Qed.

Lemma rmin_ok : forall l, match r_min l with Some m => In m l /\ forall v, In v l -> m <= v | None => l = [] end.
Proof.
  intros [|a l]; cbn [r_min]; auto. revert a. induction l as [|b l IH]; intros a; cbn [fold_left]. { split. now left. intros v [->|[]]; lia. }
  destruct (IH (Z.min a b)) as [H1 H2]. split.
  - destruct H1 as [H1|H1]; [|right; now right]. rewrite <- H1. destruct (Z.min_spec a b) as [[_ E]|[_ E]]; rewrite E; [left|right; left]; auto.
  - intros v Hv. pose proof (H2 (Z.min a b) (or_introl eq_refl)). destruct Hv as [<-|[<-|Hv]]; try lia. apply H2. now right.
Qed.
Lemma rmax_ok : forall l, match r_max l with Some m => In m l /\ forall v, In v l -> v <= m | None => l = [] end.
Proof.
  intros [|a l]; cbn [r_max]; auto. revert a. induction l as [|b l IH]; intros a; cbn [fold_left]. { split. now left. intros v [->|[]]; lia. }
  destruct (IH (Z.max a b)) as [H1 H2]. split.
  - destruct H1 as [H1|H1]; [|right; now right]. rewrite <- H1. destruct (Z.max_spec a b) as [[_ E]|[_ E]]; rewrite E; [right; left|left]; auto.
  - intros v Hv. pose proof (H2 (Z.max a b) (or_introl eq_refl)). destruct Hv as [<-|[<-|Hv]]; try lia. apply H2. now right.
Qed.

(** the smallest number of a set is 1 *)
Definition starts_at_one (rows : list (list Z)) : Prop := (exists r, In r rows /\ set_of_row r = one) /\ forall r, In r rows -> one <= set_of_row r.

Lemma is_one_ok : forall x c rows, has_rows x (S c) rows -> (is_one one (r_min (r_col 0 x c)) = true <-> starts_at_one rows).
Proof.
  intros x c rows H. rewrite (col_rows 0 x (S c) rows c H) by lia.
  assert (E : map (fun r => nth c r 0) rows = map set_of_row rows).
  { apply map_ext_in. intros r Hr. pose proof (proj1 (proj2 (proj2 (proj2 H)))) as F. rewrite Forall_forall in F. specialize (F r Hr).
    destruct (exists_last (l := r)) as (p & l & ->). { intros ->. discriminate. } rewrite last_snoc. rewrite app_length in F. cbn [length] in F. rewrite app_nth2 by lia. replace (c - length p)%nat with 0%nat by lia. reflexivity. }
  rewrite E. pose proof (rmin_ok (map set_of_row rows)) as M. unfold starts_at_one. destruct (r_min (map set_of_row rows)) as [m|]; cbn [is_one].
  - destruct M as [M1 M2]. split.
    + intros Q. apply Z.eqb_eq in Q. subst m. split. { apply in_map_iff in M1. destruct M1 as (r & ? & ?). eauto. } intros r Hr. apply M2. now apply in_map.
    + intros [(r & Hr & Er) A]. apply Z.eqb_eq. apply in_map_iff in M1. destruct M1 as (r' & Er' & Hr'). specialize (A r' Hr'). specialize (M2 (set_of_row r) (in_map _ _ _ Hr)). lia.
  - apply map_eq_nil in M. subst rows. split; [discriminate|]. intros [(r & [] & _) _].
Qed.

(** all rows of x, then all rows of y; the largest number of a set of x is added to the
    numbers of the sets of y *)
Theorem C69_rbind : forall x y c rx ry m, (2 <= c)%nat -> has_rows x (S c) rx -> has_rows y (S c) ry -> starts_at_one rx -> starts_at_one ry ->
  (exists r, In r rx /\ set_of_row r = m) -> (forall r, In r rx -> set_of_row r <= m) ->
  exists z, r_rbind_datasets one x y = Ret z /\ has_rows z (S c) (rx ++ map (renumber (fun v => v + m)) ry).
Proof.
  intros x y c rx ry m Hc Hx Hy Ox Oy Em Mm. unfold r_rbind_datasets. rewrite (proj1 (proj2 Hx)), (proj1 (proj2 Hy)). cbn [Nat.sub]. rewrite Nat.sub_0_r.
  replace (2 <? S c)%nat with true by (symmetry; apply Nat.ltb_lt; lia). rewrite Nat.eqb_refl. cbn [assert_ bind].
  rewrite (proj2 (is_one_ok x c rx Hx) Ox), (proj2 (is_one_ok y c ry Hy) Oy). cbn [bind assert_].
  assert (EM : match r_max (r_col 0 x c) with Some m => m | None => 0 end = m).
  { rewrite (col_rows 0 x (S c) rx c Hx) by lia.
    assert (E : map (fun r => nth c r 0) rx = map set_of_row rx).
    { apply map_ext_in. intros r Hr. pose proof (proj1 (proj2 (proj2 (proj2 Hx)))) as F. rewrite Forall_forall in F. specialize (F r Hr).
      destruct (exists_last (l := r)) as (p & l & ->). { intros ->. discriminate. } rewrite last_snoc. rewrite app_length in F. cbn [length] in F. rewrite app_nth2 by lia. replace (c - length p)%nat with 0%nat by lia. reflexivity. }
    rewrite E. pose proof (rmax_ok (map set_of_row rx)) as M. destruct (r_max (map set_of_row rx)) as [m'|].
    - destruct M as [M1 M2]. destruct Em as (r & Hr & <-). specialize (M2 _ (in_map set_of_row _ _ Hr)). apply in_map_iff in M1. destruct M1 as (r' & Er' & Hr'). specialize (Mm _ Hr'). lia.
    - apply map_eq_nil in M. subst rx. destruct Em as (r & [] & _). }
  rewrite EM. eexists. split; [reflexivity|]. apply rbind_rows; auto.
  apply (matrix_of_rows 0). { rewrite map_length. apply Hy. }
  - apply Forall_forall. intros r Hr. apply in_map_iff in Hr. destruct Hr as (q & <- & Hq). pose proof (proj1 (proj2 (proj2 (proj2 Hy)))) as F. rewrite Forall_forall in F. specialize (F q Hq).
    unfold renumber. rewrite app_length. cbn [length]. destruct (exists_last (l := q)) as (p & l & ->). { intros ->. discriminate. } rewrite removelast_last. rewrite app_length in F. cbn in F. lia.
  - intros i j Hi Hj. rewrite (proj1 Hy) in Hi. rewrite (has_rows_cell 0 y (S c) ry i j Hy) by auto. rewrite (nth_map_in (renumber (fun v => v + m)) ry i [] []) by auto.
    assert (Hq : In (nth i ry []) ry) by (apply nth_In; auto). set (q := nth i ry []) in *. pose proof (proj1 (proj2 (proj2 (proj2 Hy)))) as F. rewrite Forall_forall in F. specialize (F q Hq).
    unfold renumber. destruct (exists_last (l := q)) as (p & l & E). { intros E. rewrite E in F. discriminate. } rewrite E in *. rewrite removelast_last, last_snoc. rewrite app_length in F. cbn in F.
    destruct (Nat.eqb_spec j c) as [->|Nj].
    + rewrite !app_nth2 by lia. replace (c - length p)%nat with 0%nat by lia. reflexivity.
    + rewrite !app_nth1 by lia. reflexivity.
Qed.

(** no set of x is mixed with a set of y, and the sets of y stay apart *)
Theorem C69_rbind_unique : forall rx ry m, 0 < one -> starts_at_one ry -> (forall r, In r rx -> set_of_row r <= m) ->
  let shifted := map (renumber (fun v => v + m)) ry in
  (forall r s, In r rx -> In s shifted -> set_of_row r <> set_of_row s) /\
  (forall i j, (i < length ry)%nat -> (j < length ry)%nat ->
     (set_of_row (nth i shifted []) = set_of_row (nth j shifted []) <-> set_of_row (nth i ry []) = set_of_row (nth j ry []))).
Proof.
  intros rx ry m H1 [_ Oy] Mm. cbv zeta. split.
  - intros r s Hr Hs. apply in_map_iff in Hs. destruct Hs as (q & <- & Hq). unfold renumber. rewrite last_snoc. specialize (Oy q Hq). specialize (Mm r Hr). lia.
  - intros i j Hi Hj. rewrite (nth_map_in _ _ i [] []) by auto. rewrite (nth_map_in _ _ j [] []) by auto. unfold renumber. rewrite !last_snoc. lia.
Qed.

(** anything else is refused *)
Theorem C69_rbind_refused : forall x y cx cy rx ry, has_rows x cx rx -> has_rows y cy ry ->
  (cx <= 2)%nat \/ cx <> cy \/ ~ starts_at_one rx \/ ~ starts_at_one ry -> r_rbind_datasets one x y = AssertFailed.
Proof.
  intros x y cx cy rx ry Hx Hy H. unfold r_rbind_datasets. rewrite (proj1 (proj2 Hx)), (proj1 (proj2 Hy)).
  destruct (Nat.ltb_spec 2 cx); [|reflexivity]. cbn [assert_ bind]. destruct (Nat.eqb_spec cx cy) as [->|]; [|reflexivity]. cbn [assert_ bind].
  destruct cy as [|c]; [lia|]. cbn [Nat.sub]. rewrite Nat.sub_0_r.
  destruct (is_one one (r_min (r_col 0 x c))) eqn:E1; [|reflexivity]. cbn [assert_ bind]. apply (is_one_ok x c rx Hx) in E1.
  destruct (is_one one (r_min (r_col 0 y c))) eqn:E2; [|reflexivity]. apply (is_one_ok y c ry Hy) in E2. destruct H as [H|[H|[H|H]]]; try lia; contradiction.
Qed.

(** ** Reading two files and combining them is reading both files in sequence *)
Lemma numbered_last : forall sets j r, In r (map (fun rk : list Z * nat => fst rk ++ [Z.of_nat (snd rk) * one]) (labelled_from j sets)) ->
  exists k, set_of_row r = Z.of_nat k * one /\ (j <= k < j + length sets)%nat.
Proof.
  induction sets as [|S sets IH]; intros j r Hr; [contradiction|]. rewrite numbered_cons in Hr. apply in_app_or in Hr. cbn [length]. destruct Hr as [Hr|Hr].
  - apply in_map_iff in Hr. destruct Hr as (p & <- & _). exists j. rewrite last_snoc. split; auto. lia.
  - destruct (IH _ _ Hr) as (k & E & Hk). exists k. split; auto. lia.
Qed.
Lemma numbered_shift : forall sets j n, map (fun rk : list Z * nat => fst rk ++ [Z.of_nat (snd rk) * one]) (labelled_from (n + j) sets) =
  map (renumber (fun v => v + Z.of_nat n * one)) (map (fun rk : list Z * nat => fst rk ++ [Z.of_nat (snd rk) * one]) (labelled_from j sets)).
Proof.
  induction sets as [|A sets IH]; intros j n; auto. rewrite !numbered_cons, map_app. f_equal.
  - rewrite map_map. apply map_ext. intros p. unfold renumber. rewrite removelast_last, last_snoc. f_equal. f_equal. lia.
  - rewrite <- IH. replace (S (n + j)) with (n + S j)%nat by lia. reflexivity.
Qed.
Lemma labelled_app : forall A (s1 s2 : list (list A)) j, labelled_from j (s1 ++ s2) = labelled_from j s1 ++ labelled_from (j + length s1) s2.
Proof. intros A s1 s2. induction s1 as [|S s1 IH]; intros j; cbn [app labelled_from length]. { now rewrite Nat.add_0_r. } rewrite IH, app_assoc. do 2 f_equal. lia. Qed.
Lemma numbered_in : forall sets k, Forall (fun S : list (list Z) => S <> []) sets -> (k < length sets)%nat -> exists r, In r (numbered one sets) /\ set_of_row r = Z.of_nat (S k) * one.
Proof.
  intros sets k NE Hk. destruct (nth_split sets [] Hk) as (l1 & l2 & E & L). rewrite E in *. apply Forall_app in NE. destruct NE as [_ NE]. inversion NE as [|? ? N1 _]; subst.
  destruct (nth (length l1) (l1 ++ nth (length l1) sets [] :: l2) []) as [|r S0] eqn:E0.
  { exfalso. rewrite app_nth2, Nat.sub_diag in E0 by lia. cbn in E0. contradiction. }
  rewrite app_nth2, Nat.sub_diag in E0 by lia. cbn [nth] in E0. rewrite E0.
  exists (r ++ [Z.of_nat (S (length l1)) * one]). rewrite last_snoc. split; auto. unfold numbered. rewrite labelled_app, map_app. apply in_or_app. right. rewrite numbered_cons. apply in_or_app. left. now left.
Qed.

Theorem C69_rbind_files : forall t1 t2 w s1 s2, 0 < one -> reader_ok -> plain t1 -> plain t2 -> (2 <= w)%nat -> describes t1 w s1 -> describes t2 w s2 ->
  exists x y z names, r_read_datasets t1 None = Ret (x, names) /\ r_read_datasets t2 None = Ret (y, names) /\ r_rbind_datasets one x y = Ret z /\
    has_rows z (S w) (numbered one (s1 ++ s2)) /\
    exists z', r_read_datasets (t1 ++ [nl; nl] ++ t2) None = Ret (z', names) /\ has_rows z' (S w) (numbered one (s1 ++ s2)).
Proof.
  intros t1 t2 w s1 s2 H1 HR P1 P2 Hw D1 D2.
  destruct (C69_read t1 w s1 None _ HR P1 D1 eq_refl) as (x & Ex & Hx). destruct (C69_read t2 w s2 None _ HR P2 D2 eq_refl) as (y & Ey & Hy).
  destruct (describes_wide Z scan t1 w s1 D1) as (_ & N1 & Z1). destruct (describes_wide Z scan t2 w s2 D2) as (_ & N2 & Z2).
  assert (ST : forall s, Forall (fun S : list (list Z) => S <> []) s -> s <> [] -> starts_at_one (numbered one s)).
  { intros s NE NZ. split.
    - destruct (numbered_in s 0 NE) as (r & Hr & Er). { destruct s; [easy|]. cbn. lia. } exists r. split; auto. rewrite Er. lia.
    - intros r Hr. destruct (numbered_last s 1 r Hr) as (k & -> & Hk). nia. }
  destruct (C69_rbind x y w _ _ (Z.of_nat (length s1) * one) Hw Hx Hy (ST s1 N1 Z1) (ST s2 N2 Z2)) as (z & Ez & Hz).
  { destruct (numbered_in s1 (length s1 - 1) N1) as (r & Hr & Er). { destruct s1; [easy|]. cbn. lia. } exists r. split; auto. rewrite Er. f_equal. f_equal. destruct s1; [easy|]. cbn. lia. }
  { intros r Hr. destruct (numbered_last s1 1 r Hr) as (k & -> & Hk). nia. }
  assert (EN : numbered one s1 ++ map (renumber (fun v => v + Z.of_nat (length s1) * one)) (numbered one s2) = numbered one (s1 ++ s2)).
  { unfold numbered. rewrite labelled_app, map_app. f_equal. rewrite <- numbered_shift. rewrite Nat.add_comm. reflexivity. }
  rewrite EN in Hz. exists x, y, z, (map (fun i => "V"%char :: itoa i) (seq 1 w) ++ [set_name]). repeat (split; auto).
  apply C69_read; auto.
  - destruct P1, P2. split; intros Hc; cbn [app] in Hc; rewrite in_app_iff in Hc; destruct Hc as [Hc|[Hc|[Hc|Hc]]]; auto; discriminate.
  - now apply describes_both.
  - reflexivity.
Qed.

(** ** A file without data *)
(** a file of comments and blank lines is no error: memory outside of an array is read *)
Theorem C69_empty_file_refuted : forall t col_names, plain t -> (0 < inc)%nat -> Forall separator (lines_of t) -> r_read_datasets t col_names = OutOfBounds.
Proof.
  intros t col_names [G1 G2] HI F. unfold RFileModel.r_read_datasets, R_read_datasets. change (mk_ds Z 0 [] 0 []) with (@layout Z 0 []).
  assert (E : exists ds, read_objective_t_data Z junk junk_int scan inc t (layout 0 []) = Ret (READ_INPUT_FILE_EMPTY, ds) /\ ds_nsets Z ds = 0%nat).
  { destruct (start Z junk junk_int scan inc HI t 0 []) as (s0 & H0 & E). { now left. } rewrite E. pose proof (unlines_lines_of t) as U.
    destruct (skip_lines_exact (lines_of t) (S (length t)) (good_clean t (conj G1 G2))) as [X _]. rewrite U; auto.
    rewrite U in X. rewrite (X F). cbn. eexists. split. reflexivity. cbn. apply H0. }
  destruct E as (ds & -> & E). cbn [bind fst snd]. replace ((READ_INPUT_FILE_EMPTY =? 0) || (READ_INPUT_FILE_EMPTY =? READ_INPUT_FILE_EMPTY)) with true by reflexivity. cbn [assert_ bind].
  rewrite E. reflexivity.
Qed.
End C69.

Print Assumptions C69_read.
Print Assumptions C69_read_names.
Print Assumptions C69_read_text.
Print Assumptions C69_read_refused.
Print Assumptions C69_write_read.
Print Assumptions C69_write_empty.
Print Assumptions C69_rbind.
Print Assumptions C69_rbind_unique.
Print Assumptions C69_rbind_refused.
Print Assumptions C69_rbind_files.
Print Assumptions C69_empty_file_refuted.

(** ** Concrete cases *)
(** numbers in hundredths *)
Definition conv69 (m e : Z) : Z := if 0 <=? e + 2 then m * 10 ^ (e + 2) else m / 10 ^ (- (e + 2)).
Lemma conv69_scale : forall m e k, 0 <= k -> conv69 (m * 10 ^ k) e = conv69 m (e + k).
Proof.
  intros m e k Hk. unfold conv69. destruct (Z.leb_spec 0 (e + 2)).
  - destruct (Z.leb_spec 0 (e + k + 2)); [|lia]. rewrite <- Z.mul_assoc, <- Z.pow_add_r by lia. do 2 f_equal. lia.
  - destruct (Z.leb_spec 0 (e + k + 2)).
    + replace k with ((e + k + 2) + - (e + 2)) at 1 by lia. rewrite Z.pow_add_r by lia. rewrite Z.mul_assoc. apply Z.div_mul. apply Z.pow_nonzero; lia.
    + replace (- (e + 2)) with (- (e + k + 2) + k) by lia. rewrite Z.pow_add_r by lia. apply Z.div_mul_cancel_r; apply Z.pow_nonzero; lia.
Qed.
Definition scan69 : text -> option (Z * text) := scan_dec Z conv69.
Definition itoa69 (i : nat) : text := [ascii_of_nat (48 + i)].
Definition fresh69 (i : nat) : Z := -7.
Lemma reader69 : reader_ok scan69 512.
Proof. split. apply scan_dec_valid. apply Nat.lt_0_succ. Qed.

Definition read69 (t : text) := r_read_datasets 0 7 scan69 512 fresh69 100 itoa69 t.
Example C69_nonvacuous_read :
  read69 (txt ("# comment" ++ LF ++ "1 2.50" ++ LF ++ "-3   .5  " ++ LF ++ "  " ++ LF ++ "7 8")) (Some [txt "a"; txt "b"]) =
    Ret (mkMat 3 3 [100; -300; 700; 250; 50; 800; 100; 100; 200], [txt "a"; txt "b"; txt "set"]) /\
  read69 (txt ("1 2" ++ LF ++ "3")) None = AssertFailed /\ read69 (txt "1 x") None = AssertFailed /\ read69 (txt "1 2") (Some [txt "a"]) = AssertFailed.
Proof. repeat split; vm_compute; reflexivity. Qed.
(** what is read describes sets, so that the hypotheses hold *)
Example C69_nonvacuous_describes : exists sets, describes Z scan69 (txt ("1 2.50" ++ LF ++ LF ++ "7 8")) 2 sets /\ sets = [[[100; 250]]; [[700; 800]]].
Proof.
  assert (R : read_objective_t_data Z 0 7 scan69 512 (txt ("1 2.50" ++ LF ++ LF ++ "7 8")) (mk_ds Z 0 [] 0 []) = Ret (0, layout 2 [[[100; 250]]; [[700; 800]]])) by (vm_compute; reflexivity).
  apply C31_accepted_iff in R.
  - destruct R as (w & sets & D & E). pose proof (f_equal (ds_nobjs Z) E) as E0. pose proof (f_equal (ds_cumsizes Z) E) as E1. pose proof (f_equal (ds_data Z) E) as E2.
    cbn [ds_nobjs layout] in E0. subst w. exists sets. split; auto. destruct (describes_wide Z scan69 _ _ _ D) as (W & NE & _). clear - E1 E2 W NE.
    destruct sets as [|S1 [|S2 [|S3 sets]]]; try discriminate. cbn in E1. injection E1 as L1 L2. assert (L3 : length S2 = 1%nat) by lia. symmetry in L1.
    destruct S1 as [|a [|]]; try discriminate. destruct S2 as [|b [|]]; try discriminate.
    assert (La : length a = 2%nat) by (apply (W [a]); cbn; auto). assert (Lb : length b = 2%nat) by (apply (W [b]); cbn; auto).
    destruct a as [|a1 [|a2 [|]]]; try discriminate. destruct b as [|b1 [|b2 [|]]]; try discriminate. cbn in E2. congruence.
  - apply scan_dec_valid.
  - apply Nat.lt_0_succ.
  - vm_compute. intuition discriminate.
  - vm_compute. intuition discriminate.
Qed.

(** text of numbers for this example: sign, 15 digits and exponent *)
Definition g69 (x : Z) : bool * Z * Z :=
  if x =? 250 then (false, 250000000000000, 0) else if x =? -300 then (true, 300000000000000, 0) else if x =? 100 then (false, 100000000000000, 0)
  else if x =? 333 then (false, 333000000000000, 0) else (false, 0, 0).
Definition fmt69 (x : Z) : text := let '(neg, D, X) := g69 x in format_g neg D X.
Definition val69 (x : Z) : Z := val15 Z conv69 g69 x.
Lemma g69_shape : forall x, let '(neg, D, X) := g69 x in D = 0 \/ 10 ^ 14 <= D < 10 ^ 15.
Proof. intros x. unfold g69. repeat match goal with |- context [if ?b then _ else _] => destruct b end; cbn; lia. Qed.
Lemma printer69 : valid_printer scan69 fmt69 val69.
Proof.
  intros x. pose proof (g69_shape x) as H. unfold fmt69, val69, val15. destruct (g69 x) as [[neg D] X].
  pose proof (format_chars neg D X) as FC. pose proof (format_nonempty Z conv69 conv69_scale neg D X H) as NE. pose proof (fun r => scan_format Z conv69 conv69_scale neg D X r H) as SF.
  set (t := format_g neg D X) in *. clearbody t. destruct t as [|c numeral]; [congruence|].
  exists c, numeral, 0%nat. split. { cbn [repeat]. now rewrite app_nil_r. }
  assert (NC : forall c', In c' (c :: numeral) -> ~ blank_char c' /\ c' <> hash /\ c' <> nl /\ c' <> vt /\ c' <> ff).
  { intros c' Hc. rewrite Forall_forall in FC. apply numeral_char_not. auto. }
  destruct (NC c (or_introl eq_refl)) as (A & B & _).
  split; auto. split; auto. split. intros I. apply NC in I. tauto. split. intros I. apply NC in I. tauto. split. intros I. apply NC in I. tauto.
  intros r Hr. apply SF. exact Hr.
Qed.
(** three points of the sets 7 and 3 *)
Definition x69 : rmat Z := mkMat 3 3 [250; -300; 100; 100; 250; 333; 700; 300; 700].
Example C69_nonvacuous_write :
  labelled x69 None 2 [[250; 100]; [-300; 250]; [100; 333]] [700; 300; 700] /\ distinct_labels [700; 300; 700] [300; 700] /\
  r_write_datasets fmt69 x69 (Some [txt "f1"; txt "f2"; txt "set"]) (txt "old") =
    Ret (txt ("# f1" ++ String tab ("f2 " ++ LF ++ "-3 2.5" ++ LF ++ LF ++ "2.5 1" ++ LF ++ "1 3.33" ++ LF))) /\
  read69 (txt ("# f1" ++ String tab ("f2 " ++ LF ++ "-3 2.5" ++ LF ++ LF ++ "2.5 1" ++ LF ++ "1 3.33" ++ LF))) None =
    Ret (mkMat 3 3 [-300; 250; 100; 250; 100; 333; 100; 200; 200], [txt "V1"; txt "V2"; txt "set"]).
Proof.
  split; [|split; [|split; vm_compute; reflexivity]].
  - split; auto. split; [discriminate|]. split.
    + split; [reflexivity|]. split; [reflexivity|]. split; [reflexivity|]. split. { repeat constructor. }
      intros na i j Hi Hj. cbn in Hi. destruct i as [|[|[|i]]]; try lia; destruct j as [|[|[|j]]]; try lia; reflexivity.
    + repeat constructor.
  - split. { repeat constructor; lia. } intros v. cbn. intuition.
Qed.
Example C69_nonvacuous_rbind :
  r_rbind_datasets 100 (mkMat 2 3 [1; 2; 3; 4; 100; 200]) (mkMat 2 3 [5; 6; 7; 8; 200; 100]) = Ret (mkMat 4 3 [1; 2; 5; 6; 3; 4; 7; 8; 100; 200; 400; 300]) /\
  r_rbind_datasets 100 (mkMat 2 3 [1; 2; 3; 4; 100; 200]) (mkMat 2 3 [5; 6; 7; 8; 200; 300]) = AssertFailed.
Proof. split; vm_compute; reflexivity. Qed.
Example C69_nonvacuous_empty : Forall separator (lines_of (txt ("# nothing" ++ LF ++ LF))) /\ read69 (txt ("# nothing" ++ LF ++ LF)) None = OutOfBounds.
Proof.
  split; [|vm_compute; reflexivity]. vm_compute. apply Forall_cons; [left; eexists; reflexivity|]. apply Forall_cons; [right; constructor|]. apply Forall_cons; [right; constructor|]. constructor.
Qed.

(** a newline in the name of a column makes the rest of the name a row of data *)
Theorem C69_column_name_refuted :
  exists t, r_write_datasets fmt69 x69 (Some [txt ("f1" ++ LF ++ "1"); txt "2.5"; txt "set"]) [] = Ret t /\
    read69 t None = Ret (mkMat 4 3 [100; -300; 250; 100; 250; 250; 100; 333; 100; 100; 200; 200], [txt "V1"; txt "V2"; txt "set"]).
Proof. eexists. split; [vm_compute; reflexivity|]. vm_compute. reflexivity. Qed.
Print Assumptions C69_column_name_refuted.
