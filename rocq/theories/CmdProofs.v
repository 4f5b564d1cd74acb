(** Proofs about the parts shared by the command-line programs (CmdModel.v). *)
From Coq Require Import Ascii String List ZArith Lia Bool Arith.
From Verif Require Import Base IoModel IoSpec IoProofs IoMain CmdModel CmdSpec PropIo.
Import ListNotations.
Local Open Scope list_scope.
Open Scope Z_scope.

Section S.
Variable junk : Z.
Variable junk_int : nat.
Variable scan : text -> option (Z * text).
Variable data_inc : nat.
Hypothesis Hscan : valid_scanner Z scan.
Hypothesis Hinc : (0 < data_inc)%nat.

Lemma read_accepted : forall t d nobj sets, sets_text scan d t sets -> nobj = d \/ nobj = 0%nat ->
  read_objective_t_data Z junk junk_int scan data_inc t (mk_ds Z nobj [] 0 []) = Ret (0, layout d sets).
Proof.
  intros t d nobj sets (A & B & D) H. change (mk_ds Z nobj [] 0 []) with (@layout Z nobj []).
  pose proof (C31_accepts Z junk junk_int scan data_inc t nobj d [] sets Hscan Hinc A B (or_introl eq_refl) H D) as E.
  exact E.
Qed.

Lemma lines_fixed : forall n L,
  (exists rs, Forall2 (line_is Z scan) L rs /\ all_of_width Z n rs) \/
  (exists pre l post rs, L = pre ++ l :: post /\ Forall2 (line_is Z scan) pre rs /\ all_of_width Z n rs /\ ~ separator l /\
     ((~ exists xs, numbers Z scan l xs) \/ exists xs, numbers Z scan l xs /\ length xs <> n)).
Proof.
  induction L as [|l L IH].
  { left. exists []. split; auto. intros xs []. }
  destruct (separator_dec l) as [S|S].
  - destruct IH as [(rs & F & W)|(pre & l' & post & rs & -> & F & W & N & X)].
    + left. exists (None :: rs). split. constructor; auto. now constructor. intros xs [E|E]; [discriminate|auto].
    + right. exists (l :: pre), l', post, (None :: rs). split; auto. split. constructor; auto. now constructor.
      split; auto. intros xs [E|E]; [discriminate|auto].
  - destruct (numbers_dec Z scan data_inc Hscan Hinc (length l) l (le_n _)) as [(xs & Hx)|Hx].
    2:{ right. exists [], l, L, []. repeat split; auto. intros xs []. }
    destruct (Nat.eq_dec (length xs) n) as [Ex|Ex].
    2:{ right. exists [], l, L, []. repeat split; auto. intros ys []. right; eauto. }
    destruct IH as [(rs & F & W)|(pre & l' & post & rs & -> & F & W & N & X)].
    + left. exists (Some xs :: rs). split. constructor; auto. now constructor. intros ys [E|E]; [congruence|auto].
    + right. exists (l :: pre), l', post, (Some xs :: rs). split; auto. split. constructor; auto. now constructor.
      split; auto. intros ys [E|E]; [congruence|auto].
Qed.

(** a text that is not a description of sets of [nobj] columns is refused *)
Lemma read_refused : forall t nobj, ~ In vt t -> ~ In ff t ->
  (forall d sets, describes Z scan t d sets -> nobj <> d /\ nobj <> 0%nat) ->
  exists code ds, code <> 0 /\ read_objective_t_data Z junk junk_int scan data_inc t (mk_ds Z nobj [] 0 []) = Ret (code, ds).
Proof.
  intros t nobj A B H. change (mk_ds Z nobj [] 0 []) with (@layout Z nobj []).
  assert (VS : valid_start Z nobj []) by now left.
  destruct (Nat.eq_dec nobj 0) as [->|N0].
  { destruct (C31_memory_safe Z junk junk_int scan data_inc t 0 [] Hscan Hinc VS) as (code & ds & E). exists code, ds. split; auto.
    intros ->. change (@layout Z 0 []) with (mk_ds Z 0 [] 0 []) in E.
    apply (C31_accepted_iff Z junk junk_int scan data_inc t ds Hscan Hinc A B) in E. destruct E as (w & sets & D & _).
    destruct (H _ _ D) as [_ X]. congruence. }
  destruct (lines_fixed nobj (lines_of t)) as [(rs & F & W)|(pre & l & post & rs & El & F & W & N & X)].
  - destruct (group Z rs) as [|g gs] eqn:G.
    + assert (S : Forall separator (lines_of t)).
      { clear - F G. induction F as [|l r L rs Hl F IH]; auto. destruct r as [r|]; cbn in G.
        - destruct (starts_with_row Z rs); [destruct (group Z rs)|]; discriminate.
        - constructor; auto. inversion Hl; auto. }
      destruct (C31_empty_file Z junk junk_int scan data_inc t nobj [] A B VS Hinc S) as (ds & E).
      exists READ_INPUT_FILE_EMPTY, ds. split; [discriminate|auto].
    + exfalso. assert (D : describes Z scan t nobj (g :: gs)) by (exists rs; repeat split; auto; congruence).
      destruct (H _ _ D). congruence.
  - assert (FE : first_error Z scan t nobj rs l) by (exists pre, post; auto).
    destruct X as [Hn|(xs & Hxs & Ex)].
    + destruct (C31_conversion_error Z junk junk_int scan data_inc t nobj nobj [] _ l Hscan Hinc A B VS ltac:(auto) FE Hn) as (ds & E).
      exists ERROR_CONVERSION, ds. split; [discriminate|auto].
    + destruct (C31_column_error Z junk junk_int scan data_inc t nobj nobj [] _ l xs Hscan Hinc A B VS ltac:(auto) FE Hxs Ex) as (ds & E).
      { right; auto. }
      eexists _, ds. split; [|exact E]. destruct (group _ _); discriminate.
Qed.

Lemma read_input_file : forall w f d nobj sets, contains scan w d f sets -> nobj = d \/ nobj = 0%nat ->
  read_input junk junk_int scan data_inc (Some f) nobj w = Ret (inl (layout d sets), w).
Proof.
  intros w f d nobj sets (t & E & S) H. unfold read_input. rewrite E, (read_accepted t d nobj sets S H). reflexivity.
Qed.
Lemma read_input_stdin : forall w d nobj sets, sets_text scan d (w_stdin w) sets -> nobj = d \/ nobj = 0%nat ->
  read_input junk junk_int scan data_inc None nobj w = Ret (inl (layout d sets), mkWorld (w_files w) [] (w_stdout w)).
Proof.
  intros w d nobj sets S H. unfold read_input. rewrite (read_accepted _ d nobj sets S H). reflexivity.
Qed.
(** a file that cannot be read or has other contents: failure, nothing is written *)
Lemma read_input_refused : forall w f nobj,
  (forall t, w_files w f = Some t -> ~ In vt t /\ ~ In ff t) ->
  (forall d sets, contains scan w d f sets -> nobj <> d /\ nobj <> 0%nat) ->
  read_input junk junk_int scan data_inc (Some f) nobj w = Ret (inr EXIT_FAILURE, w).
Proof.
  intros w f nobj A H. unfold read_input. destruct (w_files w f) as [t|] eqn:E; auto.
  destruct (A t eq_refl) as [A1 A2].
  destruct (read_refused t nobj A1 A2) as (code & ds & Nc & ->).
  { intros d sets D. apply (H d sets). exists t. repeat split; auto. }
  cbn [bind fst snd]. destruct (Z.eqb_spec code 0); [contradiction|auto].
Qed.
End S.

(** ** Rows and sets of the array *)
Definition wide (d : nat) (rows : list point) : Prop := forall r, In r rows -> length r = d.

Lemma concat_row : forall d rows i, wide d rows -> (i < length rows)%nat ->
  firstn d (skipn (d * i) (concat rows)) = nth i rows [].
Proof.
  intros d rows i. revert rows. induction i as [|i IH]; intros [|r rows] W Hi; cbn in Hi; try lia.
  - rewrite Nat.mul_0_r. cbn [skipn concat nth]. assert (Lr : length r = d) by (apply W; now left).
    rewrite firstn_app, Lr, Nat.sub_diag, <- Lr, firstn_all. cbn. apply app_nil_r.
  - cbn [concat nth]. assert (Lr : length r = d) by (apply W; now left).
    rewrite skipn_app, Lr. replace (d * S i - d)%nat with (d * i)%nat by lia.
    rewrite (skipn_all2 r) by lia. cbn [app]. apply IH; [|lia]. intros x Hx. apply W. now right.
Qed.
Lemma concat_wide_length : forall d rows, wide d rows -> length (concat rows) = (d * length rows)%nat.
Proof.
  induction rows as [|r rows IH]; intros W; cbn [concat length]; [lia|].
  rewrite app_length, IH by (intros x Hx; apply W; now right). rewrite (W r) by now left. lia.
Qed.
Lemma rows_at_ok : forall d rows from count, wide d rows -> (from + count <= length rows)%nat ->
  rows_at (concat rows) d from count = Ret (firstn count (skipn from rows)).
Proof.
  intros d rows from count W H. unfold rows_at. rewrite (concat_wide_length d) by auto.
  destruct (Nat.leb_spec (d * (from + count)) (d * length rows)) as [_|L]; [|nia]. f_equal.
  revert from H. induction count as [|c IH]; intros from H; cbn [seq map].
  - reflexivity.
  - rewrite (concat_row d) by (auto; lia). rewrite IH by lia.
    clear IH. revert rows W H. induction from as [|from IH]; intros [|r rows] W H; cbn in H; try lia.
    + reflexivity.
    + cbn [nth skipn]. rewrite IH; auto. intros x Hx. apply W. now right. lia.
Qed.

Fixpoint run_sets (body : list point -> prog unit) (sets : list (list point)) : prog unit :=
  match sets with
  | [] => pret tt
  | s :: sets => _ <~ body s ;; run_sets body sets
  end.

Lemma cum_from_nth : forall (sets : list (list point)) a n, (n < length sets)%nat ->
  rd (cum_from a sets) n = Ret (a + length (concat (firstn (S n) sets)))%nat.
Proof.
  induction sets as [|s sets IH]; intros a n Hn; cbn in Hn; [lia|]. destruct n as [|n].
  - cbn. rewrite app_nil_r. reflexivity.
  - cbn [cum_from]. change (rd (?x :: ?l) (S n)) with (rd l n). rewrite IH by lia.
    cbn [firstn concat]. rewrite app_length. f_equal. cbn [firstn]. lia.
Qed.

Lemma for_sets_ok : forall body d sets w, (forall s, In s sets -> wide d s) ->
  for_sets body (concat (concat sets)) d (cum_from 0 sets) 0 (length sets) 0 w = run_sets body sets w.
Proof.
  intros body d sets w W.
  assert (Ww : wide d (concat sets)). { intros r Hr. apply in_concat in Hr. destruct Hr as (s & Hs & Hr). eapply W; eauto. }
  assert (G : forall post pre w, sets = pre ++ post ->
    for_sets body (concat (concat sets)) d (cum_from 0 sets) (length pre) (length post) (length (concat pre)) w = run_sets body post w).
  { induction post as [|s post IH]; intros pre w0 E; cbn [for_sets run_sets length]; auto.
    unfold pbind at 1. unfold lift at 1. rewrite (cum_from_nth sets 0 (length pre)) by (rewrite E, app_length; cbn; lia).
    cbn [bind]. replace (firstn (S (length pre)) sets) with (pre ++ [s]).
    2:{ rewrite E. rewrite firstn_app. rewrite firstn_all2 by lia. replace (S (length pre) - length pre)%nat with 1%nat by lia. reflexivity. }
    assert (L : length (concat (pre ++ [s])) = (length (concat pre) + length s)%nat).
    { rewrite concat_app, app_length. cbn. now rewrite app_nil_r. }
    unfold pbind at 1. unfold lift at 1. rewrite (rows_at_ok d); auto.
    2:{ rewrite E, !concat_app, !app_length in *. cbn in *. rewrite !app_length in *. cbn in *. lia. }
    cbn [bind]. replace (firstn (0 + length (concat (pre ++ [s])) - length (concat pre)) (skipn (length (concat pre)) (concat sets))) with s.
    2:{ rewrite L. replace (0 + (length (concat pre) + length s) - length (concat pre))%nat with (length s) by lia.
        rewrite E, concat_app, skipn_app, skipn_all, Nat.sub_diag. cbn [skipn app concat]. rewrite firstn_app, firstn_all, Nat.sub_diag. cbn. now rewrite app_nil_r. }
    unfold pbind at 1 2. destruct (body s w0) as [[[u|z] w1]| | |]; cbn [bind]; auto.
    specialize (IH (pre ++ [s]) w1). replace (length (pre ++ [s])) with (S (length pre)) in IH by (rewrite app_length; cbn; lia).
    rewrite Nat.add_0_l. apply IH. rewrite <- app_assoc. exact E. }
  exact (G sets [] w eq_refl).
Qed.

(** ** Points given on the command line *)
Section P.
Variable strtod : text -> option (Z * text).
Hypothesis Hst : valid_strtod strtod.

Lemma point_text_det : forall s xs ys, point_text strtod s xs -> point_text strtod s ys -> xs = ys.
Proof.
  intros s xs ys H. revert ys. induction H as [s E F|s x r xs E H IH]; intros ys K; inversion K; subst; try congruence.
  rewrite E in H0. inversion H0; subst. f_equal; auto.
Qed.

Lemma firstn_upd_S : forall (l : list Z) k x, (k < length l)%nat -> firstn (S k) (upd l k x) = firstn k l ++ [x].
Proof. induction l as [|b l IH]; intros [|k] x H; cbn [length] in H; try lia; auto. cbn [upd]. change (firstn (S (S k)) (b :: upd l k x)) with (b :: firstn (S k) (upd l k x)). rewrite IH by lia. reflexivity. Qed.
Lemma firstn_upd_le : forall (l : list Z) k x, firstn k (upd l k x) = firstn k l.
Proof. induction l as [|b l IH]; intros [|k] x; cbn; auto. now rewrite IH. Qed.

(** the loop reads all the numbers; the array is large enough *)
Lemma read_point_loop_ok : forall fuel buf junk k s, (length s < fuel)%nat -> (k <= length buf)%nat ->
  exists buf' xs cursor, read_point_loop strtod fuel buf junk k s = Ret (buf', S (k + length xs), cursor) /\
    firstn (k + length xs) buf' = firstn k buf ++ xs /\ (k + length xs < length buf')%nat /\ strtod cursor = None /\
    (forall ys, point_text strtod s ys <-> ys = xs /\ forallb isspace cursor = true).
Proof.
  induction fuel as [|fuel IH]; intros buf junk k s Hf Hk; [lia|]. cbn [read_point_loop].
  set (buf1 := if (k =? length buf)%nat then buf ++ repeat junk 10 else buf).
  assert (L1 : (k < length buf1)%nat /\ firstn k buf1 = firstn k buf).
  { unfold buf1. destruct (Nat.eqb_spec k (length buf)) as [->|N].
    - rewrite app_length, repeat_length. split; [lia|]. rewrite firstn_app, Nat.sub_diag, firstn_O, app_nil_r. reflexivity.
    - split; [lia|auto]. }
  destruct L1 as [L1 F1].
  assert (Wr : forall x, wr buf1 k x = Ret (upd buf1 k x)).
  { intros x. unfold wr. destruct (Nat.ltb_spec k (length buf1)); [auto|lia]. }
  assert (Fu : forall x, firstn (S k) (upd buf1 k x) = firstn k buf ++ [x]).
  { intros x. rewrite <- F1. apply firstn_upd_S. auto. }
  assert (Fk : forall x, firstn k (upd buf1 k x) = firstn k buf).
  { intros x. rewrite <- F1. apply firstn_upd_le. }
  destruct (strtod s) as [[x r]|] eqn:E.
  - rewrite Wr. cbn [bind]. pose proof (Hst _ _ _ E).
    destruct (IH (upd buf1 k x) junk (S k) r ltac:(lia) ltac:(rewrite upd_length; lia)) as (buf' & xs & cursor & A & B & C & D & P).
    exists buf', (x :: xs), cursor. rewrite A. cbn [length]. replace (S (S k + length xs)) with (S (k + S (length xs))) by lia.
    split; auto. replace (k + S (length xs))%nat with (S k + length xs)%nat by lia. split.
    { rewrite B, Fu, <- app_assoc. reflexivity. }
    split; auto. split; auto. intros ys. split.
    + intros K. inversion K; subst; [congruence|]. rewrite E in H0. inversion H0; subst. apply P in H1. destruct H1 as [-> ?]. auto.
    + intros [-> Hc]. eapply PT_num; eauto. apply P. auto.
  - rewrite Wr. cbn [bind]. exists (upd buf1 k 0), [], s. cbn [length]. rewrite Nat.add_0_r. split; auto. rewrite Fk, app_nil_r.
    split; auto. rewrite upd_length. split; auto. split; auto. intros ys. split.
    + intros K. inversion K; subst; auto. congruence.
    + intros [-> Hc]. now constructor.
Qed.

Lemma read_point_ok : forall junk s xs, point_text strtod s xs -> xs <> [] ->
  exists buf, read_point strtod junk s = Ret (Some (buf, length xs)) /\ firstn (length xs) buf = xs /\ (length xs <= length buf)%nat.
Proof.
  intros junk s xs H N. unfold read_point.
  destruct (read_point_loop_ok (S (length s)) (repeat junk 10) junk 0 s) as (buf & ys & cursor & A & B & C & _ & P). lia. lia.
  apply P in H. destruct H as [-> Hc]. rewrite A. cbn [bind]. rewrite Hc. cbn [Nat.add firstn app] in *.
  destruct ys; [congruence|]. cbn [length Nat.eqb]. exists buf. split; auto. split; auto. cbn in *. lia.
Qed.
Lemma read_point_refused : forall junk s, ~ (exists xs, xs <> [] /\ point_text strtod s xs) -> read_point strtod junk s = Ret None.
Proof.
  intros junk s H. unfold read_point.
  destruct (read_point_loop_ok (S (length s)) (repeat junk 10) junk 0 s) as (buf & ys & cursor & A & B & C & _ & P). lia. lia.
  rewrite A. cbn [bind]. destruct (forallb isspace cursor) eqn:Hc; auto. destruct ys as [|y ys]; auto.
  exfalso. apply H. exists (y :: ys). split; [discriminate|]. apply P. auto.
Qed.
End P.

(** the sets of a file are not empty, and their rows have the right length *)
Lemma describes_sets : forall scan t d sets, describes Z scan t d sets ->
  sets <> [] /\ forall s, In s sets -> s <> [] /\ wide d s.
Proof.
  intros scan t d sets (rs & _ & W & -> & N). split; auto. clear N.
  assert (A : Forall (fun g => g <> []) (group Z rs)).
  { clear. induction rs as [|[r|] rs IH]; cbn [IoSpec.group]; auto. destruct (starts_with_row Z rs).
    destruct (group Z rs); repeat constructor; try discriminate. inversion IH; auto. constructor; auto. discriminate. }
  assert (B : forall s r, In s (group Z rs) -> In r s -> In (Some r) rs).
  { clear. induction rs as [|[x|] rs IH]; cbn [IoSpec.group]; intros s r Hs Hr.
    - destruct Hs.
    - destruct (starts_with_row Z rs); [destruct (group Z rs) as [|g gs]|].
      + destruct Hs as [<-|[]]. destruct Hr as [<-|[]]. now left.
      + destruct Hs as [<-|Hs]. * destruct Hr as [<-|Hr]; [now left|]. right. apply (IH g r); auto. now left.
        * right. apply (IH s r); auto. now right.
      + destruct Hs as [<-|Hs]. * destruct Hr as [<-|[]]. now left. * right. eauto.
    - right. eauto. }
  intros s Hs. split. { rewrite Forall_forall in A. auto. } intros r Hr. apply W. eauto.
Qed.
Lemma wide_concat : forall d (sets : list (list point)), (forall s, In s sets -> wide d s) -> wide d (concat sets).
Proof. intros d sets W r Hr. apply in_concat in Hr. destruct Hr as (s & Hs & Hr). eapply W; eauto. Qed.
Lemma wide_all : forall d (sets : list (list point)), wide d (concat sets) -> forall s, In s sets -> wide d s.
Proof. intros d sets W s Hs r Hr. apply W. apply in_concat. eauto. Qed.
Lemma last_cum : forall (sets : list (list point)), sets <> [] ->
  rd (cum_from 0 sets) (length sets - 1) = Ret (length (concat sets)).
Proof.
  intros sets N. destruct sets as [|s sets]; [congruence|]. rewrite cum_from_nth by (cbn; lia).
  replace (S (length (s :: sets) - 1)) with (length (s :: sets)) by (cbn; lia). now rewrite firstn_all.
Qed.
Lemma all_rows : forall d (sets : list (list point)), wide d (concat sets) ->
  rows_at (concat (concat sets)) d 0 (length (concat sets)) = Ret (concat sets).
Proof. intros d sets W. rewrite rows_at_ok by (auto; cbn; lia). cbn [skipn]. now rewrite firstn_all. Qed.
