(** What the command-line programs write, set by set and file by file. *)
From Coq Require Import Ascii String List ZArith Lia Bool Arith.
From Verif Require Import Base IoModel IoSpec CmdModel CmdSpec CmdProofs.
Import ListNotations.
Local Open Scope list_scope.
Open Scope Z_scope.

(** ** Output *)
Definition written (f : ofile) (txt : text) (w w' : world) : Prop :=
  w_stdin w' = w_stdin w /\
  match f with
  | Stdout => w_stdout w' = w_stdout w ++ txt /\ forall n, w_files w' n = w_files w n
  | OFile m => w_stdout w' = w_stdout w /\
               exists c, w_files w m = Some c /\ forall n, w_files w' n = if String.eqb n m then Some (c ++ txt) else w_files w n
  end.
Definition is_open (f : ofile) (w : world) : Prop :=
  match f with Stdout => True | OFile m => exists c, w_files w m = Some c end.
Lemma written_nil : forall f w, is_open f w -> written f [] w w.
Proof.
  intros [|m] w H; split; auto. { rewrite app_nil_r. auto. }
  split; auto. destruct H as (c & E). exists c. split; auto. intros n. destruct (String.eqb_spec n m); auto. subst. now rewrite app_nil_r.
Qed.
Lemma written_app : forall f a b w w1 w2, written f a w w1 -> written f b w1 w2 -> written f (a ++ b) w w2.
Proof.
  intros [|m] a b w w1 w2 (A & B) (C & D); (split; [congruence|]).
  - destruct B as [B1 B2], D as [D1 D2]. split. rewrite D1, B1, app_assoc. auto. intros n. rewrite D2. auto.
  - destruct B as (B1 & c & B2 & B3), D as (D1 & c' & D2 & D3). split; [congruence|]. exists c. split; auto.
    rewrite B3, String.eqb_refl in D2. inversion D2; subst c'. intros n. rewrite D3, B3. destruct (String.eqb n m); auto. now rewrite app_assoc.
Qed.
Lemma written_open : forall f a w w', written f a w w' -> is_open f w'.
Proof. intros [|m] a w w' (_ & H); cbn; auto. destruct H as (_ & c & _ & H). rewrite H, String.eqb_refl. eauto. Qed.
Lemma fwrite_ok : forall f t w, is_open f w -> exists w', fwrite f t w = Ret (inl tt, w') /\ written f t w w'.
Proof.
  intros [|m] t w H; cbn [fwrite].
  - eexists. split; [reflexivity|]. split; auto.
  - destruct H as (c & E). rewrite E. eexists. split; [reflexivity|]. split; auto. split; auto. exists c. split; auto.
Qed.
(** opening the output of a file, then writing to it *)
Lemma output_delivered : forall can_create filename suffix w,
  (forall f s, filename = Some f -> suffix = Some s -> can_create (f ++ s)%string = true) ->
  exists f w1, output_of can_create filename suffix w = Ret (inl f, w1) /\ is_open f w1 /\ w_stdin w1 = w_stdin w /\
    forall txt w2, written f txt w1 w2 ->
      delivered (match filename with None => None | Some _ => suffix end) (match filename with None => EmptyString | Some f => f end) txt w w2.
Proof.
  intros can_create filename suffix w H. unfold output_of, open_output, pret.
  destruct filename as [f|]. 1: destruct suffix as [s|].
  - rewrite (H f s eq_refl eq_refl). eexists _, _. split; [reflexivity|]. split.
    { cbn. unfold set_file. rewrite String.eqb_refl. eauto. }
    split; auto. intros txt w2 (A & B & c & C & D). split; auto. cbn in *. unfold set_file in *. rewrite String.eqb_refl in C. inversion C; subst c.
    split; auto. intros n. rewrite D. destruct (String.eqb n (f ++ s)); auto.
  - exists Stdout, w. split; auto. split; cbn; auto.
  - exists Stdout, w. split; auto. split; cbn; auto.
Qed.


Lemma kept : forall scan suffix f txt w w' d n sets, delivered suffix f txt w w' ->
  match suffix with None => True | Some s => (f ++ s)%string <> n end -> contains scan w d n sets -> contains scan w' d n sets.
Proof.
  intros scan suffix f txt w w' d n sets (_ & D) H (t & E & T). exists t. split; auto. destruct suffix as [s|]; destruct D as [_ D]; rewrite D; auto.
  destruct (String.eqb_spec n (f ++ s)); congruence.
Qed.
Lemma file_sets : forall scan w d n sets, contains scan w d n sets -> sets <> [] /\ forall s, In s sets -> s <> [] /\ wide d s.
Proof. intros scan w d n sets (t & _ & _ & _ & D). eapply describes_sets; eauto. Qed.

(** ** A loop that writes a text for each set *)
Section Loop.
Variable body : ofile -> list point -> prog unit.
Variable d : nat.
Variable ok : list point -> Prop.
Variable line : list point -> text -> Prop.
Hypothesis Hbody : forall f S w, S <> [] -> wide d S -> ok S -> is_open f w ->
  exists t w', body f S w = Ret (inl tt, w') /\ line S t /\ written f t w w'.

Lemma sets_good : forall f sets w, (forall S, In S sets -> S <> [] /\ wide d S /\ ok S) -> is_open f w ->
  exists w' ts, run_sets (body f) sets w = Ret (inl tt, w') /\ Forall2 line sets ts /\ written f (concat ts) w w'.
Proof.
  intros f. induction sets as [|S sets IH]; intros w H Op; cbn [run_sets].
  - exists w, []. split; auto. split; auto. now apply written_nil.
  - destruct (H S (or_introl eq_refl)) as (N & W & K).
    destruct (Hbody f S w N W K Op) as (t & w1 & E & L & R). unfold pbind. rewrite E. cbn [bind].
    destruct (IH w1) as (w' & ts & E' & F & R'). { intros; apply H; now right. } { eapply written_open; eauto. }
    exists w', (t :: ts). split; auto. split; auto. cbn [concat]. eapply written_app; eauto.
Qed.

(** a set at which the program ends *)
Variable bad : list point -> Prop.
Variable last_line : list point -> text -> Prop.
Variable status : Z.
Hypothesis Hbad : forall f S w, S <> [] -> wide d S -> bad S -> is_open f w ->
  exists t w', body f S w = Ret (inr status, w') /\ last_line S t /\ written f t w w'.
Lemma sets_bad : forall f sets S rest w, (forall S, In S sets -> S <> [] /\ wide d S /\ ok S) -> S <> [] -> wide d S -> bad S -> is_open f w ->
  exists w' ts t, run_sets (body f) (sets ++ S :: rest) w = Ret (inr status, w') /\ Forall2 line sets ts /\ last_line S t /\
    written f (concat ts ++ t) w w'.
Proof.
  intros f. induction sets as [|S1 sets IH]; intros S rest w H NS WS B Op; cbn [app run_sets].
  - destruct (Hbad f S w NS WS B Op) as (t & w1 & E & L & R). unfold pbind. rewrite E. exists w1, [], t. auto.
  - destruct (H S1 (or_introl eq_refl)) as (N & W & K).
    destruct (Hbody f S1 w N W K Op) as (t & w1 & E & L & R). unfold pbind. rewrite E. cbn [bind].
    destruct (IH S rest w1) as (w' & ts & t' & E' & F & L' & R'); auto. { intros; apply H; now right. } { eapply written_open; eauto. }
    exists w', (t :: ts), t'. split; auto. split; auto. split; auto. cbn [concat]. rewrite <- app_assoc. eapply written_app; eauto.
Qed.
End Loop.
