(** Specification vocabulary of the command-line programs: what their input files
    contain, what option arguments mean and where the output goes. *)
From Coq Require Import Ascii String List ZArith Lia Bool Arith.
From Verif Require Import Base IoModel IoSpec CmdModel.
Import ListNotations.
Local Open Scope list_scope.
Open Scope Z_scope.

(** a text that describes sets of rows of [d] numbers (IoSpec.v), without vertical
    tabs and form feeds *)
Definition sets_text (scan : text -> option (Z * text)) (d : nat) (t : text) (sets : list (list point)) : Prop :=
  ~ In vt t /\ ~ In ff t /\ describes Z scan t d sets.
(** the file [f] contains these sets *)
Definition contains (scan : text -> option (Z * text)) (w : world) (d : nat) (f : string) (sets : list (list point)) : Prop :=
  exists t, w_files w f = Some t /\ sets_text scan d t sets.

(** the text consists of the numbers [xs], up to white space at the end *)
Inductive point_text (strtod : text -> option (Z * text)) : text -> list Z -> Prop :=
| PT_end : forall s, strtod s = None -> forallb isspace s = true -> point_text strtod s []
| PT_num : forall s x r xs, strtod s = Some (x, r) -> point_text strtod r xs -> point_text strtod s (x :: xs).
(** a number takes at least one character *)
Definition valid_strtod (strtod : text -> option (Z * text)) : Prop :=
  forall s x r, strtod s = Some (x, r) -> (length r < length s)%nat.

(** one number per line *)
Definition listing {A} (fmt : A -> text) (vs : list A) : text := concat (map (fun v => fmt v ++ [nl]) vs).

(** The output [txt] for the file [f] goes to standard output, or, if there is a
    suffix, to the file whose name is [f] followed by the suffix; nothing else
    changes. *)
Definition delivered (suffix : option string) (f : string) (txt : text) (w w' : world) : Prop :=
  w_stdin w' = w_stdin w /\
  match suffix with
  | None => w_stdout w' = w_stdout w ++ txt /\ forall n, w_files w' n = w_files w n
  | Some s => w_stdout w' = w_stdout w /\
              forall n, w_files w' n = if String.eqb n (f ++ s) then Some txt else w_files w n
  end.
(** several files one after the other *)
Inductive delivered_all (suffix : option string) : list (string * text) -> world -> world -> Prop :=
| DA_nil : forall w, delivered_all suffix [] w w
| DA_cons : forall f txt rest w w1 w2, delivered suffix f txt w w1 -> delivered_all suffix rest w1 w2 ->
    delivered_all suffix ((f, txt) :: rest) w w2.

(** no output file is an input file that is read later *)
Definition not_overwritten (suffix : option string) (names : list string) : Prop :=
  match suffix with
  | None => True
  | Some s => ForallOrdPairs (fun a b => (a ++ s)%string <> b) names
  end.

(** ** Facts about the specification *)
Lemma delivered_all_stdout : forall outs w w', delivered_all None outs w w' ->
  w_stdout w' = w_stdout w ++ concat (map snd outs) /\ (forall n, w_files w' n = w_files w n).
Proof.
  intros outs w w' H. induction H as [|f txt rest w w1 w2 D H [A B]].
  - cbn. rewrite app_nil_r. auto.
  - destruct D as (_ & D1 & D2). cbn [map concat snd]. rewrite A, D1, app_assoc. split; auto.
    intros n. rewrite B; auto.
Qed.
Lemma delivered_all_files : forall s outs w w', delivered_all (Some s) outs w w' ->
  NoDup (map fst outs) ->
  w_stdout w' = w_stdout w /\
  (forall f txt, In (f, txt) outs -> w_files w' (f ++ s)%string = Some txt) /\
  (forall n, (forall f txt, In (f, txt) outs -> n <> (f ++ s)%string) -> w_files w' n = w_files w n).
Proof.
  assert (Inj : forall a b s, (a ++ s)%string = (b ++ s)%string -> a = b).
  { intros a b s H. apply (f_equal list_ascii_of_string) in H.
    assert (L : forall x y, list_ascii_of_string (x ++ y)%string = list_ascii_of_string x ++ list_ascii_of_string y).
    { induction x; cbn; intros; auto. now rewrite IHx. }
    rewrite !L in H. apply app_inv_tail in H. rewrite <- (string_of_list_ascii_of_string a), H. apply string_of_list_ascii_of_string. }
  intros s outs w w' H. induction H as [|f txt rest w w1 w2 D H IH]; intros ND.
  - split; auto. split; auto. intros f txt [].
  - destruct D as (_ & D1 & D2). inversion ND as [|? ? Nf ND']; subst. destruct (IH ND') as (A & B & C). split; [congruence|]. split.
    + intros f' txt' [E|Hin]; [|auto]. inversion E; subst. rewrite C.
      * rewrite D2, String.eqb_refl. auto.
      * intros f2 txt2 H2 E2. apply Inj in E2. subst. apply Nf. apply in_map_iff. exists (f2, txt2). auto.
    + intros n Hn. rewrite C by (intros; apply (Hn f0 txt0); now right). rewrite D2.
      destruct (String.eqb_spec n (f ++ s)); auto. exfalso. apply (Hn f txt); auto. now left.
Qed.
