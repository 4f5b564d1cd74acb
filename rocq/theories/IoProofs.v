(** Proofs about the reader and the writer of text files. *)
Require Import List ZArith Lia Bool Ascii Arith.
Import ListNotations.
From Verif Require Import Base IoModel IoSpec.
Open Scope Z_scope.

Lemma eqb_spec : forall a b, reflect (a = b) (a =? b)%char.
Proof. intros. destruct (Ascii.eqb_spec a b); constructor; auto. Qed.

Lemma is_blank_iff : forall c, is_blank c = true <-> blank_char c.
Proof.
  intros. unfold is_blank, blank_char. rewrite !orb_true_iff, !Ascii.eqb_eq. tauto.
Qed.
Lemma is_blank_false : forall c, is_blank c = false <-> ~ blank_char c.
Proof. intros. rewrite <- is_blank_iff. destruct (is_blank c); split; congruence. Qed.

(** ** Lines *)
Fixpoint unlines (ls : list text) : text :=
  match ls with
  | [] => []
  | l :: ls' => match ls' with [] => l | _ => l ++ nl :: unlines ls' end
  end.

Lemma unlines_cons : forall l ls, ls <> [] -> unlines (l :: ls) = l ++ nl :: unlines ls.
Proof. intros. destruct ls; [congruence|reflexivity]. Qed.

Lemma lines_of_not_nil : forall t, lines_of t <> [].
Proof. destruct t; cbn [lines_of]; try discriminate. destruct (_ =? _)%char; try discriminate. destruct (lines_of t); discriminate. Qed.

Lemma unlines_lines_of : forall t, unlines (lines_of t) = t.
Proof.
  induction t; cbn [lines_of]; auto. destruct (eqb_spec a nl).
  - subst. rewrite unlines_cons by apply lines_of_not_nil. rewrite IHt. reflexivity.
  - destruct (lines_of t) as [|l ls] eqn:E. exfalso; eapply lines_of_not_nil; eauto.
    destruct ls; cbn [unlines] in *. rewrite IHt; auto. rewrite <- IHt. reflexivity.
Qed.

Lemma lines_of_no_nl : forall t, Forall (fun l => ~ In nl l) (lines_of t).
Proof.
  induction t; cbn [lines_of]. repeat constructor. intros [].
  destruct (eqb_spec a nl). constructor; auto.
  destruct (lines_of t); inversion IHt; subst; repeat constructor; auto; intros [|]; auto.
Qed.

Lemma lines_of_incl : forall t l c, In l (lines_of t) -> In c l -> In c t.
Proof.
  induction t; cbn [lines_of]; intros l c Hl Hc.
  - destruct Hl as [<-|[]]; contradiction.
  - destruct (eqb_spec a nl).
    + destruct Hl as [<-|Hl]. contradiction. right; eauto.
    + destruct (lines_of t) as [|l0 ls] eqn:E. exfalso; eapply lines_of_not_nil; eauto.
      destruct Hl as [<-|Hl].
      * destruct Hc as [<-|Hc]. now left. right. eapply IHt; eauto. now left.
      * right. eapply IHt; eauto. now right.
Qed.

Lemma separator_dec : forall l, {separator l} + {~ separator l}.
Proof.
  intros. destruct l as [|c l]. left; right; constructor.
  destruct (ascii_dec c hash). subst. left; left; eauto.
  destruct (forallb is_blank (c :: l)) eqn:E.
  - left; right. apply Forall_forall. intros x Hx. apply is_blank_iff. now apply (proj1 (forallb_forall _ _) E).
  - right. intros [[r H]|H]. inversion H; congruence.
    rewrite Forall_forall in H. assert (forallb is_blank (c :: l) = true); [|congruence].
    apply forallb_forall. intros. apply is_blank_iff; auto.
Qed.

Lemma drop_blank_spec : forall l, exists w, Forall blank_char w /\ l = w ++ drop_while is_blank l /\
  (forall c r, drop_while is_blank l = c :: r -> ~ blank_char c).
Proof.
  induction l; cbn [drop_while].
  - exists []. repeat split; auto. discriminate.
  - destruct (is_blank a) eqn:E.
    + destruct IHl as (w & H1 & H2 & H3). exists (a :: w). repeat split; auto.
      constructor; auto. now apply is_blank_iff. cbn. congruence.
    + exists []. repeat split; auto. intros c r H. inversion H; subst. now apply is_blank_false.
Qed.

Lemma drop_blank_app : forall w c r, Forall blank_char w -> ~ blank_char c ->
  drop_while is_blank (w ++ c :: r) = c :: r.
Proof.
  induction w; cbn [app drop_while]; intros.
  - apply is_blank_false in H0. now rewrite H0.
  - inversion H; subst. apply is_blank_iff in H3. rewrite H3. auto.
Qed.

Lemma drop_blank_all : forall w, Forall blank_char w -> drop_while is_blank w = [].
Proof. induction 1; cbn; auto. apply is_blank_iff in H. now rewrite H. Qed.

Lemma nl_not_blank : ~ blank_char nl.
Proof. intros [H|[H|H]]; discriminate. Qed.

Lemma drop_blank_line : forall l r, drop_while is_blank (l ++ nl :: r) = drop_while is_blank l ++ nl :: r.
Proof.
  intros. destruct (drop_blank_spec l) as (w & H1 & H2 & H3).
  destruct (drop_while is_blank l) as [|c l'] eqn:E.
  - rewrite app_nil_r in H2. subst. rewrite drop_blank_app; auto using nl_not_blank.
  - rewrite H2, <- app_assoc. cbn [app]. rewrite drop_blank_app; eauto.
Qed.

Lemma drop_nl_line : forall l r, ~ In nl l ->
  drop_while (fun c => negb (c =? nl)%char) (l ++ nl :: r) = nl :: r.
Proof.
  induction l; cbn [app drop_while]; intros; auto.
  destruct (eqb_spec a nl). exfalso; apply H; now left. cbn. apply IHl. intro; apply H; now right.
Qed.
Lemma drop_nl_all : forall l, ~ In nl l -> drop_while (fun c => negb (c =? nl)%char) l = [].
Proof.
  induction l; cbn [app drop_while]; intros; auto.
  destruct (eqb_spec a nl). exfalso; apply H; now left. cbn. apply IHl. intro; apply H; now right.
Qed.

Lemma not_separator_drop : forall l, ~ separator l -> exists c r, drop_while is_blank l = c :: r /\ ~ blank_char c.
Proof.
  intros. destruct (drop_blank_spec l) as (w & H1 & H2 & H3).
  destruct (drop_while is_blank l) as [|c l'] eqn:E.
  - exfalso. apply H. right. rewrite app_nil_r in H2. now subst.
  - eauto.
Qed.

Lemma hash_not_blank : ~ blank_char hash.
Proof. intros [H|[H|H]]; discriminate. Qed.
Lemma hash_not_nl : hash <> nl.
Proof. discriminate. Qed.

Lemma scl_sep_last : forall l, ~ In nl l -> separator l -> skip_comment_line l = (EOF, []).
Proof.
  intros l N [[r ->]|H]; unfold skip_comment_line, fscanf_comment.
  - destruct (eqb_spec hash hash); [|congruence]. cbn [Z.eqb]. rewrite drop_nl_all. reflexivity.
    intro; apply N; now right.
  - destruct l as [|c l]. reflexivity.
    destruct (eqb_spec c hash). subst. inversion H; subst. exfalso. now apply hash_not_blank.
    cbn [Z.eqb]. unfold skip_trailing_whitespace. rewrite drop_blank_all; auto.
Qed.

Lemma scl_sep : forall l r, ~ In nl l -> separator l -> skip_comment_line (l ++ nl :: r) = (1, r).
Proof.
  intros l r N [[l' ->]|H]; unfold skip_comment_line, fscanf_comment.
  - cbn [app]. destruct (eqb_spec hash hash); [|congruence]. cbn [Z.eqb]. rewrite drop_nl_line. reflexivity.
    intro; apply N; now right.
  - assert (E : match l ++ nl :: r with [] => (EOF, []) | c :: t' =>
       if (c =? hash)%char then (1, drop_while (fun c0 => negb (c0 =? nl)%char) t') else (0, l ++ nl :: r) end = (0, l ++ nl :: r)).
    { destruct l as [|c l]; cbn [app]. reflexivity. destruct (eqb_spec c hash); auto. subst. inversion H; subst. exfalso. now apply hash_not_blank. }
    rewrite E. cbn [Z.eqb]. unfold skip_trailing_whitespace. rewrite drop_blank_line, drop_blank_all; auto.
Qed.

Lemma scl_row : forall l r, ~ In nl l -> ~ separator l -> (r = [] \/ exists r', r = nl :: r') ->
  skip_comment_line (l ++ r) = (0, drop_while is_blank l ++ r).
Proof.
  intros l r N H Hr. destruct (not_separator_drop l H) as (c & l' & E & B).
  assert (E0 : drop_while is_blank (l ++ r) = drop_while is_blank l ++ r).
  { destruct Hr as [->|[r' ->]]. now rewrite !app_nil_r. apply drop_blank_line. }
  assert (c <> nl). { intros ->. destruct (drop_blank_spec l) as (w & _ & H2 & _). apply N. rewrite H2, E. apply in_or_app; right; now left. }
  unfold skip_comment_line, fscanf_comment.
  destruct l as [|c0 l]. discriminate. cbn [app].
  destruct (eqb_spec c0 hash). subst. exfalso; apply H; left; eauto.
  cbn [Z.eqb]. unfold skip_trailing_whitespace. change (c0 :: l ++ r) with ((c0 :: l) ++ r). rewrite E0, E.
  cbn [app fscanf_newline]. destruct (eqb_spec c nl); congruence.
Qed.

(** in terms of the list of lines *)
Lemma scl_unlines : forall l ls, Forall (fun l => ~ In nl l) (l :: ls) ->
  (separator l -> ls = [] -> skip_comment_line (unlines (l :: ls)) = (EOF, [])) /\
  (separator l -> ls <> [] -> skip_comment_line (unlines (l :: ls)) = (1, unlines ls)) /\
  (~ separator l -> skip_comment_line (unlines (l :: ls)) = (0, unlines (drop_while is_blank l :: ls))).
Proof.
  intros l ls H. inversion H; subst. repeat split; intros.
  - subst. apply scl_sep_last; auto.
  - rewrite unlines_cons; auto. apply scl_sep; auto.
  - destruct ls as [|l1 ls].
    + cbn [unlines]. rewrite <- (app_nil_r l) at 1. rewrite scl_row; auto. now rewrite app_nil_r.
    + rewrite (unlines_cons l), (unlines_cons (drop_while is_blank l)) by discriminate. apply scl_row; eauto.
Qed.

Lemma scl_length : forall t r t', skip_comment_line t = (r, t') ->
  (length t' <= length t)%nat /\ (r = 1 -> (length t' < length t)%nat) /\ (r = 0 \/ r = 1 \/ r = EOF).
Proof.
  assert (D : forall f t, (length (drop_while f t) <= length t)%nat).
  { induction t; cbn [drop_while length]; auto. destruct (f a); cbn [length]; lia. }
  assert (F : forall t r t', fscanf_newline t = (r, t') ->
    (length t' <= length t)%nat /\ (r = 1 -> (length t' < length t)%nat) /\ (r = 0 \/ r = 1 \/ r = EOF)).
  { intros. destruct t; cbn [fscanf_newline] in H. inversion H; subst. cbn. unfold EOF. intuition lia.
    destruct (_ =? _)%char; inversion H; subst; cbn [length]; intuition lia. }
  intros t r t' H. unfold skip_comment_line in H.
  destruct (fscanf_comment t) as [r1 t1] eqn:E.
  assert (L1 : (length t1 <= length t)%nat).
  { destruct t; cbn [fscanf_comment] in E. inversion E; subst; auto.
    destruct (_ =? _)%char; inversion E; subst; auto. cbn [length].
    pose proof (D (fun c => negb (c =? nl)%char) t). lia. }
  apply F in H. destruct (r1 =? 0).
  - unfold skip_trailing_whitespace in H. pose proof (D is_blank t1). intuition lia.
  - intuition lia.
Qed.

Definition clean (l : text) : Prop := ~ In nl l /\ ~ In vt l /\ ~ In ff l.

(** position of the stream at the start of a set or row: blanks skipped *)
Definition at_row (L : list text) : text :=
  match L with [] => [] | l :: ls => unlines (drop_while is_blank l :: ls) end.

Lemma realloc_length : forall A (u : A) a n, length (realloc u a n) = n.
Proof. intros. unfold realloc. rewrite app_length, firstn_length, repeat_length. lia. Qed.

Lemma realloc_firstn : forall A (u : A) a n k, (k <= length a)%nat -> (k <= n)%nat ->
  firstn k (realloc u a n) = firstn k a.
Proof.
  intros. unfold realloc. rewrite firstn_app, firstn_firstn, firstn_length.
  replace (k - Nat.min n (length a))%nat with 0%nat by lia. cbn. rewrite app_nil_r. f_equal. lia.
Qed.

Lemma firstn_upd_S : forall A (l : list A) k v, (k < length l)%nat ->
  firstn (S k) (upd l k v) = firstn k l ++ [v].
Proof.
  induction l; destruct k; cbn [length upd firstn app]; intros; auto; try lia.
  f_equal. apply IHl. lia.
Qed.

Lemma firstn_upd_le : forall A (l : list A) k j v, (k <= j)%nat -> firstn k (upd l j v) = firstn k l.
Proof.
  induction l; destruct k; destruct j; cbn [upd firstn]; intros; auto; try lia.
  f_equal. apply IHl. lia.
Qed.

Lemma drop_while_length : forall f t, (length (drop_while f t) <= length t)%nat.
Proof. induction t; cbn [drop_while length]; auto. destruct (f a); cbn [length]; lia. Qed.

Lemma newline_length : forall t r t', fscanf_newline t = (r, t') -> (length t' <= length t)%nat.
Proof. intros. destruct t; cbn in H. inversion H; auto. destruct (_ =? _)%char; inversion H; subst; cbn; lia. Qed.

Lemma skip_lines_total : forall f t, (length t < f)%nat ->
  exists r t', skip_lines f t = Ret (r, t') /\ (length t' <= length t)%nat /\ (r = 0 \/ r = EOF).
Proof.
  induction f; intros. lia. cbn [skip_lines]. destruct (skip_comment_line t) as [r t1] eqn:E.
  destruct (scl_length _ _ _ E) as (A & B & C). destruct (Z.eqb_spec r 1).
  - destruct (IHf t1) as (r' & t' & E' & A' & B'). lia. exists r', t'. split; auto. split; auto. lia.
  - exists r, t1. split; auto. split; auto. tauto.
Qed.

Lemma unlines_length : forall l l' ls, (length l' < length l)%nat ->
  (length (unlines (l' :: ls)) < length (unlines (l :: ls)))%nat.
Proof. intros. destruct ls. cbn [unlines]. auto. rewrite (unlines_cons l), (unlines_cons l') by discriminate. rewrite !app_length. lia. Qed.

Lemma clean_suffix : forall a b, clean (a ++ b) -> clean b.
Proof. intros a b (A & B & C). repeat split; intro; [apply A|apply B|apply C]; apply in_or_app; auto. Qed.

Lemma clean_drop : forall l, clean l -> clean (drop_while is_blank l).
Proof. intros l H. destruct (drop_blank_spec l) as (w & _ & E & _). rewrite E in H. eapply clean_suffix; eauto. Qed.

Lemma newline_after : forall r ls, clean r ->
  fscanf_newline (skip_trailing_whitespace (unlines (r :: ls))) =
    match drop_while is_blank r with
    | [] => match ls with [] => (EOF, []) | _ => (1, unlines ls) end
    | c :: l' => (0, unlines ((c :: l') :: ls))
    end.
Proof.
  intros r ls H. unfold skip_trailing_whitespace.
  assert (X : forall c l', drop_while is_blank r = c :: l' -> c <> nl).
  { intros c l' E ->. apply clean_drop in H. rewrite E in H. apply (proj1 H). now left. }
  destruct ls as [|l1 ls].
  - cbn [unlines]. destruct (drop_while is_blank r) as [|c l'] eqn:E. reflexivity.
    cbn [fscanf_newline]. destruct (eqb_spec c nl). exfalso; eapply X; eauto. reflexivity.
  - rewrite unlines_cons by discriminate. rewrite drop_blank_line.
    destruct (drop_while is_blank r) as [|c l'] eqn:E. reflexivity.
    cbn [app fscanf_newline]. destruct (eqb_spec c nl). exfalso; eapply X; eauto.
    rewrite (unlines_cons (c :: l')) by discriminate. reflexivity.
Qed.

Lemma cum_from_app : forall A (a : list (list A)) b n, cum_from n (a ++ b) = cum_from n a ++ cum_from (n + length (concat a)) b.
Proof.
  induction a; cbn [app cum_from concat length]; intros. now rewrite Nat.add_0_r.
  rewrite IHa, app_length. do 3 f_equal. lia.
Qed.

Lemma cum_from_length : forall A (a : list (list A)) n, length (cum_from n a) = length a.
Proof. induction a; cbn [cum_from length]; auto. Qed.

Lemma scl_nil : skip_comment_line [] = (EOF, []).
Proof. reflexivity. Qed.

Lemma at_row_length : forall L, (length (at_row L) <= length (unlines L))%nat.
Proof.
  destruct L as [|l ls]; cbn [at_row]; auto. pose proof (drop_while_length is_blank l).
  destruct ls. cbn [unlines]. auto. rewrite (unlines_cons l), (unlines_cons (drop_while is_blank l)) by discriminate. rewrite !app_length. lia.
Qed.

Lemma unlines_tl_length : forall l ls, (length (unlines ls) <= length (unlines (l :: ls)))%nat.
Proof. intros. destruct ls. cbn. lia. rewrite (unlines_cons l) by discriminate. rewrite app_length. cbn [length]. lia. Qed.

Lemma unlines_app_length : forall seps L, (length (unlines L) <= length (unlines (seps ++ L)))%nat.
Proof. induction seps; intros; cbn [app]. lia. etransitivity. apply IHseps. apply unlines_tl_length. Qed.

Lemma at_row_tl : forall l ls, ~ separator l -> (length (unlines ls) < length (at_row (l :: ls)))%nat.
Proof.
  intros. destruct (not_separator_drop l H) as (c & r & E & B). cbn [at_row]. rewrite E.
  destruct ls. cbn. lia. rewrite (unlines_cons (c :: r)) by discriminate. rewrite app_length. cbn [length]. lia.
Qed.

Lemma skip_lines_exact : forall L f, Forall clean L -> (length (unlines L) < f)%nat ->
  (Forall separator L -> skip_lines f (unlines L) = Ret (EOF, [])) /\
  (forall seps l ls, L = seps ++ l :: ls -> Forall separator seps -> ~ separator l ->
     skip_lines f (unlines L) = Ret (0, at_row (l :: ls))).
Proof.
  induction L as [|l0 L IH]; intros f HC Lf; (destruct f as [|f]; [exfalso; revert Lf; clear; intros; lia|]).
  - split. intros _. reflexivity. intros seps l ls E. destruct seps; discriminate.
  - assert (NLs : Forall (fun l => ~ In nl l) (l0 :: L)).
    { apply Forall_forall. intros l' Hl'. rewrite Forall_forall in HC. apply (HC l' Hl'). }
    destruct (scl_unlines l0 L NLs) as (Y1 & Y2 & Y3). inversion HC; subst.
    assert (L2 : L <> [] -> (length (unlines L) < f)%nat).
    { intros N. rewrite unlines_cons in Lf by auto. rewrite app_length in Lf. cbn [length] in Lf. lia. }
    split.
    + intros HS. inversion HS; subst. cbn [skip_lines]. destruct L as [|l1 L].
      * rewrite Y1 by auto. reflexivity.
      * rewrite Y2 by (auto || discriminate). cbn [Z.eqb Pos.eqb]. apply IH; auto. apply L2. discriminate.
    + intros seps l ls E HS Hl. cbn [skip_lines]. destruct seps as [|s0 seps].
      * cbn [app] in E. inversion E; subst. rewrite Y3 by auto. reflexivity.
      * cbn [app] in E. inversion E; subst. inversion HS; subst.
        assert (N : seps ++ l :: ls <> []) by (destruct seps; discriminate).
        rewrite Y2 by auto. cbn [Z.eqb Pos.eqb]. destruct (IH f) as [_ X]; auto. eapply X; eauto.
Qed.

Lemma seps_split : forall L, Forall separator L \/ exists seps l ls, L = seps ++ l :: ls /\ Forall separator seps /\ ~ separator l.
Proof.
  induction L as [|l L IH]. left; constructor. destruct (separator_dec l).
  - destruct IH as [IH|(seps & l' & ls & -> & H1 & H2)]. left; constructor; auto.
    right. exists (l :: seps), l', ls. split; auto.
  - right. exists [], l, L. split; auto.
Qed.

Lemma Forall_tl : forall A (P : A -> Prop) l, Forall P l -> Forall P (List.tl l).
Proof. intros A P l H. destruct H; cbn; auto. Qed.

Section Reader.
Variable num : Type.
Variable junk : num.
Variable junk_int : nat.
Variable scan : text -> option (num * text).
Variable inc : nat.
Hypothesis Hscan : valid_scanner num scan.
Hypothesis Hinc : (0 < inc)%nat.

Notation st := (st num).
Notation read_row := (read_row num junk scan inc).
Notation read_set := (read_set num junk scan inc).
Notation read_sets := (read_sets num junk junk_int scan inc).
Notation numbers := (numbers num scan).
Notation line_is := (line_is num scan).




(** the arrays have the recorded sizes *)
Record ok (s : st) : Prop := mk_ok {
  ok_data : length (data _ s) = datasize _ s;
  ok_cs : length (cumsizes _ s) = sizessize _ s;
  ok_nt : (ntotal _ s <= datasize _ s)%nat;
  ok_ns : (nsets _ s <= sizessize _ s)%nat }.

(** [s'] is [s] with the numbers [xs] appended *)
Record pushed (s : st) (xs : list num) (s' : st) : Prop := mk_pushed {
  p_nobjs : nobjs _ s' = nobjs _ s;
  p_nsets : nsets _ s' = nsets _ s;
  p_cs : cumsizes _ s' = cumsizes _ s;
  p_ss : sizessize _ s' = sizessize _ s;
  p_len : length (data _ s') = datasize _ s';
  p_le : (ntotal _ s' <= datasize _ s')%nat;
  p_nt : ntotal _ s' = (ntotal _ s + length xs)%nat;
  p_data : firstn (ntotal _ s') (data _ s') = firstn (ntotal _ s) (data _ s) ++ xs }.

Lemma pushed_nil : forall s, ok s -> pushed s [] s.
Proof. intros s []. constructor; cbn [length]; auto. now rewrite app_nil_r. Qed.

Lemma pushed_trans : forall s x s1 xs s2, pushed s x s1 -> pushed s1 xs s2 -> pushed s (x ++ xs) s2.
Proof.
  intros s x s1 xs s2 [] []. constructor; try congruence.
  - rewrite app_length. lia.
  - rewrite p_data1, p_data0, app_assoc. reflexivity.
Qed.

Lemma push_one : forall s x (G : ok s), exists d ds, 
  (let '(ds, d) := if (ntotal _ s =? datasize _ s)%nat
                then ((datasize _ s + inc)%nat, realloc junk (data _ s) (datasize _ s + inc))
                else (datasize _ s, data _ s) in (ds, wr d (ntotal _ s) x)) = (ds, Ret d) /\
  pushed s [x] (mk_st _ (nobjs _ s) (nsets _ s) (cumsizes _ s) (sizessize _ s) d ds (S (ntotal _ s))).
Proof.
  intros s x []. destruct (Nat.eqb_spec (ntotal _ s) (datasize _ s)).
  - eexists _, _. rewrite wr_ok by (rewrite realloc_length; lia). split. reflexivity.
    constructor; cbn; auto; try lia. rewrite upd_length, realloc_length. auto.
    change (firstn (S (ntotal _ s)) (upd (realloc junk (data num s) (datasize num s + inc)) (ntotal num s) x) = firstn (ntotal _ s) (data _ s) ++ [x]).
    rewrite firstn_upd_S by (rewrite realloc_length; lia). rewrite realloc_firstn by lia. reflexivity.
  - eexists _, _. rewrite wr_ok by lia. split. reflexivity.
    constructor; cbn; auto; try lia. rewrite upd_length. auto.
    change (firstn (S (ntotal _ s)) (upd (data num s) (ntotal num s) x) = firstn (ntotal _ s) (data _ s) ++ [x]).
    rewrite firstn_upd_S by lia. reflexivity.
Qed.

Lemma pushed_ok : forall s xs s', ok s -> pushed s xs s' -> ok s'.
Proof. intros s xs s' [] []. constructor; auto; lia || congruence. Qed.

(** one step of the loop over columns *)
Lemma read_row_step : forall f t col s x t1, ok s -> fscanf_number num scan t = Some (x, t1) ->
  exists s1, pushed s [x] s1 /\
  read_row (S f) t col s =
    let '(r, t2) := fscanf_newline (skip_trailing_whitespace t1) in
    if r =? 0 then read_row f t2 (S col) s1 else Ret (inr (t2, S col, s1)).
Proof.
  intros f t col s x t1 G E. destruct (push_one s x G) as (d & ds & Ed & P).
  eexists; split. exact P. cbn [IoModel.read_row]. rewrite E.
  destruct (ntotal num s =? datasize num s)%nat; inversion Ed; subst; clear Ed; rewrite H1; cbn [bind]; reflexivity.
Qed.

(** ** Totality for every text *)

Lemma number_length : forall t x t1, fscanf_number num scan t = Some (x, t1) -> (length t1 < length t)%nat.
Proof.
  intros. unfold fscanf_number in H. apply (proj1 Hscan) in H. destruct H as (tok & Ht & E).
  pose proof (drop_while_length isspace t). rewrite E, app_length in H. destruct tok; [congruence|]. cbn [length] in H. lia.
Qed.


Lemma read_row_total : forall f t col s, (length t < f)%nat -> ok s ->
  (exists s' xs, read_row f t col s = Ret (inl (ERROR_CONVERSION, s')) /\ pushed s xs s') \/
  (exists t' s' xs, read_row f t col s = Ret (inr (t', (col + length xs)%nat, s')) /\
     pushed s xs s' /\ (length t' < length t)%nat /\ xs <> []).
Proof.
  induction f; intros t col s L G. lia.
  destruct (fscanf_number num scan t) as [[x t1]|] eqn:E.
  2: { left. exists s, []. cbn [IoModel.read_row]. rewrite E. split; auto using pushed_nil. }
  destruct (read_row_step f t col s x t1 G E) as (s1 & P & ->).
  pose proof (number_length _ _ _ E) as L1.
  destruct (fscanf_newline (skip_trailing_whitespace t1)) as [r t2] eqn:E2.
  pose proof (newline_length _ _ _ E2) as L2. unfold skip_trailing_whitespace in L2.
  pose proof (drop_while_length is_blank t1) as L3.
  destruct (r =? 0).
  - destruct (IHf t2 (S col) s1) as [(s' & xs & Er & P')|(t' & s' & xs & Er & P' & L' & N)].
    lia. eapply pushed_ok; eauto.
    + left. exists s', (x :: xs). split; auto. change (x :: xs) with ([x] ++ xs). eapply pushed_trans; eauto.
    + right. exists t', s', (x :: xs). rewrite Er. cbn [length].
      split. do 4 f_equal. lia. split. change (x :: xs) with ([x] ++ xs). eapply pushed_trans; eauto.
      split. lia. discriminate.
  - right. exists t2, s1, [x]. cbn [length]. split. do 4 f_equal. lia. split. auto. split. lia. discriminate.
Qed.

Lemma read_set_total : forall f t s, (length t < f)%nat -> ok s -> (nsets _ s < sizessize _ s)%nat ->
  exists r, read_set f t s = Ret r /\
    match r with
    | inl (e, s') => ok s' /\ e <> 0
    | inr (t', s') => ok s' /\ (length t' < length t)%nat /\ (nsets _ s' < sizessize _ s')%nat
    end.
Proof.
  induction f; intros t s L G NS. lia. cbn [IoModel.read_set].
  destruct (read_row_total (S f) t 0 s) as [(s' & xs & Er & P)|(t' & s' & xs & Er & P & L' & N)]; auto; rewrite Er; cbn [bind].
  - exists (inl (ERROR_CONVERSION, s')). split; auto. split. eapply pushed_ok; eauto. discriminate.
  - assert (G' : ok s') by (eapply pushed_ok; eauto). destruct P.
    assert (NS' : (nsets _ s' < length (cumsizes _ s'))%nat). { destruct G. rewrite p_nsets0, p_cs0. lia. }
    destruct ((nobjs num s' =? 0)%nat || (0 + length xs =? nobjs num s')%nat).
    + rewrite (rd_ok _ _ _ 0%nat) by auto. cbn [bind]. rewrite wr_ok by auto. cbn [bind].
      destruct (skip_comment_line t') as [r t2] eqn:E2. destruct (scl_length _ _ _ E2) as (A & B & C).
      match goal with |- context [read_set f t2 ?x] => set (s2 := x) end.
      assert (G2 : ok s2). { destruct G'. subst s2. constructor; cbn; auto. now rewrite upd_length. }
      destruct (r =? 0).
      * destruct (IHf t2 s2) as (r' & Er' & Hr'); auto. lia. { subst s2; cbn. rewrite p_nsets0, p_ss0. auto. }
        exists r'. split; auto. destruct r' as [[e s'']|[t'' s'']]; intuition lia.
      * eexists. split. reflexivity. split; auto. split. lia. subst s2; cbn. rewrite p_nsets0, p_ss0. auto.
    + rewrite (rd_ok _ _ _ 0%nat) by lia. cbn [bind]. eexists. split. reflexivity. cbn. split; auto.
      destruct (_ =? 0)%nat; discriminate.
Qed.


Lemma read_sets_total : forall f t s, (length t < f)%nat -> ok s ->
  exists e s', read_sets f t s = Ret (e, s') /\ ok s'.
Proof.
  induction f; intros t s L G. lia. cbn [IoModel.read_sets].
  assert (X : exists ss cs, (if (nsets num s =? sizessize num s)%nat
       then ((sizessize num s + inc)%nat, realloc junk_int (cumsizes num s) (sizessize num s + inc))
       else (sizessize num s, cumsizes num s)) = (ss, cs) /\ length cs = ss /\ (nsets _ s < ss)%nat).
  { destruct G. destruct (Nat.eqb_spec (nsets num s) (sizessize num s)).
    - eexists _, _. split. reflexivity. rewrite realloc_length. lia.
    - eexists _, _. split. reflexivity. lia. }
  destruct X as (ss & cs & -> & Hcs & Hss).
  assert (Y : exists prev, (if (nsets num s =? 0)%nat then Ret 0%nat else rd cs (nsets num s - 1)) = Ret prev).
  { destruct (_ =? 0)%nat. eauto. rewrite (rd_ok _ _ _ 0%nat). eauto. lia. }
  destruct Y as (prev & ->). cbn [bind]. rewrite wr_ok by lia. cbn [bind].
  match goal with |- context [read_set (S f) t ?x] => set (s2 := x) end.
  destruct (read_set_total (S f) t s2) as (r & -> & Hr); auto.
  { destruct G. subst s2. constructor; cbn; auto. now rewrite upd_length. lia. }
  cbn [bind]. destruct r as [[e s']|[t' s']].
  - exists e, s'. tauto.
  - destruct Hr as (G' & L' & N'). destruct (skip_lines_total (S f) t') as (r & t2 & -> & L2 & _). lia.
    cbn [bind fst snd]. match goal with |- context [read_sets f t2 ?x] => set (s3 := x) end.
    assert (G3 : ok s3). { destruct G'. subst s3. constructor; cbn; auto. }
    destruct (r =? EOF). eauto. apply IHf; auto. lia.
Qed.

(** ** Exactness, line by line *)

Lemma numbers_inv : forall c l xs, ~ blank_char c -> numbers (c :: l) xs ->
  exists x r ys, xs = x :: ys /\ scan (c :: l) = Some (x, r) /\ numbers r ys.
Proof.
  intros c l xs B H. inversion H; subst.
  - inversion H0; subst. contradiction.
  - destruct w as [|b w]; cbn [app] in H0.
    + inversion H0; subst. eauto 7.
    + inversion H0; subst. inversion H1; subst. contradiction.
Qed.

Lemma numbers_drop : forall l xs, numbers l xs <-> numbers (drop_while is_blank l) xs.
Proof.
  intros. destruct (drop_blank_spec l) as (w & H1 & H2 & H3). split; intros H.
  - inversion H; subst.
    + rewrite drop_blank_all by auto. constructor. constructor.
    + rewrite drop_blank_app by auto. change (c :: l0) with ([] ++ c :: l0). econstructor; eauto.
  - destruct (drop_while is_blank l) as [|c r] eqn:E.
    + rewrite app_nil_r in H2; subst. inversion H; subst. now constructor. destruct w0; discriminate.
    + destruct (numbers_inv c r xs) as (x & r' & ys & -> & Hx & Hn); eauto.
      rewrite H2. econstructor; eauto.
Qed.

Lemma numbers_nonempty : forall l xs, ~ separator l -> numbers l xs -> xs <> [].
Proof. intros l xs H N ->. inversion N; subst. apply H. now right. Qed.

Lemma numbers_fun : forall l xs, numbers l xs -> forall ys, numbers l ys -> xs = ys.
Proof.
  induction 1 as [w Hw|w c l x r xs Hw Hc Hs Hn IH]; intros ys H.
  - inversion H; subst; auto. exfalso. apply Forall_app in Hw. destruct Hw as [_ Hw]. inversion Hw; subst; contradiction.
  - apply numbers_drop in H. rewrite drop_blank_app in H by auto.
    apply numbers_inv in H; auto. destruct H as (x' & r' & zs & -> & E & Hz). rewrite E in Hs. inversion Hs; subst.
    f_equal; auto.
Qed.

Lemma scan_consumes : forall l x r, scan l = Some (x, r) -> exists tok, tok <> [] /\ l = tok ++ r.
Proof. apply Hscan. Qed.



Lemma scan_line : forall c l ls, clean (c :: l) -> ~ blank_char c ->
  fscanf_number num scan (unlines ((c :: l) :: ls)) =
    match scan (c :: l) with Some (x, r) => Some (x, unlines (r :: ls)) | None => None end.
Proof.
  intros c l ls (A & B & C) D. unfold fscanf_number.
  assert (S : forall r, drop_while isspace (c :: r) = c :: r).
  { intros. cbn [drop_while]. unfold isspace. apply is_blank_false in D. rewrite D.
    destruct (eqb_spec c nl). exfalso; apply A; now left. destruct (eqb_spec c vt). exfalso; apply B; now left.
    destruct (eqb_spec c ff). exfalso; apply C; now left. reflexivity. }
  destruct ls as [|l1 ls].
  - cbn [unlines]. rewrite S. destruct (scan (c :: l)) as [[]|]; auto.
  - rewrite unlines_cons by discriminate. cbn [app]. rewrite S. change (c :: l ++ nl :: unlines (l1 :: ls)) with ((c :: l) ++ nl :: unlines (l1 :: ls)).
    rewrite (proj2 Hscan) by auto. destruct (scan (c :: l)) as [[x r]|]; auto.
Qed.



Lemma read_row_exact : forall n c l ls f col s, (length l <= n)%nat -> clean (c :: l) -> ~ blank_char c -> ok s ->
  (length (unlines ((c :: l) :: ls)) < f)%nat ->
  (forall xs, numbers (c :: l) xs -> exists s', pushed s xs s' /\
     read_row f (unlines ((c :: l) :: ls)) col s = Ret (inr (unlines ls, (col + length xs)%nat, s'))) /\
  ((~ exists xs, numbers (c :: l) xs) -> exists s' xs, pushed s xs s' /\
     read_row f (unlines ((c :: l) :: ls)) col s = Ret (inl (ERROR_CONVERSION, s'))).
Proof.
  induction n; intros c l ls f col s Ln Hc Hb G Lf;
  (destruct f as [|f]; [exfalso; revert Lf; clear; intros; lia|]);
  pose proof (scan_line c l ls Hc Hb) as SL;
  (destruct (scan (c :: l)) as [[x r]|] eqn:Es;
   [ | split; [intros xs Hx; apply numbers_inv in Hx; auto; destruct Hx as (? & ? & ? & _ & E & _); congruence
     | intros _; exists s, []; split; [now apply pushed_nil|]; cbn [IoModel.read_row]; rewrite SL; reflexivity]]);
  (destruct (scan_consumes _ _ _ Es) as (tok & Ht & Et));
  (assert (Lr : (length r <= length l)%nat)
    by (destruct tok; [congruence|]; cbn [app] in Et; inversion Et; rewrite app_length; lia));
  (assert (Cr : clean r) by (eapply clean_suffix; rewrite <- Et; auto));
  (destruct (read_row_step f _ col s x _ G SL) as (s1 & P & Er));
  pose proof (newline_after r ls Cr) as NA; rewrite NA in Er;
  pose proof (drop_while_length is_blank r) as Ld;
  (destruct (drop_while is_blank r) as [|c1 l1] eqn:Ed).
  - assert (N1 : numbers (c :: l) [x]).
    { change (c :: l) with ([] ++ c :: l). econstructor; eauto. apply numbers_drop. rewrite Ed. constructor; constructor. }
    split; [|intros N; exfalso; eauto].
    intros xs Hx. rewrite (numbers_fun _ _ Hx _ N1). exists s1. split; auto. rewrite Er.
    destruct ls; cbn; rewrite Nat.add_1_r; reflexivity.
  - destruct l; cbn [length] in *; lia.
  - assert (N1 : numbers (c :: l) [x]).
    { change (c :: l) with ([] ++ c :: l). econstructor; eauto. apply numbers_drop. rewrite Ed. constructor; constructor. }
    split; [|intros N; exfalso; eauto].
    intros xs Hx. rewrite (numbers_fun _ _ Hx _ N1). exists s1. split; auto. rewrite Er.
    destruct ls; cbn; rewrite Nat.add_1_r; reflexivity.
  - cbn [Z.eqb] in Er.
    assert (B1 : ~ blank_char c1).
    { destruct (drop_blank_spec r) as (w & _ & _ & H3). rewrite Ed in H3. eapply H3; eauto. }
    assert (C1 : clean (c1 :: l1)). { rewrite <- Ed. now apply clean_drop. }
    cbn [length] in Ld. destruct (IHn c1 l1 ls f (S col) s1) as [IH1 IH2]; auto. lia. eapply pushed_ok; eauto.
    { assert (length (c1 :: l1) < length (c :: l))%nat by (cbn [length]; lia). apply (unlines_length _ _ ls) in H. lia. }
    split.
    + intros xs Hx. destruct (numbers_inv _ _ _ Hb Hx) as (x0 & r0 & ys & -> & E0 & Hy).
      rewrite E0 in Es. inversion Es; subst x0 r0. apply numbers_drop in Hy. rewrite Ed in Hy.
      destruct (IH1 ys Hy) as (s' & P' & E'). exists s'. split.
      change (x :: ys) with ([x] ++ ys). eapply pushed_trans; eauto.
      rewrite Er, E'. cbn [length]. do 4 f_equal. lia.
    + intros N. destruct IH2 as (s' & xs & P' & E').
      { intros (ys & Hy). apply N. exists (x :: ys). change (c :: l) with ([] ++ c :: l). econstructor; eauto.
        apply numbers_drop. now rewrite Ed. }
      exists s', (x :: xs). split. change (x :: xs) with ([x] ++ xs). eapply pushed_trans; eauto. now rewrite Er, E'.
Qed.

(** the same for a line that is not a separator, starting after its blanks *)
Lemma read_row_line : forall l ls f s, clean l -> ~ separator l -> ok s ->
  (length (unlines (drop_while is_blank l :: ls)) < f)%nat ->
  (forall xs, numbers l xs -> exists s', pushed s xs s' /\
     read_row f (unlines (drop_while is_blank l :: ls)) 0 s = Ret (inr (unlines ls, length xs, s'))) /\
  ((~ exists xs, numbers l xs) -> exists s' xs, pushed s xs s' /\
     read_row f (unlines (drop_while is_blank l :: ls)) 0 s = Ret (inl (ERROR_CONVERSION, s'))).
Proof.
  intros l ls f s Hc Hs G L. destruct (not_separator_drop l Hs) as (c & r & E & B).
  assert (C1 : clean (c :: r)). { rewrite <- E. now apply clean_drop. }
  rewrite E in *. destruct (read_row_exact (length r) c r ls f 0 s) as [A1 A2]; auto.
  split.
  - intros xs H. apply A1. rewrite <- E. now apply numbers_drop in H.
  - intros H. apply A2. intros (xs & Hx). apply H. exists xs. apply numbers_drop. now rewrite E.
Qed.

(** ** The state in the middle of a set *)
Definition flat (sets : list (list (list num))) : list num := concat (concat sets).

Record inv (s : st) (w : nat) (done : list (list (list num))) (cur : list (list num)) : Prop := mk_inv {
  i_ok : ok s;
  i_nobjs : nobjs _ s = w;
  i_nsets : nsets _ s = length done;
  i_room : (nsets _ s < sizessize _ s)%nat;
  i_cs : firstn (S (nsets _ s)) (cumsizes _ s) = cum_from 0 (done ++ [cur]);
  i_nt : ntotal _ s = length (flat (done ++ [cur]));
  i_data : firstn (ntotal _ s) (data _ s) = flat (done ++ [cur]);
  i_ne : Forall (fun x => x <> []) done }.

Record finv (s : st) (w : nat) (done : list (list (list num))) : Prop := mk_finv {
  f_ok : ok s;
  f_nobjs : nobjs _ s = w;
  f_nsets : nsets _ s = length done;
  f_cs : firstn (nsets _ s) (cumsizes _ s) = cum_from 0 done;
  f_nt : ntotal _ s = length (flat done);
  f_data : firstn (ntotal _ s) (data _ s) = flat done;
  f_ne : Forall (fun x => x <> []) done }.

Lemma flat_snoc : forall done cur r, flat (done ++ [cur ++ [r]]) = flat (done ++ [cur]) ++ r.
Proof.
  intros. unfold flat. rewrite !concat_app. cbn [concat]. rewrite !app_nil_r, !concat_app. cbn [concat].
  now rewrite !app_nil_r, app_assoc.
Qed.


Lemma cs_bump : forall (cs : list nat) done (cur : list (list num)) r,
  firstn (S (length done)) cs = cum_from 0 (done ++ [cur]) -> (length done < length cs)%nat ->
  nth (length done) cs 0%nat = length (concat (done ++ [cur])) /\
  firstn (S (length done)) (upd cs (length done) (S (nth (length done) cs 0%nat))) = cum_from 0 (done ++ [cur ++ [r]]).
Proof.
  intros cs done cur r H L.
  assert (E : nth (length done) cs 0%nat = length (concat (done ++ [cur]))).
  { rewrite <- (firstn_skipn (S (length done)) cs), H.
    rewrite app_nth1 by (rewrite cum_from_length, app_length; cbn; lia).
    rewrite cum_from_app. rewrite app_nth2 by (rewrite cum_from_length; lia). rewrite cum_from_length, Nat.sub_diag.
    cbn [cum_from nth]. rewrite concat_app, app_length. cbn [concat]. rewrite app_nil_r. reflexivity. }
  split; auto. rewrite firstn_upd_S by auto. rewrite E.
  assert (F : firstn (length done) cs = cum_from 0 done).
  { apply (f_equal (firstn (length done))) in H. rewrite firstn_firstn in H. replace (Nat.min (length done) (S (length done))) with (length done) in H by lia.
    rewrite H. rewrite cum_from_app. rewrite firstn_app, cum_from_length, Nat.sub_diag. cbn [firstn]. rewrite app_nil_r.
    rewrite <- (cum_from_length _ done 0) at 1. apply firstn_all. }
  rewrite F, cum_from_app. f_equal. cbn [cum_from]. f_equal. rewrite !concat_app, !app_length. cbn [concat].
  rewrite app_nil_r. cbn [length]. lia.
Qed.

Lemma inv_row : forall s w done cur xs s1 w', inv s w done cur -> pushed s xs s1 ->
  inv (mk_st _ w' (nsets _ s1) (upd (cumsizes _ s1) (nsets _ s1) (S (nth (nsets _ s1) (cumsizes _ s1) 0%nat)))
        (sizessize _ s1) (data _ s1) (datasize _ s1) (ntotal _ s1)) w' done (cur ++ [xs]).
Proof.
  intros s w done cur xs s1 w' [G A B C D E F Ne] P. pose proof (pushed_ok _ _ _ G P) as G1. destruct P. destruct G1 as [O1 O2 O3 O4].
  assert (L : (length done < length (cumsizes _ s1))%nat). { rewrite p_cs0. destruct G. lia. }
  rewrite B in D. rewrite <- p_cs0 in D.
  destruct (cs_bump _ _ _ xs D L) as [X Y].
  constructor; cbn; auto.
  - constructor; cbn; auto. now rewrite upd_length.
  - congruence.
  - rewrite p_nsets0, p_ss0. auto.
  - rewrite p_nsets0, B. exact Y.
  - rewrite p_nt0, E, flat_snoc, app_length. reflexivity.
  - rewrite p_data0, F, flat_snoc. reflexivity.
Qed.

Lemma inv_cs0 : forall s w done cur, inv s w done cur ->
  exists c0, rd (cumsizes _ s) 0 = Ret c0 /\ (c0 = 0%nat <-> done = [] /\ cur = []).
Proof.
  intros s w done cur [G A B C D E F Ne].
  assert (L : (0 < length (cumsizes _ s))%nat) by (destruct G; lia).
  exists (nth 0 (cumsizes _ s) 0%nat). split. now apply rd_ok.
  assert (X : nth 0 (cumsizes _ s) 0%nat = nth 0 (cum_from 0 (done ++ [cur])) 0%nat).
  { rewrite <- D. destruct (cumsizes _ s); auto. }
  rewrite X. destruct done as [|d0 done]; cbn [app cum_from nth].
  - destruct cur; cbn; intuition congruence.
  - inversion Ne; subst. destruct d0; [congruence|]. cbn. intuition congruence.
Qed.

(** a row of [w] numbers *)
Definition rowline (w : nat) (l : text) (xs : list num) : Prop :=
  ~ separator l /\ numbers l xs /\ length xs = w.







Definition mismatch_code (done : list (list (list num))) (cur : list (list num)) : Z :=
  match done, cur with [], [] => READ_INPUT_WRONG_INITIAL_DIM | _, _ => ERROR_COLUMNS end.

Lemma read_set_run : forall w run rows, Forall2 (rowline w) run rows ->
  forall tail f s w0 done cur, Forall clean (run ++ tail) -> inv s w0 done cur -> (w0 = w \/ w0 = 0%nat) ->
  (length (at_row (run ++ tail)) < f)%nat ->
  (run <> [] -> (tail = [] \/ exists sp rest, tail = sp :: rest /\ separator sp) ->
     exists s', read_set f (at_row (run ++ tail)) s = Ret (inr (unlines (List.tl tail), s')) /\ inv s' w done (cur ++ rows)) /\
  (forall l post, tail = l :: post -> ~ separator l -> (~ exists xs, numbers l xs) ->
     exists s', read_set f (at_row (run ++ tail)) s = Ret (inl (ERROR_CONVERSION, s'))) /\
  (forall l post xs, tail = l :: post -> ~ separator l -> numbers l xs -> length xs <> w -> (run <> [] \/ (w0 = w /\ w <> 0%nat)) ->
     exists s', read_set f (at_row (run ++ tail)) s = Ret (inl (mismatch_code done (cur ++ rows), s'))).
Proof.
  intros w run rows HR. induction HR as [|l xs run rows (Hsep & Hn & Hw) HR IH];
    intros tail f s w0 done cur HC HI Hw0 Lf; (destruct f as [|f]; [exfalso; revert Lf; clear; intros; lia|]).
  - cbn [app] in *. split; [congruence|]. split.
    + intros l post -> Hl Hbad. cbn [at_row] in *. inversion HC; subst.
      destruct (read_row_line l post (S f) s) as [_ X]; auto. apply HI.
      destruct (X Hbad) as (s' & xs & P & E). exists s'. cbn [IoModel.read_set]. rewrite E. reflexivity.
    + intros l post xs -> Hl Hn Hw [|[Hw1 Hw2]]. congruence. subst w0. inversion HC; subst. cbn [at_row] in *.
      destruct (read_row_line l post (S f) s) as [X _]; auto. apply HI.
      destruct (X xs Hn) as (s' & P & E). exists s'. cbn [IoModel.read_set]. rewrite E. cbn [bind].
      assert (Nb : nobjs _ s' = w). { destruct P, HI. congruence. }
      rewrite Nb. destruct (Nat.eqb_spec w 0); [contradiction|]. destruct (Nat.eqb_spec (length xs) w); [contradiction|].
      cbn [orb]. destruct (inv_cs0 _ _ _ _ HI) as (c0 & R & Z0). rewrite <- (p_cs _ _ _ P) in R. rewrite R. cbn [bind].
      do 3 f_equal. rewrite app_nil_r. unfold mismatch_code. destruct (Nat.eqb_spec c0 0).
      * destruct (proj1 Z0 e) as [-> ->]. reflexivity.
      * destruct done; auto. destruct cur; auto. exfalso. apply n1. apply Z0. auto.
  - cbn [app] in *. inversion HC as [|? ? Cl HC']; subst x l0.
    assert (W : w <> 0%nat). { pose proof (numbers_nonempty _ _ Hsep Hn). destruct xs; cbn in Hw; congruence || lia. }
    destruct (read_row_line l (run ++ tail) (S f) s) as [X _]; auto. apply HI.
    destruct (X xs Hn) as (s1 & P & E).
    assert (Nb : nobjs _ s1 = w0). { destruct P, HI. congruence. }
    assert (NS : (nsets _ s1 < length (cumsizes _ s1))%nat).
    { destruct P, HI. destruct i_ok0. rewrite p_nsets0, p_cs0. lia. }
    pose proof (inv_row s w0 done cur xs s1 w HI P) as HI2.
    set (s2 := mk_st _ w (nsets _ s1) (upd (cumsizes _ s1) (nsets _ s1) (S (nth (nsets _ s1) (cumsizes _ s1) 0%nat)))
        (sizessize _ s1) (data _ s1) (datasize _ s1) (ntotal _ s1)) in *.
    assert (STEP : read_set (S f) (at_row (l :: run ++ tail)) s =
              let '(retval, t2) := skip_comment_line (unlines (run ++ tail)) in
              if retval =? 0 then read_set f t2 s2 else Ret (inr (t2, s2))).
    { cbn [IoModel.read_set at_row]. cbn [at_row] in E. rewrite E. cbn [bind]. rewrite Nb, Hw.
      replace ((w0 =? 0)%nat || (w =? w0)%nat) with true.
      2: { destruct Hw0; subst w0. rewrite Nat.eqb_refl, orb_true_r. reflexivity. reflexivity. }
      rewrite (rd_ok _ _ _ 0%nat) by auto. cbn [bind]. rewrite wr_ok by auto. cbn [bind].
      replace (if (w0 =? 0)%nat then w else w0) with w. reflexivity.
      destruct Hw0; subst w0. destruct (w =? 0)%nat; auto. reflexivity. }
    assert (NLs : Forall (fun l => ~ In nl l) (run ++ tail)).
    { apply Forall_forall. intros l' Hl'. rewrite Forall_forall in HC'. apply (HC' l' Hl'). }
    assert (NEXT : forall l1 ls, run ++ tail = l1 :: ls -> ~ separator l1 ->
       read_set (S f) (at_row (l :: run ++ tail)) s = read_set f (at_row (run ++ tail)) s2).
    { intros l1 ls EL S1. rewrite STEP, EL. rewrite EL in NLs. rewrite (proj2 (proj2 (scl_unlines l1 ls NLs)) S1). reflexivity. }
    assert (LT : (length (at_row (run ++ tail)) < f)%nat).
    { pose proof (at_row_length (run ++ tail)). pose proof (at_row_tl l (run ++ tail) Hsep). cbn [app] in *. lia. }
    specialize (IH tail f s2 w done (cur ++ [xs]) HC' HI2 (or_introl eq_refl) LT).
    rewrite <- app_assoc in IH. cbn [app] in IH. destruct IH as (IH1 & IH2 & IH3).
    assert (RUN : forall l1 r1, run = l1 :: r1 -> ~ separator l1).
    { intros l1 r1 ->. inversion HR; subst. destruct H1; auto. }
    split; [|split].
    + intros _ Ht. destruct run as [|l1 run].
      * inversion HR; subst. cbn [app] in *. destruct Ht as [->|(sp & rest & -> & Hsp)].
        -- rewrite STEP. cbn [unlines]. rewrite scl_nil. cbn. exists s2. split; auto.
        -- rewrite STEP. destruct (scl_unlines sp rest NLs) as (Y1 & Y2 & _). destruct rest as [|r0 rest].
           ++ rewrite Y1 by auto. cbn. exists s2. split; auto.
           ++ rewrite Y2 by (auto || discriminate). cbn [List.tl]. exists s2. split; auto.
      * rewrite (NEXT l1 (run ++ tail) eq_refl) by (eapply RUN; eauto). apply IH1; auto. discriminate.
    + intros l' post Ht S' Bad. rewrite (NEXT (hd l' run) (List.tl (run ++ tail))).
      * eapply IH2; eauto.
      * subst tail. destruct run; reflexivity.
      * destruct run; cbn [hd]; auto. eapply RUN; eauto.
    + intros l' post ys Ht S' Hy Ly _. rewrite (NEXT (hd l' run) (List.tl (run ++ tail))).
      * eapply IH3; eauto.
      * subst tail. destruct run; reflexivity.
      * destruct run; cbn [hd]; auto. eapply RUN; eauto.
Qed.

(** ** Lists of lines *)


Notation group := (group num).

Lemma decompose : forall w L rs, Forall2 line_is L rs -> all_of_width num w rs ->
  exists run rows rest rs', L = run ++ rest /\ Forall2 (rowline w) run rows /\ Forall2 line_is rest rs' /\ rs = map Some rows ++ rs' /\
    (rest = [] \/ exists sp rest', rest = sp :: rest' /\ separator sp) /\
    group rs = (match rows with [] => group rs' | _ => rows :: group rs' end).
Proof.
  intros w L rs H. induction H as [|l r L rs Hl H IH]; intros W.
  - exists [], [], [], []. split; auto. split; [constructor|]. split; [constructor|]. auto.
  - inversion Hl; subst.
    + exists [], [], (l :: L), (None :: rs). split; auto. split. constructor. split. constructor; auto. split; auto. split; auto.
      right; eauto.
    + destruct IH as (run & rows & rest & rs' & -> & R & R' & E & T & Gr). { intros ys Hy; apply W; now right. }
      exists (l :: run), (xs :: rows), rest, rs'. split; auto. split.
      { constructor; auto. split; auto. split; auto. apply W. now left. }
      split; auto. split. cbn [map app]. congruence. split; auto.
      cbn [IoSpec.group]. rewrite Gr. destruct rows as [|y rows].
      * cbn [map app] in E. subst rs'. replace (starts_with_row num rs) with false. reflexivity.
        destruct T as [->|(sp & rest' & -> & Hsp)]. inversion R'; subst; reflexivity.
        inversion R'; subst. inversion H4; subst. reflexivity. contradiction.
      * rewrite E. cbn [map app starts_with_row]. reflexivity.
Qed.

Lemma group_seps : forall seps rs L, Forall separator seps -> Forall2 line_is (seps ++ L) rs ->
  exists rs', rs = map (fun _ => None) seps ++ rs' /\ Forall2 line_is L rs' /\ group rs = group rs'.
Proof.
  induction seps; cbn [app]; intros rs L HS H.
  - exists rs. auto.
  - inversion H as [|? ? ? ? Ha Hb]; subst. inversion HS as [|? ? Hsa Hsb]; subst.
    destruct (IHseps _ _ Hsb Hb) as (rs' & -> & A & B).
    inversion Ha; subst; [|contradiction]. exists rs'. split; auto.
Qed.

Lemma group_all_seps : forall L rs, Forall2 line_is L rs -> (Forall separator L <-> group rs = []).
Proof.
  intros L rs H. split.
  - intros HS. rewrite <- (app_nil_r L) in H. destruct (group_seps L rs [] HS H) as (rs' & -> & A & ->).
    inversion A; subst. reflexivity.
  - induction H as [|l r L rs Hl H IH]; intros E; auto.
    inversion Hl; subst.
    + constructor; auto.
    + cbn [IoSpec.group] in E. destruct (starts_with_row num rs); destruct (group rs); discriminate.
Qed.

(** the state between two sets: room for the next set is made *)
Lemma begin_set : forall s w done, finv s w done -> exists ss cs prev,
  (if (nsets num s =? sizessize num s)%nat
   then ((sizessize num s + inc)%nat, realloc junk_int (cumsizes num s) (sizessize num s + inc))
   else (sizessize num s, cumsizes num s)) = (ss, cs) /\
  (if (nsets num s =? 0)%nat then Ret 0%nat else rd cs (nsets num s - 1)) = Ret prev /\
  wr cs (nsets _ s) prev = Ret (upd cs (nsets _ s) prev) /\
  inv (mk_st _ (nobjs _ s) (nsets _ s) (upd cs (nsets _ s) prev) ss (data _ s) (datasize _ s) (ntotal _ s)) w done [].
Proof.
  intros s w done [G A B D E F Ne].
  assert (X : exists ss cs, (if (nsets num s =? sizessize num s)%nat
       then ((sizessize num s + inc)%nat, realloc junk_int (cumsizes num s) (sizessize num s + inc))
       else (sizessize num s, cumsizes num s)) = (ss, cs) /\ length cs = ss /\ (nsets _ s < ss)%nat /\
       firstn (nsets _ s) cs = firstn (nsets _ s) (cumsizes _ s)).
  { destruct G. destruct (Nat.eqb_spec (nsets num s) (sizessize num s)).
    - eexists _, _. split. reflexivity. rewrite realloc_length. split; auto. split. lia. apply realloc_firstn; lia.
    - eexists _, _. split. reflexivity. split; auto. split; auto. lia. }
  destruct X as (ss & cs & EX & Lcs & Lss & Fcs).
  assert (Y : (if (nsets num s =? 0)%nat then Ret 0%nat else rd cs (nsets num s - 1)) = Ret (length (concat done))).
  { destruct (Nat.eqb_spec (nsets num s) 0).
    - destruct done; [reflexivity|cbn in B; lia].
    - rewrite (rd_ok _ _ _ 0%nat) by lia. f_equal.
      rewrite <- (firstn_skipn (nsets _ s) cs). rewrite app_nth1 by (rewrite firstn_length; lia). rewrite Fcs, D.
      destruct (exists_last (l := done)) as (d & x & ->). { intros ->. cbn in B. lia. }
      rewrite cum_from_app. rewrite B, app_length. cbn [length]. rewrite app_nth2 by (rewrite cum_from_length; lia).
      rewrite cum_from_length. replace (length d + 1 - 1 - length d)%nat with 0%nat by lia. cbn.
      rewrite concat_app, app_length. cbn. rewrite app_nil_r. reflexivity. }
  exists ss, cs, (length (concat done)). split; auto. split; auto. split. apply wr_ok. lia.
  destruct G. constructor; cbn [nobjs nsets cumsizes sizessize data datasize ntotal]; auto.
  - constructor; cbn; auto. now rewrite upd_length. lia.
  - rewrite firstn_upd_S by lia. rewrite Fcs, D, cum_from_app. cbn. rewrite Nat.add_0_r. reflexivity.
  - rewrite E. unfold flat. rewrite !concat_app. cbn. now rewrite app_nil_r.
  - rewrite F. unfold flat. rewrite !concat_app. cbn. now rewrite app_nil_r.
Qed.

Lemma end_set : forall s w done cur, inv s w done cur -> cur <> [] ->
  finv (mk_st _ (nobjs _ s) (S (nsets _ s)) (cumsizes _ s) (sizessize _ s) (data _ s) (datasize _ s) (ntotal _ s)) w (done ++ [cur]).
Proof.
  intros s w done cur [G A B C D E F Ne] N. destruct G.
  constructor; cbn [nobjs nsets cumsizes sizessize data datasize ntotal]; auto.
  - constructor; cbn; auto.
  - rewrite app_length. cbn. lia.
  - apply Forall_app. auto.
Qed.


Lemma read_sets_exact : forall n L, (length L <= n)%nat -> forall f s w w0 done l ls,
  L = l :: ls -> ~ separator l -> Forall clean L -> finv s w0 done -> (w0 = w \/ w0 = 0%nat) ->
  (length (at_row L) < f)%nat ->
  (forall rs, Forall2 line_is L rs -> all_of_width num w rs ->
     exists s', read_sets f (at_row L) s = Ret (0, s') /\ finv s' w (done ++ group rs)) /\
  (forall pre l' post rs, L = pre ++ l' :: post -> Forall2 line_is pre rs -> all_of_width num w rs ->
     ~ separator l' -> (~ exists xs, numbers l' xs) ->
     exists s', read_sets f (at_row L) s = Ret (ERROR_CONVERSION, s')) /\
  (forall pre l' post rs xs, L = pre ++ l' :: post -> Forall2 line_is pre rs -> all_of_width num w rs ->
     ~ separator l' -> numbers l' xs -> length xs <> w -> (pre <> [] \/ (w0 = w /\ w <> 0%nat)) ->
     exists s', read_sets f (at_row L) s = Ret (mismatch_code done (concat (group rs)), s')).
Proof.
  induction n; intros L Ln f s w w0 done l ls EL Hl HC HI Hw Lf. { subst; cbn in Ln; lia. }
  destruct f as [|f]; [exfalso; revert Lf; clear; intros; lia|].
  cbn [IoModel.read_sets]. destruct (begin_set s w0 done HI) as (ss & cs & prev & -> & -> & E2 & HI1).
  cbn [bind]. rewrite E2. cbn [bind].
  match goal with |- context [read_set (S f) _ ?x] => set (s1 := x) in * end.
  (* what happens after a complete set *)
  assert (REST : forall run rows rest, rows <> [] -> L = run ++ rest -> Forall2 (rowline w) run rows ->
     (rest = [] \/ exists sp rest', rest = sp :: rest' /\ separator sp) ->
     exists s2, finv s2 w (done ++ [rows]) /\
     (r <- read_set (S f) (at_row L) s1 ;;
      match r with inl e => Ret e | inr (t1, s') =>
        sk <- skip_lines (S f) t1 ;;
        if fst sk =? EOF then Ret (0, mk_st num (nobjs num s') (S (nsets num s')) (cumsizes num s') (sizessize num s')
                         (data num s') (datasize num s') (ntotal num s'))
        else read_sets f (snd sk) (mk_st num (nobjs num s') (S (nsets num s')) (cumsizes num s') (sizessize num s')
                         (data num s') (datasize num s') (ntotal num s')) end)
     = (sk <- skip_lines (S f) (unlines (List.tl rest)) ;; if fst sk =? EOF then Ret (0, s2) else read_sets f (snd sk) s2)).
  { intros run rows rest Nr ER HR HT.
    destruct (read_set_run w run rows HR rest (S f) s1 w0 done []) as (X & _ & _); auto; rewrite <- ?ER; auto.
    destruct X as (s' & Es & Hs); auto. { intros ->. inversion HR; subst. congruence. }
    rewrite <- ER in Es. rewrite Es. cbn [bind app] in *. eexists. split; [apply end_set; eauto|reflexivity]. }
  assert (RUNNE : forall run rows rest rs', L = run ++ rest -> Forall2 (rowline w) run rows -> Forall2 line_is rest rs' ->
     (rest = [] \/ exists sp rest', rest = sp :: rest' /\ separator sp) -> rows <> []).
  { intros run rows rest rs' ER HR HR' HT ->. inversion HR; subst run. cbn [app] in ER. rewrite EL in ER.
    destruct HT as [->|(sp & rest' & -> & Hsp)]. discriminate. inversion ER; subst. contradiction. }
  (* the lines after the separator *)
  assert (TLC : forall run rest, L = run ++ rest -> Forall clean (List.tl rest)).
  { intros. apply Forall_tl. rewrite H in HC. apply Forall_app in HC. tauto. }
  assert (TLL : forall run rest, L = run ++ rest -> run <> [] -> (length (unlines (List.tl rest)) < length (at_row L))%nat).
  { assert (AUX : forall run rest, (length (unlines (List.tl rest)) <= length (unlines (run ++ rest)))%nat).
    { induction run; intros; cbn [app]. destruct rest; cbn [List.tl]; auto. apply unlines_tl_length.
      etransitivity. apply IHrun. apply unlines_tl_length. }
    intros run rest ER N. destruct run as [|r0 run]; [congruence|]. cbn [app] in ER. assert (r0 = l) by congruence. subst r0.
    rewrite ER. pose proof (at_row_tl l (run ++ rest) Hl). specialize (AUX run rest). lia. }
  split; [|split].
  - intros rs HR W. destruct (decompose w L rs HR W) as (run & rows & rest & rs' & ER & R1 & R2 & Ers & HT & Gr).
    assert (Nr : rows <> []) by (eapply RUNNE; eauto).
    assert (Nrun : run <> []). { intros ->. inversion R1; subst. congruence. }
    destruct (REST run rows rest Nr ER R1 HT) as (s2 & H2 & ->).
    assert (R3 : Forall2 line_is (List.tl rest) (List.tl rs')) by (destruct R2; cbn; auto).
    assert (G3 : group rs' = group (List.tl rs')).
    { destruct HT as [->|(sp & rest' & -> & Hsp)]; inversion R2 as [|? ? ? ? Ha Hb]; subst; auto. inversion Ha; subst; [reflexivity|contradiction]. }
    rewrite Gr. destruct rows as [|row0 rows]; [congruence|]. set (R := row0 :: rows) in *. rewrite G3.
    pose proof (TLC _ _ ER) as C3. pose proof (TLL _ _ ER Nrun) as L3.
    assert (W3 : all_of_width num w (List.tl rs')).
    { intros ys Hy. apply W. rewrite Ers. apply in_or_app. right. destruct rs'; auto. now right. }
    destruct (skip_lines_exact (List.tl rest) (S f) C3) as (SK1 & SK2). lia.
    destruct (seps_split (List.tl rest)) as [HS|(seps & l3 & ls3 & E3 & HS & Hl3)].
    + rewrite (SK1 HS). cbn. exists s2. split; auto. rewrite (proj1 (group_all_seps _ _ R3) HS). auto.
    + rewrite (SK2 seps l3 ls3 E3 HS Hl3). cbn [bind fst snd]. change (0 =? EOF) with false. cbn iota.
      rewrite E3 in R3. destruct (group_seps seps _ _ HS R3) as (rs4 & E4 & R4 & G4).
      destruct (IHn (l3 :: ls3)) with (f := f) (s := s2) (w := w) (w0 := w) (done := done ++ [R]) (l := l3) (ls := ls3) as (IH & _ & _); auto.
      * assert (length (l3 :: ls3) <= length (List.tl rest))%nat by (rewrite E3, app_length; lia).
        assert (length (List.tl rest) <= length rest)%nat by (destruct rest; cbn; lia).
        rewrite ER, app_length in Ln. destruct run; [congruence|]. cbn [length] in *. lia.
      * rewrite E3 in C3. apply Forall_app in C3. tauto.
      * pose proof (at_row_length (l3 :: ls3)). 
        assert (length (unlines (l3 :: ls3)) <= length (unlines (List.tl rest)))%nat.
        { rewrite E3. apply unlines_app_length. }
        lia.
      * destruct (IH rs4 R4) as (s' & Es & Fs). { intros ys Hy. apply W3. rewrite E4. apply in_or_app. auto. }
        exists s'. split; auto. rewrite G4. rewrite <- app_assoc in Fs. exact Fs.
  - intros pre l' post rs EP HR W Hl' Bad.
    destruct (decompose w pre rs HR W) as (run & rows & rest & rs' & ER & R1 & R2 & Ers & HT & Gr).
    destruct HT as [->|(sp & rest' & -> & Hsp)].
    + rewrite app_nil_r in ER. subst pre.
      destruct (read_set_run w run rows R1 (l' :: post) (S f) s1 w0 done []) as (_ & X & _); auto; rewrite <- ?EP; auto.
      destruct (X l' post eq_refl Hl' Bad) as (s' & Es). rewrite <- EP in Es. rewrite Es. cbn. eauto.
    + assert (EP' : L = run ++ (sp :: rest' ++ l' :: post)). { rewrite EP, ER, <- app_assoc. reflexivity. }
      assert (Nr : rows <> []).
      { intros ->. inversion R1; subst run. cbn [app] in EP'. rewrite EL in EP'. inversion EP'; subst. contradiction. }
      assert (Nrun : run <> []). { intros ->. inversion R1; subst. congruence. }
      destruct (REST run rows (sp :: rest' ++ l' :: post) Nr EP' R1) as (s2 & H2 & ->). right; eauto.
      cbn [List.tl]. pose proof (TLC _ _ EP') as C3. pose proof (TLL _ _ EP' Nrun) as L3. cbn [List.tl] in C3, L3.
      destruct (skip_lines_exact (rest' ++ l' :: post) (S f) C3) as (_ & SK2). lia.
      assert (R3 : Forall2 line_is rest' (List.tl rs')) by (inversion R2; subst; auto).
      assert (W3 : all_of_width num w (List.tl rs')).
      { intros ys Hy. apply W. rewrite Ers. apply in_or_app. right. destruct rs'; auto. now right. }
      assert (FIND : exists seps l3 ls3 pre3 rs3, rest' ++ l' :: post = seps ++ l3 :: ls3 /\ Forall separator seps /\ ~ separator l3 /\
         l3 :: ls3 = pre3 ++ l' :: post /\ Forall2 line_is pre3 rs3 /\ all_of_width num w rs3).
      { destruct (seps_split rest') as [HS|(seps & l3 & ls3 & E3 & HS & Hl3)].
        - exists rest', l', post, [], []. repeat split; auto. intros ? [].
        - rewrite E3 in R3. destruct (group_seps seps _ _ HS R3) as (rs4 & E4 & R4 & G4).
          exists seps, l3, (ls3 ++ l' :: post), (l3 :: ls3), rs4. split. rewrite E3, <- app_assoc. reflexivity.
          repeat split; auto. intros ys Hy. apply W3. rewrite E4. apply in_or_app. auto. }
      destruct FIND as (seps & l3 & ls3 & pre3 & rs3 & E3 & HS & Hl3 & E5 & R5 & W5).
      rewrite (SK2 seps l3 ls3 E3 HS Hl3). cbn [bind fst snd]. change (0 =? EOF) with false. cbn iota.
      destruct (IHn (l3 :: ls3)) with (f := f) (s := s2) (w := w) (w0 := w) (done := done ++ [rows]) (l := l3) (ls := ls3) as (_ & IH & _); auto.
      * rewrite EP' in Ln. rewrite app_length in Ln. cbn [length] in Ln. rewrite E3, app_length in Ln. destruct run; [congruence|]. cbn [length] in *. lia.
      * rewrite E3 in C3. apply Forall_app in C3. tauto.
      * pose proof (at_row_length (l3 :: ls3)). 
        assert (length (unlines (l3 :: ls3)) <= length (unlines (rest' ++ l' :: post)))%nat.
        { rewrite E3. apply unlines_app_length. }
        lia.
      * eapply IH; eauto.
  - intros pre l' post rs xs EP HR W Hl' Hn Hx HF.
    destruct (decompose w pre rs HR W) as (run & rows & rest & rs' & ER & R1 & R2 & Ers & HT & Gr).
    destruct HT as [->|(sp & rest' & -> & Hsp)].
    + rewrite app_nil_r in ER. subst pre. inversion R2; subst rs'.
      destruct (read_set_run w run rows R1 (l' :: post) (S f) s1 w0 done []) as (_ & _ & X); auto; rewrite <- ?EP; auto.
      destruct (X l' post xs eq_refl Hl' Hn Hx HF) as (s' & Es). rewrite <- EP in Es. rewrite Es. cbn [bind app].
      exists s'. rewrite Gr. cbn [IoSpec.group]. destruct rows; cbn [concat]; rewrite ?app_nil_r; auto.
    + assert (EP' : L = run ++ (sp :: rest' ++ l' :: post)). { rewrite EP, ER, <- app_assoc. reflexivity. }
      assert (Nr : rows <> []).
      { intros ->. inversion R1; subst run. cbn [app] in EP'. rewrite EL in EP'. inversion EP'; subst. contradiction. }
      assert (Nrun : run <> []). { intros ->. inversion R1; subst. congruence. }
      destruct (REST run rows (sp :: rest' ++ l' :: post) Nr EP' R1) as (s2 & H2 & ->). right; eauto.
      cbn [List.tl]. pose proof (TLC _ _ EP') as C3. pose proof (TLL _ _ EP' Nrun) as L3. cbn [List.tl] in C3, L3.
      destruct (skip_lines_exact (rest' ++ l' :: post) (S f) C3) as (_ & SK2). lia.
      assert (R3 : Forall2 line_is rest' (List.tl rs')) by (inversion R2; subst; auto).
      assert (W3 : all_of_width num w (List.tl rs')).
      { intros ys Hy. apply W. rewrite Ers. apply in_or_app. right. destruct rs'; auto. now right. }
      assert (FIND : exists seps l3 ls3 pre3 rs3, rest' ++ l' :: post = seps ++ l3 :: ls3 /\ Forall separator seps /\ ~ separator l3 /\
         l3 :: ls3 = pre3 ++ l' :: post /\ Forall2 line_is pre3 rs3 /\ all_of_width num w rs3).
      { destruct (seps_split rest') as [HS|(seps & l3 & ls3 & E3 & HS & Hl3)].
        - exists rest', l', post, [], []. repeat split; auto. intros ? [].
        - rewrite E3 in R3. destruct (group_seps seps _ _ HS R3) as (rs4 & E4 & R4 & G4).
          exists seps, l3, (ls3 ++ l' :: post), (l3 :: ls3), rs4. split. rewrite E3, <- app_assoc. reflexivity.
          repeat split; auto. intros ys Hy. apply W3. rewrite E4. apply in_or_app. auto. }
      destruct FIND as (seps & l3 & ls3 & pre3 & rs3 & E3 & HS & Hl3 & E5 & R5 & W5).
      assert (WN : w <> 0%nat).
      { inversion R1 as [|a b ra rb (S1 & N1 & L1)]; subst. congruence. pose proof (numbers_nonempty _ _ S1 N1). destruct b; cbn in *; congruence. }
      rewrite (SK2 seps l3 ls3 E3 HS Hl3). cbn [bind fst snd]. change (0 =? EOF) with false. cbn iota.
      destruct (IHn (l3 :: ls3)) with (f := f) (s := s2) (w := w) (w0 := w) (done := done ++ [rows]) (l := l3) (ls := ls3) as (_ & _ & IH); auto.
      * rewrite EP' in Ln. rewrite app_length in Ln. cbn [length] in Ln. rewrite E3, app_length in Ln. destruct run; [congruence|]. cbn [length] in *. lia.
      * rewrite E3 in C3. apply Forall_app in C3. tauto.
      * pose proof (at_row_length (l3 :: ls3)). 
        assert (length (unlines (l3 :: ls3)) <= length (unlines (rest' ++ l' :: post)))%nat.
        { rewrite E3. apply unlines_app_length. }
        lia.
      * destruct (IH pre3 l' post rs3 xs E5 R5 W5 Hl' Hn Hx) as (s' & Es). auto. exists s'. rewrite Es.
        unfold mismatch_code. rewrite Gr. destruct rows as [|row0 rows]; [congruence|]. cbn [concat app].
        destruct done; reflexivity.
Qed.
End Reader.
