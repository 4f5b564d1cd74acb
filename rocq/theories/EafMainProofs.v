(** Proofs about the eaf program (EafMainModel.v). *)
From Coq Require Import Ascii String List ZArith Lia Bool Arith QArith.
From Verif Require Import Base Spec EafSpec EafModel BitArrayModel BitArrayProofs EafStoreModel EafStoreProofs EafTop
  Eaf3dSpec Eaf3dModel Eaf3dTop EafMainSpec EafMainModel.
Import ListNotations.
Local Open Scope list_scope.
Open Scope Z_scope.

(** ** Reading lists *)
Section ReadList.
Variables (A : Type) (zero : A) (conv : text -> option (A * text)).
Hypothesis Hconv : forall s v r, conv s = Some (v, r) -> (length r < length s)%nat.

Definition sepb (c : ascii) : bool := if ascii_dec c "," then true else if ascii_dec c ";" then true else false.
Lemma sepb_iff : forall c, sepb c = true <-> separator c.
Proof.
  intros. unfold sepb, separator. destruct (ascii_dec c ","); [intuition|]. destruct (ascii_dec c ";"); intuition congruence.
Qed.

(** what the loop does to a text: the values and the text where it stops *)
Inductive parses : text -> list A -> text -> Prop :=
| P_end : forall s, conv s = None -> match s with [] => True | c :: _ => sepb c = false end -> parses s [] s
| P_sep : forall c s xs r, conv (c :: s) = None -> sepb c = true -> parses s xs r -> parses (c :: s) xs r
| P_num : forall s v s' xs r, conv s = Some (v, s') -> parses s' xs r -> parses s (v :: xs) r.

Lemma parses_total : forall n s, (length s <= n)%nat -> exists xs r, parses s xs r /\ (length xs <= length s)%nat.
Proof.
  induction n; intros s L.
  - destruct s; simpl in L; [|lia]. destruct (conv []) as [[v r]|] eqn:E.
    + apply Hconv in E. simpl in E. lia.
    + exists [], []. split; [|simpl; lia]. now constructor.
  - destruct (conv s) as [[v r]|] eqn:E.
    + pose proof (Hconv _ _ _ E). destruct (IHn r) as (xs & r' & P & Q); [lia|]. exists (v :: xs), r'.
      split; [econstructor; eauto|]. simpl. lia.
    + destruct s as [|c s]. { exists [], []. split; [now constructor|simpl; lia]. }
      destruct (sepb c) eqn:Es.
      * simpl in L. destruct (IHn s) as (xs & r' & P & Q); [lia|]. exists xs, r'. split; [now constructor|simpl; lia].
      * exists [], (c :: s). split; [now constructor|simpl; lia].
Qed.
Lemma parses_det : forall s xs r, parses s xs r -> forall ys r', parses s ys r' -> xs = ys /\ r = r'.
Proof.
  induction 1; intros ys r' P'; inversion P'; subst; try congruence; auto.
  - rewrite H in H1. inversion H1; subst. destruct (IHparses _ _ H2). subst. auto.
Qed.

(** the first cells of an array hold some values, the rest is unchanged *)
Lemma wr_app : forall (pre : list A) x suf v, wr (pre ++ x :: suf) (length pre) v = Ret (pre ++ v :: suf).
Proof.
  intros. rewrite wr_ok by (rewrite app_length; simpl; lia). f_equal.
  induction pre; cbn [upd app length]; [auto|now f_equal].
Qed.
Lemma wr_out : forall (l : list A) v, wr l (length l) v = OutOfBounds.
Proof. intros. unfold wr. destruct (Nat.ltb_spec (length l) (length l)); [lia|auto]. Qed.

Lemma read_loop_ok : forall fuel s xs r, parses s xs r -> (length s < fuel)%nat ->
  forall base pre suf, (base <= length pre)%nat ->
  forall k, k = (length pre - base)%nat ->
  if (length xs <? length suf)%nat
  then exists suf', read_loop A zero conv fuel (pre ++ suf) base k s = Ret (pre ++ xs ++ suf', (S (k + length xs))%nat, r) /\
         length suf' = (length suf - length xs)%nat
  else read_loop A zero conv fuel (pre ++ suf) base k s = OutOfBounds.
Proof.
  induction fuel; intros s xs r P L base pre suf Hb k Hk; [lia|]. cbn [read_loop].
  assert (Ek : (base + k)%nat = length pre) by lia. rewrite Ek.
  inversion P; subst s xs r.
  - rewrite H. destruct suf as [|y suf].
    + rewrite app_nil_r, wr_out. reflexivity.
    + rewrite wr_app. cbn [bind Nat.ltb Nat.leb length]. exists (zero :: suf).
      split; [|simpl; lia]. cbn [app]. rewrite Nat.add_0_r.
      destruct s0; auto. unfold sepb in H0. now rewrite H0.
  - rewrite H. destruct suf as [|y suf].
    + rewrite app_nil_r, wr_out. destruct (Nat.ltb_spec (length xs0) (@length A [])); [simpl in *; lia|reflexivity].
    + rewrite wr_app. cbn [bind]. unfold sepb in H0. rewrite H0. simpl in L.
      specialize (IHfuel s0 xs0 r0 H1 ltac:(lia) base pre (zero :: suf) Hb k Hk).
      cbn [length] in *. exact IHfuel.
  - rewrite H. destruct suf as [|y suf].
    + rewrite app_nil_r, wr_out. destruct (Nat.ltb_spec (length (v :: xs0)) (@length A [])); [simpl in *; lia|reflexivity].
    + rewrite wr_app. cbn [bind]. pose proof (Hconv _ _ _ H).
      specialize (IHfuel s' xs0 r0 H0 ltac:(lia) base (pre ++ [v]) suf ltac:(rewrite app_length; simpl; lia) (S k)
                    ltac:(rewrite app_length; simpl; lia)).
      rewrite <- app_assoc in IHfuel. cbn [app length] in *. change (S (length xs0) <? S (length suf))%nat with (length xs0 <? length suf)%nat.
      destruct (length xs0 <? length suf)%nat; auto.
      destruct IHfuel as (suf' & E & L'). exists suf'. rewrite E. split; auto.
      rewrite <- ?app_assoc. cbn [app]. replace (k + S (length xs0))%nat with (S k + length xs0)%nat by lia. reflexivity.
Qed.

Lemma read_list_ok : forall s xs r pre suf, parses s xs r ->
  if (length xs <? length suf)%nat
  then if forallb isspace r && negb (length xs =? 0)%nat
       then exists suf', read_list A zero conv (pre ++ suf) (length pre) s = Ret (Some (pre ++ xs ++ suf', length xs)) /\
              length suf' = (length suf - length xs)%nat
       else read_list A zero conv (pre ++ suf) (length pre) s = Ret None
  else read_list A zero conv (pre ++ suf) (length pre) s = OutOfBounds.
Proof.
  intros s xs r pre suf P. unfold read_list.
  pose proof (read_loop_ok (S (length s)) s xs r P ltac:(lia) (length pre) pre suf ltac:(lia) 0%nat ltac:(lia)) as K.
  destruct (length xs <? length suf)%nat.
  2:{ rewrite K. reflexivity. }
  destruct K as (suf' & E & L). rewrite E. cbn [bind Nat.add].
  destruct (forallb isspace r); cbn [negb andb]; [|reflexivity].
  destruct xs as [|x xs]; cbn [length Nat.eqb negb]; [reflexivity|].
  exists suf'. split; auto.
Qed.

(** all the arguments of an option *)
Lemma read_options_ok : forall strs xss rs, Forall2 (fun s xr => parses s (fst xr) (snd xr)) strs (combine xss rs) ->
  length xss = length rs ->
  Forall (fun r => forallb isspace r = true) rs -> Forall (fun xs => xs <> []) xss ->
  forall pre suf, (length (concat xss) < length suf)%nat -> (length pre + length suf = 50)%nat ->
  read_options A zero conv (pre ++ suf) (length pre) strs = Ret (Some (pre ++ concat xss)).
Proof.
  induction strs as [|s strs IH]; intros xss rs F Lr Fr Fx pre suf Hs H50; cbn [read_options].
  - inversion F as [E|]. destruct xss; destruct rs; try discriminate. cbn [concat]. rewrite app_nil_r.
    rewrite firstn_app, Nat.sub_diag, firstn_all. cbn. now rewrite app_nil_r.
  - destruct xss as [|xs xss]; destruct rs as [|r rs]; cbn [combine] in F; try (inversion F; fail); try discriminate.
    inversion F as [|? ? ? ? P2 F4]; subst. inversion Fr as [|? ? Hr0 Fr0]; subst. inversion Fx as [|? ? Hx0 Fx0]; subst. cbn [fst snd] in *. cbn [concat] in *. rewrite app_length in Hs.
    pose proof (read_list_ok s xs r pre suf P2) as K. unfold read_option.
    rewrite (proj2 (Nat.ltb_lt _ _)) in K by lia. rewrite Hr0 in K.
    destruct xs as [|x xs]; [congruence|]. cbn [andb negb length Nat.eqb] in K. destruct K as (suf' & E & L').
    rewrite (proj2 (Nat.ltb_lt (length pre) 50)) by lia. cbn [assert_ bind]. rewrite E. cbn [bind].
    specialize (IH xss rs F4 ltac:(simpl in Lr; lia) Fr0 Fx0 (pre ++ x :: xs) suf' ltac:(simpl in *; lia)
      ltac:(rewrite app_length; simpl in *; lia)).
    rewrite app_length in IH. cbn [length] in IH. rewrite <- app_assoc in IH. rewrite IH.
    rewrite <- app_assoc. reflexivity.
Qed.
(** conversely, what was accepted *)
Lemma read_options_inv : forall strs pre suf vs, (length pre + length suf = 50)%nat ->
  read_options A zero conv (pre ++ suf) (length pre) strs = Ret (Some vs) ->
  exists xss rs, vs = pre ++ concat xss /\ length xss = length rs /\
    Forall2 (fun s xr => parses s (fst xr) (snd xr)) strs (combine xss rs) /\
    Forall (fun r => forallb isspace r = true) rs /\ Forall (fun xs => xs <> []) xss.
Proof.
  induction strs as [|s strs IH]; intros pre suf vs H50 E; cbn [read_options] in E.
  - inversion E. exists [], []. cbn. rewrite firstn_app, Nat.sub_diag, firstn_all. cbn. rewrite app_nil_r. auto.
  - unfold read_option in E. destruct (Nat.ltb_spec (length pre) 50); [|discriminate]. cbn [assert_ bind] in E.
    destruct (parses_total (length s) s (le_n _)) as (xs & r & P & _).
    pose proof (read_list_ok s xs r pre suf P) as K.
    destruct (Nat.ltb_spec (length xs) (length suf)); [|rewrite K in E; discriminate].
    destruct (forallb isspace r) eqn:Er; cbn [andb] in K; [|rewrite K in E; discriminate].
    destruct xs as [|x xs]; cbn [length Nat.eqb negb] in K; [rewrite K in E; discriminate|].
    destruct K as (suf' & K & L'). rewrite K in E. cbn [bind] in E.
    change (S (length xs)) with (length (x :: xs)) in *. rewrite app_assoc, <- app_length in E.
    apply IH in E. 2:{ rewrite app_length. lia. }
    destruct E as (xss & rs & -> & Lr & F & F1 & F2). exists ((x :: xs) :: xss), (r :: rs).
    cbn [concat combine length]. rewrite <- app_assoc. repeat split; auto; constructor; auto; congruence.
Qed.
End ReadList.

(** *** strtol *)
Lemma skip_space_len : forall s, (length (skip_space s) <= length s)%nat.
Proof. induction s; cbn [skip_space]; auto. destruct (isspace a); simpl; lia. Qed.
Lemma take_digits_spec : forall s d r, take_digits s = (d, r) ->
  s = d ++ r /\ forallb isdigit d = true /\ starts_with_digit r = false.
Proof.
  induction s as [|c s IH]; cbn [take_digits]; intros d r E.
  - inversion E. auto.
  - destruct (isdigit c) eqn:Ec.
    + destruct (take_digits s) as [d' r']. inversion E; subst. destruct (IH d' r eq_refl) as (-> & B & C).
      cbn. now rewrite Ec, B.
    + inversion E; subst. cbn. now rewrite Ec.
Qed.
Lemma take_digits_app : forall d r, forallb isdigit d = true -> starts_with_digit r = false -> take_digits (d ++ r) = (d, r).
Proof.
  induction d as [|c d IH]; intros r H1 H2; cbn [app].
  - destruct r; auto. cbn in *. now rewrite H2.
  - cbn in H1. apply andb_prop in H1. destruct H1 as [H H1]. cbn [take_digits]. rewrite H, IH; auto.
Qed.
Lemma skip_space_spec : forall s, exists w, s = w ++ skip_space s /\ forallb isspace w = true.
Proof.
  induction s as [|c s IH]; cbn [skip_space]. { exists []. auto. }
  destruct (isspace c) eqn:E. 2:{ exists []. auto. }
  destruct IH as (w & E1 & E2). exists (c :: w). cbn. rewrite E, E2. split; auto. congruence.
Qed.
Definition head_space (s : text) : bool := match s with [] => false | c :: _ => isspace c end.
Lemma skip_space_app : forall w s, forallb isspace w = true -> head_space s = false -> skip_space (w ++ s) = s.
Proof.
  induction w as [|c w IH]; intros s H1 H2; cbn [app].
  - destruct s; auto. cbn in *. now rewrite H2.
  - cbn in H1. apply andb_prop in H1. destruct H1 as [H H1]. cbn [skip_space]. rewrite H. auto.
Qed.
Lemma digit_not_space : forall c, isdigit c = true -> isspace c = false.
Proof.
  intros c H. unfold isdigit, isspace in *. apply andb_prop in H. destruct H as [H1 H2].
  apply Nat.leb_le in H1, H2. destruct (Nat.eqb_spec (nat_of_ascii c) 32); [lia|].
  destruct (Nat.leb_spec (nat_of_ascii c) 13); [lia|]. now rewrite andb_false_r.
Qed.

Lemma strtol_some : forall s v r, strtol_int s = Some (v, r) ->
  exists w sg sv ds, s = w ++ sg ++ ds ++ r /\ forallb isspace w = true /\ sign_value sg = Some sv /\
    ds <> [] /\ forallb isdigit ds = true /\ starts_with_digit r = false /\ v = to_int (clamp_long (sv * decimal ds)).
Proof.
  intros s v r E. unfold strtol_int in E. destruct (skip_space_spec s) as (w & Ew & Hw). set (s1 := skip_space s) in *.
  assert (G : exists sg (neg : bool) s2, s1 = sg ++ s2 /\ sign_value sg = Some (if neg then -1 else 1) /\
    match take_digits s2 with
    | ([], _) => None
    | (ds, r) => Some (to_int (clamp_long (if neg then - decimal ds else decimal ds)), r)
    end = Some (v, r)).
  { destruct s1 as [|c s1].
    - exists [], false, []. auto.
    - destruct (ascii_dec c "-").
      { exists [c], true, s1. subst. auto. }
      destruct (ascii_dec c "+").
      { exists [c], false, s1. subst. auto. }
      exists [], false, (c :: s1). auto. }
  destruct G as (sg & neg & s2 & E1 & E2 & E3).
  destruct (take_digits s2) as [ds r'] eqn:Et. destruct (take_digits_spec _ _ _ Et) as (E4 & E5 & E6).
  destruct ds as [|c ds]; [discriminate|]. inversion E3; subst r'.
  exists w, sg, (if neg then -1 else 1), (c :: ds). subst s1 s2. rewrite Ew, E1. repeat split; auto; try discriminate.
  do 2 f_equal. destruct neg; lia.
Qed.
Lemma strtol_number : forall w sg sv ds r, forallb isspace w = true -> sign_value sg = Some sv ->
  ds <> [] -> forallb isdigit ds = true -> starts_with_digit r = false ->
  strtol_int (w ++ sg ++ ds ++ r) = Some (to_int (clamp_long (sv * decimal ds)), r).
Proof.
  intros w sg sv ds r Hw Hs Hd Hdd Hr. unfold strtol_int.
  destruct ds as [|d ds]; [congruence|]. pose proof Hdd as Hdd'. cbn in Hdd. apply andb_prop in Hdd. destruct Hdd as [Hd0 Hdd].
  assert (Hsp : head_space (sg ++ (d :: ds) ++ r) = false).
  { destruct sg as [|c [|c' sg]]; cbn [app head_space]; [now apply digit_not_space| |discriminate].
    cbn in Hs. destruct (ascii_dec c "+"); [subst; reflexivity|]. destruct (ascii_dec c "-"); [subst; reflexivity|discriminate]. }
  rewrite skip_space_app by auto.
  assert (D : forall (neg : bool), match take_digits ((d :: ds) ++ r) with
    | ([], _) => None
    | (ds, r) => Some (to_int (clamp_long (if neg then - decimal ds else decimal ds)), r)
    end = Some (to_int (clamp_long ((if neg then -1 else 1) * decimal (d :: ds))), r)).
  { intros neg. rewrite take_digits_app by auto. do 4 f_equal. destruct neg; lia. }
  destruct sg as [|c [|c' sg]]; cbn [app].
  - assert (ascii_dec d "-" = ascii_dec d "-") by auto.
    destruct (ascii_dec d "-"); [subst; discriminate|]. destruct (ascii_dec d "+"); [subst; discriminate|].
    cbn in Hs. inversion Hs; subst. apply (D false).
  - cbn in Hs. destruct (ascii_dec c "+").
    + subst. inversion Hs. apply (D false).
    + destruct (ascii_dec c "-"); [|discriminate]. inversion Hs. apply (D true).
  - discriminate.
Qed.
Lemma strtol_len : forall s v r, strtol_int s = Some (v, r) -> (length r < length s)%nat.
Proof.
  intros s v r E. destruct (strtol_some s v r E) as (w & sg & sv & ds & -> & _ & _ & H & _).
  rewrite !app_length. destruct ds; [congruence|]. simpl. lia.
Qed.
Lemma strtol_none_number : forall w, forallb isspace w = true -> strtol_int w = None.
Proof.
  intros. unfold strtol_int. replace (skip_space w) with (@nil ascii); [reflexivity|].
  induction w as [|c w IH]; auto. cbn in *. apply andb_prop in H. destruct H as [H H1]. rewrite H. auto.
Qed.
Lemma sep_facts : forall c, separator c -> isspace c = false /\ isdigit c = false /\ c <> "+"%char /\ c <> "-"%char.
Proof. intros c [-> | ->]; repeat split; try reflexivity; discriminate. Qed.
Lemma strtol_sep : forall c s, separator c -> strtol_int (c :: s) = None.
Proof.
  intros c s H. destruct (sep_facts c H) as (A & B & C & D). unfold strtol_int. cbn [skip_space]. rewrite A.
  destruct (ascii_dec c "-"); [congruence|]. destruct (ascii_dec c "+"); [congruence|]. cbn [take_digits]. now rewrite B.
Qed.

Definition as_int (v : Z) : Z := to_int (clamp_long v).
Lemma int_list_parses : forall s xs, int_list s xs ->
  exists r, parses Z strtol_int s (map as_int xs) r /\ forallb isspace r = true.
Proof.
  induction 1.
  - exists w. split; auto. constructor. now apply strtol_none_number.
    destruct w; auto. cbn in H. apply andb_prop in H. destruct H as [H _].
    destruct (sepb a) eqn:E; auto. apply sepb_iff in E. destruct (sep_facts a E). congruence.
  - destruct IHint_list as (r & P & Q). exists r. split; auto. apply P_sep; auto. now apply strtol_sep. now apply sepb_iff.
  - destruct IHint_list as (r' & P & Q). exists r'. split; auto. cbn [map]. eapply P_num; eauto. now apply strtol_number.
Qed.
Lemma parses_int_list : forall s ys r, parses Z strtol_int s ys r -> forallb isspace r = true ->
  exists xs, int_list s xs /\ ys = map as_int xs.
Proof.
  induction 1; intros Hr.
  - exists []. split; auto. now constructor.
  - destruct (IHparses Hr) as (zs & I & ->). exists zs. split; auto. constructor; auto. now apply sepb_iff.
  - destruct (IHparses Hr) as (zs & I & ->). destruct (strtol_some _ _ _ H) as (w & sg & sv & ds & -> & A & B & C & D & E & ->).
    exists (sv * decimal ds :: zs). split; auto. constructor; auto.
Qed.

Lemma as_int_id : forall v, - 2 ^ 31 <= v < 2 ^ 31 -> as_int v = v.
Proof.
  intros v H. unfold as_int, to_int, clamp_long. rewrite Z.max_r, Z.min_r by lia. rewrite Z.mod_small by lia. lia.
Qed.

(** ** Levels *)
Lemma check_levels_iff : forall ls n, check_levels ls n = true <-> Forall (fun l => 1 <= l <= n) ls.
Proof.
  induction ls; intros n; cbn [check_levels]. { split; auto. }
  destruct (Z.leb_spec a 0). { split; [discriminate|]. inversion 1; lia. }
  destruct (Z.ltb_spec n a). { split; [discriminate|]. inversion 1; lia. }
  rewrite IHls. split; [constructor; auto; lia|]. inversion 1; auto.
Qed.

Definition pct_ok (p : pct) : Prop := match p with PQ q => (0 < q <= 100)%Q | PNan => False end.
Definition pct_val (p : pct) : Q := match p with PQ q => q | PNan => 0 end.

Lemma levels_of_percentiles_ok : forall ps n, (1 <= n)%nat -> (forall p, In p ps -> p <> PNan) ->
  (Forall pct_ok ps /\ exists ls, levels_of_percentiles ps (Z.of_nat n) = Ret (Some (map Z.of_nat ls)) /\
    Forall2 (fun p (l : nat) => (1 <= l <= n)%nat /\
       forall m : nat, ((l <= m)%nat <-> (1 <= m)%nat /\
         (inject_Z (Z.of_nat n) * pct_val p / 100 - tolerance <= inject_Z (Z.of_nat m))%Q)) ps ls) \/
  (~ Forall pct_ok ps /\ levels_of_percentiles ps (Z.of_nat n) = Ret None).
Proof.
  intros ps n Hn. induction ps as [|p ps IH]; intros Hnan; cbn [levels_of_percentiles].
  - left. split; auto. exists []. auto.
  - destruct p as [q|]. 2:{ exfalso. apply (Hnan PNan); simpl; auto. }
    destruct (Qle_bool q 0) eqn:E1.
    { right. split; auto. inversion 1; subst. apply Qle_bool_iff in E1. destruct H2 as [K _]. apply (Qlt_not_le _ _ K E1). }
    assert (P0 : (0 < q)%Q). { apply Qnot_le_lt. intro K. apply Qle_bool_iff in K. congruence. }
    destruct (Qle_bool q 100) eqn:E2; cbn [negb].
    2:{ right. split; auto. inversion 1; subst. destruct H2 as [_ K]. apply Qle_bool_iff in K. congruence. }
    apply Qle_bool_iff in E2.
    destruct (percentile2level_ok q (Z.of_nat n) ltac:(lia) (conj (Qlt_le_weak _ _ P0) E2)) as [E R].
    rewrite E. cbn [bind].
    destruct IH as [(F & ls & El & Fl)|(F & El)]. { intros. apply Hnan. simpl; auto. }
    + left. split. { constructor; auto. split; auto. }
      rewrite El. cbn [bind]. exists (Z.to_nat (Z.max 1 (round_level (pct_x q (Z.of_nat n)))) :: ls).
      split. { cbn [map]. rewrite Z2Nat.id by lia. reflexivity. }
      constructor; auto. split; [lia|]. intros m. cbn [pct_val].
      change (inject_Z (Z.of_nat n) * q / 100)%Q with (pct_x q (Z.of_nat n)).
      rewrite <- round_level_iff. lia.
    + right. rewrite El. cbn [bind]. split; auto. inversion 1; auto.
Qed.

(** ** Streams *)
Definition dash (a : string) : bool := String.eqb a "-".
Lemma named_file : forall a, dash a = false -> named a = File a.
Proof. intros a H. unfold named, dash in *. now rewrite H. Qed.

(** the variables after the options *)
Definition fs_inv (opts : list fileopt) (fs : files) : Prop :=
  coord_file fs = Some Stdout /\
  output_stream opts = match coord_filename fs with None => Stdout | Some a => File a end /\
  (forall a, coord_filename fs = Some a -> dash a = false) /\
  (match last_indices opts with
   | None => indic_file fs = None /\ indic_filename fs = None
   | Some None => indic_file fs = Some Stdin /\ indic_filename fs = None
   | Some (Some a) => if dash a then indic_file fs = Some Stdout /\ indic_filename fs = None
                      else indic_filename fs = Some a
   end) /\
  (match last_diff opts with
   | None => diff_file fs = None /\ diff_filename fs = None
   | Some None => diff_file fs = Some Stdin /\ diff_filename fs = None
   | Some (Some a) => if dash a then diff_file fs = Some Stdout /\ diff_filename fs = None
                      else diff_filename fs = Some a
   end).

Lemma fs_inv_ok : forall opts, fs_inv opts (fold_left opt_file opts init_files).
Proof.
  intros opts. induction opts as [|o opts IH] using rev_ind.
  - repeat split; try reflexivity. cbn. discriminate.
  - rewrite fold_left_app. cbn [fold_left]. destruct IH as (A & B & C & D & E).
    set (fs := fold_left opt_file opts init_files) in *.
    unfold fs_inv, output_stream, last_indices, last_diff in *. rewrite !fold_left_app. cbn [fold_left].
    destruct o as [a|[a|]|[a|]]; cbn [opt_file]; repeat split; auto;
      try (fold (dash a); unfold named; fold (dash a); destruct (dash a) eqn:Ea; cbn; auto).
    + discriminate.
    + intros b K. inversion K; subst; auto.
Qed.

Section Open.
Variable openable : string -> bool.
Definition can_open (s : option stream) : bool := match s with Some (File a) => openable a | _ => true end.
(** a file named explicitly, other than "-" *)
Definition explicit (o : option (option string)) (a : string) : Prop := o = Some (Some a) /\ dash a = false.

Lemma open_files_ok : forall opts,
  let out := output_stream opts in
  let ind := requested out (last_indices opts) in
  let dif := requested out (last_diff opts) in
  (forall a, explicit (last_indices opts) a -> out <> File a) ->
  (forall a, explicit (last_diff opts) a -> out <> File a /\ ind <> Some (File a)) ->
  open_files openable (fold_left opt_file opts init_files) =
  if can_open (Some out) && can_open ind && can_open dif then Some (Some out, ind, dif) else None.
Proof.
  intros opts out ind dif Hi Hd. pose proof (fs_inv_ok opts) as (A & B & C & D & E).
  set (fs := fold_left opt_file opts init_files) in *. fold out in B.
  unfold open_files, fopen. rewrite A.
  assert (Ci : exists inf inn,
    (if ostream_eqb (indic_file fs) None || ostream_eqb (indic_file fs) (Some Stdout)
         || negb (match indic_filename fs with None => true | _ => false end)
      then (indic_file fs, indic_filename fs) else (Some out, coord_filename fs)) = (inf, inn) /\
    match inn with
    | Some n => if is_name (Some n) (coord_filename fs) then Some inf else if openable n then Some (Some (File n)) else None
    | None => Some inf
    end = (if can_open ind || ostream_eqb ind (Some out) then Some ind else None) /\
    (forall n, inn = Some n -> ind = Some (File n)) /\ (forall n, ind = Some (File n) -> inn = Some n)).
  { unfold ind, requested. destruct (last_indices opts) as [[a|]|] eqn:El.
    - destruct (dash a) eqn:Ea.
      + destruct D as [-> ->]. cbn. eexists _, _. split; [reflexivity|].
        unfold named. fold (dash a). rewrite Ea. cbn. repeat split; try discriminate.
      + rewrite D. rewrite orb_true_r. eexists _, _. split; [reflexivity|].
        rewrite (named_file a Ea). assert (On : out <> File a) by (apply Hi; split; auto).
        split; [|split; intros n K; inversion K; auto].
        cbn [is_name can_open ostream_eqb stream_eqb].
        destruct (coord_filename fs) as [b|] eqn:Eb; cbn [is_name].
        * rewrite B in *. cbn. destruct (String.eqb_spec a b); [congruence|].
          destruct (openable a); auto.
        * rewrite B. cbn. destruct (openable a); auto.
    - destruct D as [-> ->]. cbn. eexists _, _. split; [reflexivity|].
      rewrite B. destruct (coord_filename fs) as [b|]; cbn.
      + rewrite String.eqb_refl, orb_true_r. repeat split; intros n K; inversion K; auto.
      + repeat split; intros n K; inversion K; auto.
    - destruct D as [-> ->]. cbn. eexists _, _. split; [reflexivity|]. cbn. repeat split; intros n K; inversion K. }
  assert (Cc : match coord_filename fs with
         | None => Some (Some Stdout)
         | Some n => match (if openable n then Some (File n) else None) with None => None | f => Some f end
         end = if can_open (Some out) then Some (Some out) else None).
  { rewrite B. destruct (coord_filename fs); auto. cbn. destruct (openable s); auto. }
  rewrite Cc. destruct (can_open (Some out)) eqn:Eo; [|reflexivity]. cbn [andb].
  destruct Ci as (inf & inn & -> & E2 & N1 & N2).
  replace (match inn with
    | Some n => if is_name (Some n) (coord_filename fs) then Some inf
                else match (if openable n then Some (File n) else None) with None => None | f => Some f end
    | None => Some inf end) with (if can_open ind || ostream_eqb ind (Some out) then Some ind else None).
  2:{ rewrite <- E2. destruct inn; auto. destruct (is_name _ _); auto. destruct (openable s); auto. }
  assert (Oi : (can_open ind || ostream_eqb ind (Some out)) = can_open ind).
  { unfold ind, requested. destruct (last_indices opts) as [[a|]|]; auto.
    - unfold named. cbn [can_open ostream_eqb]. destruct (String.eqb a "-") eqn:Ea; auto. destruct (openable a); auto. cbn.
      destruct out eqn:Eout; auto. destruct (String.eqb_spec a name); auto. subst. exfalso. apply (Hi name); [split; auto|auto].
    - rewrite Eo. reflexivity. }
  rewrite Oi. destruct (can_open ind) eqn:Eoi; [|reflexivity]. cbn [andb].
  unfold dif, requested. destruct (last_diff opts) as [[a|]|] eqn:El.
  - destruct (dash a) eqn:Ea.
    + destruct E as [-> ->]. cbn. unfold named. fold (dash a). rewrite Ea. reflexivity.
    + rewrite E. rewrite orb_true_r. rewrite (named_file a Ea). destruct (Hd a) as [H1 H2]; [split; auto|].
      cbn [can_open]. assert (X : is_name (Some a) (coord_filename fs) || is_name (Some a) inn = false).
      { apply orb_false_iff. split.
        - destruct (coord_filename fs) as [b|]; auto. cbn. destruct (String.eqb_spec a b); auto. congruence.
        - destruct inn as [b|]; auto. cbn. destruct (String.eqb_spec a b); auto. subst b. exfalso. apply H2. auto. }
      rewrite X. destruct (openable a); auto.
  - destruct E as [-> ->]. cbn [ostream_eqb stream_eqb orb negb]. rewrite Eo.
    destruct (coord_filename fs) as [b|]; cbn; auto. rewrite String.eqb_refl. cbn. auto.
  - destruct E as [-> ->]. cbn. auto.
Qed.
End Open.

(** ** Printing *)
Definition bz (b : bool) : Z := if b then 1 else 0.
Definition spaced (bs : list bool) : list token := concat (map (fun b => [TSp; TInt (bz b)]) bs).

Lemma join_cons : forall A (g : A -> token) xs x, join TSp (map (fun a => [g a]) (x :: xs)) = g x :: concat (map (fun a => [TSp; g a]) xs).
Proof.
  induction xs as [|y xs IH]; intros x; auto.
  change (join TSp (map (fun a => [g a]) (x :: y :: xs))) with ([g x] ++ TSp :: join TSp (map (fun a => [g a]) (y :: xs))).
  rewrite IH. reflexivity.
Qed.
Lemma point_printf_ok : forall p, (2 <= length p)%nat -> point_printf p = coordinates p.
Proof.
  intros [|x [|y p]] H; simpl in H; try lia. unfold coordinates. rewrite join_cons. reflexivity.
Qed.

Lemma ones_app : forall a b, ones (a ++ b) = ones a + ones b.
Proof. induction a; intros; cbn [app ones]; [auto|rewrite IHa; lia]. Qed.

Lemma written_put : forall f g ts, written_to f (put g ts) = if is_stream f g then ts else [].
Proof.
  intros f [g|] ts; cbn [put is_stream]; [|reflexivity]. unfold written_to.
  destruct (stream_eqb f g) eqn:E; induction ts as [|t ts IH]; cbn [map filter fst snd]; auto; rewrite E; cbn [map snd]; congruence.
Qed.
Lemma written_app : forall f a b, written_to f (a ++ b) = written_to f a ++ written_to f b.
Proof. intros. unfold written_to. now rewrite filter_app, map_app. Qed.
Lemma written_concat : forall f ws, written_to f (concat ws) = concat (map (written_to f) ws).
Proof. induction ws; auto. cbn [concat map]. now rewrite written_app, IHws. Qed.

Lemma stream_eqb_spec : forall a b, stream_eqb a b = true <-> a = b.
Proof.
  intros [| |x] [| |y]; cbn; split; try congruence. intros H. apply String.eqb_eq in H. congruence.
  intros H. inversion H. apply String.eqb_refl.
Qed.
Lemma stream_eqb_refl : forall a, stream_eqb a a = true.
Proof. intros. now apply stream_eqb_spec. Qed.
Lemma stream_eqb_sym : forall a b, stream_eqb a b = stream_eqb b a.
Proof.
  intros. destruct (stream_eqb a b) eqn:E; symmetry. apply stream_eqb_spec in E. subst. apply stream_eqb_refl.
  destruct (stream_eqb b a) eqn:E2; auto. apply stream_eqb_spec in E2. subst. now rewrite stream_eqb_refl in E.
Qed.

Section Line.
Variables (nobj nruns : nat) (e : eaf_t) (s : list (point * list bool)) (i : nat).
Hypothesis He : holds nobj nruns e s.
Hypothesis Hi : (i < length s)%nat.
Let p := fst (nth i s ([], [])).
Let flags := snd (nth i s ([], [])).
Hypothesis Lp : length p = nobj.
Hypothesis Lf : length flags = nruns.
Hypothesis N2 : (2 <= nobj)%nat.
Hypothesis R2 : (2 <= nruns)%nat.
Let bits := e_bits e.
Let off := bit_array_offset 0 i nruns.

Lemma bit_ok : forall k, (k < nruns)%nat -> exists b, bit_array_get bits off k = Ret b /\ (if b =? 0 then 0 else 1) = bz (nth k flags false).
Proof.
  intros k Hk. destruct (stored_bit_ok nobj nruns e s i k He Hi Hk) as (b & E & H). exists b. split; auto.
  fold flags in H. destruct (Z.eqb_spec b 0); destruct (nth k flags false); cbn; auto.
  - exfalso. apply H; auto.
  - exfalso. assert (false = true) by (apply H; auto). discriminate.
Qed.
Lemma print_bits_ok : forall m k, (k + m <= nruns)%nat ->
  print_bits bits off k m = Ret (spaced (firstn m (skipn k flags)), ones (firstn m (skipn k flags))).
Proof.
  induction m; intros k Hk; cbn [print_bits]. reflexivity.
  destruct (bit_ok k ltac:(lia)) as (b & E & B). rewrite E. cbn [bind]. rewrite IHm by lia. cbn [bind fst snd].
  assert (Sk : skipn k flags = nth k flags false :: skipn (S k) flags).
  { clear - Lf Hk. assert (K : (k < length flags)%nat) by lia. clear - K. revert k K.
    induction flags as [|x l IH]; intros k K; simpl in K; [lia|]. destruct k; auto. cbn [skipn nth]. apply IH. lia. }
  rewrite Sk. cbn [firstn]. unfold spaced. cbn [map concat ones app]. rewrite B. unfold bz. reflexivity.
Qed.
Lemma halves : (1 <= nruns / 2 < nruns)%nat.
Proof.
  split. apply Nat.div_le_lower_bound; lia. apply Nat.div_lt; lia.
Qed.

Lemma firstn_1_skip : flags = nth 0 flags false :: firstn (nruns / 2 - 1) (skipn 1 flags) ++ firstn (nruns - nruns / 2) (skipn (nruns / 2) flags).
Proof.
  pose proof halves as Hh. rewrite <- Lf in *. destruct flags as [|b fl]; [simpl in *; lia|].
  cbn [nth skipn]. f_equal. destruct (length (b :: fl) / 2)%nat as [|h] eqn:E; [lia|].
  cbn [skipn]. rewrite Nat.sub_succ, Nat.sub_0_r.
  replace (length (b :: fl) - S h)%nat with (length (skipn h fl)) by (rewrite skipn_length; simpl; lia).
  rewrite firstn_all. symmetry. apply firstn_skipn.
Qed.

Lemma countb_ones : forall (l : list bool) a b, (a + b <= length l)%nat ->
  Z.of_nat (countb (fun k => nth k l false) (seq a b)) = ones (firstn b (skipn a l)).
Proof.
  induction b; intros Hab. reflexivity.
  rewrite seq_S, countb_filter, filter_app, app_length, <- !countb_filter. cbn [countb]. rewrite Nat2Z.inj_add, IHb by lia.
  assert (Fs : firstn (S b) (skipn a l) = firstn b (skipn a l) ++ [nth (a + b) l false]).
  { clear - Hab. revert l b Hab. induction a; intros l b Hab.
    - cbn [skipn Nat.add]. revert l Hab. induction b; intros l Hab; destruct l; simpl in *; try lia; auto.
      f_equal. apply IHb. lia.
    - destruct l; simpl in Hab; [lia|]. cbn [skipn]. rewrite IHa by lia. reflexivity. }
  rewrite Fs, ones_app. cbn [ones]. destruct (nth (a + b) l false); lia.
Qed.

Lemma rest_all : firstn (nruns - nruns / 2) (skipn (nruns / 2) flags) = skipn (nruns / 2) flags.
Proof. apply firstn_all2. rewrite skipn_length. lia. Qed.

Lemma print_line_ok : forall cf inf df,
  exists w, eaf_print_line cf inf df p bits off nruns = Ret w /\
    forall f, written_to f w = line f cf inf df p flags.
Proof.
  intros cf inf df. pose proof halves as Hh. unfold eaf_print_line. rewrite point_printf_ok by lia.
  assert (Cn : counts flags = [TInt (ones (firstn (nruns / 2) flags)); TSp; TInt (ones (skipn (nruns / 2) flags))])
    by (unfold counts; now rewrite Lf).
  assert (M : exists w, (match inf with
        | Some _ =>
          v <- bit_array_get bits off 0 ;;
          r1 <- print_bits bits off 1 (nruns / 2 - 1) ;;
          r2 <- print_bits bits off (nruns / 2) (nruns - nruns / 2) ;;
          Ret (put inf (TInt (if v =? 0 then 0 else 1) :: fst r1 ++ fst r2 ++ [if ostream_eqb inf df then TTab else TNl]),
               ((if v =? 0 then 0 else 1) + snd r1, snd r2))
        | None =>
          match df with
          | Some _ => lr <- attained_left_right bits off (nruns / 2) nruns ;; Ret ([], lr)
          | None => Ret ([], (0, 0))
          end
        end) = Ret w /\ fst w = put inf (indices flags ++ [if ostream_eqb inf df then TTab else TNl]) /\
          (df <> None -> put df [TInt (fst (snd w)); TSp; TInt (snd (snd w)); TNl] = put df (counts flags ++ [TNl]))).
  { rewrite Cn. destruct inf as [inf|].
    - destruct (bit_ok 0 ltac:(lia)) as (b & E & B). rewrite E. cbn [bind].
      rewrite !print_bits_ok by lia. cbn [bind fst snd]. eexists. split; [reflexivity|]. cbn [fst snd].
      pose proof firstn_1_skip as Fs. rewrite B. split.
      + f_equal. transitivity (indices (nth 0 flags false :: firstn (nruns / 2 - 1) (skipn 1 flags) ++ firstn (nruns - nruns / 2) (skipn (nruns / 2) flags))
                   ++ [if ostream_eqb (Some inf) df then TTab else TNl]).
        2:{ f_equal. f_equal. symmetry. exact Fs. }
        unfold indices. rewrite (join_cons bool (fun b => TInt (bz b))).
        unfold spaced. rewrite map_app, concat_app. cbn [app]. rewrite <- app_assoc. reflexivity.
      + intros _. f_equal. cbn [app].
        replace (firstn (nruns / 2) flags) with (nth 0 flags false :: firstn (nruns / 2 - 1) (skipn 1 flags)).
        2:{ destruct flags as [|x fl]; [simpl in Lf; lia|]. destruct (nruns / 2)%nat eqn:Eh; [lia|]. cbn. now rewrite Nat.sub_0_r. }
        cbn [ones]. rewrite rest_all. unfold bz. reflexivity.
    - destruct df as [df|].
      + pose proof (attained_left_right_ok nobj nruns e s i (nruns / 2) He Hi ltac:(lia)) as E. fold bits off flags in E.
        rewrite E. cbn [bind]. eexists. split; [reflexivity|]. cbn [fst snd put]. split; auto. intros _.
        rewrite !countb_ones by lia. cbn [skipn].
        rewrite rest_all. reflexivity.
      + eexists. split; [reflexivity|]. split; auto. }
  destruct M as (w & E & W1 & W2). rewrite E. cbn [bind]. eexists. split; [reflexivity|].
  intros f. rewrite !written_app, W1.
  assert (W3 : written_to f (put df [TInt (fst (snd w)); TSp; TInt (snd (snd w)); TNl]) = if is_stream f df then counts flags ++ [TNl] else []).
  { destruct df as [df|]; [|reflexivity]. rewrite W2 by discriminate. apply written_put. }
  rewrite W3, written_put.
  replace (written_to f match cf with
     | Some _ => put cf (coordinates p ++ [if ostream_eqb cf inf || ostream_eqb cf df then TTab else TNl])
     | None => [] end)
    with (if is_stream f cf then coordinates p ++ [if ostream_eqb cf inf || ostream_eqb cf df then TTab else TNl] else [])
    by (destruct cf; [now rewrite written_put|reflexivity]).
  clear. unfold line. generalize (coordinates p) (indices flags) (counts flags). intros c1 c2 c3.
  destruct cf as [cf|]; destruct inf as [inf|]; destruct df as [df|]; cbn [is_stream ostream_eqb orb];
    repeat match goal with
    | |- context [stream_eqb ?a ?b] => let E := fresh "E" in destruct (stream_eqb a b) eqn:E;
        [apply stream_eqb_spec in E; subst; rewrite ?stream_eqb_refl|]
    end; cbn [orb app join]; rewrite <- ?app_assoc; cbn [app]; rewrite <- ?app_assoc; cbn [app]; rewrite ?app_nil_r; try reflexivity; try discriminate;
    try (rewrite stream_eqb_refl in *; discriminate).
Qed.
End Line.

Lemma print_attsurf_ok : forall nobj nruns e s cf inf df, holds nobj nruns e s ->
  (2 <= nobj)%nat -> (2 <= nruns)%nat ->
  Forall (fun o : point * list bool => length (fst o) = nobj /\ length (snd o) = nruns) s ->
  exists w, eaf_print_attsurf e nobj cf inf df = Ret w /\
    forall f, written_to f w = concat (map (fun o => line f cf inf df (fst o) (snd o)) s).
Proof.
  intros nobj nruns e s cf inf df H N2 R2 Fs. pose proof H as (Hn & Hs & _). unfold eaf_print_attsurf. rewrite Hn, Hs.
  assert (G : forall m i, (i + m = length s)%nat -> exists ws,
    collect (fun i => x <- read_point e nobj i ;;
       eaf_print_line cf inf df x (e_bits e) (bit_array_offset 0 i nruns) nruns) i m = Ret ws /\
    forall f, map (written_to f) ws = map (fun o => line f cf inf df (fst o) (snd o)) (skipn i s)).
  { induction m; intros i Hi; cbn [collect].
    - exists []. split; auto. intros. now rewrite skipn_all2 by lia.
    - assert (Ii : In (nth i s ([], [])) s) by (apply nth_In; lia).
      rewrite Forall_forall in Fs. destruct (Fs _ Ii) as [L1 L2].
      rewrite (read_point_ok nobj nruns e s i H ltac:(lia) L1). cbn [bind].
      destruct (print_line_ok nobj nruns e s i H ltac:(lia) L1 L2 N2 R2 cf inf df) as (w & E & W). rewrite E. cbn [bind].
      destruct (IHm (S i) ltac:(lia)) as (ws & E2 & W2). rewrite E2. cbn [bind]. exists (w :: ws). split; auto.
      intros f. cbn [map]. rewrite W, W2.
      assert (Sk : skipn i s = nth i s ([], []) :: skipn (S i) s).
      { clear - Hi. assert (K : (i < length s)%nat) by lia. clear Hi. revert i K.
        induction s as [|x l IH]; intros i K; simpl in K; [lia|]. destruct i; auto. cbn [skipn nth]. apply IH. lia. }
      now rewrite Sk. }
  destruct (G (length s) 0%nat ltac:(lia)) as (ws & E & W). rewrite E. cbn [bind]. exists (concat ws). split; auto.
  intros f. rewrite written_concat, W. reflexivity.
Qed.

Lemma print_ok : forall nobj nruns cf inf df, (2 <= nobj)%nat -> (2 <= nruns)%nat ->
  forall es ss, Forall2 (holds nobj nruns) es ss ->
  Forall (Forall (fun o : point * list bool => length (fst o) = nobj /\ length (snd o) = nruns)) ss ->
  exists w, eaf_print es nobj (Some cf) inf df = Ret w /\
    forall f, written_to f w =
      concat (map (fun s => concat (map (fun o => line f (Some cf) inf df (fst o) (snd o)) s) ++ level_end f (Some cf)) ss).
Proof.
  intros nobj nruns cf inf df N2 R2. induction 1 as [|e s es ss H F IH]; intros W; cbn [eaf_print].
  - exists []. auto.
  - inversion W as [|? ? W1 W2]; subst.
    destruct (print_attsurf_ok nobj nruns e s (Some cf) inf df H N2 R2 W1) as (w & E & Ew). rewrite E. cbn [bind].
    destruct (IH W2) as (ws & E2 & Ew2). rewrite E2. cbn [bind]. eexists. split; [reflexivity|].
    intros f. rewrite !written_app, Ew, Ew2, written_put. cbn [map concat]. rewrite <- app_assoc. reflexivity.
Qed.

(** ** attsurf in two and three objectives *)
Section Attsurf.
Variables (runs : list (list point)) (sortx sorty sortz : list point -> list nat) (junk : nat -> Z)
  (grow : nat -> nat -> nat) (lo hi : Z).
Hypothesis Hr : runs <> [].
Hypothesis Hne : forall r, In r runs -> r <> [].
Hypothesis Hjunk : forall i, 0 <= junk i < 2 ^ 64.
Hypothesis Hgrow : forall m r, (m <= grow m r)%nat.
Let n := length runs.

Lemma staircase_antichain : forall runs l s, is_surface2d runs l s -> is_surface 2 runs l s.
Proof.
  intros rs l s (A & B & C). split; auto. split; auto. intros i j Hi Hj Hij Hw.
  assert (K : forall i j, (i < j < length s)%nat -> ~ wdom (minimise 2) (row s i) (row s j) /\ ~ wdom (minimise 2) (row s j) (row s i)).
  { intros a b Hab. destruct (B a b Hab). rewrite !EafMain.wdom2_iff. split; lia. }
  destruct (lt_eq_lt_dec i j) as [[L|]|L]; [|congruence|].
  - apply (proj1 (K i j ltac:(lia))); auto.
  - apply (proj2 (K j i ltac:(lia))); auto.
Qed.

Lemma attsurf2_ok : forall levels, wf_points 2 (concat runs) ->
  is_datax (concat runs) (sortx (concat runs)) -> is_datay (concat runs) (sorty (concat runs)) ->
  Z.of_nat (length (concat runs)) <= (2 ^ 31 - 1) / 2 ->
  Forall (fun l => (1 <= l <= n)%nat) levels ->
  exists es ss, attsurf sortx sorty sortz junk grow lo hi (concat runs) 2 (cumsizes runs) n (map Z.of_nat levels) = Ret (Some es) /\
    Forall2 (holds 2 n) es ss /\
    Forall (Forall (fun o : point * list bool => length (fst o) = 2%nat /\ length (snd o) = n)) ss /\
    Forall2 (fun l s => is_surface 2 runs l (map fst s) /\ forall p flags, In (p, flags) s -> length flags = n /\
       forall k, (k < n)%nat -> (nth k flags false = true <-> attains 2 (nth k runs []) p)) levels ss.
Proof.
  intros levels Hwf Hx Hy Hsz Hl.
  destruct (stored_ok runs sortx sorty junk grow Hr Hne Hwf Hx Hy Hjunk Hgrow Hsz levels Hl) as (ss & es & E1 & E2 & F1 & F2).
  exists es, ss. cbn [attsurf]. fold n in E1, E2. rewrite E1. cbn [bind]. rewrite E2. cbn [bind]. split; auto. split; auto. split.
  - clear - F1. induction F1; constructor; auto. apply Forall_forall. intros o Ho. destruct H as (_ & Fl & _).
    destruct (Fl o Ho) as (A & B & _). auto.
  - clear - F1. induction F1; constructor; auto. split.
    + apply staircase_antichain. now apply EafTop.surface_ok_surface.
    + destruct H as (_ & Fl & _). intros p flags Hin. destruct (Fl _ Hin) as (_ & L & K). cbn [fst snd] in *. auto.
Qed.

Lemma attsurf3_ok : forall levels, lo < hi -> wf_points 3 (concat runs) ->
  (forall p, In p (concat runs) -> lo < coord p 0 < hi /\ lo < coord p 1 < hi) ->
  is_dataz (concat runs) (sortz (concat runs)) ->
  Z.of_nat (length (concat runs)) * Z.of_nat (length (concat runs)) <= (2 ^ 31 - 1) / 2 ->
  Forall (fun l => (1 <= l <= n)%nat) levels ->
  exists es ss, attsurf sortx sorty sortz junk grow lo hi (concat runs) 3 (cumsizes runs) n (map Z.of_nat levels) = Ret (Some es) /\
    Forall2 (holds 3 n) es ss /\
    Forall (Forall (fun o : point * list bool => length (fst o) = 3%nat /\ length (snd o) = n)) ss /\
    Forall2 (fun l s => is_surface 3 runs l (map fst s) /\ forall p flags, In (p, flags) s -> length flags = n /\
       forall k, (k < n)%nat -> (nth k flags false = true <-> attains 3 (nth k runs []) p)) levels ss.
Proof.
  intros levels LH Hwf Hb Hz Hsz Hl.
  destruct (eaf3d_ok lo hi LH runs sortz junk levels Hr Hne Hwf Hb Hz Hl) as (ss & E & F).
  destruct (flagged_stored runs junk grow levels ss Hjunk Hgrow Hsz Hl F) as (Wf & es & E2 & F2).
  exists es, ss. cbn [attsurf]. fold n in E, E2. rewrite E. cbn [bind]. rewrite E2. cbn [bind]. split; auto. split; auto. split.
  - eapply Forall_impl; [|exact Wf]. intros s [A _]. exact A.
  - exact F.
Qed.
End Attsurf.
