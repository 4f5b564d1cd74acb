(** Decimal numerals: what "%lf" reads and what "%-22.15g" prints.

    Modelled from the C standard (7.21.6.2 and 7.21.6.1), not from moocore;
    used by c/io_priv.h:87 (objective_t_scanf_format) and c/io.h:9
    (point_printf_format).  Hexadecimal numerals, infinities and NaN are not
    modelled, and the sign of zero is not distinguished. *)
Require Import List ZArith Lia Bool Ascii Arith.
Import ListNotations.
From Verif Require Import Base IoModel IoSpec.
Open Scope Z_scope.

Definition char_of_digit (d : Z) : ascii := ascii_of_nat (48 + Z.to_nat d).
Definition digit_of_char (c : ascii) : option Z :=
  let n := nat_of_ascii c in
  if ((48 <=? n) && (n <=? 57))%nat then Some (Z.of_nat n - 48) else None.

(** the longest prefix of digits *)
Fixpoint take_digits (t : text) : list Z * text :=
  match t with
  | [] => ([], [])
  | c :: t' =>
      match digit_of_char c with
      | Some d => let '(ds, r) := take_digits t' in (d :: ds, r)
      | None => ([], t)
      end
  end.

(** value of a list of decimal digits, most significant first *)
Definition value (ds : list Z) : Z := fold_left (fun a d => 10 * a + d) ds 0.

Definition take_sign (t : text) : bool * text :=
  match t with
  | c :: t' => if (c =? "-")%char then (true, t') else if (c =? "+")%char then (false, t') else (false, t)
  | [] => (false, [])
  end.

Definition signed (neg : bool) (z : Z) : Z := if neg then - z else z.

Section Conv.
Variable num : Type.
(** the number nearest to [m * 10 ^ e] *)
Variable conv : Z -> Z -> num.

(** "%lf" on text without leading white space: [sign] digits [. digits]
    [e [sign] digits], with at least one digit before the exponent; an "e"
    that is not followed by an exponent is a matching failure. *)
Definition scan_dec (t : text) : option (num * text) :=
  let '(neg, t1) := take_sign t in
  let '(ip, t2) := take_digits t1 in
  let '(fp, t3) := match t2 with
                   | c :: t' => if (c =? ".")%char then take_digits t' else ([], t2)
                   | [] => ([], t2)
                   end in
  match ip ++ fp with
  | [] => None
  | _ =>
      let m := signed neg (value (ip ++ fp)) in
      let e := - Z.of_nat (length fp) in
      match t3 with
      | c :: t' =>
          if ((c =? "e")%char || (c =? "E")%char) then
            let '(eneg, t4) := take_sign t' in
            let '(ex, t5) := take_digits t4 in
            match ex with [] => None | _ => Some (conv m (e + signed eneg (value ex)), t5) end
          else Some (conv m e, t3)
      | [] => Some (conv m e, [])
      end
  end.

(** ** "%.15g" of the number +-D * 10^(X-14), where D has 15 digits or is 0 *)
Fixpoint digits (n : nat) (D : Z) : list Z :=
  match n with O => [] | S n' => digits n' (D / 10) ++ [D mod 10] end.

Fixpoint strip_zeros (l : list Z) : list Z :=
  match l with
  | [] => []
  | d :: t => match strip_zeros t with [] => if d =? 0 then [] else [d] | s => d :: s end
  end.

Definition chars (ds : list Z) : text := map char_of_digit ds.
Definition fraction (ds : list Z) : text := match ds with [] => [] | _ => "."%char :: chars ds end.

(** at least two digits; three are enough for doubles *)
Definition exponent_width (X : Z) : nat :=
  if Z.abs X <? 100 then 2%nat else if Z.abs X <? 1000 then 3%nat else Z.to_nat (Z.abs X).

Definition format_g (neg : bool) (D X : Z) : text :=
  (if neg then ["-"%char] else []) ++
  (if D =? 0 then ["0"%char]
   else
     let ds := digits 15 D in
     if (-4 <=? X) && (X <? 15) then
       if 0 <=? X then
         chars (firstn (Z.to_nat (X + 1)) ds) ++ fraction (strip_zeros (skipn (Z.to_nat (X + 1)) ds))
       else
         "0"%char :: "."%char :: repeat "0"%char (Z.to_nat (- X - 1)) ++ chars (strip_zeros ds)
     else
       chars (firstn 1 ds) ++ fraction (strip_zeros (skipn 1 ds)) ++
       ["e"%char; if X <? 0 then "-"%char else "+"%char] ++ chars (digits (exponent_width X) (Z.abs X))).

(** left justified in 22 columns *)
Definition pad22 (t : text) : text := t ++ repeat space (22 - length t).
Definition printf_g (neg : bool) (D X : Z) : text := pad22 (format_g neg D X).

(** ** Lemmas *)
Definition is_digit (d : Z) : Prop := 0 <= d < 10.

Lemma digit_cases : forall d, is_digit d -> d = 0 \/ d = 1 \/ d = 2 \/ d = 3 \/ d = 4 \/ d = 5 \/ d = 6 \/ d = 7 \/ d = 8 \/ d = 9.
Proof. unfold is_digit. lia. Qed.

Lemma digit_char : forall d, is_digit d -> digit_of_char (char_of_digit d) = Some d.
Proof. intros d H. destruct (digit_cases d H) as [->|[->|[->|[->|[->|[->|[->|[->|[->| ->]]]]]]]]]; reflexivity. Qed.

Lemma char_digit_not : forall d c, is_digit d -> digit_of_char c = None -> char_of_digit d <> c.
Proof. intros d c H N E. rewrite <- E, digit_char in N by auto. discriminate. Qed.

Lemma take_digits_chars : forall ds r, Forall is_digit ds ->
  (match r with [] => True | c :: _ => digit_of_char c = None end) -> take_digits (chars ds ++ r) = (ds, r).
Proof.
  induction ds; cbn [chars map app]; intros r H N.
  - destruct r; cbn [take_digits]; auto. now rewrite N.
  - inversion H; subst. cbn [take_digits]. rewrite digit_char by auto.
    change (map char_of_digit ds ++ r) with (chars ds ++ r). rewrite IHds; auto.
Qed.

Lemma value_app : forall a b, value (a ++ b) = value a * 10 ^ Z.of_nat (length b) + value b.
Proof.
  assert (X : forall b n, fold_left (fun a d => 10 * a + d) b n = n * 10 ^ Z.of_nat (length b) + value b).
  { induction b; intros n; cbn [fold_left length]. rewrite Z.pow_0_r. unfold value. cbn. lia.
    assert (E : value (a :: b) = (10 * 0 + a) * 10 ^ Z.of_nat (length b) + value b) by (unfold value at 1; cbn [fold_left]; apply IHb).
    rewrite IHb, E. rewrite Nat2Z.inj_succ, Z.pow_succ_r by lia. ring. }
  intros. unfold value. rewrite fold_left_app. apply X.
Qed.

Lemma digits_length : forall n D, length (digits n D) = n.
Proof. induction n; intros; cbn [digits]; auto. rewrite app_length, IHn. cbn. lia. Qed.

Lemma digits_are : forall n D, Forall is_digit (digits n D).
Proof.
  induction n; intros; cbn [digits]; auto. apply Forall_app. split; auto. constructor; auto.
  apply Z.mod_pos_bound. lia.
Qed.

Lemma digits_value : forall n D, 0 <= D < 10 ^ Z.of_nat n -> value (digits n D) = D.
Proof.
  induction n; intros D H; cbn [digits].
  - rewrite Z.pow_0_r in H. unfold value. cbn. lia.
  - rewrite value_app. cbn [length]. rewrite Nat2Z.inj_succ, Z.pow_succ_r in H by lia.
    rewrite IHn. unfold value. cbn [fold_left]. rewrite Z.pow_1_r. pose proof (Z.div_mod D 10). lia.
    split. apply Z.div_pos; lia. apply Z.div_lt_upper_bound; lia.
Qed.

Lemma strip_spec : forall l, exists k, l = strip_zeros l ++ repeat 0 k.
Proof.
  induction l; cbn [strip_zeros]. exists 0%nat. reflexivity.
  destruct IHl as (k & E). destruct (strip_zeros l) as [|s0 s] eqn:Es.
  - destruct (Z.eqb_spec a 0). subst a. exists (S k). cbn. cbn in E. congruence.
    exists k. cbn. cbn in E. congruence.
  - exists k. cbn [app]. cbn [app] in E. congruence.
Qed.

Lemma value_zeros : forall k, value (repeat 0 k) = 0.
Proof.
  induction k; auto.
Qed.

Lemma Forall_strip : forall l, Forall is_digit l -> Forall is_digit (strip_zeros l).
Proof. intros l H. destruct (strip_spec l) as (k & E). rewrite E in H. apply Forall_app in H. tauto. Qed.

(** the value is kept when trailing zeros are removed *)
Lemma value_strip : forall a l, exists k, (length l = length (strip_zeros l) + k)%nat /\
  value (a ++ l) = value (a ++ strip_zeros l) * 10 ^ Z.of_nat k.
Proof.
  intros. destruct (strip_spec l) as (k & E). exists k. split.
  - rewrite E at 1. rewrite app_length, repeat_length. reflexivity.
  - rewrite E at 1. rewrite app_assoc, value_app, value_zeros, repeat_length. lia.
Qed.

(** ** The scanner is a valid one *)
Lemma take_digits_app : forall t ds r, take_digits t = (ds, r) -> t = chars ds ++ r /\ Forall is_digit ds /\
  (match r with [] => True | c :: _ => digit_of_char c = None end).
Proof.
  induction t; cbn [take_digits]; intros ds r H.
  - inversion H; subst. cbn. auto.
  - destruct (digit_of_char a) eqn:E.
    + destruct (take_digits t) as [ds' r'] eqn:E'. inversion H; subst. destruct (IHt _ _ eq_refl) as (A & B & C).
      split; [|split; auto].
      * cbn [chars map app]. f_equal; auto. unfold digit_of_char in E.
        destruct ((48 <=? nat_of_ascii a) && (nat_of_ascii a <=? 57))%nat eqn:E2; inversion E. subst z.
        apply andb_prop in E2. destruct E2 as [E2 E3]. apply Nat.leb_le in E2, E3.
        unfold char_of_digit. rewrite Z2Nat.inj_sub, Nat2Z.id by lia. change (Z.to_nat 48) with 48%nat.
        replace (48 + (nat_of_ascii a - 48))%nat with (nat_of_ascii a) by lia. symmetry. apply ascii_nat_embedding.
      * constructor; auto. unfold digit_of_char in E. destruct ((48 <=? nat_of_ascii a) && (nat_of_ascii a <=? 57))%nat eqn:E2; inversion E.
        apply andb_prop in E2. destruct E2 as [E2 E3]. apply Nat.leb_le in E2, E3. unfold is_digit. lia.
    + inversion H; subst. cbn. auto.
Qed.

Lemma take_digits_nl : forall l r, ~ In nl l -> take_digits (l ++ nl :: r) =
  let '(ds, l') := take_digits l in (ds, l' ++ nl :: r).
Proof.
  induction l; intros r H; cbn [app take_digits]. reflexivity.
  destruct (digit_of_char a); auto. rewrite IHl. destruct (take_digits l); auto. intro; apply H; now right.
Qed.

Lemma take_sign_nl : forall l r, ~ In nl l -> take_sign (l ++ nl :: r) = let '(b, l') := take_sign l in (b, l' ++ nl :: r).
Proof.
  intros [|c l] r H; cbn [app take_sign]. reflexivity.
  destruct (c =? "-")%char; auto. destruct (c =? "+")%char; auto.
Qed.

Lemma take_sign_suffix : forall l b l', take_sign l = (b, l') -> exists a, l = a ++ l'.
Proof.
  intros [|c l] b l' H; cbn [take_sign] in H. inversion H. exists []; auto.
  destruct (c =? "-")%char. inversion H; subst. exists [c]; auto. destruct (c =? "+")%char; inversion H; subst. exists [c]; auto. exists []; auto.
Qed.
Lemma take_digits_suffix : forall l ds l', take_digits l = (ds, l') -> exists a, l = a ++ l' /\ length a = length ds.
Proof. intros. apply take_digits_app in H. destruct H as (E & _). exists (chars ds). split; auto. unfold chars. now rewrite map_length. Qed.

Lemma suffix_no_nl : forall a b, ~ In nl (a ++ b) -> ~ In nl b.
Proof. intros a b H I. apply H. apply in_or_app; auto. Qed.

Theorem scan_dec_valid : valid_scanner num scan_dec.
Proof.
  split.
  - intros t x r H. unfold scan_dec in H.
    destruct (take_sign t) as [neg t1] eqn:E1. destruct (take_sign_suffix _ _ _ E1) as (a1 & ->).
    destruct (take_digits t1) as [ip t2] eqn:E2. destruct (take_digits_suffix _ _ _ E2) as (a2 & -> & L2).
    assert (X : exists a3 fp t3, (match t2 with c :: t' => if (c =? ".")%char then take_digits t' else ([], t2) | [] => ([], t2) end) = (fp, t3) /\
       t2 = a3 ++ t3 /\ (fp <> [] -> a3 <> [])).
    { destruct t2 as [|c t']. { exists [], [], []. split; [auto|split; [auto|congruence]]. }
      destruct (c =? ".")%char.
      - destruct (take_digits t') as [fp t3] eqn:E3. destruct (take_digits_suffix _ _ _ E3) as (a3 & -> & L3).
        exists (c :: a3), fp, t3. split; [auto|split; [auto|discriminate]].
      - exists [], [], (c :: t'). split; [auto|split; [auto|congruence]]. }
    destruct X as (a3 & fp & t3 & EX & -> & N3). rewrite EX in H.
    destruct (ip ++ fp) as [|d0 dd] eqn:Ed; [discriminate|].
    assert (NE : a2 ++ a3 <> []).
    { intros E. apply app_eq_nil in E. destruct E as [-> ->]. destruct ip; [|discriminate]. destruct fp; [discriminate|]. apply N3; auto. discriminate. }
    assert (FIN : forall a4, exists tok, tok <> [] /\ a1 ++ a2 ++ a3 ++ a4 ++ r = tok ++ r).
    { intros a4. exists (a1 ++ (a2 ++ a3) ++ a4). split. intros E. apply app_eq_nil in E. destruct E as [_ E]. apply app_eq_nil in E. tauto.
      rewrite <- !app_assoc. reflexivity. }
    destruct t3 as [|c t'].
    + inversion H; subst. destruct (FIN []) as (tok & ? & ?). exists tok. auto.
    + destruct ((c =? "e")%char || (c =? "E")%char).
      * destruct (take_sign t') as [eneg t4] eqn:E4. destruct (take_sign_suffix _ _ _ E4) as (a4 & ->).
        destruct (take_digits t4) as [ex t5] eqn:E5. destruct (take_digits_suffix _ _ _ E5) as (a5 & -> & _).
        destruct ex; [discriminate|]. inversion H; subst. destruct (FIN (c :: a4 ++ a5)) as (tok & ? & E).
        exists tok. split; auto. rewrite <- E. cbn [app]. rewrite <- !app_assoc. reflexivity.
      * inversion H; subst. destruct (FIN []) as (tok & ? & ?). exists tok. auto.
  - intros l r H. unfold scan_dec. rewrite take_sign_nl by auto.
    destruct (take_sign l) as [neg t1] eqn:E1. destruct (take_sign_suffix _ _ _ E1) as (a1 & ->). apply suffix_no_nl in H.
    rewrite take_digits_nl by auto.
    destruct (take_digits t1) as [ip t2] eqn:E2. destruct (take_digits_suffix _ _ _ E2) as (a2 & -> & L2). apply suffix_no_nl in H.
    assert (X : exists fp t3, (match t2 with c :: t' => if (c =? ".")%char then take_digits t' else ([], t2) | [] => ([], t2) end) = (fp, t3) /\
       (match t2 ++ nl :: r with c :: t' => if (c =? ".")%char then take_digits t' else ([], t2 ++ nl :: r) | [] => ([], t2 ++ nl :: r) end) = (fp, t3 ++ nl :: r) /\
       ~ In nl t3).
    { destruct t2 as [|c t']. exists [], []. split; auto.
      cbn [app]. destruct (c =? ".")%char.
      - rewrite take_digits_nl by (intro; apply H; now right).
        destruct (take_digits t') as [fp t3] eqn:E3. destruct (take_digits_suffix _ _ _ E3) as (a3 & -> & L3).
        exists fp, t3. split; auto. split; auto. change (c :: a3 ++ t3) with ((c :: a3) ++ t3) in H. now apply suffix_no_nl in H.
      - exists [], (c :: t'). split; auto. }
    destruct X as (fp & t3 & -> & -> & N). destruct (ip ++ fp); [reflexivity|].
    destruct t3 as [|c t']; [reflexivity|]. cbn [app].
    destruct ((c =? "e")%char || (c =? "E")%char); [|reflexivity].
    assert (N' : ~ In nl t') by (intro; apply N; now right).
    rewrite take_sign_nl by auto. destruct (take_sign t') as [eneg t4] eqn:E4. destruct (take_sign_suffix _ _ _ E4) as (a4 & ->).
    apply suffix_no_nl in N'. rewrite take_digits_nl by auto. destruct (take_digits t4) as [ex t5]. destruct ex; reflexivity.
Qed.

(** ** What was printed is read back *)
Hypothesis conv_scale : forall m e k, 0 <= k -> conv (m * 10 ^ k) e = conv m (e + k).

Lemma conv_zero : forall e e', conv 0 e = conv 0 e'.
Proof.
  assert (X : forall e k, 0 <= k -> conv 0 e = conv 0 (e + k)).
  { intros. rewrite <- conv_scale by auto. f_equal. }
  intros. destruct (Z.le_ge_cases e e').
  - rewrite (X e (e' - e)) by lia. f_equal. lia.
  - rewrite (X e' (e - e')) by lia. f_equal. lia.
Qed.

Definition ends (r : text) : Prop := r = [] \/ exists r', r = space :: r'.

Lemma ends_digit : forall r, ends r -> match r with [] => True | c :: _ => digit_of_char c = None end.
Proof. intros r [->|[r0 ->]]; auto. Qed.

Definition scan_body (neg : bool) (t1 : text) : option (num * text) :=
  let '(ip, t2) := take_digits t1 in
  let '(fp, t3) := match t2 with
                   | c :: t' => if (c =? ".")%char then take_digits t' else ([], t2)
                   | [] => ([], t2)
                   end in
  match ip ++ fp with
  | [] => None
  | _ =>
      let m := signed neg (value (ip ++ fp)) in
      let e := - Z.of_nat (length fp) in
      match t3 with
      | c :: t' =>
          if ((c =? "e")%char || (c =? "E")%char) then
            let '(eneg, t4) := take_sign t' in
            let '(ex, t5) := take_digits t4 in
            match ex with [] => None | _ => Some (conv m (e + signed eneg (value ex)), t5) end
          else Some (conv m e, t3)
      | [] => Some (conv m e, [])
      end
  end.

Lemma take_sign_digit : forall d t, is_digit d -> take_sign (char_of_digit d :: t) = (false, char_of_digit d :: t).
Proof.
  intros. cbn [take_sign].
  destruct (Ascii.eqb_spec (char_of_digit d) "-"). exfalso; eapply char_digit_not; eauto. reflexivity.
  destruct (Ascii.eqb_spec (char_of_digit d) "+"). exfalso; eapply char_digit_not; eauto. reflexivity. reflexivity.
Qed.

Lemma scan_signed : forall (neg : bool) d t, is_digit d ->
  scan_dec ((if neg then ["-"%char] else []) ++ char_of_digit d :: t) = scan_body neg (char_of_digit d :: t).
Proof.
  intros. unfold scan_dec. destruct neg; cbn [app].
  - reflexivity.
  - rewrite take_sign_digit by auto. reflexivity.
Qed.

(** a numeral without exponent: digits and fraction *)
Lemma scan_fixed : forall neg ip fp r, Forall is_digit ip -> ip <> [] -> Forall is_digit fp -> ends r ->
  scan_body neg (chars ip ++ fraction fp ++ r) = Some (conv (signed neg (value (ip ++ fp))) (- Z.of_nat (length fp)), r).
Proof.
  intros neg ip fp r Hi Ni Hf Hr. unfold scan_body.
  assert (A : match fraction fp ++ r with [] => True | c :: _ => digit_of_char c = None end).
  { destruct fp; cbn [fraction app]. now apply ends_digit. reflexivity. }
  rewrite take_digits_chars by auto.
  assert (B : match fraction fp ++ r with c :: t' => if (c =? ".")%char then take_digits t' else ([], fraction fp ++ r) | [] => ([], fraction fp ++ r) end = (fp, r)).
  { destruct fp as [|d fp]; cbn [fraction app].
    - destruct Hr as [->|[r' ->]]; reflexivity.
    - change (("." =? ".")%char) with true. cbn iota. apply take_digits_chars; auto. now apply ends_digit. }
  rewrite B. destruct (ip ++ fp) eqn:E. destruct ip; [congruence|discriminate]. rewrite <- E.
  destruct Hr as [->|[r' ->]]; reflexivity.
Qed.

Lemma exponent_ok : forall X, Z.abs X < 10 ^ Z.of_nat (exponent_width X) /\ (0 < exponent_width X)%nat.
Proof.
  intros. unfold exponent_width. destruct (Z.ltb_spec (Z.abs X) 100). cbn. lia.
  destruct (Z.ltb_spec (Z.abs X) 1000). cbn. lia. split; [|lia]. rewrite Z2Nat.id by lia. apply Z.pow_gt_lin_r; lia.
Qed.

Lemma scan_exp : forall neg d fp X r, is_digit d -> Forall is_digit fp -> ends r ->
  scan_body neg (chars [d] ++ fraction fp ++ ["e"%char; if X <? 0 then "-"%char else "+"%char] ++ chars (digits (exponent_width X) (Z.abs X)) ++ r)
  = Some (conv (signed neg (value (d :: fp))) (- Z.of_nat (length fp) + X), r).
Proof.
  intros neg d fp X r Hd Hf Hr. unfold scan_body.
  set (ex := ["e"%char; if X <? 0 then "-"%char else "+"%char] ++ chars (digits (exponent_width X) (Z.abs X)) ++ r).
  assert (A : match fraction fp ++ ex with [] => True | c :: _ => digit_of_char c = None end).
  { destruct fp; cbn [fraction app]; reflexivity. }
  rewrite take_digits_chars by auto.
  assert (B : match fraction fp ++ ex with c :: t' => if (c =? ".")%char then take_digits t' else ([], fraction fp ++ ex) | [] => ([], fraction fp ++ ex) end = (fp, ex)).
  { destruct fp as [|d0 fp]; cbn [fraction app]. reflexivity. change (("." =? ".")%char) with true. cbn iota. apply take_digits_chars; auto. }
  rewrite B. cbn [app]. subst ex. cbn [app]. change (("e" =? "e")%char) with true. cbn [orb].
  destruct (exponent_ok X) as [E1 E2].
  assert (C : take_sign ((if X <? 0 then "-"%char else "+"%char) :: chars (digits (exponent_width X) (Z.abs X)) ++ r) = (X <? 0, chars (digits (exponent_width X) (Z.abs X)) ++ r)).
  { destruct (X <? 0); reflexivity. }
  rewrite C, take_digits_chars; [|apply digits_are|now apply ends_digit].
  pose proof (digits_length (exponent_width X) (Z.abs X)) as L.
  rewrite digits_value by lia. destruct (digits (exponent_width X) (Z.abs X)). cbn in L; lia.
  do 4 f_equal. unfold signed. destruct (Z.ltb_spec X 0); lia.
Qed.

Lemma signed_mul : forall neg a b, signed neg (a * b) = signed neg a * b.
Proof. intros []; cbn; lia. Qed.

Theorem scan_format : forall neg D X r, (D = 0 \/ 10 ^ 14 <= D < 10 ^ 15) -> ends r ->
  scan_dec (format_g neg D X ++ r) = Some (conv (signed neg D) (X - 14), r).
Proof.
  intros neg D X r HD Hr. unfold format_g. destruct (Z.eqb_spec D 0).
  - subst. rewrite <- app_assoc. cbn [app]. change "0"%char with (char_of_digit 0). rewrite scan_signed by (unfold is_digit; lia).
    pose proof (scan_fixed neg [0] [] r) as S. cbn [chars map app fraction] in S. rewrite S; auto.
    2: { repeat constructor; unfold is_digit; lia. } 2: discriminate.
    cbn. unfold value. cbn. destruct neg; cbn; do 2 f_equal; apply conv_zero.
  - destruct HD as [|HD]; [contradiction|]. set (ds := digits 15 D).
    assert (L : length ds = 15%nat) by apply digits_length.
    assert (F : Forall is_digit ds) by apply digits_are.
    assert (V : value ds = D) by (apply digits_value; cbn; lia).
    destruct (Z.leb_spec (-4) X); destruct (Z.ltb_spec X 15); cbn [andb].
    2, 3, 4: rewrite <- !app_assoc; destruct ds as [|d0 ds']; [discriminate|]; cbn [firstn skipn];
      change (chars [d0] ++ fraction (strip_zeros ds') ++ ["e"%char; if X <? 0 then "-"%char else "+"%char] ++ chars (digits (exponent_width X) (Z.abs X)) ++ r)
        with (char_of_digit d0 :: (fraction (strip_zeros ds') ++ ["e"%char; if X <? 0 then "-"%char else "+"%char] ++ chars (digits (exponent_width X) (Z.abs X)) ++ r));
      inversion F as [|? ? F0 F1]; subst; rewrite scan_signed by auto;
      pose proof (scan_exp neg d0 (strip_zeros ds') X r F0 (Forall_strip _ F1) Hr) as S; cbn [chars map app] in S |- *; rewrite S; clear S;
      destruct (value_strip [d0] ds') as (k & Lk & Vk); cbn [app] in Vk; rewrite Vk, signed_mul, conv_scale by lia;
      do 3 f_equal; cbn [length] in L; lia.
    rewrite <- app_assoc. destruct (Z.leb_spec 0 X).
    + rewrite <- app_assoc.
      assert (LX : (Z.to_nat (X + 1) <= 15)%nat) by lia.
      set (k1 := Z.to_nat (X + 1)) in *. set (ip := firstn k1 ds). set (fp := skipn k1 ds).
      assert (Eip : length ip = k1) by (unfold ip; rewrite firstn_length; lia).
      assert (Efp : length fp = (15 - k1)%nat) by (unfold fp; rewrite skipn_length; lia).
      assert (Eds : ds = ip ++ fp) by (symmetry; apply firstn_skipn).
      assert (Fi : Forall is_digit ip /\ Forall is_digit fp) by (rewrite Eds in F; now apply Forall_app in F).
      destruct Fi as [Fi Ff].
      assert (Ni : ip <> []). { intros E. rewrite E in Eip. cbn in Eip. lia. }
      pose proof (scan_fixed neg ip (strip_zeros fp) r Fi Ni (Forall_strip _ Ff) Hr) as S.
      destruct ip as [|i0 ip'] eqn:Ei; [congruence|]. rewrite <- Ei in *. 
      replace (chars ip ++ fraction (strip_zeros fp) ++ r) with (char_of_digit i0 :: chars ip' ++ fraction (strip_zeros fp) ++ r) in * by (rewrite Ei; reflexivity).
      rewrite scan_signed by (rewrite Ei in Fi; inversion Fi; auto). rewrite S.
      destruct (value_strip ip fp) as (k & Lk & Vk). rewrite <- Eds, V in Vk. rewrite Vk, signed_mul, conv_scale by lia.
      do 3 f_equal. lia.
    + pose proof (strip_spec ds) as (k & Ek).
      assert (Lk : (15 = length (strip_zeros ds) + k)%nat). { rewrite <- L. rewrite Ek at 1. rewrite app_length, repeat_length. reflexivity. }
      set (z := Z.to_nat (- X - 1)).
      assert (Z0 : forall n, repeat "0"%char n = chars (repeat 0 n)). { induction n0; cbn; auto. now rewrite IHn0. }
      pose proof (scan_fixed neg [0] (repeat 0 z ++ strip_zeros ds) r) as SC.
      assert (Fz : fraction (repeat 0 z ++ strip_zeros ds) = "."%char :: repeat "0"%char z ++ chars (strip_zeros ds)).
      { rewrite Z0. unfold chars. rewrite <- map_app. destruct (repeat 0 z ++ strip_zeros ds) eqn:E; auto.
        exfalso. apply app_eq_nil in E. destruct E as [_ E]. rewrite E in Ek. cbn [app] in Ek. rewrite Ek in V. rewrite value_zeros in V. lia. }
      rewrite Fz  in SC. change (chars [0]) with ["0"%char]  in SC. cbn [app] in SC |- *. rewrite <- !app_assoc in *. 
      change "0"%char with (char_of_digit 0) at 1. rewrite scan_signed by (unfold is_digit; lia). change (char_of_digit 0) with "0"%char.
      rewrite SC; auto; try discriminate.
      * rewrite app_length, repeat_length.
        assert (VV : value (0 :: repeat 0 z ++ strip_zeros ds) * 10 ^ Z.of_nat k = D).
        { transitivity (value (strip_zeros ds ++ repeat 0 k)); [|rewrite <- Ek; exact V]. rewrite (value_app (strip_zeros ds)), value_zeros, repeat_length.
          change (0 :: repeat 0 z ++ strip_zeros ds) with (repeat 0 (S z) ++ strip_zeros ds). rewrite (value_app (repeat 0 (S z))), value_zeros. lia. }
        rewrite <- VV, signed_mul, conv_scale by lia. do 3 f_equal. lia.
      * repeat constructor; unfold is_digit; lia.
      * apply Forall_app. split; [|now apply Forall_strip]. apply Forall_forall. intros x Hx. apply repeat_spec in Hx. rewrite Hx; unfold is_digit; lia.
Qed.

(** the decomposition of a number into sign, 15 digits and exponent *)
Variable g15 : num -> bool * Z * Z.
Hypothesis g15_shape : forall x, let '(neg, D, X) := g15 x in D = 0 \/ 10 ^ 14 <= D < 10 ^ 15.

Definition fmt15 (x : num) : text := let '(neg, D, X) := g15 x in printf_g neg D X.
Definition val15 (x : num) : num := let '(neg, D, X) := g15 x in conv (signed neg D) (X - 14).

(** all the characters that are printed *)
Definition numeral_char (c : ascii) : Prop :=
  (exists d, is_digit d /\ c = char_of_digit d) \/ c = "-"%char \/ c = "+"%char \/ c = "."%char \/ c = "e"%char.

Lemma numeral_chars : forall ds, Forall is_digit ds -> Forall numeral_char (chars ds).
Proof. induction 1; cbn; constructor; auto. left; eauto. Qed.
Lemma numeral_fraction : forall ds, Forall is_digit ds -> Forall numeral_char (fraction ds).
Proof. intros ds H. destruct ds; cbn [fraction]; constructor. unfold numeral_char; tauto. now apply numeral_chars. Qed.

Lemma format_chars : forall neg D X, Forall numeral_char (format_g neg D X).
Proof.
  intros. unfold format_g. apply Forall_app. split.
  { destruct neg; [constructor; [unfold numeral_char; tauto|constructor]|constructor]. }
  assert (Z0 : numeral_char "0"%char) by (left; exists 0; split; [unfold is_digit; lia|reflexivity]).
  destruct (D =? 0). constructor; auto.
  pose proof (digits_are 15 D) as F. set (ds := digits 15 D) in *.
  assert (F1 : forall k, Forall is_digit (firstn k ds) /\ Forall is_digit (skipn k ds)).
  { intros k. rewrite <- (firstn_skipn k ds) in F. now apply Forall_app in F. }
  destruct ((-4 <=? X) && (X <? 15)).
  - destruct (0 <=? X).
    + apply Forall_app. split. apply numeral_chars, F1. apply numeral_fraction, Forall_strip, F1.
    + constructor; auto. constructor. unfold numeral_char; tauto. apply Forall_app. split.
      apply Forall_forall. intros x Hx. apply repeat_spec in Hx. now subst. now apply numeral_chars, Forall_strip.
  - apply Forall_app. split. apply numeral_chars, F1. apply Forall_app. split. apply numeral_fraction, Forall_strip, F1.
    constructor. unfold numeral_char; tauto. constructor. destruct (X <? 0); unfold numeral_char; tauto. apply numeral_chars, digits_are.
Qed.

Lemma numeral_char_not : forall c, numeral_char c -> ~ blank_char c /\ c <> hash /\ c <> nl /\ c <> vt /\ c <> ff.
Proof.
  intros c [(d & Hd & ->)|[->|[->|[->| ->]]]].
  2-5: repeat split; try discriminate; intros [H|[H|H]]; discriminate.
  destruct (digit_cases d Hd) as [->|[->|[->|[->|[->|[->|[->|[->|[->| ->]]]]]]]]];
    repeat split; try discriminate; intros [H|[H|H]]; discriminate.
Qed.

Lemma format_nonempty : forall neg D X, (D = 0 \/ 10 ^ 14 <= D < 10 ^ 15) -> format_g neg D X <> [].
Proof.
  intros neg D X HD E. assert (S := scan_format neg D X [] HD (or_introl eq_refl)). rewrite E in S. cbn in S. discriminate.
Qed.

Theorem fmt15_valid : valid_printer scan_dec fmt15 val15.
Proof.
  intros x. pose proof (g15_shape x) as H. unfold fmt15, val15. destruct (g15 x) as [[neg D] X]. unfold printf_g, pad22.
  pose proof (format_chars neg D X) as FC. pose proof (format_nonempty neg D X H) as NE. pose proof (fun r => scan_format neg D X r H) as SF.
  set (t := format_g neg D X) in *. set (k := (22 - length t)%nat). clearbody t k. destruct t as [|c numeral]; [congruence|].
  exists c, numeral, k. split. reflexivity.
  assert (NC : forall c', In c' (c :: numeral) -> ~ blank_char c' /\ c' <> hash /\ c' <> nl /\ c' <> vt /\ c' <> ff).
  { intros c' Hc. rewrite Forall_forall in FC. apply numeral_char_not. auto. }
  destruct (NC c (or_introl eq_refl)) as (A & B & _).
  split; auto. split; auto. split. intros I. apply NC in I. tauto. split. intros I. apply NC in I. tauto. split. intros I. apply NC in I. tauto.
  intros r Hr. apply SF. exact Hr.
Qed.
End Conv.
