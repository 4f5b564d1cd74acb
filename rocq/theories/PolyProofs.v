(** The polygons of one pair of consecutive levels tile the locations between the
    two surfaces. *)
From Coq Require Import List ZArith Lia Bool Arith.
From Verif Require Import Base Spec EafSpec RectSpec PolySpec BitArrayModel EafModel EafStoreModel RectModel
  RectProofs PolyModel.
Import ListNotations.
Open Scope Z_scope.

(** ** Parity along a path *)
Definition ppar (z : point) (vs : list vertex) : bool :=
  fold_right xorb false (map (meets z) (path_edges vs)).
Definition orthp (vs : list vertex) : Prop :=
  forall v w, In (v, w) (path_edges vs) -> fst v = fst w \/ snd v = snd w.

Lemma odd_count : forall (A : Type) (f : A -> bool) l,
  Nat.odd (length (filter f l)) = fold_right xorb false (map f l).
Proof.
  induction l as [|a l IH]; auto. cbn [filter map fold_right]. destruct (f a); rewrite <- IH; cbn [length].
  - rewrite Nat.odd_succ, <- Nat.negb_odd. now destruct (Nat.odd _).
  - now destruct (Nat.odd _).
Qed.

Lemma path_edges_app : forall u v w, path_edges (u ++ [v; w]) = path_edges (u ++ [v]) ++ [(v, w)].
Proof.
  induction u as [|a u IH]; intros v w; auto. destruct u as [|b u].
  - reflexivity.
  - change (path_edges ((a :: b :: u) ++ [v; w])) with ((a, b) :: path_edges ((b :: u) ++ [v; w])).
    change (path_edges ((a :: b :: u) ++ [v])) with ((a, b) :: path_edges ((b :: u) ++ [v])).
    rewrite IH. reflexivity.
Qed.
Lemma fold_xorb_app : forall a b, fold_right xorb false (a ++ b) =
  xorb (fold_right xorb false a) (fold_right xorb false b).
Proof. induction a; intros; cbn [app fold_right]. now destruct (fold_right _ _ b). now rewrite IHa, xorb_assoc. Qed.
Lemma ppar_push : forall z u v w, ppar z ((u ++ [v]) ++ [w]) = xorb (ppar z (u ++ [v])) (meets z (v, w)).
Proof.
  intros. unfold ppar. rewrite <- app_assoc. cbn [app]. rewrite path_edges_app, map_app, fold_xorb_app.
  cbn [map fold_right]. now rewrite xorb_false_r.
Qed.

(** a path from [s] to [v] whose parity is [f] *)
Definition PathTo (cur : list vertex) (s v : vertex) (f : point -> bool) : Prop :=
  (exists u, cur = u ++ [v]) /\ hd_error cur = Some s /\ orthp cur /\ forall z, ppar z cur = f z.

Lemma path_one : forall v f, (forall z, f z = false) -> PathTo [v] v v f.
Proof.
  intros v f Hf. split. now exists []. split; auto. split. intros a b []. intros z. now rewrite Hf.
Qed.
Lemma path_push : forall cur s v f w g, PathTo cur s v f -> fst v = fst w \/ snd v = snd w ->
  (forall z, g z = xorb (f z) (meets z (v, w))) -> PathTo (cur ++ [w]) s w g.
Proof.
  intros cur s v f w g ((u & ->) & Hs & Ho & Hf) Hw Hg. split. now exists (u ++ [v]). split.
  - destruct u; simpl in *; auto.
  - split.
    + intros a b. rewrite <- app_assoc. cbn [app]. rewrite path_edges_app. intros I. apply in_app_iff in I.
      destruct I as [I|[I|[]]]. now apply Ho. injection I as <- <-. auto.
    + intros z. now rewrite ppar_push, Hf, Hg.
Qed.
Lemma meets_hor : forall z v w, snd v = snd w -> meets z (v, w) = false.
Proof.
  intros z [vx vy] [wx wy] E. cbn in E. subst wy. cbn. destruct vx, wx; auto.
  now rewrite xorb_nilpotent, andb_false_r.
Qed.
Lemma path_hor : forall cur s v f w, PathTo cur s v f -> snd v = snd w -> PathTo (cur ++ [w]) s w f.
Proof.
  intros. eapply path_push; eauto. intros z. now rewrite meets_hor, xorb_false_r.
Qed.
Lemma path_close : forall cur s v f, PathTo cur s v f -> snd v = snd s ->
  orthogonal cur /\ forall z, inside cur z = f z.
Proof.
  intros cur s v f P E. pose proof (path_hor _ _ _ _ s P E) as (_ & Hs & Ho & Hf).
  destruct P as (_ & Hs' & _). unfold orthogonal, inside, edges.
  destruct cur as [|a cur]; [discriminate|]. injection Hs' as ->. split.
  - exact Ho.
  - intros z. rewrite odd_count. apply Hf.
Qed.

Definition domb (L : list point) (z : point) : bool :=
  existsb (fun p => (coord p 0 <=? coord z 0) && (coord p 1 <=? coord z 1)) L.
Lemma domb_iff : forall L z, domb L z = true <-> domL L z.
Proof.
  intros L z. unfold domb. rewrite existsb_exists. split.
  - intros (p & Hp & E). apply (In_nth _ _ []) in Hp. destruct Hp as (i & Hi & <-).
    apply andb_prop in E. destruct E as [E1 E2]. apply Z.leb_le in E1. apply Z.leb_le in E2.
    exists i. unfold row. auto.
  - intros (i & Hi & E1 & E2). exists (row L i). split. now apply nth_In.
    apply andb_true_intro. split; now apply Z.leb_le.
Qed.
Lemma domb_false : forall L z, ~ domL L z -> domb L z = false.
Proof. intros L z H. destruct (domb L z) eqn:E; auto. apply domb_iff in E. tauto. Qed.

(** which point matters in the band below [top] *)
Lemma band_b : forall L k top z, staircase L -> (k < length L)%nat ->
  (forall i, (i < k)%nat -> lt_bound (coord (row L i) 1) top = false) ->
  lt_bound (coord z 1) top = true -> coord (row L k) 1 <= coord z 1 ->
  domb L z = (coord (row L k) 0 <=? coord z 0).
Proof.
  intros L k top z St Hk Hp Hz Hy.
  assert (H : domL L z -> coord (row L k) 0 <= coord z 0).
  { intros (i & Hi & X & Y). destruct (lt_eq_lt_dec i k) as [[Lt| ->]|Gt]; auto.
    - exfalso. specialize (Hp i Lt). destruct top; cbn in *; [|discriminate].
      apply Z.ltb_lt in Hz. apply Z.ltb_ge in Hp. lia.
    - destruct (St k i); lia. }
  destruct (Z.leb_spec (coord (row L k) 0) (coord z 0)) as [X|X].
  - apply domb_iff. now exists k.
  - apply domb_false. intros D. apply H in D. lia.
Qed.

Ltac bz := repeat match goal with
  | |- context [Z.leb ?a ?b] => destruct (Z.leb_spec a b)
  | |- context [Z.ltb ?a ?b] => destruct (Z.ltb_spec a b)
  | H : context [Z.leb ?a ?b] |- _ => destruct (Z.leb_spec a b)
  | H : context [Z.ltb ?a ?b] |- _ => destruct (Z.ltb_spec a b)
  end; cbn [andb orb xorb negb] in *; try congruence; try lia.

Section Pair.
Variables (ea eb : eaf_t) (color : list Z) (A B : list point).
Hypothesis HsA : e_size ea = length A.
Hypothesis HsB : e_size eb = length B.
Hypothesis HrA : forall i, (i < length A)%nat -> read_point ea 2 i = Ret (row A i).
Hypothesis HrB : forall i, (i < length B)%nat -> read_point eb 2 i = Ret (row B i).
Hypothesis Hcol : length color = length A.
Hypothesis StA : staircase A.
Hypothesis StB : staircase B.

Notation ax i := (coord (row A i) 0). Notation ay i := (coord (row A i) 1).
Notation bx i := (coord (row B i) 0). Notation by_ i := (coord (row B i) 1).
Notation na := (length A). Notation nb := (length B).
Notation col i := (nth i color 0).

Hypothesis Hdom : forall j, (j < nb)%nat -> exists i, (i < na)%nat /\ ax i <= bx j /\ ay i <= by_ j.
(** where the colour changes along A, the corner between the two points is attained by B *)
Hypothesis Hcc : forall i, (S i < na)%nat -> col i <> col (S i) ->
  exists j, (j < nb)%nat /\ bx j <= ax (S i) /\ by_ j <= ay i.

Lemma rd_col : forall i, (i < na)%nat -> rd color i = Ret (col i).
Proof.
  intros i Hi. unfold rd. destruct (nth_error color i) eqn:E.
  - now rewrite (nth_error_nth _ _ _ E).
  - apply nth_error_None in E. lia.
Qed.
Lemma dom_BA : forall z, domb B z = true -> domb A z = true.
Proof.
  intros z H. apply domb_iff in H. destruct H as (j & Hj & X & Y). destruct (Hdom j Hj) as (i & Hi & X' & Y').
  apply domb_iff. exists i. split; auto. lia.
Qed.

(** the invariant between polygons *)
Record Inv (ka lb : nat) (top : bound) : Prop := mkInv {
  i_ka : (ka <= na)%nat;
  i_lb : (lb <= nb)%nat;
  i_A : forall i, (i < ka)%nat -> lt_bound (ay i) top = false;
  i_B : forall j, (j < lb)%nat -> lt_bound (by_ j) top = false;
  i_Ak : (ka < na)%nat -> lt_bound (ay ka) top = true;
  i_Bk : (lb < nb)%nat -> lt_bound (by_ lb) top = true
}.

Lemma lt_bound_trans : forall x y t, x <= y -> lt_bound y t = true -> lt_bound x t = true.
Proof. intros x y [t|]; cbn; auto. intros. bz. Qed.

(** the point of B after the skipped ones lies right of the next point of A *)
Lemma B_right : forall ka lb top, Inv ka lb top -> (lb < nb)%nat -> (ka < na)%nat -> ax ka <= bx lb.
Proof.
  intros ka lb top I Hl Hk. destruct (Hdom lb Hl) as (i & Hi & X & Y).
  assert (ka <= i)%nat.
  { destruct (le_lt_dec ka i); auto. exfalso. pose proof (i_A _ _ _ I i l) as F.
    pose proof (i_Bk _ _ _ I Hl) as G. rewrite (lt_bound_trans _ _ _ Y G) in F. discriminate. }
  destruct (Nat.eq_dec ka i) as [->|Ne]; auto. destruct (StA ka i); lia.
Qed.

(** ** Skipping *)
Definition nothing_between (t t' : bound) : Prop :=
  forall z, lt_bound (coord z 1) t = true -> lt_bound (coord z 1) t' = false ->
    domb A z = domb B z.

Lemma skip_ok : forall fuel ka lb top, Inv ka lb top -> (na < fuel + ka)%nat ->
  exists ka' lb' top', poly_skip ea eb fuel ka lb top = Ret (ka', lb', top') /\
    Inv ka' lb' top' /\ (ka <= ka')%nat /\ nothing_between top top' /\
    (forall y, lt_bound y top' = true -> lt_bound y top = true) /\
    ((ka' < na)%nat -> (lb' < nb)%nat -> ax ka' < bx lb').
Proof.
  induction fuel as [|fuel IH]; intros ka lb top I Hf. { pose proof (i_ka _ _ _ I). lia. }
  cbn [poly_skip]. rewrite HsA, HsB.
  destruct (Nat.ltb_spec ka na) as [Hk|Hk]; [destruct (Nat.ltb_spec lb nb) as [Hl|Hl]|]; cbn [andb].
  2,3: exists ka, lb, top; split; [auto|]; split; [auto|]; split; [lia|]; split;
    [intros z X Y; congruence|split; [auto|intros; lia]].
  rewrite HrA, HrB by auto. cbn [bind].
  pose proof (B_right _ _ _ I Hl Hk) as Hx. pose proof (i_Bk _ _ _ I Hl) as Bl. pose proof (i_Ak _ _ _ I Hk) as Al.
  destruct (Z.eqb_spec (bx lb) (ax ka)) as [Ex|Ex]; cbn [negb].
  2:{ exists ka, lb, top. split; auto. split; auto. split; [lia|]. split.
      intros z X Y; congruence. split; auto. intros; lia. }
  (* by lb >= ay ka *)
  assert (Hy : ay ka <= by_ lb).
  { destruct (Hdom lb Hl) as (i & Hi & X & Y). destruct (lt_eq_lt_dec i ka) as [[L| ->]|G]; auto.
    - exfalso. pose proof (i_A _ _ _ I i L) as F. rewrite (lt_bound_trans _ _ _ Y Bl) in F. discriminate.
    - destruct (StA ka i); lia. }
  assert (NB : nothing_between top (At (by_ lb))).
  { intros z Z1 Z2. cbn in Z2. apply Z.ltb_ge in Z2.
    rewrite (band_b A ka top z StA Hk (i_A _ _ _ I) Z1), (band_b B lb top z StB Hl (i_B _ _ _ I) Z1) by lia.
    now rewrite Ex. }
  assert (LT : forall y, lt_bound y (At (by_ lb)) = true -> lt_bound y top = true).
  { intros y Y. cbn in Y. apply Z.ltb_lt in Y. apply (lt_bound_trans _ (by_ lb)); auto. lia. }
  assert (SB : forall j, (j < S lb)%nat -> lt_bound (by_ j) (At (by_ lb)) = false).
  { intros j Hj. cbn. apply Z.ltb_ge. destruct (Nat.eq_dec j lb) as [->|]. lia. destruct (StB j lb); lia. }
  assert (SB' : (S lb < nb)%nat -> lt_bound (by_ (S lb)) (At (by_ lb)) = true).
  { intros H. cbn. apply Z.ltb_lt. destruct (StB lb (S lb)); lia. }
  destruct (Z.eqb_spec (by_ lb) (ay ka)) as [Ey|Ey].
  - destruct (IH (S ka) (S lb) (At (by_ lb))) as (ka' & lb' & top' & E & I' & L & N & T & R); [|lia|].
    { constructor; auto; try lia.
      - intros i Hi. cbn. apply Z.ltb_ge. destruct (Nat.eq_dec i ka) as [->|]. lia. destruct (StA i ka); lia.
      - intros H. cbn. apply Z.ltb_lt. destruct (StA ka (S ka)); lia. }
    exists ka', lb', top'. split; auto. split; auto. split; [lia|]. split; [|split; auto].
    intros z Z1 Z2. destruct (lt_bound (coord z 1) (At (by_ lb))) eqn:Z3; auto.
  - replace (ay ka <? by_ lb) with true by (symmetry; apply Z.ltb_lt; lia). cbn [assert_ bind].
    exists ka, (S lb), (At (by_ lb)). split; auto. split.
    { constructor; auto; try lia.
      - intros i Hi. cbn. apply Z.ltb_ge. pose proof (i_A _ _ _ I i Hi) as F.
        destruct (Z_lt_le_dec (ay i) (by_ lb)); [|lia].
        rewrite (lt_bound_trans (ay i) (by_ lb)) in F; auto; [discriminate|lia].
      - intros H. cbn. apply Z.ltb_lt. lia. }
    split; [lia|]. split; auto. split; auto. intros _ H. destruct (StB lb (S lb)); lia.
Qed.

(** ** The left side *)
Lemma adv_ok : forall fuel kb ka, (kb <= nb)%nat -> (nb < fuel + kb)%nat -> (ka < na)%nat ->
  ((kb < nb)%nat -> ax ka < bx kb) -> (forall j, (j < kb)%nat -> ay ka < by_ j) ->
  exists kb', poly_adv eb fuel kb (row A ka) = Ret kb' /\ (kb <= kb' <= nb)%nat /\
    (forall j, (j < kb')%nat -> ay ka < by_ j) /\
    ((kb' < nb)%nat -> ax ka < bx kb' /\ by_ kb' <= ay ka).
Proof.
  induction fuel as [|fuel IH]; intros kb ka Hb Hf Hk Hx Hj. lia.
  cbn [poly_adv]. rewrite HsB. destruct (Nat.ltb_spec kb nb) as [Hl|Hl].
  - rewrite HrB by auto. cbn [bind]. specialize (Hx Hl).
    replace (ax ka <? bx kb) with true by (symmetry; apply Z.ltb_lt; lia). cbn [assert_ bind].
    destruct (Z.leb_spec (by_ kb) (ay ka)) as [Y|Y].
    + exists kb. split; [reflexivity|]. split; [lia|]. split; auto.
    + destruct (IH (S kb) ka) as (kb' & E & L & Q & R); try lia.
      * intros H. destruct (StB kb (S kb)); lia.
      * intros j Hj'. destruct (Nat.eq_dec j kb) as [->|]; auto. apply Hj. lia.
      * exists kb'. split; auto. split; [lia|]. auto.
  - exists kb. split; [reflexivity|]. split; [lia|]. split; auto. intros; lia.
Qed.

(** where the corners of a polygon may lie: attained by A, not above a point of B,
    and between the heights [lo] and [top] *)
Definition le_bounds (v top : bound) : Prop := forall y, lt_bound y v = true -> lt_bound y top = true.
Definition Corner (v : vertex) : Prop :=
  (exists i, (i < na)%nat /\ leb_bound (ax i) (fst v) = true /\ leb_bound (ay i) (snd v) = true) /\
  (forall j, (j < nb)%nat -> lt_bound (bx j) (fst v) = true -> lt_bound (by_ j) (snd v) = false).
Definition Vert (top : bound) (lo : Z) (v : vertex) : Prop :=
  Corner v /\ leb_bound lo (snd v) = true /\ le_bounds (snd v) top.
Lemma leb_bound_le : forall x y b, x <= y -> leb_bound y b = true -> leb_bound x b = true.
Proof. intros x y [b|]; cbn; auto. intros. bz. Qed.
Lemma lt_leb_bound : forall x b, lt_bound x b = true -> leb_bound x b = true.
Proof. intros x [b|]; cbn; auto. intros. bz. Qed.
Lemma le_bounds_at : forall y top, leb_bound y top = true -> le_bounds (At y) top.
Proof. intros y [t|] H z; cbn in *; auto. intros. bz. Qed.
Lemma vert_lower : forall top lo lo' v, lo' <= lo -> Vert top lo v -> Vert top lo' v.
Proof. intros top lo lo' v L (C & H1 & H2). split; auto. split; auto. now apply (leb_bound_le _ lo). Qed.
Lemma verts_lower : forall top lo lo' vs, lo' <= lo -> Forall (Vert top lo) vs -> Forall (Vert top lo') vs.
Proof. intros top lo lo' vs L. apply Forall_impl. intros v. now apply vert_lower. Qed.
Lemma le_bounds_trans : forall a b c, le_bounds a b -> le_bounds b c -> le_bounds a c.
Proof. unfold le_bounds. auto. Qed.
(** the corners of the left side *)
Lemma corner_left : forall k h, (k < na)%nat -> leb_bound (ay k) h = true ->
  (forall i, (i < k)%nat -> lt_bound (ay i) h = false) -> Corner (At (ax k), h).
Proof.
  intros k h Hk Hh HA. split. { exists k. cbn. split; auto. split; auto. apply Z.leb_refl. }
  intros j Hj X. cbn in X |- *. apply Z.ltb_lt in X. destruct (Hdom j Hj) as (i & Hi & X' & Y').
  destruct (le_lt_dec k i) as [G|L].
  - destruct (Nat.eq_dec k i) as [->|]; [lia|]. destruct (StA k i); lia.
  - specialize (HA i L). destruct (lt_bound (by_ j) h) eqn:E; auto. now rewrite (lt_bound_trans _ _ _ Y' E) in HA.
Qed.
(** the corners of the right side *)
Lemma corner_right : forall k h, (k < nb)%nat -> leb_bound (by_ k) h = true ->
  (forall j, (j < k)%nat -> lt_bound (by_ j) h = false) -> Corner (At (bx k), h).
Proof.
  intros k h Hk Hh HB. split.
  - destruct (Hdom k Hk) as (i & Hi & X & Y). exists i. split; auto. cbn. split. now apply Z.leb_le. now apply (leb_bound_le _ (by_ k)).
  - intros j Hj X. cbn in X |- *. apply Z.ltb_lt in X. apply HB. destruct (le_lt_dec k j) as [G|L]; auto.
    destruct (Nat.eq_dec k j) as [->|]; [lia|]. destruct (StB k j); lia.
Qed.
Lemma corner_infinity : forall k h, (k < na)%nat -> leb_bound (ay k) h = true ->
  (forall j, (j < nb)%nat -> lt_bound (by_ j) h = false) -> Corner (Infty, h).
Proof. intros k h Hk Hh HB. split; auto. exists k. auto. Qed.

(** parity of the left side down to height [h] *)
Definition F (top h : bound) (z : point) : bool :=
  negb (lt_bound (coord z 1) h) && lt_bound (coord z 1) top && domb A z.

Lemma chain_ok : forall fuel i0 ka kb top prev (cur : list vertex),
  (i0 <= ka < na)%nat -> (na < fuel + ka)%nat -> (kb <= nb)%nat ->
  ((kb < nb)%nat -> ax ka < bx kb) -> (forall j, (j < kb)%nat -> ay ka < by_ j) ->
  lt_bound (ay ka) prev = true -> (forall y, lt_bound y prev = true -> lt_bound y top = true) ->
  (forall i, (i < ka)%nat -> lt_bound (ay i) prev = false) ->
  (forall m, (i0 <= m <= ka)%nat -> col m = col i0) ->
  PathTo (cur ++ [(At (ax ka), prev)]) (At (ax i0), top) (At (ax ka), prev) (F top prev) ->
  (length cur mod 2 = 0)%nat -> Forall (Vert top (ay ka)) cur ->
  exists ka' kb' cur',
    poly_chain ea eb color fuel ka kb (col i0) prev cur = Ret (S ka', kb', row A ka', cur') /\
    (ka <= ka' < na)%nat /\ (kb <= kb' <= nb)%nat /\
    (forall m, (i0 <= m <= ka')%nat -> col m = col i0) /\
    PathTo cur' (At (ax i0), top) (At (ax ka'), At (ay ka')) (F top (At (ay ka'))) /\
    (length cur' mod 2 = 0)%nat /\ (2 <= length cur')%nat /\ Forall (Vert top (ay ka')) cur' /\
    lt_bound (ay ka') top = true /\
    (forall j, (j < kb')%nat -> ay ka' < by_ j) /\
    ((kb' < nb)%nat -> ax ka' < bx kb' /\ by_ kb' <= ay ka') /\
    ((S ka' < na)%nat -> (kb' < nb)%nat /\ bx kb' <= ax (S ka')).
Proof.
  induction fuel as [|fuel IH]; intros i0 ka kb top prev cur Hk Hf Hb Hx Hj Hp Ht HA Hc HP Hl HV. lia.
  cbn [poly_chain]. rewrite HrA by lia. cbn [bind]. rewrite HsA, HsB.
  destruct (adv_ok (S nb) kb ka) as (kb' & E & Lk & Hj' & Hk'); auto; try lia.
  rewrite E. cbn [bind].
  change (belowb (ay ka) prev) with (lt_bound (ay ka) prev). rewrite Hp. cbn [assert_ bind].
  set (cur' := cur ++ [(At (ax ka), prev); (At (ax ka), At (ay ka))]).
  assert (HP' : PathTo cur' (At (ax i0), top) (At (ax ka), At (ay ka)) (F top (At (ay ka)))).
  { unfold cur'. replace (cur ++ [(At (ax ka), prev); (At (ax ka), At (ay ka))]) with
      ((cur ++ [(At (ax ka), prev)]) ++ [(At (ax ka), At (ay ka))]) by (rewrite <- app_assoc; auto).
    eapply path_push; eauto. intros z. unfold F. cbn [meets]. rewrite Z.eqb_refl. cbn [andb].
    pose proof (band_b A ka prev z StA ltac:(lia) HA) as Bd.
    specialize (Ht (coord z 1)).
    destruct (lt_bound (coord z 1) prev) eqn:Lp.
    - specialize (Ht eq_refl). rewrite Ht. cbn [negb andb xorb]. cbn [lt_bound].
      destruct (Z.ltb_spec (coord z 1) (ay ka)) as [Y|Y]; cbn [negb andb xorb].
      + now rewrite andb_false_r.
      + rewrite (Bd eq_refl Y). destruct (ax ka <=? coord z 0); reflexivity.
    - assert (Y : (coord z 1 <? ay ka) = false).
      { apply Z.ltb_ge. destruct (Z_lt_le_dec (coord z 1) (ay ka)) as [Y|Y]; [|lia].
        rewrite (lt_bound_trans (coord z 1) (ay ka)) in Lp; auto; [discriminate|lia]. }
      cbn [lt_bound]. rewrite Y. cbn [negb xorb]. now rewrite andb_false_r, xorb_false_r. }
  assert (Len : (length cur' mod 2 = 0)%nat /\ (2 <= length cur')%nat).
  { unfold cur'. rewrite app_length. cbn [length]. split; [|lia].
    replace (length cur + 2)%nat with (length cur + 1 * 2)%nat by lia. now rewrite Nat.mod_add. }
  assert (Tk : lt_bound (ay ka) top = true) by auto.
  assert (HV' : Forall (Vert top (ay ka)) cur').
  { apply Forall_app. split; auto. constructor; [|constructor; [|constructor]]; (split; [apply corner_left|split]); cbn [snd]; auto; try lia.
    - now apply lt_leb_bound.
    - now apply lt_leb_bound.
    - cbn. apply Z.leb_refl.
    - intros i Hi. cbn. apply Z.ltb_ge. destruct (StA i ka); lia.
    - cbn. apply Z.leb_refl.
    - now apply le_bounds_at, lt_leb_bound. }
  (* the place where the loop stops *)
  assert (Done : ((S ka < na)%nat -> (kb' < nb)%nat /\ bx kb' <= ax (S ka)) ->
    exists ka'0 kb'0 cur'0, Ret (S ka, kb', row A ka, cur') = Ret (S ka'0, kb'0, row A ka'0, cur'0) /\
    (ka <= ka'0 < na)%nat /\ (kb <= kb'0 <= nb)%nat /\
    (forall m, (i0 <= m <= ka'0)%nat -> col m = col i0) /\
    PathTo cur'0 (At (ax i0), top) (At (ax ka'0), At (ay ka'0)) (F top (At (ay ka'0))) /\
    (length cur'0 mod 2 = 0)%nat /\ (2 <= length cur'0)%nat /\ Forall (Vert top (ay ka'0)) cur'0 /\
    lt_bound (ay ka'0) top = true /\
    (forall j, (j < kb'0)%nat -> ay ka'0 < by_ j) /\
    ((kb'0 < nb)%nat -> ax ka'0 < bx kb'0 /\ by_ kb'0 <= ay ka'0) /\
    ((S ka'0 < na)%nat -> (kb'0 < nb)%nat /\ bx kb'0 <= ax (S ka'0))).
  { intros D. exists ka, kb', cur'. split; auto. split; [lia|]. split; [lia|]. split; auto. split; auto.
    split; [apply Len|]. split; [apply Len|]. split; auto. }
  (* going on *)
  assert (More : (S ka < na)%nat -> ((kb' < nb)%nat -> ax (S ka) < bx kb') ->
    exists ka'0 kb'0 cur'0, (c <- rd color (S ka) ;;
      if col i0 =? c then poly_chain ea eb color fuel (S ka) kb' (col i0) (At (ay ka)) cur'
      else Ret (S ka, kb', row A ka, cur')) = Ret (S ka'0, kb'0, row A ka'0, cur'0) /\
    (ka <= ka'0 < na)%nat /\ (kb <= kb'0 <= nb)%nat /\
    (forall m, (i0 <= m <= ka'0)%nat -> col m = col i0) /\
    PathTo cur'0 (At (ax i0), top) (At (ax ka'0), At (ay ka'0)) (F top (At (ay ka'0))) /\
    (length cur'0 mod 2 = 0)%nat /\ (2 <= length cur'0)%nat /\ Forall (Vert top (ay ka'0)) cur'0 /\
    lt_bound (ay ka'0) top = true /\
    (forall j, (j < kb'0)%nat -> ay ka'0 < by_ j) /\
    ((kb'0 < nb)%nat -> ax ka'0 < bx kb'0 /\ by_ kb'0 <= ay ka'0) /\
    ((S ka'0 < na)%nat -> (kb'0 < nb)%nat /\ bx kb'0 <= ax (S ka'0))).
  { intros Hn Hr. rewrite rd_col by auto. cbn [bind].
    assert (Sa : ay (S ka) < ay ka) by (destruct (StA ka (S ka)); lia).
    assert (Ec : col (S ka) = col i0).
    { destruct (Z.eq_dec (col ka) (col (S ka))) as [Ec|Ec]. rewrite <- Ec. apply Hc. lia.
      exfalso. destruct (Hcc ka Hn Ec) as (j & Hjb & X & Y).
      destruct (le_lt_dec kb' j) as [G|L]; [|specialize (Hj' j L); lia].
      assert (Hkb : (kb' < nb)%nat) by lia. specialize (Hr Hkb).
      destruct (Nat.eq_dec kb' j) as [->|Ne]; [lia|]. destruct (StB kb' j); lia. }
    rewrite Ec, Z.eqb_refl.
    destruct (IH i0 (S ka) kb' top (At (ay ka)) cur') as (ka2 & kb2 & cur2 & E2 & L1 & L2 & R); try lia; auto.
    - intros j Hjj. specialize (Hj' j Hjj). lia.
    - cbn. apply Z.ltb_lt. lia.
    - intros y Y. cbn in Y. apply Z.ltb_lt in Y. apply (lt_bound_trans _ (ay ka)); auto. lia.
    - intros i Hi. cbn. apply Z.ltb_ge. destruct (Nat.eq_dec i ka) as [->|]. lia. destruct (StA i ka); lia.
    - intros m Hm. destruct (Nat.eq_dec m (S ka)) as [->|]; auto. apply Hc. lia.
    - apply (path_hor _ _ _ _ (At (ax (S ka)), At (ay ka)) HP'). reflexivity.
    - apply (verts_lower top (ay ka)); auto. lia.
    - exists ka2, kb2, cur2. split; auto. split; [lia|]. split; [lia|]. exact R. }
  destruct (Nat.ltb_spec kb' nb) as [Hkb|Hkb]; [destruct (Nat.ltb_spec (S ka) na) as [Hn|Hn]|]; cbn [andb].
  - rewrite HrA, HrB by auto. cbn [bind]. destruct (Hk' Hkb) as [X Y].
    replace (ax ka <? bx kb') with true by (symmetry; apply Z.ltb_lt; lia).
    replace (by_ kb' <=? ay ka) with true by (symmetry; apply Z.leb_le; lia). cbn [assert_ bind].
    destruct (Z.leb_spec (bx kb') (ax (S ka))) as [Hi|Hi].
    + assert (As : (by_ kb' =? ay ka) || (bx kb' =? ax (S ka)) = true).
      { destruct (Z.eqb_spec (by_ kb') (ay ka)) as [|Ne]; auto. cbn [orb]. apply Z.eqb_eq.
        destruct (Hdom kb' Hkb) as (i & Hia & X' & Y').
        assert (S ka <= i)%nat.
        { destruct (le_lt_dec (S ka) i); auto. exfalso. destruct (Nat.eq_dec i ka) as [->|]; [lia|].
          destruct (StA i ka); lia. }
        destruct (Nat.eq_dec i (S ka)) as [->|]; [lia|]. destruct (StA (S ka) i); lia. }
      rewrite As. cbn [assert_ bind]. apply Done. auto.
    + cbn [bind]. apply More; auto.
  - cbn [bind]. apply Done. lia.
  - cbn [bind]. destruct (Nat.ltb_spec (S ka) na) as [Hn|Hn].
    + apply More; auto. lia.
    + apply Done. lia.
Qed.

(** ** The right side *)
(** parity of the left side between [lo] and [top] and of the right side between
    [lo] and [h] *)
Definition G (top : bound) (lo : Z) (h : bound) (z : point) : bool :=
  xorb (F top (At lo) z) (negb (coord z 1 <? lo) && lt_bound (coord z 1) h && domb B z).

(** one vertical step up along the right side *)
Lemma up_step : forall cur s k h h' top lo, (k < nb)%nat ->
  PathTo cur s (At (bx k), At h) (G top lo (At h)) -> by_ k <= h -> lo <= h ->
  (forall j, (j < k)%nat -> lt_bound (by_ j) h' = false) ->
  (forall y, y < h -> lt_bound y h' = true) ->
  PathTo (cur ++ [(At (bx k), h')]) s (At (bx k), h') (G top lo h').
Proof.
  intros cur s k h h' top lo Hk P Hy Hlo Hj Hh. eapply path_push; eauto.
  intros z. cbn [meets]. rewrite Z.eqb_refl. cbn [andb]. unfold G. rewrite xorb_assoc. f_equal.
  cbn [lt_bound]. specialize (Hh (coord z 1)). pose proof (band_b B k h' z StB Hk Hj) as Bd.
  destruct (Z.ltb_spec (coord z 1) h) as [Y|Y].
  - rewrite (Hh Y). cbn [xorb]. rewrite andb_false_r, xorb_false_r. reflexivity.
  - replace (coord z 1 <? lo) with false by (symmetry; apply Z.ltb_ge; lia). cbn [negb andb xorb].
    destruct (lt_bound (coord z 1) h'); cbn [andb].
    + rewrite Bd by (auto; lia). rewrite andb_true_r. now destruct (_ <=? _).
    + now rewrite andb_false_r.
Qed.

Lemma back_ok : forall n lb pka cur s h top lo, (lb + n < nb)%nat ->
  coord pka 1 = lo -> PathTo cur s (At (bx (lb + n)), At h) (G top lo (At h)) ->
  by_ (lb + n) <= h -> lo <= h ->
  ((0 < n)%nat -> h < by_ (lb + n - 1)) -> (n = 0%nat -> lt_bound h top = true) ->
  (lt_bound (by_ lb) top = true) -> Forall (Vert top lo) cur ->
  exists cur' h', poly_back eb n lb pka (row B (lb + n)) cur = Ret (row B lb, cur') /\
    PathTo cur' s (At (bx lb), At h') (G top lo (At h')) /\ by_ lb <= h' /\ lo <= h' /\
    lt_bound h' top = true /\ Forall (Vert top lo) cur' /\
    (length cur' = length cur + 2 * n)%nat.
Proof.
  induction n as [|n IH]; intros lb pka cur s h top lo Hn Hp P Hy Hlo Hh Hz Ht HV.
  - rewrite Nat.add_0_r in *. exists cur, h. cbn [poly_back]. do 4 (split; [auto|]). split; [auto|]. split; [auto|lia].
  - cbn [poly_back]. rewrite HrB by lia. cbn [bind]. specialize (Hh ltac:(lia)).
    replace (lb + S n - 1)%nat with (lb + n)%nat in Hh by lia.
    replace (coord pka 1 <? by_ (lb + n)) with true by (symmetry; apply Z.ltb_lt; lia). cbn [assert_ bind].
    destruct (IH lb pka (cur ++ [(At (bx (lb + S n)), At (by_ (lb + n))); (At (bx (lb + n)), At (by_ (lb + n)))])
      s (by_ (lb + n)) top lo) as (cur' & h' & E & P' & Y & Y2 & T & V' & Len); auto; try lia.
    + replace (cur ++ [(At (bx (lb + S n)), At (by_ (lb + n))); (At (bx (lb + n)), At (by_ (lb + n)))])
        with ((cur ++ [(At (bx (lb + S n)), At (by_ (lb + n)))]) ++ [(At (bx (lb + n)), At (by_ (lb + n)))])
        by (rewrite <- app_assoc; auto).
      apply path_hor with (v := (At (bx (lb + S n)), At (by_ (lb + n)))); auto.
      apply up_step with (h := h); auto.
      * intros j Hj. cbn. apply Z.ltb_ge. destruct (Nat.eq_dec j (lb + n)) as [->|]. lia. destruct (StB j (lb + n)%nat); lia.
      * intros y Y. cbn. apply Z.ltb_lt. lia.
    + intros Hp'. destruct (StB (lb + n - 1)%nat (lb + n)%nat); lia.
    + intros ->. rewrite Nat.add_0_r in *. auto.
    + assert (Yt : lt_bound (by_ (lb + n)) top = true).
      { apply (lt_bound_trans _ (by_ lb)); auto. destruct (Nat.eq_dec n 0) as [->|]; [rewrite Nat.add_0_r; lia|].
        destruct (StB lb (lb + n)%nat); lia. }
      apply Forall_app. split; auto. constructor; [|constructor; [|constructor]]; (split; [apply corner_right|split]); cbn [snd leb_bound];
        try lia; try (apply Z.leb_le; lia); try (now apply le_bounds_at, lt_leb_bound).
      * intros j Hj. cbn. apply Z.ltb_ge. destruct (Nat.eq_dec j (lb + n)) as [->|]; [lia|]. destruct (StB j (lb + n)%nat); lia.
      * intros j Hj. cbn. apply Z.ltb_ge. destruct (StB j (lb + n)%nat); lia.
    + exists cur', h'. split; auto. split; auto. split; auto. split; auto. split; auto. split; auto.
      rewrite Len, app_length. cbn [length]. lia.
Qed.

(** what a finished polygon is *)
Definition Tile (top : bound) (lo : Z) (P : list vertex) : Prop :=
  orthogonal P /\ (4 <= length P)%nat /\ (length P mod 2 = 0)%nat /\
  (forall z, inside P z = negb (coord z 1 <? lo) && lt_bound (coord z 1) top && domb A z && negb (domb B z)) /\
  Forall (Vert top lo) P.

Lemma tile_close : forall cur s v top lo f, PathTo cur s v f -> snd v = snd s ->
  (4 <= length cur)%nat -> (length cur mod 2 = 0)%nat ->
  (forall z, f z = G top lo top z) -> Forall (Vert top lo) cur -> Tile top lo cur.
Proof.
  intros cur s v top lo f P E L1 L2 Hf HV. destruct (path_close _ _ _ _ P E) as [O I].
  split; auto. split; auto. split; auto. split; auto. intros z. rewrite I, Hf. unfold G, F. cbn [lt_bound].
  pose proof (dom_BA z) as D. destruct (domb B z); [rewrite D by auto|];
    destruct (coord z 1 <? lo), (lt_bound (coord z 1) top), (domb A z); auto.
Qed.

Lemma even_plus : forall a b, (a mod 2 = 0)%nat -> ((a + 2 * b) mod 2 = 0)%nat.
Proof. intros. rewrite Nat.mul_comm. now rewrite Nat.mod_add. Qed.

Lemma no_B_above : forall top z, (forall j, (j < nb)%nat -> lt_bound (by_ j) top = false) ->
  lt_bound (coord z 1) top = true -> domb B z = false.
Proof.
  intros top z H Hz. apply domb_false. intros (j & Hj & _ & Y). specialize (H j Hj).
  rewrite (lt_bound_trans _ _ _ Y Hz) in H. discriminate.
Qed.

(** the far side at infinity, from height lo to h *)
Lemma infinity_ok : forall cur s k top lo h, PathTo cur s (At (ax k), At lo) (F top (At lo)) ->
  (forall z, lt_bound (coord z 1) h = true -> domb B z = false) ->
  PathTo (cur ++ [(Infty, At lo); (Infty, h)]) s (Infty, h) (G top lo h).
Proof.
  intros cur s k top lo h P H.
  replace (cur ++ [(Infty, At lo); (Infty, h)]) with ((cur ++ [(Infty, At lo)]) ++ [(Infty, h)]) by (rewrite <- app_assoc; auto).
  eapply path_push with (v := (Infty, At lo)) (f := F top (At lo)).
  - now apply (path_hor _ _ _ _ (Infty, At lo) P).
  - left. reflexivity.
  - intros z. cbn [meets]. unfold G. f_equal. specialize (H z). destruct (lt_bound (coord z 1) h).
    + now rewrite H, !andb_false_r. + now rewrite andb_false_r.
Qed.

Lemma end_ok : forall ka0 ka lb kb top cur, Inv ka0 lb top -> (ka < na)%nat -> S ka = na ->
  PathTo cur (At (ax ka0), top) (At (ax ka), At (ay ka)) (F top (At (ay ka))) ->
  (length cur mod 2 = 0)%nat -> (2 <= length cur)%nat -> lt_bound (ay ka) top = true ->
  (lb <= kb <= nb)%nat -> (forall j, (j < kb)%nat -> ay ka < by_ j) ->
  ((kb < nb)%nat -> ax ka < bx kb /\ by_ kb <= ay ka) -> Forall (Vert top (ay ka)) cur ->
  exists P, poly_end eb lb (row A ka) top cur = Ret P /\ Tile top (ay ka) P.
Proof.
  intros ka0 ka lb kb top cur I Hka Hla P L1 L2 Ht Hkb Hj Hk HV. unfold poly_end. rewrite HsB.
  assert (Low : forall j, (j < nb)%nat -> ay ka <= by_ j).
  { intros j Hjj. destruct (Hdom j Hjj) as (i & Hi & _ & Y). destruct (Nat.eq_dec i ka) as [->|]; auto. destruct (StA i ka); lia. }
  assert (Bot : Vert top (ay ka) (Infty, At (ay ka))).
  { split; [apply (corner_infinity ka)|split]; auto; cbn [snd leb_bound]; try apply Z.leb_refl.
    - intros j Hjj. cbn. apply Z.ltb_ge. auto.
    - now apply le_bounds_at, lt_leb_bound. }
  destruct (Nat.eqb_spec lb nb) as [El|El].
  - change (belowb (ay ka) top) with (lt_bound (ay ka) top). rewrite Ht. cbn [assert_ bind].
    eexists. split. reflexivity. eapply tile_close.
    + eapply infinity_ok. exact P. intros z Hz. apply (no_B_above top); auto. rewrite <- El. apply (i_B _ _ _ I).
    + reflexivity.
    + rewrite app_length. cbn [length]. lia.
    + rewrite app_length. cbn [length]. now apply (even_plus _ 1).
    + auto.
    + apply Forall_app. split; auto. constructor; auto. constructor; auto.
      split; [apply (corner_infinity ka)|split]; auto; cbn [snd].
      * now apply lt_leb_bound.
      * rewrite <- El. apply (i_B _ _ _ I).
      * now apply lt_leb_bound.
      * now unfold le_bounds.
  - assert (Hlb : (lb < nb)%nat) by (pose proof (i_lb _ _ _ I); lia).
    set (l := (nb - 1)%nat). assert (Hl : (l < nb)%nat) by (unfold l; lia).
    rewrite HrB by auto. cbn [bind].
    assert (Hy : ay ka <= by_ l) by auto.
    replace (ay ka <=? by_ l) with true by (symmetry; apply Z.leb_le; lia). cbn [assert_ bind].
    pose proof (i_Bk _ _ _ I Hlb) as Blb.
    assert (Bl : lt_bound (by_ l) top = true).
    { apply (lt_bound_trans _ (by_ lb)); auto. destruct (Nat.eq_dec l lb) as [->|]. lia. destruct (StB lb l); unfold l in *; lia. }
    (* the vertices up to the last point of B *)
    assert (X : exists cur1, (if ay ka <? by_ l then
              _ <- assert_ (leb_bound (by_ l) top) ;;
              Ret (cur ++ [(Infty, At (ay ka)); (Infty, At (by_ l))])
            else _ <- assert_ (ax ka <? bx l) ;; Ret cur) = Ret cur1 /\
       PathTo (cur1 ++ [(At (bx l), At (by_ l))]) (At (ax ka0), top) (At (bx l), At (by_ l)) (G top (ay ka) (At (by_ l))) /\
       (length cur1 mod 2 = 0)%nat /\ (2 <= length cur1)%nat /\ Forall (Vert top (ay ka)) cur1).
    { destruct (Z.ltb_spec (ay ka) (by_ l)) as [Y|Y].
      - replace (leb_bound (by_ l) top) with true.
        2:{ symmetry. destruct top; cbn in *; auto. apply Z.ltb_lt in Bl. apply Z.leb_le. lia. }
        cbn [assert_ bind]. eexists. split. reflexivity. split; [|split; [|split]].
        + eapply path_hor. eapply infinity_ok. exact P. 2: reflexivity.
          intros z Hz. apply (no_B_above (At (by_ l))); auto. intros j Hjj. cbn. apply Z.ltb_ge.
          destruct (Nat.eq_dec j l) as [->|]. lia. destruct (StB j l); unfold l in *; lia.
        + rewrite app_length. cbn [length]. now apply (even_plus _ 1).
        + rewrite app_length. cbn [length]. lia.
        + apply Forall_app. split; auto. constructor; auto. constructor; auto.
          split; [apply (corner_infinity ka)|split]; auto; cbn [snd leb_bound]; try (apply Z.leb_le; lia).
          * intros j Hjj. cbn. apply Z.ltb_ge.
            destruct (Nat.eq_dec j l) as [->|]. lia. destruct (StB j l); unfold l in *; lia.
          * now apply le_bounds_at, lt_leb_bound.
      - assert (Ey : by_ l = ay ka) by lia.
        assert (kb = l). { destruct (Nat.eq_dec kb nb) as [Q|Q].
          - specialize (Hj l ltac:(lia)). lia.
          - destruct (Nat.eq_dec kb l); auto. specialize (Hk ltac:(lia)). destruct (StB kb l); unfold l in *; lia. }
        subst kb. destruct (Hk Hl) as [Xl _].
        replace (ax ka <? bx l) with true by (symmetry; apply Z.ltb_lt; lia). cbn [assert_ bind].
        eexists. split. reflexivity. split; [|split; [|split]; auto].
        apply path_push with (v := (At (ax ka), At (ay ka))) (f := F top (At (ay ka))); auto.
        + right. cbn. now rewrite Ey.
        + intros z. rewrite meets_hor by (cbn; now rewrite Ey). unfold G. f_equal. cbn [lt_bound]. rewrite Ey.
          now destruct (coord z 1 <? ay ka). }
    destruct X as (cur1 & E1 & P1 & M1 & M2 & M3). rewrite E1. cbn [bind].
    assert (El' : l = (lb + (l - lb))%nat) by (unfold l; lia).
    replace (row B l) with (row B (lb + (l - lb))) in * by (now rewrite <- El').
    destruct (back_ok (l - lb) lb (row A ka) (cur1 ++ [(At (bx (lb + (l - lb))), At (by_ (lb + (l - lb))))]) (At (ax ka0), top) (by_ (lb + (l - lb))) top (ay ka))
      as (cur2 & h' & E2 & P2 & Y1 & Y2 & Y3 & V2 & Len2); auto; try lia.
    + intros Hp. rewrite <- El'. destruct (StB (l - 1)%nat l); unfold l in *; lia.
    + rewrite <- El' in Hy, Bl |- *. apply Forall_app. split; auto. constructor; auto.
      split; [apply corner_right|split]; auto; cbn [snd leb_bound]; try (apply Z.leb_le; lia).
      * intros j Hjj. cbn. apply Z.ltb_ge. destruct (StB j l); unfold l in *; lia.
      * now apply le_bounds_at, lt_leb_bound.
    + rewrite E2. cbn [bind fst snd]. change (belowb (by_ lb) top) with (lt_bound (by_ lb) top). rewrite Blb.
      cbn [assert_ bind]. eexists. split. reflexivity. eapply tile_close.
      * eapply up_step; eauto. apply (i_B _ _ _ I).
        intros y Y. apply (lt_bound_trans _ h'); auto. lia.
      * reflexivity.
      * rewrite app_length, Len2, app_length. cbn [length]. lia.
      * rewrite app_length, Len2, app_length. cbn [length].
        replace (length cur1 + 1 + 2 * (l - lb) + 1)%nat with (length cur1 + 2 * (l - lb + 1))%nat by lia.
        now apply even_plus.
      * auto.
      * apply Forall_app. split; auto. constructor; auto. split; [apply corner_right|split]; auto; cbn [snd].
        -- now apply lt_leb_bound.
        -- apply (i_B _ _ _ I).
        -- now apply lt_leb_bound.
        -- now unfold le_bounds.
Qed.

Lemma turn_ok : forall ka0 ka lb kb top cur, Inv ka0 lb top -> (S ka < na)%nat ->
  PathTo cur (At (ax ka0), top) (At (ax ka), At (ay ka)) (F top (At (ay ka))) ->
  (length cur mod 2 = 0)%nat -> (2 <= length cur)%nat -> lt_bound (ay ka) top = true ->
  (lb <= kb < nb)%nat -> (forall j, (j < kb)%nat -> ay ka < by_ j) ->
  ax ka < bx kb -> by_ kb <= ay ka -> (ka0 <= ka)%nat -> Forall (Vert top (ay ka)) cur ->
  exists P lb', poly_turn eb lb kb (row A ka) top cur = Ret (P, lb') /\ Tile top (ay ka) P /\
    Inv (S ka) lb' (At (ay ka)).
Proof.
  intros ka0 ka lb kb top cur I Hka P L1 L2 Ht Hkb Hj Hx Hy Hle HV. unfold poly_turn. rewrite HsB.
  replace (kb =? nb)%nat with false by (symmetry; apply Nat.eqb_neq; lia).
  rewrite HrB by lia. cbn [bind].
  replace (by_ kb <=? ay ka) with true by (symmetry; apply Z.leb_le; lia).
  replace (bx kb =? ax ka) with false by (symmetry; apply Z.eqb_neq; lia). cbn [negb assert_ bind].
  assert (El' : kb = (lb + (kb - lb))%nat) by lia.
  assert (Blb : lt_bound (by_ lb) top = true) by (apply (i_Bk _ _ _ I); lia).
  destruct (back_ok (kb - lb) lb (row A ka) (cur ++ [(At (bx kb), At (ay ka))]) (At (ax ka0), top) (ay ka) top (ay ka))
    as (cur2 & h' & E2 & P2 & Y1 & Y2 & Y3 & V2 & Len2); auto; try lia.
  { rewrite <- El'. apply path_push with (v := (At (ax ka), At (ay ka))) (f := F top (At (ay ka))); auto.
    intros z. rewrite meets_hor by reflexivity. unfold G. f_equal. cbn [lt_bound]. now destruct (coord z 1 <? ay ka). }
  { rewrite <- El'. auto. }
  { intros Hp. rewrite <- El'. apply Hj. lia. }
  { apply Forall_app. split; auto. constructor; auto. split; [apply corner_right|split]; cbn [snd leb_bound]; try lia; try (apply Z.leb_le; lia).
    - intros j Hjj. cbn. apply Z.ltb_ge. specialize (Hj j Hjj). lia.
    - now apply le_bounds_at, lt_leb_bound. }
  rewrite <- El' in E2. rewrite E2. cbn [bind fst snd].
  change (belowb (by_ lb) top) with (lt_bound (by_ lb) top). rewrite Blb. cbn [assert_ bind].
  eexists. eexists. split. reflexivity. split.
  - eapply tile_close.
    + eapply up_step; eauto; try lia. apply (i_B _ _ _ I).
      intros y Y. apply (lt_bound_trans _ h'); auto. lia.
    + reflexivity.
    + rewrite app_length, Len2, app_length. cbn [length]. lia.
    + rewrite app_length, Len2, app_length. cbn [length].
      replace (length cur + 1 + 2 * (kb - lb) + 1)%nat with (length cur + 2 * (kb - lb + 1))%nat by lia.
      now apply even_plus.
    + auto.
    + apply Forall_app. split; auto. constructor; auto. split; [apply corner_right|split]; try lia; cbn [snd].
      * now apply lt_leb_bound.
      * apply (i_B _ _ _ I).
      * now apply lt_leb_bound.
      * now unfold le_bounds.
  - assert (IA : forall i, (i < S ka)%nat -> lt_bound (ay i) (At (ay ka)) = false).
    { intros i Hi. cbn. apply Z.ltb_ge. destruct (Nat.eq_dec i ka) as [->|]. lia. destruct (StA i ka); lia. }
    assert (IAk : (S ka < na)%nat -> lt_bound (ay (S ka)) (At (ay ka)) = true).
    { intros _. cbn. apply Z.ltb_lt. destruct (StA ka (S ka)); lia. }
    destruct (Z.eqb_spec (by_ kb) (ay ka)) as [Ey|Ey].
    + constructor; auto; try lia.
      * intros j Hjj. cbn. apply Z.ltb_ge. destruct (Nat.eq_dec j kb) as [->|]. lia.
        specialize (Hj j ltac:(lia)). lia.
      * intros H. cbn. apply Z.ltb_lt. destruct (StB kb (S kb)); lia.
    + constructor; auto; try lia.
      * intros j Hjj. cbn. apply Z.ltb_ge. specialize (Hj j Hjj). lia.
      * intros H. cbn. apply Z.ltb_lt. lia.
Qed.

(** ** All polygons of the pair *)
Definition Out (top : bound) (new : list (list vertex * Z)) : Prop :=
  (forall P c, In (P, c) new -> orthogonal P /\ (4 <= length P)%nat /\ (length P mod 2 = 0)%nat) /\
  (forall z, lt_bound (coord z 1) top && domb A z && negb (domb B z) = false -> containing new z = []) /\
  (forall z, lt_bound (coord z 1) top && domb A z && negb (domb B z) = true ->
     exists P k, containing new z = [(P, col k)] /\ (k < na)%nat /\ ax k <= coord z 0 /\ ay k <= coord z 1) /\
  (forall P c v, In (P, c) new -> In v P -> Corner v /\ le_bounds (snd v) top) /\
  ForallOrdPairs (fun p q => exists t, (forall v, In v (fst p) -> leb_bound t (snd v) = true) /\
                                       (forall v, In v (fst q) -> le_bounds (snd v) (At t))) new.

Lemma layout_cons : forall P c new, layout ((P, c) :: new) = (map Some P ++ [None]) ++ layout new.
Proof. reflexivity. Qed.

(** the colour of a polygon *)
Lemma tile_colour : forall i0 ka top z, (i0 <= ka < na)%nat ->
  (forall i, (i < i0)%nat -> lt_bound (ay i) top = false) ->
  (forall m, (i0 <= m <= ka)%nat -> col m = col i0) ->
  ay ka <= coord z 1 -> lt_bound (coord z 1) top = true -> domb A z = true ->
  exists k, (k < na)%nat /\ col k = col i0 /\ ax k <= coord z 0 /\ ay k <= coord z 1.
Proof.
  intros i0 ka top z H HA Hc Y1 Y2 D. apply domb_iff in D. destruct D as (i & Hi & X & Y).
  destruct (le_lt_dec i0 i) as [G1|L].
  - destruct (le_lt_dec i ka) as [L1|G2].
    + exists i. split; [auto|]. split; [apply Hc; lia|lia].
    + exists ka. split; [lia|]. split. apply Hc. lia. destruct (StA ka i); lia.
  - exfalso. specialize (HA i L). rewrite (lt_bound_trans _ _ _ Y Y2) in HA. discriminate.
Qed.

Lemma loop_ok : forall fuel ka lb top xy cols, Inv ka lb top -> (na < fuel + ka)%nat ->
  exists new, poly_loop ea eb color fuel ka lb top xy cols = Ret (xy ++ layout new, cols ++ map snd new) /\
    Out top new.
Proof.
  induction fuel as [|fuel IH]; intros ka lb top xy cols I Hf. { pose proof (i_ka _ _ _ I). lia. }
  cbn [poly_loop]. rewrite HsA.
  destruct (skip_ok (S na) ka lb top I) as (ka1 & lb1 & top1 & E1 & I1 & L1 & NB & TT & RX). lia.
  rewrite E1. cbn [bind].
  (* polygons below top1 are all polygons below top *)
  assert (Lift : forall new, Out top1 new -> Out top new).
  { intros new (O1 & O2 & O3 & O4 & O5). split; auto. specialize (NB). split; [|split; [|split; [|exact O5]]].
    - intros z H. apply O2. specialize (NB z). specialize (TT (coord z 1)).
      destruct (lt_bound (coord z 1) top1); auto. now rewrite TT in H by auto.
    - intros z H. apply O3. specialize (NB z). destruct (lt_bound (coord z 1) top) eqn:X; [|discriminate].
      destruct (lt_bound (coord z 1) top1) eqn:X1; auto. rewrite NB in H by auto. now destruct (domb B z).
    - intros P c v Q Hv. destruct (O4 P c v Q Hv) as [K1 K2]. split; auto. intros y Hy. auto. }
  destruct (Nat.eqb_spec ka1 na) as [Ek|Ek].
  { exists []. cbn [layout map concat]. rewrite !app_nil_r. split; auto. apply Lift. split. intros P c []. split.
    - reflexivity.
    - split; [|split; [intros P c v []|constructor]].
      intros z H. exfalso. destruct (lt_bound (coord z 1) top1) eqn:X; [|discriminate].
      destruct (domb A z) eqn:D; [|discriminate]. apply domb_iff in D. destruct D as (i & Hi & _ & Y).
      pose proof (i_A _ _ _ I1 i ltac:(lia)) as Q. rewrite (lt_bound_trans _ _ _ Y X) in Q. discriminate. }
  assert (Hk1 : (ka1 < na)%nat) by (pose proof (i_ka _ _ _ I1); lia).
  rewrite rd_col by auto. cbn [bind].
  pose proof (i_Ak _ _ _ I1 Hk1) as Ak1.
  destruct (chain_ok (S na) ka1 ka1 lb1 top1 top1 []) as
    (ka2 & kb & cur & E2 & L2 & Lb & Hc & P & M1 & M2 & V2 & T2 & Hj & Hkb & Hstop); auto; try lia.
  { apply (i_lb _ _ _ I1). }
  { intros j Hj. pose proof (i_B _ _ _ I1 j Hj) as Q. destruct (Z_lt_le_dec (ay ka1) (by_ j)); auto.
    rewrite (lt_bound_trans (by_ j) (ay ka1)) in Q; auto. discriminate. }
  { apply (i_A _ _ _ I1). }
  { intros m Hm. f_equal. lia. }
  { apply path_one. intros z. unfold F. now destruct (lt_bound (coord z 1) top1). }
  rewrite E2. cbn [bind].
  (* adding one tile *)
  assert (Add : forall P0 new, Tile top1 (ay ka2) P0 -> Out (At (ay ka2)) new -> Out top1 ((P0, col ka1) :: new)).
  { intros P0 new (T1 & T3 & T4 & T5 & T6) (O1 & O2 & O3 & O4 & O5). rewrite Forall_forall in T6. split; [|split; [|split; [|split]]].
    - intros P' c [Q|Q]; [|eauto]. injection Q as <- <-. auto.
    - intros z H. unfold containing. cbn [filter fst]. rewrite T5.
      destruct (Z.ltb_spec (coord z 1) (ay ka2)) as [Y|Y]; cbn [negb andb].
      + apply O2. cbn [lt_bound]. rewrite (lt_bound_trans (coord z 1) (ay ka2)) in H; auto; [|lia].
        replace (coord z 1 <? ay ka2) with true by (symmetry; apply Z.ltb_lt; lia). exact H.
      + rewrite H. apply O2. cbn [lt_bound]. replace (coord z 1 <? ay ka2) with false by (symmetry; apply Z.ltb_ge; lia).
        reflexivity.
    - intros z H. unfold containing. cbn [filter fst]. rewrite T5.
      destruct (Z.ltb_spec (coord z 1) (ay ka2)) as [Y|Y]; cbn [negb andb].
      + apply O3. cbn [lt_bound]. replace (coord z 1 <? ay ka2) with true by (symmetry; apply Z.ltb_lt; lia).
        rewrite (lt_bound_trans (coord z 1) (ay ka2)) in H; auto. lia.
      + rewrite H. fold (containing new z). rewrite O2.
        2:{ cbn [lt_bound]. replace (coord z 1 <? ay ka2) with false by (symmetry; apply Z.ltb_ge; lia). reflexivity. }
        apply andb_prop in H. destruct H as [H H3]. apply andb_prop in H. destruct H as [H1 H2].
        destruct (tile_colour ka1 ka2 top1 z) as (k & K1 & K2 & K3 & K4); auto.
        { apply (i_A _ _ _ I1). }
        exists P0, k. rewrite K2. auto.
    - intros P' c v [Q|Q] Hv.
      + injection Q as <- <-. destruct (T6 v Hv) as (K1 & _ & K2). auto.
      + destruct (O4 P' c v Q Hv) as [K1 K2]. split; auto. eapply le_bounds_trans; [exact K2|].
        now apply le_bounds_at, lt_leb_bound.
    - constructor; auto. apply Forall_forall. intros [P' c] Q. exists (ay ka2). split.
      + intros v Hv. apply (T6 v Hv).
      + intros v Hv. apply (O4 P' c v Q Hv). }
  assert (Cl : forall P0, Tile top1 (ay ka2) P0 -> forall xy cols, poly_close xy cols P0 (col ka1) =
    Ret (xy ++ map Some P0 ++ [None], cols ++ [col ka1])).
  { intros P0 (_ & T3 & T4 & _ & _) xy' cols'. unfold poly_close.
    replace (4 <=? length P0)%nat with true by (symmetry; apply Nat.leb_le; lia). rewrite T4. reflexivity. }
  destruct (Nat.eqb_spec (S ka2) na) as [Ee|Ee].
  - destruct (end_ok ka1 ka2 lb1 kb top1 cur) as (P0 & E3 & T3); auto; try lia.
    rewrite E3. cbn [bind]. rewrite Cl by auto.
    exists [(P0, col ka1)]. split.
    + unfold layout. cbn [map concat fst snd]. rewrite app_nil_r. reflexivity.
    + apply Lift. apply Add; auto. split. intros P' c []. split. reflexivity.
      split; [|split; [intros P' c v []|constructor]].
      intros z H. exfalso. cbn [lt_bound] in H. destruct (Z.ltb_spec (coord z 1) (ay ka2)) as [Y|Y]; [|discriminate].
      destruct (domb A z) eqn:D; [|discriminate]. apply domb_iff in D. destruct D as (i & Hi & _ & Y').
      destruct (Nat.eq_dec i ka2) as [->|]; [lia|]. destruct (StA i ka2); lia.
  - assert (Hn : (S ka2 < na)%nat) by lia. destruct (Hstop Hn) as [Hkn _]. destruct (Hkb Hkn) as [X Y].
    destruct (turn_ok ka1 ka2 lb1 kb top1 cur) as (P0 & lb2 & E3 & T3 & I3); auto; try lia.
    rewrite E3. cbn [bind fst snd]. rewrite Cl by auto. cbn [bind fst snd].
    replace (leb_bound (ay ka2) top1) with true.
    2:{ symmetry. destruct top1; cbn in *; auto. apply Z.ltb_lt in T2. apply Z.leb_le. lia. }
    cbn [assert_ bind].
    destruct (IH (S ka2) lb2 (At (ay ka2)) (xy ++ map Some P0 ++ [None]) (cols ++ [col ka1]) I3) as (new & E4 & O4). lia.
    rewrite E4. exists ((P0, col ka1) :: new). split.
    + rewrite layout_cons. cbn [map snd]. rewrite <- !app_assoc. reflexivity.
    + apply Lift. now apply Add.
Qed.

Lemma pair_loop_ok : forall xy cols,
  exists new, poly_loop ea eb color (S (e_size ea)) 0 0 Infty xy cols = Ret (xy ++ layout new, cols ++ map snd new) /\
    Out Infty new.
Proof.
  intros xy cols. rewrite HsA. apply loop_ok; [|lia].
  constructor; intros; try lia; reflexivity.
Qed.
End Pair.
