(** Proofs about the nondominated program, part 3: points that are transformed
    coordinate by coordinate keep their order. *)
From Coq Require Import Ascii String List ZArith Lia Bool Arith.
From Verif Require Import Base Spec FbSpec IoModel CmdModel HvCmdSpec IndCmdSpec NdCmdModel NdCmdSpec NdCmdProofs.
Import ListNotations.
Local Open Scope list_scope.
Open Scope Z_scope.

Section Order.
Variable a : option bool.
Variable mx : list bool.
Variable f : point -> point.
Variable ok : point -> Prop.
(** [f] keeps the order in each coordinate, or inverts it if the coordinate is turned *)
Definition keeps_order : Prop := forall p q i, ok p -> ok q -> (i < length mx)%nat ->
  (coord p i = coord q i -> coord (f p) i = coord (f q) i) /\
  (coord p i < coord q i -> if flips a (nth i mx false) then coord (f q) i < coord (f p) i else coord (f p) i < coord (f q) i).
Hypothesis K : keeps_order.

Lemma image_good : forall p q i, ok p -> ok q -> (i < length mx)%nat ->
  (as_good (aims a mx) (f p) (f q) i <-> as_good mx p q i) /\ (better (aims a mx) (f p) (f q) i <-> better mx p q i).
Proof.
  intros p q i Hp Hq Hi. unfold as_good, better. rewrite aims_nth by auto. destruct (K p q i Hp Hq Hi) as [E L], (K q p i Hq Hp Hi) as [E' L'].
  destruct (flips a (nth i mx false)), (nth i mx false); cbn [negb]; destruct (Z.lt_trichotomy (coord p i) (coord q i)) as [C|[C|C]];
    try specialize (E C); try specialize (L C); try specialize (L' C); lia.
Qed.
Lemma image_wdom : forall p q, ok p -> ok q -> (wdom (aims a mx) (f p) (f q) <-> wdom mx p q).
Proof.
  intros p q Hp Hq. unfold wdom. rewrite aims_length. split; intros H i Hi; apply (image_good p q i Hp Hq Hi); auto.
Qed.
Lemma image_dom : forall p q, ok p -> ok q -> (dom (aims a mx) (f p) (f q) <-> dom mx p q).
Proof.
  intros p q Hp Hq. unfold dom. rewrite image_wdom, aims_length by auto.
  split; intros (H & i & Hi & B); (split; [auto|]); exists i; (split; [auto|]); apply (image_good p q i Hp Hq Hi); auto.
Qed.
Lemma image_redundant : forall S, (forall p, In p S -> ok p) -> (redundant (aims a mx) (map f S) <-> redundant mx S).
Proof.
  intros S H. unfold redundant. rewrite map_length.
  assert (O : forall i, (i < length S)%nat -> ok (row S i)) by (intros; apply H; now apply nth_In).
  split; intros (i & j & Hi & Hj & N & W); exists i, j; (split; [auto|]); (split; [auto|]); (split; [auto|]).
  - rewrite !row_map in W by auto. now apply image_wdom in W; auto.
  - rewrite !row_map by auto. now apply image_wdom; auto.
Qed.
Lemma sublist_map : forall (S : list point) T', sublist T' (map f S) -> exists T, sublist T S /\ T' = map f T.
Proof.
  induction S as [|p S IH]; cbn [map]; intros T' H; inversion H; subst.
  - exists []. split; constructor.
  - destruct (IH l) as (T & A & ->); auto. exists (p :: T). split; auto. now constructor.
  - destruct (IH T') as (T & A & ->); auto. exists T. split; auto. now constructor.
Qed.
Lemma sublist_in : forall (S T : list point), sublist T S -> forall p, In p T -> In p S.
Proof. intros S T H. induction H; intros p Hp; auto. destruct Hp as [<-|Hp]; [now left|right; auto]. now right; auto. Qed.
Lemma image_part : forall S T', (forall p, In p S -> ok p) -> nondominated_part (aims a mx) (map f S) T' ->
  exists T, nondominated_part mx S T /\ T' = map f T.
Proof.
  intros S T' H (A & B & C & D). destruct (sublist_map S T' A) as (T & Su & ->). exists T. split; auto. pose proof (sublist_in S T Su) as I.
  split; auto. split. { now apply NoDup_map_inv in B. } split.
  - intros p Hp (q & Hq & Dq). apply (C (f p)). now apply in_map. exists (f q). split. now apply in_map. apply image_dom; auto.
  - intros p Hp. destruct (D (f p)) as (q' & Hq & W). now apply in_map. apply in_map_iff in Hq. destruct Hq as (q & <- & Hq). exists q. split; auto.
    apply image_wdom in W; auto.
Qed.
Lemma image_filtered : forall opts sets sets', (forall S p, In S sets -> In p S -> ok p) ->
  filtered opts (aims a mx) (map (map f) sets) sets' -> exists s2, filtered opts mx sets s2 /\ sets' = map (map f) s2.
Proof.
  intros opts sets sets' H. unfold filtered. destruct (filter_on opts).
  - intros F. remember (map (map f) sets) as l eqn:El. revert sets El H. induction F as [|S T l l' A F IH]; intros [|S0 sets] El H; try discriminate.
    + exists []. split; constructor.
    + cbn in El. injection El as -> ->. destruct (IH sets eq_refl) as (s2 & F2 & ->). { intros S p HS. apply H. now right. }
      destruct (image_part S0 T) as (T0 & N & ->); auto. { intros p. apply H. now left. }
      exists (T0 :: s2). split; auto.
  - intros ->. exists sets. auto.
Qed.
End Order.

Lemma selected_sub : forall A (P : A -> Prop) l l', selected P l l' -> forall x, In x l' -> In x l /\ P x.
Proof. intros A P l l' H. induction H; intros y Hy; [easy| |]. destruct Hy as [<-|Hy]. split; [now left|auto]. destruct (IHselected y Hy). split; [now right|auto]. destruct (IHselected y Hy). split; [now right|auto]. Qed.
Lemma united_in : forall opts sets S p, In S (united opts sets) -> In p S -> exists S0, In S0 sets /\ In p S0.
Proof.
  intros opts sets S p. unfold united. destruct (union_on opts); [|eauto]. intros [<-|[]] Hp. apply in_concat in Hp. firstorder.
Qed.
Lemma bounded_from : forall d opts lb ub sets s1 S p, bounded d opts lb ub sets s1 -> In S s1 -> In p S ->
  (exists S0, In S0 sets /\ In p S0) /\ (force_on opts = true -> inside d lb ub p).
Proof.
  intros d opts lb ub sets s1 S p. unfold bounded. destruct (force_on opts).
  - intros F. induction F as [|A B l l' Se F IH]; intros HS Hp; [easy|]. destruct HS as [<-|HS].
    + destruct (selected_sub _ _ _ _ Se p Hp) as [I In_]. split; auto. exists A. split; auto. now left.
    + destruct (IH HS Hp) as [(S0 & H0 & Hp0) I]. split; auto. exists S0. split; auto. now right.
  - intros -> HS Hp. split; [eauto|discriminate].
Qed.
Lemma bounded_in : forall d opts lb ub sets s1 S p, bounded d opts lb ub (united opts sets) s1 -> In S s1 -> In p S -> exists S0, In S0 sets /\ In p S0.
Proof.
  intros d opts lb ub sets s1 S p B HS Hp. destruct (bounded_from _ _ _ _ _ _ _ _ B HS Hp) as [(S0 & H0 & Hp0) _]. eapply united_in; eauto.
Qed.
Lemma filtered_in : forall opts mx sets sets', filtered opts mx sets sets' -> forall S p, In S sets' -> In p S -> exists S0, In S0 sets /\ In p S0.
Proof.
  intros opts mx sets sets'. unfold filtered. destruct (filter_on opts); [|intros ->; eauto].
  intros F. induction F as [|A B l l' N F IH]; intros S p HS Hp; [easy|]. destruct HS as [<-|HS].
  - exists A. split; [now left|]. destruct N as [N _]. eapply sublist_in; eauto.
  - destruct (IH S p HS Hp) as (S0 & H0 & Hp0). exists S0. split; auto. now right.
Qed.
