(** C68: the R functions vorobT and vorobDev.
    Specification: RMatSpec.v, REafSpec.v, VorobSpec.v, RVorobSpec.v.  Model: RVorobModel.v. *)
From Coq Require Import List ZArith QArith Qround Lia Lqa Bool Arith Permutation Sorted.
From Verif Require Import Base Spec HvMain NondomMain NondomProofs2d Hv2dModel Hv2dProofs PropHv PropEaf EafSpec EafModel EafMain EafStoreModel Eaf3dModel
  NondomModel HvSpec HvModel HvShiftModel HvShiftProofs  GroupModel GroupSpec GroupProofs PyEafModel PyEafSpec PyEafProofs
  VorobModel VorobSpec PropVorob RMatModel RMatSpec RMatProofs RIndModel PropRInd REafModel REafSpec REafProofs PropREaf RVorobModel RVorobSpec.
Import ListNotations.
Open Scope Z_scope.

(** ** Means *)
Lemma zsum_perm : forall l l', Permutation l l' -> zsum l = zsum l'.
Proof. induction 1; unfold zsum in *; cbn [fold_right]; lia. Qed.
Lemma mean_over_perm : forall Ss Ss' P m, Permutation Ss Ss' -> mean_over Ss P m -> mean_over Ss' P m.
Proof.
  intros Ss Ss' P m Hp (vs & F & E). destruct (Permutation_Forall2 Hp F) as (vs' & Hp' & F'). exists vs'. split; auto.
  now rewrite <- (zsum_perm _ _ Hp'), <- (Permutation_length Hp).
Qed.
Lemma mean_over_impl : forall Ss (P P' : list point -> Z -> Prop) m, (forall s v, P s v -> P' s v) -> mean_over Ss P m -> mean_over Ss P' m.
Proof. intros Ss P P' m H (vs & F & E). exists vs. split; auto. clear E. induction F; constructor; auto. Qed.
Lemma mean_over_map : forall (f : list point -> list point) Ss (P : list point -> Z -> Prop) m, mean_over (map f Ss) P m -> mean_over Ss (fun s v => P (f s) v) m.
Proof.
  intros f Ss P m (vs & F & E). exists vs. rewrite map_length in E. split; auto. clear E. revert vs F. induction Ss as [|s Ss IH]; intros vs F; cbn [map] in F; inversion F; subst; constructor; auto.
Qed.

(** ** Directions of optimisation *)
Lemma negate_inj : forall mx a b, negate_cols mx a = negate_cols mx b -> a = b.
Proof. intros mx a b E. now rewrite <- (negate_cols_invol mx a), <- (negate_cols_invol mx b), E. Qed.
Lemma negate_wdom : forall d mx p q, length mx = d -> (wdom (minimise d) (negate_cols mx p) (negate_cols mx q) <-> wdom mx p q).
Proof.
  intros d mx p q L. unfold wdom, minimise. rewrite repeat_length, L. unfold as_good.
  assert (H : forall i, nth i (repeat false d) false = false). { intros i. clear. revert i. induction d; intros [|i]; cbn; auto. }
  split; intros W i Hi; specialize (W i Hi); rewrite H in *; rewrite !coord_negate_cols in *; destruct (nth i mx false); lia.
Qed.
Lemma rows_with_map : forall (f : point -> point) rows labels v, rows_with (map f rows) labels v = map f (rows_with rows labels v).
Proof. intros f rows. induction rows as [|p rows IH]; intros [|l labels] v; cbn [map rows_with]; auto. destruct (l =? v); cbn [map]; now rewrite IH. Qed.
Lemma sets_of_map : forall (f : point -> point) rows labels, sets_of (map f rows) labels = map (map f) (sets_of rows labels).
Proof. intros. unfold sets_of. rewrite map_map. apply map_ext. intros v. apply rows_with_map. Qed.
Lemma negate_attains : forall d mx run z, length mx = d -> (attains_mx (minimise d) (map (negate_cols mx) run) (negate_cols mx z) <-> attains_mx mx run z).
Proof.
  intros d mx run z L. unfold attains_mx. split.
  - intros (p & Hp & W). apply in_map_iff in Hp. destruct Hp as (q & <- & Hq). exists q. split; auto. now apply (negate_wdom d).
  - intros (p & Hp & W). exists (negate_cols mx p). split; [now apply in_map|]. now apply (negate_wdom d).
Qed.
Lemma negate_at_least : forall d mx l runs z, length mx = d ->
  (at_least_attain (minimise d) l (map (map (negate_cols mx)) runs) (negate_cols mx z) <-> at_least_attain mx l runs z).
Proof.
  intros d mx l runs z L. unfold at_least_attain. rewrite map_length.
  assert (H : forall k, attains_mx (minimise d) (nth k (map (map (negate_cols mx)) runs) []) (negate_cols mx z) <-> attains_mx mx (nth k runs []) z).
  { intros k. change (@nil point) with (map (negate_cols mx) []) at 1. rewrite map_nth. now apply negate_attains. }
  split; intros (ks & N & Lk & F); exists ks; (split; [auto|split; [auto|]]); intros k Hk; (split; [apply (F k Hk)|]); apply H, (F k Hk).
Qed.
Lemma surface_negate : forall d mx runs l s, length mx = d -> surface_of d (minimise d) (map (map (negate_cols mx)) runs) l s ->
  surface_of d mx runs l (map (negate_cols mx) s).
Proof.
  intros d mx runs l s L (W & A & C). split; [|split].
  - apply Forall_forall. intros p Hp. apply in_map_iff in Hp. destruct Hp as (q & <- & Hq). rewrite negate_cols_length. unfold wf_points in W. rewrite Forall_forall in W. auto.
  - rewrite map_length. intros i j Hi Hj Ne. unfold row. rewrite !(nth_map_in (negate_cols mx) s _ [] []) by auto. intros D.
    apply (A i j Hi Hj Ne). apply (negate_wdom d mx) in D; auto. rewrite !negate_cols_invol in D. exact D.
  - intros z Hz. rewrite <- (negate_at_least d mx l runs z L). rewrite <- (C (negate_cols mx z)) by (now rewrite negate_cols_length). split.
    + intros (p & Hp & D). apply in_map_iff in Hp. destruct Hp as (q & <- & Hq). exists q. split; auto. apply (negate_wdom d mx) in D; auto. now rewrite negate_cols_invol in D.
    + intros (p & Hp & D). exists (negate_cols mx p). split; [now apply in_map|]. apply (negate_wdom d mx); auto. now rewrite negate_cols_invol.
Qed.

(** the volume of a surface is determined by its level *)
Lemma surface_cells : forall d mx runs l s ref z, length mx = d -> length ref = d -> surface_of d mx runs l s ->
  (dominated_cell_mx mx s ref z <-> length z = d /\ at_least_attain mx l runs z /\ forall i, (i < d)%nat -> better mx z ref i).
Proof.
  intros d mx runs l s ref z L Lr (W & A & C). unfold dominated_cell_mx. rewrite Lr. split.
  - intros (Lz & (p & Hp & Hc) & Hb). split; auto. split; auto. apply C; auto. exists p. split; auto. unfold wdom. now rewrite L.
  - intros (Lz & Ha & Hb). split; auto. split; auto. apply C in Ha; auto. destruct Ha as (p & Hp & D). exists p. split; auto. unfold wdom in D. now rewrite L in D.
Qed.
Lemma cells_unique : forall mx A B ref v w, (forall z, dominated_cell_mx mx A ref z <-> dominated_cell_mx mx B ref z) ->
  hypervolume_mx mx A ref v -> hypervolume_mx mx B ref w -> v = w.
Proof.
  intros mx A B ref v w H (L & N & I & ->) (M & N' & J & ->). f_equal. apply Permutation_length, NoDup_Permutation; auto. intros z. rewrite I, J. apply H.
Qed.
Lemma surface_volume : forall d mx runs l s t ref v w, length mx = d -> length ref = d -> surface_of d mx runs l s -> surface_of d mx runs l t ->
  hypervolume_mx mx s ref v -> hypervolume_mx mx t ref w -> v = w.
Proof.
  intros d mx runs l s t ref v w L Lr Hs Ht. apply cells_unique. intros z. rewrite (surface_cells d mx runs l s), (surface_cells d mx runs l t); auto. reflexivity.
Qed.
Lemma surface_nonempty : forall d mx runs l s, length mx = d -> wf_points d (concat runs) -> (forall r, In r runs -> r <> []) -> (l <= length runs)%nat ->
  surface_of d mx runs l s -> s <> [].
Proof.
  intros d mx runs l s L W Ne Hl (_ & _ & C) ->.
  assert (B : exists M, forall p i, In p (concat runs) -> Z.abs (coord p i) <= M).
  { clear. induction (concat runs) as [|p pts [M IH]]. { exists 0. intros p i []. }
    assert (P : exists M', forall i, Z.abs (coord p i) <= M').
    { clear. induction p as [|c p [M IH]]. { exists 0. intros [|i]; cbn; lia. } exists (Z.max (Z.abs c) M). intros [|i]; cbn; [lia|]. specialize (IH i). unfold coord in IH. lia. }
    destruct P as [M' P]. exists (Z.max M M'). intros q i [<-|Hq]; [specialize (P i); lia|]. specialize (IH q i Hq). lia. }
  destruct B as [M B]. set (z := map (fun i => if nth i mx false then - M else M) (seq 0 d)).
  destruct (proj2 (C z ltac:(unfold z; now rewrite map_length, seq_length))) as (p & [] & _).
  exists (seq 0 l). split; [apply seq_NoDup|]. split; [apply seq_length|]. intros k Hk. apply in_seq in Hk. split; [lia|].
  assert (Hr : In (nth k runs []) runs) by (apply nth_In; lia). specialize (Ne _ Hr). destruct (nth k runs []) as [|p r] eqn:E; [congruence|]. exists p. split; [now left|].
  intros i Hi. assert (Hp : In p (concat runs)). { apply in_concat. exists (p :: r). split; [exact Hr|now left]. }
  specialize (B p i Hp). unfold as_good. replace (coord z i) with (if nth i mx false then - M else M).
  2:{ unfold z, coord. rewrite nth_map_seq by lia. reflexivity. } destruct (nth i mx false); lia.
Qed.

Lemma dominated_cell_mx_dec : forall mx S ref, exists f, forall z, f z = true <-> dominated_cell_mx mx S ref z.
Proof.
  intros mx S ref. destruct (dominated_cell_dec (map (negate_cols mx) S) (negate_cols mx ref)) as (f & Hf). exists (fun z => f (negate_cols mx z)). intros z. rewrite Hf.
  unfold dominated_cell, dominated_cell_mx. rewrite !negate_cols_length. split.
  - intros (A & (p & Hp & Hc) & Hb). split; auto. split.
    + apply in_map_iff in Hp. destruct Hp as (q & <- & Hq). exists q. split; auto. intros i Hi. specialize (Hc i Hi). rewrite !coord_negate_cols in Hc. unfold as_good. destruct (nth i mx false); lia.
    + intros i Hi. specialize (Hb i Hi). rewrite !coord_negate_cols in Hb. unfold better. destruct (nth i mx false); lia.
  - intros (A & (p & Hp & Hc) & Hb). split; auto. split.
    + exists (negate_cols mx p). split; [now apply in_map|]. intros i Hi. specialize (Hc i Hi). rewrite !coord_negate_cols. unfold as_good in Hc. destruct (nth i mx false); lia.
    + intros i Hi. specialize (Hb i Hi). rewrite !coord_negate_cols. unfold better in Hb. destruct (nth i mx false); lia.
Qed.
Lemma sym_diff_mx : forall mx ref A B va vb vu,
  hypervolume_mx mx A ref va -> hypervolume_mx mx B ref vb -> hypervolume_mx mx (A ++ B) ref vu ->
  symmetric_difference_mx mx ref A B (2 * vu - va - vb).
Proof.
  intros mx ref A B va vb vu (LA & NA & IA & ->) (LB & NB & IB & ->) (LU & NU & IU & ->).
  assert (U : forall z, dominated_cell_mx mx (A ++ B) ref z <-> dominated_cell_mx mx A ref z \/ dominated_cell_mx mx B ref z).
  { intros z. unfold dominated_cell_mx. split.
    - intros (H1 & (p & Hp & Hc) & H2). apply in_app_iff in Hp. destruct Hp; [left|right]; eauto.
    - intros [(H1 & (p & Hp & Hc) & H2)|(H1 & (p & Hp & Hc) & H2)];
        (split; [auto|split; [exists p; split; [apply in_app_iff; auto|auto]|auto]]). }
  destruct (dominated_cell_mx_dec mx A ref) as (da & Hda). destruct (dominated_cell_mx_dec mx B ref) as (db & Hdb).
  exists (filter (fun z => xorb (da z) (db z)) LU). split; [|split].
  - now apply NoDup_filter.
  - intros z. rewrite filter_In, IU, U, <- Hda, <- Hdb. destruct (da z), (db z); cbn [xorb]; intuition congruence.
  - assert (EA : length LA = length (filter da LU)).
    { apply Permutation_length, NoDup_Permutation; auto. now apply NoDup_filter.
      intros z. rewrite filter_In, IA, IU, U, Hda. tauto. }
    assert (EB : length LB = length (filter db LU)).
    { apply Permutation_length, NoDup_Permutation; auto. now apply NoDup_filter.
      intros z. rewrite filter_In, IB, IU, U, Hdb. tauto. }
    rewrite EA, EB. assert (C : forall z, In z LU -> da z || db z = true).
    { intros z Hz. apply IU, U in Hz. rewrite <- Hda, <- Hdb in Hz. apply orb_true_iff. exact Hz. }
    clear - C. induction LU as [|z L IH]; simpl filter; simpl length; auto.
    assert (IH' := IH (fun y Hy => C y (or_intror Hy))). specialize (C z (or_introl eq_refl)).
    destruct (da z), (db z); cbn [xorb] in *; try discriminate; simpl length; lia.
Qed.

Section C68.
Variable sort2d : list point -> list nat.
Variable sortd : (nat -> Z) -> list nat -> list nat.
Variable g : hvst.
Variables (sortx sorty sortz : list point -> list nat) (junk : nat -> Z) (grow : nat -> nat -> nat) (dbl_max : Z).
Variable fresh : nat -> Q.
Variable order : list Z -> list nat.
Local Notation r_hypervolume := (r_hypervolume sort2d sortd dbl_max g).
Local Notation r_eaf := (r_eaf sortx sorty sortz junk grow (- dbl_max) dbl_max fresh order).
Local Notation machine_ok := (machine_ok sortx sorty sortz junk grow dbl_max order).
Local Notation sorting := (sorting sort2d sortd).
Local Notation surface_hv := (surface_hv sort2d sortd g sortx sorty sortz junk grow dbl_max fresh order).
Local Notation r_vorobT := (r_vorobT sort2d sortd g sortx sorty sortz junk grow dbl_max fresh order).
Local Notation r_vorobDev := (r_vorobDev sort2d sortd g sortx sorty sortz junk grow dbl_max fresh order).
Local Notation r_deviation := (r_deviation sort2d sortd g dbl_max).
Local Notation fits := (fits dbl_max).

(** coordinates are finite doubles *)
Definition finite (pts : list point) : Prop := forall p i, In p pts -> Z.abs (coord p i) <= dbl_max.

(** hypervolume of a matrix for minimisation *)
Lemma hv_min : forall x d rows reference ref, sorting d -> data_matrix x d rows -> for_each d reference ref ->
  (forall p i, In p rows -> (i < d)%nat -> - dbl_max <= coord p i) ->
  exists v, r_hypervolume x reference [false] = Ret v /\ hypervolume rows ref v.
Proof.
  intros x d rows reference ref (S1 & S2 & S3) D Fr B. pose proof (data_wf _ _ _ D) as W. pose proof D as (H & Ne & Hd). pose proof (for_each_length _ _ _ Fr) as Lr.
  unfold RIndModel.r_hypervolume. rewrite (as_matrix_ok x d rows) by auto. cbn [bind]. rewrite (proj1 (proj2 H)), (full_reference_ok d _ ref) by auto.
  unfold transform_both. change (any [false]) with false. cbv iota. cbn [bind fst snd]. unfold hypervolume_C. rewrite (proj1 (t_rows 0 x d _ H)), Lr, Nat.eqb_refl. cbn [assert_ bind].
  rewrite (c_rows_t x d _ ltac:(lia) H). cbn [bind].
  destruct (fpli_hv_ok_gen sort2d sortd dbl_max g rows d ref) as (v & Ev & Hv); auto. { destruct S3; auto. } exists v. auto.
Qed.
Lemma negate_repeat : forall b d a, negate_cols (repeat b d) (repeat a d) = repeat (if b then - a else a) d.
Proof.
  intros b d a. apply nth_ext with (d := 0) (d' := 0). { now rewrite negate_cols_length, !repeat_length. }
  rewrite negate_cols_length, repeat_length. intros i Hi. change (coord (negate_cols (repeat b d) (repeat a d)) i = nth i (repeat (if b then - a else a) d) 0).
  rewrite coord_negate_cols. unfold coord. assert (R : forall {T} (t dflt : T), nth i (repeat t d) dflt = t).
  { intros T t dflt. apply (@repeat_spec T d t). apply nth_In. now rewrite repeat_length. }
  rewrite !R. reflexivity.
Qed.
Lemma transform_ref : forall x d rows reference ref maximise mx, data_matrix x d rows -> reference_for d reference mx ref -> for_each d maximise mx ->
  exists x' r', transform_both x reference maximise = Ret (x', r') /\ has_rows x' d (map (negate_cols mx) rows) /\ for_each d r' (negate_cols mx ref).
Proof.
  intros x d rows reference ref maximise mx D R F. pose proof D as (H & Ne & Hd). destruct R as [[-> L]|(a & b & -> & -> & ->)].
  - destruct (transform_both_ok x d rows reference maximise mx D L F) as (x' & E & H'). exists x', (negate_cols mx reference). split; auto. split; auto. left. split; auto. now rewrite negate_cols_length.
  - destruct (transform_ok 0 Z.opp x d rows maximise (repeat b d) ltac:(lia) H F) as (x' & E & H'). unfold transform_both.
    rewrite (for_each_any d maximise (repeat b d)), any_repeat by (auto; lia). rewrite negate_repeat. destruct b.
    + rewrite E. cbn [bind]. rewrite (for_each_all d maximise (repeat true d)), all_repeat by (auto; lia). cbn [bind map]. exists x', [- a]. split; auto. split; auto. right. now exists (- a).
    + exists x, [a]. split; auto. split; [|right; now exists a]. rewrite (map_ext _ (fun p => p)), map_id; auto. intros p. apply negate_cols_none. exact (any_repeat false d ltac:(lia)).
Qed.

(** the matrices of the sets *)
Lemma split_ok : forall x d rows labels, has_rows x d rows -> length labels = length rows ->
  Forall2 (fun y S => has_rows y d S) (r_split x labels) (map (rows_with rows labels) (np_unique labels)).
Proof.
  intros x d rows labels H L. unfold r_split. rewrite (rep_len_for_each 0 labels labels (nrow x)). 2:{ left. split; auto. rewrite (proj1 H). exact L. }
  induction (np_unique labels) as [|v vs IH]; cbn [map]; constructor; auto. rewrite <- (which_rows _ rows [] labels v) by auto.
  apply rows_rows; auto. intros i Hi. apply which_spec in Hi. rewrite map_length in Hi. lia.
Qed.
Lemma split_perm : forall rows labels, Permutation (map (rows_with rows labels) (np_unique labels)) (sets_of rows labels).
Proof.
  intros rows labels. unfold sets_of. apply Permutation_map, NoDup_Permutation.
  - apply np_unique_NoDup.
  - apply ioa_NoDup.
  - intros v. rewrite np_unique_In. symmetry. apply ioa_In.
Qed.
Lemma sapply_ok : forall {A B} (f : A -> outcome B) (P : list point -> B -> Prop) ys Ss, Forall2 (fun y S => exists v, f y = Ret v /\ P S v) ys Ss ->
  exists vs, r_sapply f ys = Ret vs /\ Forall2 P Ss vs.
Proof.
  intros A B f P ys Ss F. induction F as [|y S ys Ss (v & E & Hv) F (vs & Es & Fs)]; cbn [r_sapply]. { exists []. auto. }
  rewrite E. cbn [bind]. rewrite Es. cbn [bind]. exists (v :: vs). auto.
Qed.

Lemma sets_of_in : forall rows labels p, In p (concat (sets_of rows labels)) -> In p rows.
Proof.
  intros rows labels p Hp. apply in_concat in Hp. destruct Hp as (r & Hr & Hp). apply in_map_iff in Hr. destruct Hr as (v & <- & _).
  revert labels Hp. induction rows as [|a rows IH]; intros [|l labels] Hp; cbn [rows_with] in Hp; try contradiction.
  destruct (l =? v); [destruct Hp as [->|Hp]; [now left|]|]; right; eauto.
Qed.
Lemma rows_with_nonempty : forall (rows : list point) labels v, length labels = length rows -> In v labels -> rows_with rows labels v <> [].
Proof.
  induction rows as [|a rows IH]; intros [|l labels] v L Hv; cbn in L; try discriminate; [contradiction|]. cbn [rows_with]. destruct Hv as [->|Hv].
  - rewrite Z.eqb_refl. discriminate.
  - destruct (l =? v); [discriminate|]. apply IH; auto.
Qed.
Lemma sets_nonempty : forall rows labels r, length labels = length rows -> In r (sets_of rows labels) -> r <> [].
Proof. intros rows labels r L Hr. apply in_map_iff in Hr. destruct Hr as (v & <- & Hv). apply rows_with_nonempty; auto. now apply ioa_In. Qed.

Lemma map_values_rows : forall {A B} (f : A -> B) (a : A) x d rows, (forall na i j, (i < length rows)%nat -> (j < d)%nat -> nth (j * length rows + i) (values x) na = nth j (nth i rows []) na) ->
  has_rows x d rows -> has_rows (mkMat (nrow x) (ncol x) (map f (values x))) d (map (map f) rows).
Proof.
  intros A B f a x d rows _ (N & C & L & W & H). unfold has_rows. cbn [nrow ncol values]. rewrite !map_length. split; auto. split; auto. split; auto. split.
  { apply Forall_forall. intros r Hr. apply in_map_iff in Hr. destruct Hr as (r0 & <- & Hr0). rewrite map_length. rewrite Forall_forall in W. auto. }
  intros na i j Hi Hj. rewrite (nth_map_in (map f) rows i [] []) by auto. rewrite Forall_forall in W.
  rewrite (nth_map_in f (nth i rows []) j na a) by (rewrite (W (nth i rows [])); [auto|now apply nth_In]).
  rewrite (nth_map_in f (values x) _ na a) by (rewrite L; nia). now rewrite H.
Qed.

(** one step of the loop, for minimisation *)
Lemma surface_hv_ok : forall {C} (toQ : C -> Q) x d rows labels reference ref c, machine_ok -> sorting d -> has_rows x d rows -> length labels = length rows -> rows <> [] ->
  wf_points d rows -> fits d rows -> (forall p i, In p rows -> (i < d)%nat -> - dbl_max <= coord p i) -> for_each d reference ref -> (0 <= toQ c <= 100)%Q ->
  exists l s, level_at (length (sets_of rows labels)) (toQ c) l /\ surface_of d (minimise d) (sets_of rows labels) l s /\
    (length s = 1%nat /\ surface_hv toQ x labels reference c = AssertFailed \/
     length s <> 1%nat /\ exists VE v, surface_hv toQ x labels reference c = Ret (VE, v) /\ has_rows VE d s /\ hypervolume s ref v).
Proof.
  intros C toQ x d rows labels reference ref c MO SO H L Ne W F B Fr Hc. pose proof (fits_dim _ _ _ F) as Hd.
  destruct (C67_eaf sortx sorty sortz junk grow dbl_max fresh order x (Some labels) d rows labels (Some [toQ c]) [false] (minimise d)) as (m & out & E & Hm & qs & ls & ss & Ch & Sf & ->); auto.
  { split; auto. } { right. now exists false. } { repeat constructor; apply Hc. }
  destruct Ch as (So & Qi & Qa & Fl).
  assert (Q : qs = [toQ c]).
  { destruct qs as [|q qs]. { destruct (Qa (toQ c) (or_introl eq_refl)) as (q & [] & _). }
    destruct (Qi q (or_introl eq_refl)) as [<-|[]]. destruct qs as [|q' qs]; auto. destruct (Qi q' (or_intror (or_introl eq_refl))) as [<-|[]].
    inversion So as [|? ? _ G]; subst. inversion G; subst. lra. }
  subst qs. inversion Fl as [|? l ? ls' Hl Fl']; subst. inversion Fl'; subst. inversion Sf as [|? s ? ss' Hs Sf']; subst. inversion Sf'; subst.
  exists l, s. split; [exact Hl|]. split; auto. unfold RVorobModel.surface_hv. rewrite E. cbn [bind].
  cbn [combine map concat fst snd] in Hm. rewrite app_nil_r in Hm.
  pose proof (init_rows 0%Q m d _ Hm) as Hi. rewrite map_map in Hi.
  assert (Hi' : has_rows (r_init 0%Q m) d (map (map inject_Z) s)).
  { erewrite map_ext_in; [exact Hi|]. intros p Hp. unfold out_row. cbn [fst snd]. destruct Hs as [Ws _]. unfold wf_points in Ws. rewrite Forall_forall in Ws.
    rewrite <- (Ws p Hp), <- (map_length inject_Z p). rewrite firstn_app, firstn_all, Nat.sub_diag. cbn [firstn]. now rewrite app_nil_r. }
  pose proof (map_values_rows Qfloor 0%Q _ d _ (proj2 (proj2 (proj2 (proj2 Hi')))) Hi') as HV. rewrite map_map in HV.
  assert (Ev : map (fun p => map Qfloor (map inject_Z p)) s = s).
  { rewrite <- (map_id s) at 2. apply map_ext. intros p. rewrite map_map. rewrite <- (map_id p) at 2. apply map_ext. intros z. apply Qfloor_Z. }
  rewrite Ev in HV. set (VE := mkMat _ _ (map Qfloor _)) in *. cbv zeta. rewrite (proj1 HV : nrow VE = @length point s).
  destruct (Nat.eqb_spec (length s) 1) as [Q1|Q1]; cbn [negb assert_ bind]; [left; auto|right]. split; auto.
  destruct (hv_min VE d s reference ref) as (v & Ev' & Hv); auto.
  - split; auto. split; auto. apply (surface_nonempty d (minimise d) (sets_of rows labels) l); auto.
    + apply repeat_length.
    + unfold wf_points in *. rewrite Forall_forall in *. intros p Hp. apply W. now apply sets_of_in in Hp.
    + intros r. now apply sets_nonempty.
    + destruct Hl as [[_ Hl] _]. exact Hl.
  - intros p i Hp Hi0. destruct Hs as (Ws & _ & Cs). unfold wf_points in Ws. rewrite Forall_forall in Ws.
    destruct (proj1 (Cs p (Ws p Hp))) as (ks & _ & Lk & Hk). { exists p. split; auto. intros j Hj. unfold as_good. destruct (nth j (minimise d) false); lia. }
    destruct Hl as [[Hl _] _]. destruct ks as [|k ks]; [cbn in Lk; lia|]. destruct (Hk k (or_introl eq_refl)) as (Hkl & q & Hq & D).
    specialize (D i ltac:(unfold minimise; now rewrite repeat_length)). unfold as_good in D.
    assert (R : nth i (minimise d) false = false). { unfold minimise. clear. revert i. induction d; intros [|i]; cbn; auto. } rewrite R in D.
    assert (In q rows). { apply (sets_of_in rows labels). apply in_concat. exists (nth k (sets_of rows labels) []). split; auto. now apply nth_In. }
    specialize (B q i H0 Hi0). lia.
  - rewrite Ev'. cbn [bind]. exists VE, v. auto.
Qed.

(** ** Surfaces of one level have the same points *)
Lemma wdom_antisym : forall d mx p q, length mx = d -> length p = d -> length q = d -> wdom mx p q -> wdom mx q p -> p = q.
Proof.
  intros d mx p q L Lp Lq A B. apply nth_ext with (d := 0) (d' := 0). { congruence. } intros i Hi. specialize (A i ltac:(lia)). specialize (B i ltac:(lia)).
  unfold as_good, coord in *. destruct (nth i mx false); lia.
Qed.
Lemma wdom_trans : forall mx p q r, wdom mx p q -> wdom mx q r -> wdom mx p r.
Proof. intros mx p q r A B i Hi. specialize (A i Hi). specialize (B i Hi). unfold as_good in *. destruct (nth i mx false); lia. Qed.
Lemma wdom_refl : forall mx p, wdom mx p p.
Proof. intros mx p i Hi. unfold as_good. destruct (nth i mx false); lia. Qed.
Lemma surface_incl : forall d mx runs l s t, length mx = d -> surface_of d mx runs l s -> surface_of d mx runs l t -> incl s t.
Proof.
  intros d mx runs l s t L (W & A & C) (W' & _ & C') p Hp. unfold wf_points in *. rewrite Forall_forall in *. pose proof (W p Hp) as Lp.
  destruct (proj2 (C' p Lp)) as (q & Hq & D). { apply C; auto. exists p. split; auto. apply wdom_refl. }
  destruct (proj2 (C q (W' q Hq))) as (r & Hr & D'). { apply C'; auto. exists q. split; auto. apply wdom_refl. }
  assert (r = p). { apply (In_nth _ _ []) in Hr. destruct Hr as (i & Hi & <-). apply (In_nth _ _ []) in Hp. destruct Hp as (j & Hj & <-).
    destruct (Nat.eq_dec i j) as [->|N]; auto. exfalso. apply (A i j Hi Hj N). unfold row. eapply wdom_trans; eauto. }
  subst r. assert (p = q) as -> by (apply (wdom_antisym d mx); auto). exact Hq.
Qed.
Lemma surface_NoDup : forall d mx runs l s, surface_of d mx runs l s -> NoDup s.
Proof.
  intros d mx runs l s (W & A & C). apply NoDup_nth with (d := []). intros i j Hi Hj E. destruct (Nat.eq_dec i j) as [|N]; auto. exfalso.
  apply (A i j Hi Hj N). unfold row. rewrite E. apply wdom_refl.
Qed.
Lemma surface_length : forall d mx runs l s t, length mx = d -> surface_of d mx runs l s -> surface_of d mx runs l t -> length s = length t.
Proof.
  intros d mx runs l s t L A B. apply Permutation_length, NoDup_Permutation.
  - now apply surface_NoDup in A.
  - now apply surface_NoDup in B.
  - intros p. split; [apply (surface_incl d mx runs l s t)|apply (surface_incl d mx runs l t s)]; auto.
Qed.
Lemma level_unique : forall n p l l', level_at n p l -> level_at n p l' -> l = l'.
Proof. intros n p l l'. apply level_of_unique. Qed.

(** the function fails once it has failed with less fuel *)
Lemma loop_more_fail : forall C V mid (H : C -> outcome (V * Z)) avg fuel fuel' (a b : C) prev, (fuel <= fuel')%nat ->
  vorob_loop mid H avg fuel a b prev = AssertFailed -> vorob_loop mid H avg fuel' a b prev = AssertFailed.
Proof.
  induction fuel; intros fuel' a b prev Hf E; [discriminate|]. destruct fuel' as [|fuel']; [lia|].
  cbn [vorob_loop] in *. destruct (H (mid a b)) as [[s v]| | |]; cbn [bind] in *; try discriminate; auto.
  destruct (match prev with Some p => p =? snd (s, v) | None => false end); [discriminate|]. apply IHfuel; auto. lia.
Qed.

(** what the functions work on *)
Lemma prepared : forall x sets d rows labels reference ref maximise mx, labelled x sets d rows labels -> (2 <= d)%nat ->
  for_each d maximise mx -> reference_for d reference mx ref ->
  data_matrix (fst (r_sets x sets)) d rows /\ snd (r_sets x sets) = labels /\
  exists x' r', transform_both (fst (r_sets x sets)) reference maximise = Ret (x', r') /\ data_matrix x' d (map (negate_cols mx) rows) /\ for_each d r' (negate_cols mx ref).
Proof.
  intros x sets d rows labels reference ref maximise mx Lb Hd Fm R. destruct (r_sets_ok x sets d rows labels Hd Lb) as [Hx Hs]. destruct Lb as (L & Ne & _ & W).
  assert (D : data_matrix (fst (r_sets x sets)) d rows) by (split; auto). split; auto. split; auto.
  destruct (transform_ref _ d rows reference ref maximise mx D R Fm) as (x' & r' & E & H' & Fr). exists x', r'. split; auto. split; auto. split; auto. split; auto.
  intros Q. apply map_eq_nil in Q. auto.
Qed.
Lemma negate_finite : forall d mx rows p i, finite rows -> In p (map (negate_cols mx) rows) -> (i < d)%nat -> - dbl_max <= coord p i.
Proof. intros d mx rows p i F Hp _. apply in_map_iff in Hp. destruct Hp as (q & <- & Hq). rewrite coord_negate_cols. specialize (F q i Hq). destruct (nth i mx false); lia. Qed.
Lemma negate_wf : forall d mx rows, wf_points d rows -> wf_points d (map (negate_cols mx) rows).
Proof. intros d mx rows W. unfold wf_points in *. rewrite Forall_forall in *. intros p Hp. apply in_map_iff in Hp. destruct Hp as (q & <- & Hq). rewrite negate_cols_length. auto. Qed.

(** the hypervolumes of the sets, with other points *)
Lemma hvs_ok : forall x' d rows labels r' ref mx (f : rmat Z -> rmat Z) extra, sorting d -> data_matrix x' d (map (negate_cols mx) rows) -> length labels = length rows ->
  for_each d r' (negate_cols mx ref) -> finite rows -> finite extra -> (2 <= d)%nat ->
  (forall y S, has_rows y d S -> has_rows (f y) d (S ++ map (negate_cols mx) extra)) ->
  exists vs, r_sapply (fun y => r_hypervolume (f y) r' [false]) (r_split x' labels) = Ret vs /\
    Forall2 (fun S v => hypervolume (map (negate_cols mx) (S ++ extra)) (negate_cols mx ref) v) (map (rows_with rows labels) (np_unique labels)) vs.
Proof.
  intros x' d rows labels r' ref mx f extra SO (H' & Ne & _) L Fr Fi Fe Hd Hf.
  apply sapply_ok. pose proof (split_ok x' d _ labels H' ltac:(now rewrite map_length)) as F.
  assert (G : forall v, In v (np_unique labels) -> rows_with rows labels v <> []). { intros v Hv. apply rows_with_nonempty; auto. now apply np_unique_In. }
  unfold r_split in F |- *. set (u := np_unique (rep_len _ _ _)) in *.
  assert (Eu : u = np_unique labels). { unfold u. f_equal. apply rep_len_for_each. left. split; auto. now rewrite (proj1 H'), map_length. }
  rewrite Eu in *. clear u Eu. induction (np_unique labels) as [|v vs IH]; cbn [map] in *; constructor.
  - inversion F as [|? ? ? ? Hy F']; subst. rewrite rows_with_map in Hy. specialize (Hf _ _ Hy). rewrite <- map_app in Hf.
    apply (hv_min _ d _ r'); auto.
    + split; auto. split; auto. intros Q. apply map_eq_nil, app_eq_nil in Q. apply (G v (or_introl eq_refl)), Q.
    + intros p i Hp Hi. apply in_map_iff in Hp. destruct Hp as (q & <- & Hq). apply in_app_iff in Hq. rewrite coord_negate_cols.
      assert (B : Z.abs (coord q i) <= dbl_max).
      { destruct Hq as [Hq|Hq]; [|now apply Fe]. apply Fi. clear - Hq. revert labels Hq. induction rows as [|a rows IH]; intros [|l labels] Hq; cbn [rows_with] in Hq; try contradiction.
        destruct (l =? v); [destruct Hq as [->|Hq]; [now left|]|]; right; eauto. }
      destruct (nth i mx false); lia.
  - inversion F; subst. apply IH; auto. intros w Hw. apply G. now right.
Qed.
Lemma mean_volumes : forall rows labels (P : list point -> Z -> Prop) vs, rows <> [] -> length labels = length rows ->
  Forall2 P (map (rows_with rows labels) (np_unique labels)) vs -> mean_over (sets_of rows labels) P (np_mean vs).
Proof.
  intros rows labels P vs Ne L F. apply (mean_over_perm _ _ _ _ (split_perm rows labels)). exists vs. split; auto. unfold np_mean. rewrite (forall2_l _ _ _ _ _ F). reflexivity.
Qed.

(** the loop of vorobT *)
Lemma vorob_run : forall (mid : Z -> Z -> Z) (toQ : Z -> Q) zero hundred x sets d rows labels reference ref maximise mx,
  (forall c, zero <= c <= hundred -> (0 <= toQ c <= 100)%Q) ->
  machine_ok -> sorting d -> labelled x sets d rows labels -> fits d rows -> finite rows ->
  for_each d maximise mx -> reference_for d reference mx ref ->
  let Ss := sets_of rows labels in
  length mx = d /\ length ref = d /\ (2 <= d)%nat /\
  exists (H : Z -> outcome (rmat Z * Z)) avg, mean_over Ss (fun s v => hypervolume_mx mx s ref v) avg /\
    (forall c, zero <= c <= hundred -> exists l s, level_at (length Ss) (toQ c) l /\ surface_of d mx Ss l (map (negate_cols mx) s) /\
      (length s = 1%nat /\ H c = AssertFailed \/ length s <> 1%nat /\ exists VE v, H c = Ret (VE, v) /\ has_rows VE d s /\ hypervolume_mx mx (map (negate_cols mx) s) ref v)) /\
    forall fuel, r_vorobT mid toQ zero hundred fuel x sets reference maximise =
      (r <- vorob_loop mid H avg fuel zero hundred None ;; VE <- transform_maximise 0 Z.opp (snd r) maximise ;; Ret (fst r, VE, avg)).
Proof.
  intros mid toQ zero hundred x sets d rows labels reference ref maximise mx HtoQ MO SO Lb F Fi Fm R Ss.
  pose proof (fits_dim _ _ _ F) as Hd. destruct (prepared x sets d rows labels reference ref maximise mx Lb Hd Fm R) as (D & Hs & x' & r' & E & D' & Fr).
  destruct Lb as (L & Ne & _ & W). pose proof (for_each_length _ _ _ Fm) as Lm. pose proof (for_each_length _ _ _ Fr) as Lr. rewrite negate_cols_length in Lr.
  destruct (hvs_ok x' d rows labels r' ref mx (fun y => y) [] SO D' L Fr Fi) as (vs & Ev & Fv); auto. { intros p i []. } { intros y S Hy. cbn [map]. now rewrite app_nil_r. }
  split; auto. split; auto. split; auto.
  set (avg := np_mean vs).
  assert (Mavg : mean_over Ss (fun s v => hypervolume_mx mx s ref v) avg).
  { apply mean_volumes; auto. clear - Fv. induction Fv; constructor; auto. rewrite app_nil_r in H. now apply hypervolume_negate. }
  set (H := surface_hv toQ x' labels r').
  assert (HH : forall c, zero <= c <= hundred -> exists l s, level_at (length Ss) (toQ c) l /\ surface_of d mx Ss l (map (negate_cols mx) s) /\
    (length s = 1%nat /\ H c = AssertFailed \/ length s <> 1%nat /\ exists VE v, H c = Ret (VE, v) /\ has_rows VE d s /\ hypervolume_mx mx (map (negate_cols mx) s) ref v)).
  { intros c Hc. destruct (surface_hv_ok toQ x' d (map (negate_cols mx) rows) labels r' (negate_cols mx ref) c) as (l & s & Hl & Hsf & Hr); auto.
    - apply D'. - now rewrite map_length. - apply D'. - now apply negate_wf.
    - apply (fits_neg dbl_max d mx rows); auto. { now rewrite map_length. } intros p Hp. apply in_map_iff in Hp. destruct Hp as (q & <- & Hq). exists q. split; auto. symmetry. apply neg_negate.
    - intros p i. now apply negate_finite.
    - rewrite sets_of_map in Hl, Hsf. rewrite map_length in Hl. exists l, s. split; auto. split; [now apply surface_negate|].
      destruct Hr as [[Q1 Q2]|(Q1 & VE & v & Q2 & Q3 & Q4)]; [left|right]; auto. split; auto. exists VE, v. split; auto. split; auto.
      apply hypervolume_negate. rewrite map_map. rewrite (map_ext _ (fun p => p)), map_id; auto. apply negate_cols_invol. }
  exists H, avg. split; auto. split; auto.
  intros fuel. unfold RVorobModel.r_vorobT. rewrite (as_matrix_ok _ d rows) by apply D. cbn [bind]. rewrite E. cbn [bind fst snd]. rewrite Hs, Ev. reflexivity.
Qed.

(** vorobT ends.  Either it returns the mean hypervolume of the sets, and a threshold with
    its attainment surface, where the threshold is one end of an interval [lo, hi] such
    that the surface of lo has more than the mean hypervolume and the surface of hi has
    not.  Or it fails, and there is an attainment surface with just one point. *)
Theorem C68_vorobT : forall (rep : Z -> Prop) (mid : Z -> Z -> Z) (toQ : Z -> Q) zero hundred x sets d rows labels reference ref maximise mx,
  valid_mid rep mid -> rep zero -> rep hundred -> zero <= hundred -> (forall c, zero <= c <= hundred -> (0 <= toQ c <= 100)%Q) ->
  machine_ok -> sorting d -> labelled x sets d rows labels -> fits d rows -> finite rows ->
  for_each d maximise mx -> reference_for d reference mx ref ->
  let S := sets_of rows labels in
  exists N,
  (exists c VE s avg l lo hi,
    (forall fuel, (N <= fuel)%nat -> r_vorobT mid toQ zero hundred fuel x sets reference maximise = Ret (c, VE, avg)) /\
    mean_over S (fun s v => hypervolume_mx mx s ref v) avg /\
    has_rows VE d s /\ level_at (length S) (toQ c) l /\ surface_of d mx S l s /\
    zero <= lo <= hi /\ hi <= hundred /\ (c = lo \/ c = hi) /\
    (lo = zero \/ forall l s v, level_at (length S) (toQ lo) l -> surface_of d mx S l s -> hypervolume_mx mx s ref v -> (avg < inject_Z v)%Q) /\
    (hi = hundred \/ forall l s v, level_at (length S) (toQ hi) l -> surface_of d mx S l s -> hypervolume_mx mx s ref v -> (inject_Z v <= avg)%Q)) \/
  (forall fuel, (N <= fuel)%nat -> r_vorobT mid toQ zero hundred fuel x sets reference maximise = AssertFailed) /\
    exists l s, (1 <= l <= length S)%nat /\ surface_of d mx S l s /\ length s = 1%nat.
Proof.
  intros rep mid toQ zero hundred x sets d rows labels reference ref maximise mx Hmid Rz Rh Hzh HtoQ MO SO Lb F Fi Fm R Ss.
  destruct (vorob_run mid toQ zero hundred x sets d rows labels reference ref maximise mx HtoQ MO SO Lb F Fi Fm R) as (Lm & Lr & Hd & H & avg & Mavg & HH & Run). fold Ss in Mavg, HH.
  set (N := (Z.to_nat (hundred - zero) + 2)%nat). exists N.
  destruct (loop_ok_or rep mid H avg zero hundred Hmid) with (n := Z.to_nat (hundred - zero)) (a := zero) (b := hundred) (prev := @None Z) (fuel := N)
    as [(c & VE & v & lo & hi & El & Ec & B1 & B2 & B3 & B4 & B5)|(El & c & Hc & Ec)].
  { intros c Hc. destruct (HH c Hc) as (l & s & _ & _ & [[_ Q]|(_ & VE & v & Q & _)]); eauto. }
  { unfold inv. repeat split; auto; lia. }
  { rewrite Z2Nat.id; lia. } { apply le_n. }
  - left. destruct (HH c) as (l & s & Hl & Hsf & Hr). { destruct B3; lia. }
    destruct Hr as [[_ Q]|(Q1 & VE' & v' & Q2 & Q3 & Q4)]; [congruence|]. rewrite Ec in Q2. injection Q2 as <- <-.
    destruct (transform_ok 0 Z.opp VE d s maximise mx ltac:(lia) Q3 Fm) as (VE' & EV & HV).
    exists c, VE', (map (negate_cols mx) s), avg, l, lo, hi.
    split. { intros fuel Hf. rewrite Run, (loop_more_fuel _ _ _ _ _ _ _ _ _ _ _ Hf El). cbn [bind snd fst]. rewrite EV. reflexivity. }
    split; auto. split; [exact HV|]. split; auto. split; auto. split; auto. split; auto. split; auto. split.
    + destruct B4 as [B4|(s1 & v1 & E1 & G1)]; auto. right. intros l2 s2 v2 L2 S2 V2. destruct (HH lo ltac:(lia)) as (l3 & s3 & L3 & S3 & [[_ Q]|(_ & VE3 & v3 & Q5 & _ & Q6)]); [congruence|].
      rewrite E1 in Q5. injection Q5 as <- <-. rewrite (level_unique _ _ _ _ L2 L3) in S2. now rewrite (surface_volume d mx Ss l3 s2 _ ref v2 v1 Lm Lr S2 S3 V2 Q6).
    + destruct B5 as [B5|(s1 & v1 & E1 & G1)]; auto. right. intros l2 s2 v2 L2 S2 V2. destruct (HH hi ltac:(lia)) as (l3 & s3 & L3 & S3 & [[_ Q]|(_ & VE3 & v3 & Q5 & _ & Q6)]); [congruence|].
      rewrite E1 in Q5. injection Q5 as <- <-. rewrite (level_unique _ _ _ _ L2 L3) in S2. now rewrite (surface_volume d mx Ss l3 s2 _ ref v2 v1 Lm Lr S2 S3 V2 Q6).
  - right. split. { intros fuel Hf. rewrite Run, (loop_more_fail _ _ _ _ _ _ _ _ _ _ Hf El). reflexivity. }
    destruct (HH c Hc) as (l & s & Hl & Hsf & [[Q _]|(_ & VE & v & Q & _)]); [|congruence]. exists l, (map (negate_cols mx) s). split; [apply Hl|]. split; auto. now rewrite map_length.
Qed.

(** if the first surface, of the midpoint of 0 and 100, has just one point, vorobT fails *)
Theorem C68_vorobT_one_point : forall (mid : Z -> Z -> Z) (toQ : Z -> Q) zero hundred fuel x sets d rows labels reference ref maximise mx,
  zero <= mid zero hundred <= hundred -> (forall c, zero <= c <= hundred -> (0 <= toQ c <= 100)%Q) ->
  machine_ok -> sorting d -> labelled x sets d rows labels -> fits d rows -> finite rows ->
  for_each d maximise mx -> reference_for d reference mx ref ->
  (exists l s, level_at (length (sets_of rows labels)) (toQ (mid zero hundred)) l /\ surface_of d mx (sets_of rows labels) l s /\ length s = 1%nat) ->
  r_vorobT mid toQ zero hundred (S fuel) x sets reference maximise = AssertFailed.
Proof.
  intros mid toQ zero hundred fuel x sets d rows labels reference ref maximise mx Hm HtoQ MO SO Lb F Fi Fm R (l & s & Hl & Hs & L1).
  destruct (vorob_run mid toQ zero hundred x sets d rows labels reference ref maximise mx HtoQ MO SO Lb F Fi Fm R) as (Lm & Lr & Hd & H & avg & Mavg & HH & Run).
  destruct (HH _ Hm) as (l' & s' & Hl' & Hs' & Hr). rewrite (level_unique _ _ _ _ Hl Hl') in Hs. pose proof (surface_length d mx _ l' _ _ Lm Hs Hs') as Q. rewrite map_length in Q.
  destruct Hr as [[_ E]|[N _]]; [|congruence]. rewrite Run. cbn [vorob_loop]. rewrite E. reflexivity.
Qed.

(** ** vorobDev *)
(** vorobDev is the mean volume of the symmetric differences of the sets and VE *)
Theorem C68_vorobDev : forall (mid : Z -> Z -> Z) (toQ : Z -> Q) zero hundred fuel x sets d rows labels reference ref maximise mx VE ve,
  sorting d -> labelled x sets d rows labels -> (2 <= d)%nat -> finite rows -> for_each d maximise mx -> reference_for d reference mx ref ->
  data_matrix VE d ve -> finite ve ->
  exists dev, r_vorobDev mid toQ zero hundred fuel x sets reference (Some VE) maximise = Ret dev /\
    mean_over (sets_of rows labels) (fun s v => symmetric_difference_mx mx ref s ve v) dev.
Proof.
  intros mid toQ zero hundred fuel x sets d rows labels reference ref maximise mx VE ve SO Lb Hd Fi Fm R DV Fv.
  destruct (prepared x sets d rows labels reference ref maximise mx Lb Hd Fm R) as (D & Hs & x' & r' & E & D' & Fr).
  destruct Lb as (L & Ne & _ & W). pose proof (for_each_length _ _ _ Fm) as Lm.
  unfold RVorobModel.r_vorobDev. rewrite (as_matrix_ok _ d rows) by apply D. cbn [bind]. rewrite Hs. unfold RVorobModel.r_deviation. rewrite E. cbn [bind fst snd].
  destruct (transform_ok 0 Z.opp VE d ve maximise mx ltac:(lia) (proj1 DV) Fm) as (VE' & EV & HV).
  assert (EV' : (if any maximise then transform_maximise 0 Z.opp VE maximise else Ret VE) = Ret VE').
  { unfold transform_maximise in EV |- *. destruct (any maximise); auto. }
  rewrite EV'. cbn [bind]. change (map (flip 0 Z.opp mx) ve) with (map (negate_cols mx) ve) in HV.
  destruct (hv_min VE' d (map (negate_cols mx) ve) r' (negate_cols mx ref)) as (h2 & E2 & V2); auto.
  { split; auto. split; [|apply Hd]. intros Q. apply map_eq_nil in Q. now apply (proj1 (proj2 DV)). } { intros p i. now apply negate_finite. }
  rewrite E2. cbn [bind].
  destruct (hvs_ok x' d rows labels r' ref mx (fun y => y) [] SO D' L Fr Fi) as (hs & Eh & Fh); auto. { intros p i []. } { intros y S Hy. cbn [map]. now rewrite app_nil_r. }
  destruct (hvs_ok x' d rows labels r' ref mx (fun y => r_rbind 0 y VE') ve SO D' L Fr Fi) as (us & Eu & Fu); auto. { intros y S Hy. now apply rbind_rows. }
  rewrite Eh. cbn [bind].
  assert (Eu' : r_sapply (fun y => _ <- assert_ (ncol y =? ncol VE')%nat ;; r_hypervolume (r_rbind 0 y VE') r' [false]) (r_split x' labels) = Ret us).
  { rewrite <- Eu. pose proof (split_ok x' d _ labels (proj1 D') ltac:(now rewrite map_length)) as F. clear - F HV. induction F as [|y S ys Ss Hy F IH]; cbn [r_sapply]; auto.
    rewrite IH, (proj1 (proj2 Hy)), (proj1 (proj2 HV)), Nat.eqb_refl. reflexivity. }
  rewrite Eu'. cbn [bind]. eexists. split; [reflexivity|].
  apply (mean_over_perm _ _ _ _ (split_perm rows labels)). set (Ss := map (rows_with rows labels) (np_unique labels)) in *.
  exists (map (fun p => 2 * fst p - snd p - h2) (combine us hs)). pose proof (forall2_l _ _ _ _ _ Fh) as Lh. pose proof (forall2_l _ _ _ _ _ Fu) as Lu.
  assert (Lx : length (r_split x' labels) = length Ss). { pose proof (split_ok x' d _ labels (proj1 D') ltac:(now rewrite map_length)) as F. rewrite (forall2_l _ _ _ _ _ F). unfold Ss. now rewrite !map_length. }
  split.
  - apply hypervolume_negate in V2. clear - Fh Fu V2. revert us Fu. induction Fh as [|S v Ss hs Hv Fh IH]; intros us Fu; inversion Fu as [|? u ? us' Hu Fu']; subst; cbn [combine map]; constructor; auto.
    cbn [fst snd]. apply sym_diff_mx; auto. { rewrite app_nil_r in Hv. now apply hypervolume_negate. } now apply hypervolume_negate.
  - rewrite zsum_lin by congruence. unfold np_mean. rewrite Lx, <- Lh, <- Lu.
    assert (0 < length Ss)%nat.
    { unfold Ss. rewrite map_length. destruct (np_unique labels) as [|v vs] eqn:Q; [|cbn; lia]. destruct labels as [|l labels]; [destruct rows; [congruence|discriminate]|].
      assert (In l (np_unique (l :: labels))) by (apply np_unique_In; now left). rewrite Q in H. contradiction. }
    assert (~ inject_Z (Z.of_nat (length Ss)) == 0)%Q. { intro K0. unfold Qeq in K0. simpl in K0. lia. }
    unfold Zminus. rewrite !inject_Z_plus, !inject_Z_opp, !inject_Z_mult. change (inject_Z 2) with 2%Q. field. auto.
Qed.

(** without VE, vorobDev uses the one of vorobT *)
Theorem C68_vorobDev_default : forall (mid : Z -> Z -> Z) (toQ : Z -> Q) zero hundred fuel x sets reference maximise,
  (forall c VE avg, r_vorobT mid toQ zero hundred fuel x sets reference maximise = Ret (c, VE, avg) ->
     r_vorobDev mid toQ zero hundred fuel x sets reference None maximise = r_vorobDev mid toQ zero hundred fuel x sets reference (Some VE) maximise) /\
  (r_vorobT mid toQ zero hundred fuel x sets reference maximise = AssertFailed ->
     r_vorobDev mid toQ zero hundred fuel x sets reference None maximise = AssertFailed).
Proof.
  intros mid toQ zero hundred fuel x sets reference maximise.
  assert (Q : r_vorobT mid toQ zero hundred fuel x sets reference maximise = r_vorobT mid toQ zero hundred fuel (fst (r_sets x sets)) (Some (snd (r_sets x sets))) reference maximise) by (destruct sets; reflexivity).
  split; [intros c VE avg|]; intros E; unfold RVorobModel.r_vorobDev; rewrite <- Q, E; auto. cbn [bind fst snd].
  unfold RVorobModel.r_vorobT in E. destruct (as_double_matrix (fst (r_sets x sets))) as [y| | |] eqn:Ey; cbn [bind] in E; try discriminate.
  unfold as_double_matrix in Ey. do 2 (match type of Ey with context [assert_ ?b] => destruct b; cbn [assert_ bind] in Ey; try discriminate end). injection Ey as <-. reflexivity.
Qed.

(** no rows, fewer than two objectives, or directions of another length *)
Theorem C68_refused : forall (mid : Z -> Z -> Z) (toQ : Z -> Q) zero hundred fuel x sets reference maximise,
  (nrow x < 1)%nat \/ (ncol x < match sets with None => 3 | Some _ => 2 end)%nat \/
  any maximise = true /\ all maximise = false /\ length maximise <> (ncol x - match sets with None => 1 | Some _ => 0 end)%nat ->
  r_vorobT mid toQ zero hundred fuel x sets reference maximise = AssertFailed /\
  forall VE, r_vorobDev mid toQ zero hundred fuel x sets reference VE maximise = AssertFailed.
Proof.
  intros mid toQ zero hundred fuel x sets reference maximise H.
  assert (Nr : nrow (fst (r_sets x sets)) = nrow x) by (destruct sets; reflexivity).
  assert (Nc : ncol (fst (r_sets x sets)) = (ncol x - match sets with None => 1 | Some _ => 0 end)%nat) by (destruct sets; cbn; lia).
  assert (G : as_double_matrix (fst (r_sets x sets)) = AssertFailed \/ as_double_matrix (fst (r_sets x sets)) = Ret (fst (r_sets x sets)) /\ transform_both (fst (r_sets x sets)) reference maximise = AssertFailed).
  { unfold as_double_matrix. rewrite Nr. destruct (Nat.leb_spec 1 (nrow x)); cbn [assert_ bind]; [|now left]. destruct (Nat.leb_spec 2 (ncol (fst (r_sets x sets)))); cbn [assert_ bind]; [|now left].
    right. split; auto. destruct H as [H|[H|(P1 & P2 & P3)]]; [lia|destruct sets; lia|]. unfold transform_both, transform_maximise. rewrite P1, P2, Nc.
    destruct (Nat.eqb_spec (length maximise) (ncol x - match sets with None => 1 | Some _ => 0 end)); [contradiction|reflexivity]. }
  assert (T : r_vorobT mid toQ zero hundred fuel x sets reference maximise = AssertFailed).
  { unfold RVorobModel.r_vorobT. destruct G as [G|[G G']]; rewrite G; cbn [bind]; auto. now rewrite G'. }
  split; auto. intros [VE|].
  - unfold RVorobModel.r_vorobDev. destruct G as [G|[G G']]; rewrite G; cbn [bind]; auto. unfold RVorobModel.r_deviation. now rewrite G'.
  - now apply C68_vorobDev_default.
Qed.
End C68.

(** ** Non-vacuity *)
Local Notation vorobT_exec := (r_vorobT sort2d_exec sortd_exec st0 sortx_exec sorty_exec sortz_exec junk67 grow_exec 1000 fresh67 order_exec).
Local Notation vorobDev_exec := (r_vorobDev sort2d_exec sortd_exec st0 sortx_exec sorty_exec sortz_exec junk67 grow_exec 1000 fresh67 order_exec).
(** (1, 3) and (2, 2) in set 1, (0, 5) and (3, 1) in set 2 *)
Definition x68 : rmat Z := mkMat 4 3 [1;2;0;3; 3;2;5;1; 1;1;2;2].
Definition rows68 : list point := [[1;3];[2;2];[0;5];[3;1]].
Lemma x68_labelled : labelled x68 None 2 rows68 [1;1;2;2].
Proof.
  split; [reflexivity|]. split; [discriminate|]. split; [|repeat constructor]. do 3 (split; [reflexivity|]). split; [repeat constructor|].
  intros na i j Hi Hj. cbn in Hi. do 4 (destruct i as [|i]; [do 3 (destruct j as [|j]; [reflexivity|]); lia|]). lia.
Qed.
Example C68_nonvacuous :
  machine_ok sortx_exec sorty_exec sortz_exec junk67 grow_exec 1000 order_exec /\ valid_sort2d sort2d_exec /\
  labelled x68 None 2 rows68 [1;1;2;2] /\ fits 1000 2 rows68 /\ finite 1000 rows68 /\
  for_each 2 [true] [true;true] /\ reference_for 2 [-1] [true;true] [-1;-1] /\ reference_for 2 [10;10] [true;false] [10;10] /\
  valid_mid (fun _ => True) (fun a b => (a + b) / 2) /\
  vorobT_exec qmid (fun c => c) 0%Q (100 # 1) 100 x68 None [6] [false] = Ret ((125 # 2)%Q, mkMat 2 2 [1;3; 5;2], (37 # 2)%Q) /\
  vorobT_exec qmid (fun c => c) 0%Q (100 # 1) 100 x68 None [-1] [true] = Ret ((125 # 2)%Q, mkMat 2 2 [2;0; 1;3], (23 # 2)%Q) /\
  vorobDev_exec qmid (fun c => c) 0%Q (100 # 1) 100 x68 None [6] None [false] = Ret (18 # 4)%Q /\
  vorobDev_exec qmid (fun c => c) 0%Q (100 # 1) 100 x68 None [6] (Some (mkMat 2 2 [1;3; 5;2])) [false] = Ret (18 # 4)%Q.
Proof.
  split; [apply machine_exec|]. split; [apply sort2d_exec_valid|]. split; [apply x68_labelled|]. split; [left; split; [reflexivity|cbn; lia]|].
  split. { intros p i Hp. cbn in Hp. decompose [or] Hp; try contradiction; subst p; do 2 (destruct i as [|i]; [cbn; lia|]); unfold coord; rewrite nth_overflow by (cbn; lia); lia. }
  split; [right; now exists true|]. split; [right; now exists (-1), true|]. split; [left; auto|].
  split. { intros a b _ _ Hab. split; auto. split. apply Z.div_le_lower_bound; lia. apply Z.div_le_upper_bound; lia. }
  repeat split; vm_compute; reflexivity.
Qed.

(** Refuted: "vorobT works for every data set."  With a single point it fails. *)
Theorem C68_one_point_refuted :
  let x := mkMat 1 3 [12; 1; 1] in
  labelled x None 2 [[12;1]] [1] /\ fits 1000 2 [[12;1]] /\
  (forall fuel, vorobT_exec qmid (fun c => c) 0%Q (100 # 1) (S fuel) x None [20] [false] = AssertFailed) /\
  (forall fuel, vorobDev_exec qmid (fun c => c) 0%Q (100 # 1) (S fuel) x None [20] None [false] = AssertFailed).
Proof.
  cbv zeta. split.
  { split; [reflexivity|]. split; [discriminate|]. split; [|repeat constructor]. do 3 (split; [reflexivity|]). split; [repeat constructor|].
    intros na i j Hi Hj. cbn in Hi. destruct i as [|i]; [|lia]. do 3 (destruct j as [|j]; [reflexivity|]). lia. }
  split; [left; split; [reflexivity|cbn; lia]|]. split; intros fuel; vm_compute; reflexivity.
Qed.

(** Refuted: "one value of reference stands for all objectives."  With different directions
    it does not: the mean hypervolume of this set with respect to (10, 10) is 32, not 0. *)
Theorem C68_scalar_reference_refuted :
  let x := mkMat 2 3 [12;14; 1;3; 1;1] in
  vorobT_exec qmid (fun c => c) 0%Q (100 # 1) 100 x None [10] [true;false] = Ret (25%Q, mkMat 2 2 [14;12; 3;1], 0%Q) /\
  vorobT_exec qmid (fun c => c) 0%Q (100 # 1) 100 x None [10;10] [true;false] = Ret (25%Q, mkMat 2 2 [14;12; 3;1], 32%Q) /\
  mean_over (sets_of [[12;1];[14;3]] [1;1]) (fun s v => hypervolume_mx [true;false] s [10;10] v) 32%Q.
Proof.
  cbv zeta. split; [vm_compute; reflexivity|]. split; [vm_compute; reflexivity|]. exists [32]. split; [|reflexivity]. repeat constructor.
  apply hypervolume_negate. destruct (C08_hv2d_exact sort2d_exec (map (negate_cols [true;false]) [[12;1];[14;3]]) (negate_cols [true;false] [10;10]) sort2d_exec_valid eq_refl) as (v & Ev & V).
  vm_compute in Ev. inversion Ev; subst v. exact V.
Qed.

(** Refuted: "the surface returned is the one closest to the mean from above or below."  As
    for the Python function (C48), the loop stops when it sees the same volume twice.  Eight
    sets as in C48, each with a further point that has no volume. *)
Definition early68 : rmat Z := mkMat 16 3 [0;0;0;0;0;0;1;20; -5;-5;-5;-5;-5;-5;-5;-5; 0;0;0;0;0;0;0;1; 30;30;30;30;30;30;30;30; 1;2;3;4;5;6;7;8; 1;2;3;4;5;6;7;8].
Theorem C68_early_stop_refuted :
  let rows := [[0;0];[0;0];[0;0];[0;0];[0;0];[0;0];[1;0];[20;1];[-5;30];[-5;30];[-5;30];[-5;30];[-5;30];[-5;30];[-5;30];[-5;30]] in
  let labels := [1;2;3;4;5;6;7;8;1;2;3;4;5;6;7;8] in
  has_rows early68 3 (attach rows labels) /\
  vorobT_exec qmid (fun c => c) 0%Q (100 # 1) 5 early68 None [20;1] [false] = Ret ((75 # 1)%Q, mkMat 2 2 [-5;0; 30;0], (139 # 8)%Q) /\
  is_surface2d (sets_of rows labels) 6 [[-5;30];[0;0]] /\ is_surface2d (sets_of rows labels) 7 [[-5;30];[1;0]] /\
  hypervolume [[-5;30];[0;0]] [20;1] 20 /\ hypervolume [[-5;30];[1;0]] [20;1] 19 /\ (139 # 8 < inject_Z 19)%Q.
Proof.
  cbv zeta. split.
  { do 3 (split; [reflexivity|]). split; [repeat constructor|]. intros na i j Hi Hj. cbn in Hi. do 16 (destruct i as [|i]; [do 3 (destruct j as [|j]; [reflexivity|]); lia|]). lia. }
  split; [vm_compute; reflexivity|].
  set (runs := sets_of _ _). destruct (C20_eaf2d_surfaces_exact runs sortx_exec sorty_exec [6; 7]%nat) as (out & E & F).
  { discriminate. } { intros r Hr. vm_compute in Hr. intuition (subst; discriminate). } { vm_compute. repeat constructor. }
  { apply sortx_exec_ok. } { apply sorty_exec_ok. } { repeat constructor; lia. }
  vm_compute in E. inversion E; subst out; clear E. cbn [map fst] in F.
  inversion F as [|? ? ? ? S6 F']; subst. inversion F' as [|? ? ? ? S7 _]; subst. split; auto. split; auto.
  destruct (C08_hv2d_exact sort2d_exec [[-5;30];[0;0]] [20;1] sort2d_exec_valid eq_refl) as (v & Ev & V). vm_compute in Ev. inversion Ev; subst v.
  destruct (C08_hv2d_exact sort2d_exec [[-5;30];[1;0]] [20;1] sort2d_exec_valid eq_refl) as (w & Ew & X). vm_compute in Ew. inversion Ew; subst w.
  repeat split; auto.
Qed.
Print Assumptions C68_vorobT.
Print Assumptions C68_vorobT_one_point.
Print Assumptions C68_vorobDev.
Print Assumptions C68_vorobDev_default.
Print Assumptions C68_refused.
Print Assumptions C68_one_point_refuted.
Print Assumptions C68_scalar_reference_refuted.
Print Assumptions C68_early_stop_refuted.
