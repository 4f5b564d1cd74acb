(** Properties C42 and C56: the empirical attainment function of three objectives.

    Specification: EafSpec.v (attained_by_at_least, cumsizes), Eaf3dSpec.v
    (is_surface).  Model: Eaf3dModel.v. *)
From Coq Require Import List ZArith Lia Bool Arith QArith Permutation.
From Verif Require Import Base Spec EafSpec EafModel BitArrayModel BitArrayProofs EafStoreModel EafStoreProofs EafTop
  EafProofs EafMain Eaf3dSpec Eaf3dModel Eaf3dTop.
Import ListNotations.
Open Scope Z_scope.

(** ** C42: the surfaces are exact *)

(** For every collection of non-empty 3-objective sets, every result of qsort,
    every list of levels between 1 and the number of sets, eaf3d terminates
    without any invalid access and returns one exact surface per level.  [lo]
    and [hi] are the smallest and largest objective values, used as sentinels:
    the data must lie strictly between them. *)
Theorem C42_eaf3d_surfaces_exact : forall lo hi runs sortz junk levels, lo < hi ->
  runs <> [] -> (forall r, In r runs -> r <> []) -> wf_points 3 (concat runs) ->
  (forall p, In p (concat runs) -> lo < coord p 0 < hi /\ lo < coord p 1 < hi) ->
  is_dataz (concat runs) (sortz (concat runs)) ->
  Forall (fun l => (1 <= l <= length runs)%nat) levels ->
  exists out, eaf3d lo hi sortz junk (concat runs) (cumsizes runs) (length runs) (map Z.of_nat levels) = Ret out /\
    Forall2 (is_surface 3 runs) levels (map (map fst) out).
Proof.
  intros lo hi runs sortz junk levels LH H1 H2 H3 H4 H5 H6.
  destruct (eaf3d_ok lo hi LH runs sortz junk levels H1 H2 H3 H4 H5 H6) as (out & E & F). exists out. split; auto.
  clear - F. induction F as [|l s ls ss [S _] F IH]; cbn [map]; constructor; auto.
Qed.

(** ** C56: the attainment indicators are exact *)

(** The indicators stored with every point of every surface tell exactly which
    sets attain the point; at least as many as the level are set. *)
Theorem C56_flags_exact : forall lo hi runs sortz junk levels, lo < hi ->
  runs <> [] -> (forall r, In r runs -> r <> []) -> wf_points 3 (concat runs) ->
  (forall p, In p (concat runs) -> lo < coord p 0 < hi /\ lo < coord p 1 < hi) ->
  is_dataz (concat runs) (sortz (concat runs)) ->
  Forall (fun l => (1 <= l <= length runs)%nat) levels ->
  exists out, eaf3d lo hi sortz junk (concat runs) (cumsizes runs) (length runs) (map Z.of_nat levels) = Ret out /\
    Forall2 (fun (l : nat) s => forall p flags, In (p, flags) s ->
      length flags = length runs /\
      (forall k, (k < length runs)%nat ->
         (nth k flags false = true <-> attains 3 (nth k runs []) p)) /\
      (l <= countb (fun f => f) flags)%nat) levels out.
Proof.
  intros lo hi runs sortz junk levels LH H1 H2 H3 H4 H5 H6.
  destruct (eaf3d_ok lo hi LH runs sortz junk levels H1 H2 H3 H4 H5 H6) as (out & E & F). exists out. split; auto.
  clear - F. induction F as [|l s ls ss [(Wf & _ & Ex) Fg] F IH]; constructor; auto.
  intros p fl Hin. destruct (Fg p fl Hin) as (L & K). split; auto. split; auto.
  assert (Ip : In p (map fst s)) by (apply in_map_iff; exists (p, fl); auto).
  unfold wf_points in Wf. rewrite Forall_forall in Wf.
  destruct (proj1 (Ex p (Wf p Ip))) as (ks & N & Lk & Hk). { exists p. split; auto. apply wdom_refl3. }
  rewrite countb_flags, L. apply countb_ge_iff. exists ks. split; auto. split; auto.
  intros k Hk'. destruct (Hk k Hk') as [A B]. split; auto. apply K; auto.
Qed.

(** The bit arrays returned with the surfaces hold these indicators: bit [k] of
    row [i] is set exactly when set [k] attains the point of row [i]. *)
Theorem C56_stored_bits_exact : forall lo hi runs sortz junk grow levels, lo < hi ->
  runs <> [] -> (forall r, In r runs -> r <> []) -> wf_points 3 (concat runs) ->
  (forall p, In p (concat runs) -> lo < coord p 0 < hi /\ lo < coord p 1 < hi) ->
  is_dataz (concat runs) (sortz (concat runs)) ->
  (forall i, 0 <= junk i < 2 ^ 64) -> (forall m r, (m <= grow m r)%nat) ->
  Z.of_nat (length (concat runs)) * Z.of_nat (length (concat runs)) <= (2 ^ 31 - 1) / 2 ->
  Forall (fun l => (1 <= l <= length runs)%nat) levels ->
  exists ss es, eaf3d lo hi sortz junk (concat runs) (cumsizes runs) (length runs) (map Z.of_nat levels) = Ret ss /\
    store_surfaces_3d junk grow (length runs) (length (concat runs)) ss = Ret es /\
    Forall2 (fun l e => exists pts, is_surface 3 runs l pts /\ e_size e = length pts /\
      forall i, (i < length pts)%nat -> read_point e 3 i = Ret (nth i pts []) /\
        forall k, (k < length runs)%nat -> exists b,
          bit_array_get (e_bits e) (bit_array_offset 0 i (length runs)) k = Ret b /\
          (b <> 0 <-> attains 3 (nth k runs []) (nth i pts []))) levels es.
Proof.
  intros lo hi runs sortz junk grow levels LH H1 H2 H3 H4 H5 Hj Hg Hsz H6.
  destruct (eaf3d_ok lo hi LH runs sortz junk levels H1 H2 H3 H4 H5 H6) as (ss & E & F).
  destruct (flagged_stored runs junk grow levels ss Hj Hg Hsz H6 F) as (Wf & es & E2 & F2). exists ss, es. split; auto. split; auto.
  clear - F F2 Wf. revert es F2. induction F as [|l s ls ss [Sf Fg] F IH]; intros es F2; inversion F2 as [|e ? es' ? H F3]; subst; constructor.
  2:{ inversion Wf; subst. auto. }
  inversion Wf as [|? ? [W1 _] W2]; subst. rewrite Forall_forall in W1.
  exists (map fst s). split; auto. pose proof H as (_ & Hs & _). rewrite map_length. split; auto.
  intros i Hi. assert (Ii : In (nth i s ([], [])) s) by (apply nth_In; lia).
  replace (nth i (map fst s) []) with (fst (nth i s ([], []))) by (symmetry; apply (map_nth fst s ([], []))).
  split. apply (read_point_ok 3 (length runs) e s i); auto; try lia. apply (W1 _ Ii).
  intros k Hk. destruct (stored_bit_ok 3 (length runs) e s i k H Hi Hk) as (b & Eb & Hb). exists b. split; auto. rewrite Hb.
  destruct (nth i s ([], [])) as [p fl] eqn:En. cbn [fst snd]. apply (Fg p fl Ii); auto.
Qed.

(** The surface of a level is unique up to the order of its points, so it depends
    neither on the order of ties nor on the uninitialised memory. *)
Theorem C42_surface_unique : forall runs l s s',
  is_surface 3 runs l s -> is_surface 3 runs l s' -> Permutation s s'.
Proof. exact surface3_unique. Qed.

(** The surfaces use only coordinates of the data and are not empty. *)
Theorem C42_surface_coordinates : forall runs l s, (1 <= l <= length runs)%nat -> (forall r, In r runs -> r <> []) ->
  is_surface 3 runs l s ->
  s <> [] /\ (length s <= length (concat runs) * length (concat runs))%nat /\
  forall p c, In p s -> (c < 3)%nat -> exists q, In q (concat runs) /\ coord q c = coord p c.
Proof.
  intros runs l s Hl Hne Sf. split; [|split].
  - apply (surface3_nonempty runs l); auto. lia.
  - apply (surface3_length runs l); auto. lia.
  - intros p c Hp Hc. apply (surface3_coord runs l s); auto. lia.
Qed.

(** Surfaces of higher levels never cross those of lower levels. *)
Theorem C42_levels_nested : forall runs l l' s s', (l <= l')%nat ->
  is_surface 3 runs l s -> is_surface 3 runs l' s' ->
  forall p', In p' s' -> exists p, In p s /\ wdom (minimise 3) p p'.
Proof.
  intros runs l l' s s' Hl Sf Sf' p' Hp'. pose proof Sf' as (W' & _ & Ex'). unfold wf_points in W'. rewrite Forall_forall in W'.
  destruct Sf as (_ & _ & Ex). apply Ex; auto. apply (attained_le 3 l l'); auto. apply Ex'; auto.
  exists p'. split; auto. apply wdom_refl3.
Qed.

(** The matrix returned for percentiles: one block of rows per percentile, the
    exact surface of the level of that percentile, each row with the percentile. *)
Theorem C42_eaf_matrix_3d : forall lo hi runs sortz junk grow ps, lo < hi ->
  runs <> [] -> (forall r, In r runs -> r <> []) -> wf_points 3 (concat runs) ->
  (forall p, In p (concat runs) -> lo < coord p 0 < hi /\ lo < coord p 1 < hi) ->
  is_dataz (concat runs) (sortz (concat runs)) ->
  (forall i, is_word (junk i)) -> (forall m r, (m <= grow m r)%nat) ->
  Z.of_nat (length (concat runs)) * Z.of_nat (length (concat runs)) <= (2 ^ 31 - 1) / 2 ->
  Forall (fun p => (0 <= p <= 100)%Q) ps ->
  exists ls ss,
    eaf_compute_matrix_3d lo hi sortz junk grow (concat runs) (cumsizes runs) (length runs) (Some ps) (length ps) =
      Ret (concat (map (fun sp => map (fun x => (x, snd sp)) (fst sp)) (combine ss ps))) /\
    Forall2 (fun p (l : nat) => (1 <= l <= length runs)%nat /\
       forall m : nat, ((l <= m)%nat <-> (1 <= m)%nat /\
         (inject_Z (Z.of_nat (length runs)) * p / 100 - tolerance <= inject_Z (Z.of_nat m))%Q)) ps ls /\
    Forall2 (is_surface 3 runs) ls ss.
Proof. intros. now apply eaf3_matrix_ok. Qed.

(** ** Concrete instances *)
Definition runs_ex : list (list point) :=
  [[[1;5;3];[2;2;6];[4;1;1]];[[2;3;2];[3;3;1]];[[1;1;9];[5;5;1];[2;2;2]]].

Example C42_hypotheses_met :
  runs_ex <> [] /\ (forall r, In r runs_ex -> r <> []) /\ wf_points 3 (concat runs_ex) /\
  (forall p, In p (concat runs_ex) -> -100 < coord p 0 < 100 /\ -100 < coord p 1 < 100) /\
  is_dataz (concat runs_ex) (sortz_exec (concat runs_ex)).
Proof.
  split. discriminate. split. { intros r [<-|[<-|[<-|[]]]]; discriminate. }
  split. { repeat constructor. }
  split. { intros p Hp. cbn in Hp. repeat (destruct Hp as [<-|Hp]; [cbn; lia|]). contradiction. }
  unfold is_dataz, sortz_exec. apply sort_by_is_qsort.
  - intros x y. apply Z.leb_le. - intros x y z. unfold le_z. lia. - intros x y. unfold le_z. lia.
Qed.

Example C42_values :
  eaf3d (-100) 100 sortz_exec (fun _ => 7) (concat runs_ex) (cumsizes runs_ex) 3 [1; 2; 3] =
    Ret [[([3; 3; 1], [false; true; false]); ([4; 1; 1], [true; false; false]);
          ([2; 2; 2], [false; false; true]); ([1; 5; 3], [true; false; false]);
          ([1; 1; 9], [false; false; true])];
         [([4; 3; 1], [true; true; false]); ([4; 2; 2], [true; false; true]);
          ([2; 3; 2], [false; true; true]); ([1; 5; 9], [true; false; true]);
          ([2; 2; 6], [true; false; true]); ([4; 1; 9], [true; false; true])];
         [([5; 5; 1], [true; true; true]); ([4; 3; 2], [true; true; true]);
          ([2; 5; 3], [true; true; true]); ([2; 3; 6], [true; true; true])]].
Proof. vm_compute. reflexivity. Qed.

(** Shared points: a point of level 1 attained by several sets. *)
Example C56_values_shared :
  eaf3d (-100) 100 sortz_exec (fun _ => 7) (concat [[[1;1;1]];[[2;0;1];[1;1;1]];[[1;1;1];[0;3;3]]])
    (cumsizes [[[1;1;1]];[[2;0;1];[1;1;1]];[[1;1;1];[0;3;3]]]) 3 [1; 3] =
    Ret [[([0; 3; 3], [false; false; true]); ([1; 1; 1], [true; true; true]); ([2; 0; 1], [false; true; false])];
         [([1; 1; 1], [true; true; true])]].
Proof. vm_compute. reflexivity. Qed.

(** The bounds are needed: when points carry the sentinel value (infinity in the
    code) in the first objective, the surface of level 2 comes out empty although
    both sets attain a location. *)
Theorem C42_infinite_value_refuted : exists runs,
  runs <> [] /\ (forall r, In r runs -> r <> []) /\ wf_points 3 (concat runs) /\
  (forall p, In p (concat runs) -> forall c, coord p c <= 100) /\
  is_dataz (concat runs) (sortz_exec (concat runs)) /\
  eaf3d (-100) 100 sortz_exec (fun _ => 7) (concat runs) (cumsizes runs) (length runs) [2] = Ret [[]] /\
  ~ is_surface 3 runs 2 [].
Proof.
  exists [[[100; 5; 3]]; [[100; 4; 4]]]. split. discriminate. split. { intros r [<-|[<-|[]]]; discriminate. }
  split. repeat constructor. split.
  { intros p [<-|[<-|[]]] [|[|[|[|c]]]]; cbn; lia. } split.
  { unfold is_dataz, sortz_exec. apply sort_by_is_qsort.
    - intros x y. apply Z.leb_le. - intros x y z. unfold le_z. lia. - intros x y. unfold le_z. lia. }
  split. vm_compute. reflexivity.
  intros (_ & _ & Ex). destruct (proj2 (Ex [100; 5; 4] eq_refl)) as (p & [] & _).
  exists [0%nat; 1%nat]. split. { repeat constructor; cbn; intuition lia. } split; auto.
  intros k [<-|[<-|[]]]; (split; [cbn; lia|]).
  - exists [100; 5; 3]. split. now left. apply wdom3_iff. cbn. lia.
  - exists [100; 4; 4]. split. now left. apply wdom3_iff. cbn. lia.
Qed.

Print Assumptions C42_eaf3d_surfaces_exact.
Print Assumptions C42_eaf_matrix_3d.
Print Assumptions C56_flags_exact.
Print Assumptions C56_stored_bits_exact.
Print Assumptions C42_infinite_value_refuted.
