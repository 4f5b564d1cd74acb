(** Proofs about the dominatedsets program: comparison, tables and texts. *)
From Coq Require Import Ascii String List ZArith Lia Bool Arith.
From Verif Require Import Base Spec IndSpec NondomModel NondomMain NondomExtra PropNondom EpsModel EpsProofs PropEps WhvProofs OptModel PropOpt IoModel IoSpec IoMain
  CmdModel CmdSpec CmdProofs CmdLoop IndCmdSpec IndCmdProofs NdCmdModel NdCmdSpec NdCmdProofs DsCmdModel DsCmdSpec.
Import ListNotations.
Local Open Scope list_scope.
Open Scope Z_scope.

(** ** Numbers of wins *)
Lemma nth_seq_map : forall A (l : list A) d, map (fun i => nth i l d) (seq 0 (length l)) = l.
Proof.
  intros A l d. apply (nth_ext _ _ d d). { now rewrite map_length, seq_length. }
  intros i Hi. rewrite map_length, seq_length in Hi. erewrite nth_indep by now rewrite map_length, seq_length.
  rewrite (map_nth (fun i => nth i l d) (seq 0 (length l)) 0%nat), seq_nth by auto. reflexivity.
Qed.
Lemma prod_map : forall A B C D (f : A -> C) (g : B -> D) l m,
  list_prod (map f l) (map g m) = map (fun ij => (f (fst ij), g (snd ij))) (list_prod l m).
Proof.
  induction l as [|x l IH]; intros m; auto. cbn. rewrite map_app, map_map, IH. f_equal. now rewrite map_map.
Qed.
Lemma filter_map_length : forall A B (g : A -> B) f l, length (filter f (map g l)) = length (filter (fun x => f (g x)) l).
Proof. induction l as [|x l IH]; auto. cbn. destruct (f (g x)); cbn; auto. Qed.

Lemma filter_wins : forall mx (As Bs : list (list point)) (f : list point * list point -> bool),
  (forall a b, In a As -> In b Bs -> (f (a, b) = true <-> better_set mx a b)) ->
  wins mx As Bs (Z.of_nat (length (filter f (list_prod As Bs)))).
Proof.
  intros mx As Bs f H.
  set (g := fun ij : nat * nat => (nth (fst ij) As [], nth (snd ij) Bs [])).
  exists (filter (fun ij => f (g ij)) (list_prod (seq 0 (length As)) (seq 0 (length Bs)))). split.
  { apply NoDup_filter. apply NoDup_prod; apply seq_NoDup. } split.
  { f_equal. rewrite <- (nth_seq_map _ As []) at 1. rewrite <- (nth_seq_map _ Bs []) at 1. rewrite prod_map. apply filter_map_length. }
  intros a b. rewrite filter_In, in_prod_iff, !in_seq. unfold g. cbn [fst snd]. split.
  - intros [[A B] F]. split; [lia|]. split; [lia|]. apply H; auto; apply nth_In; lia.
  - intros (A & B & F). split; [lia|]. apply H; auto; apply nth_In; lia.
Qed.
Lemma wins_swap : forall mx (As Bs : list (list point)) (f : list point * list point -> bool),
  (forall a b, In a As -> In b Bs -> (f (a, b) = true <-> better_set mx b a)) ->
  wins mx Bs As (Z.of_nat (length (filter f (list_prod As Bs)))).
Proof.
  intros mx As Bs f H.
  set (g := fun ij : nat * nat => (nth (fst ij) As [], nth (snd ij) Bs [])).
  set (l := filter (fun ij => f (g ij)) (list_prod (seq 0 (length As)) (seq 0 (length Bs)))).
  exists (map (fun ij => (snd ij, fst ij)) l). split.
  { apply FinFun.Injective_map_NoDup. { intros [? ?] [? ?] E. cbn in E. congruence. }
    apply NoDup_filter. apply NoDup_prod; apply seq_NoDup. } split.
  { f_equal. rewrite map_length. rewrite <- (nth_seq_map _ As []) at 1. rewrite <- (nth_seq_map _ Bs []) at 1. rewrite prod_map. apply filter_map_length. }
  intros b a. rewrite in_map_iff. unfold l. split.
  - intros ([x y] & E & Hin). cbn in E. inversion E; subst x y. rewrite filter_In, in_prod_iff, !in_seq in Hin. unfold g in Hin. cbn [fst snd] in Hin.
    destruct Hin as [[A B] F]. split; [lia|]. split; [lia|]. apply H; auto; apply nth_In; lia.
  - intros (B & A & F). exists (a, b). split; auto. rewrite filter_In, in_prod_iff, !in_seq. unfold g. cbn [fst snd]. split; [lia|]. apply H; auto; apply nth_In; lia.
Qed.
Lemma compared : forall mx (As Bs : list (list point)),
  (forall S, In S As \/ In S Bs -> nondominated_set mx S /\ S <> []) ->
  exists na nb, cmpparetos (length mx) (minmax_from_bool mx) As Bs 0 0 = Ret (na, nb) /\ wins mx As Bs na /\ wins mx Bs As nb.
Proof.
  intros mx As Bs H. destruct (C34_win_counters mx As Bs H) as (wa & wb & E & Ea & Eb & Ia & Ib).
  exists (Z.of_nat (length wa)), (Z.of_nat (length wb)). split; auto. split.
  - rewrite Ea. apply filter_wins. intros a b Ha Hb. specialize (Ia a b). rewrite Ea, filter_In, in_prod_iff in Ia. unfold better_set. tauto.
  - rewrite Eb. apply wins_swap. intros a b Ha Hb. specialize (Ib a b). rewrite Eb, filter_In, in_prod_iff in Ib. unfold better_set. tauto.
Qed.

(** ** The results *)
Definition compare (mx : list bool) (A B : list (list point)) : Z * Z :=
  match cmpparetos (length mx) (minmax_from_bool mx) A B 0 0 with Ret r => r | _ => (0, 0) end.
Definition count_of (mx : list bool) (F : list (list (list point))) (a b : nat) : Z :=
  if (a <? b)%nat then fst (compare mx (nth a F []) (nth b F [])) else snd (compare mx (nth b F []) (nth a F [])).

Lemma cell_eq : forall n a b k j, (b < n)%nat -> (j < n)%nat -> (a * n + b = k * n + j)%nat -> a = k /\ b = j.
Proof. intros n a b k j Hb Hj E. assert (a = k) by nia. subst. split; auto. lia. Qed.
Lemma nth_cell : forall n (res : list Z) a b k j v, (a < n)%nat -> (b < n)%nat -> (k < n)%nat -> (j < n)%nat -> length res = (n * n)%nat ->
  nth (a * n + b) (upd res (k * n + j) v) 0 = if (a =? k)%nat && (b =? j)%nat then v else nth (a * n + b) res 0.
Proof.
  intros n res a b k j v Ha Hb Hk Hj L. destruct (Nat.eqb_spec a k) as [->|N1]; [destruct (Nat.eqb_spec b j) as [->|N2]|]; cbn [andb].
  - apply nth_upd_same. nia.
  - apply nth_upd_other. lia.
  - apply nth_upd_other. intros E. apply N1. symmetry in E. apply cell_eq in E; tauto.
Qed.
Lemma skipn_cons : forall A (l : list A) k x rest d, skipn k l = x :: rest -> nth k l d = x /\ skipn (S k) l = rest /\ (k < length l)%nat.
Proof.
  intros A l. induction l as [|y l IH]; intros k x rest d H; [destruct k; discriminate|].
  destruct k as [|k]. { cbn in *. inversion H; subst. repeat split; auto. lia. }
  cbn [skipn] in H. destruct (IH k x rest d H) as (E1 & E2 & E3). split; auto. split; [exact E2|cbn; lia].
Qed.

Section Pairs.
Variable mx : list bool.
Variable F : list (list (list point)).
Hypothesis HF : forall sets S, In sets F -> In S sets -> nondominated_set mx S /\ S <> [].
Let n := length F.

Lemma compare_ok : forall a b, (a < n)%nat -> (b < n)%nat ->
  cmpparetos (length mx) (minmax_from_bool mx) (nth a F []) (nth b F []) 0 0 = Ret (compare mx (nth a F []) (nth b F [])).
Proof.
  intros a b Ha Hb. destruct (compared mx (nth a F []) (nth b F [])) as (na & nb & E & _).
  { intros S [H|H]; [apply (HF (nth a F []))|apply (HF (nth b F []))]; auto; apply nth_In; auto. }
  unfold compare. now rewrite E.
Qed.
Lemma count_wins : forall a b, (a < n)%nat -> (b < n)%nat -> a <> b -> wins mx (nth a F []) (nth b F []) (count_of mx F a b).
Proof.
  intros a b Ha Hb N. unfold count_of, compare.
  assert (K : forall a b, (a < n)%nat -> (b < n)%nat -> exists na nb, cmpparetos (length mx) (minmax_from_bool mx) (nth a F []) (nth b F []) 0 0 = Ret (na, nb) /\
    wins mx (nth a F []) (nth b F []) na /\ wins mx (nth b F []) (nth a F []) nb).
  { intros x y Hx Hy. apply compared. intros S [H|H]; [apply (HF (nth x F []))|apply (HF (nth y F []))]; auto; apply nth_In; auto. }
  destruct (Nat.ltb_spec a b).
  - destruct (K a b Ha Hb) as (na & nb & -> & A & _). exact A.
  - destruct (K b a Hb Ha) as (na & nb & -> & _ & A). exact A.
Qed.

Lemma row_ok : forall rest k j res, (k < j)%nat -> (k < n)%nat -> skipn j F = rest -> length res = (n * n)%nat ->
  exists res', ds_row (length mx) (minmax_from_bool mx) n k (nth k F []) j rest res = Ret res' /\ length res' = (n * n)%nat /\
    forall a b, (a < n)%nat -> (b < n)%nat ->
      nth (a * n + b) res' 0 = if ((a =? k)%nat && (j <=? b)%nat) || ((b =? k)%nat && (j <=? a)%nat) then count_of mx F a b else nth (a * n + b) res 0.
Proof.
  induction rest as [|B rest IH]; intros k j res Hk Hn Hs L.
  - exists res. split; auto. split; auto. intros a b Ha Hb.
    assert (n <= j)%nat. { unfold n in *. assert (length (skipn j F) = 0)%nat by now rewrite Hs. rewrite skipn_length in H. lia. }
    destruct (Nat.leb_spec j b); [lia|]. destruct (Nat.leb_spec j a); [lia|]. now rewrite !andb_false_r.
  - destruct (skipn_cons _ F j B rest [] Hs) as (EB & Hs' & Hj). fold n in Hj. cbn [ds_row]. rewrite <- EB. rewrite compare_ok by auto. cbn [bind].
    rewrite wr_ok by nia. cbn [bind]. rewrite wr_ok by (rewrite upd_length; nia). cbn [bind].
    set (r := compare mx (nth k F []) (nth j F [])). set (res2 := upd (upd res (k * n + j) (fst r)) (j * n + k) (snd r)).
    destruct (IH k (S j) res2) as (res' & E & L' & V); auto. { unfold res2. now rewrite !upd_length. }
    exists res'. split; auto. split; auto. intros a b Ha Hb. rewrite V by auto.
    assert (V2 : nth (a * n + b) res2 0 = if (a =? j)%nat && (b =? k)%nat then snd r else if (a =? k)%nat && (b =? j)%nat then fst r else nth (a * n + b) res 0).
    { unfold res2. rewrite nth_cell by (auto; now rewrite upd_length). now rewrite nth_cell. }
    rewrite V2.
    destruct (Nat.eqb_spec a k) as [->|N1]; destruct (Nat.eqb_spec b k) as [->|N2]; cbn [andb orb].
    + destruct (Nat.leb_spec (S j) k), (Nat.leb_spec j k), (Nat.eqb_spec k j); try lia; auto.
    + destruct (Nat.leb_spec (S j) b), (Nat.leb_spec j b), (Nat.eqb_spec k j), (Nat.eqb_spec b j); cbn; try lia; auto.
      subst b. unfold count_of. destruct (Nat.ltb_spec k j); [auto|lia].
    + destruct (Nat.leb_spec (S j) a), (Nat.leb_spec j a), (Nat.eqb_spec a j); cbn; try lia; auto.
      subst a. unfold count_of. destruct (Nat.ltb_spec j k); [lia|auto].
    + rewrite !andb_false_r. auto.
Qed.
Lemma pairs_ok : forall rest k res, skipn k F = rest -> length res = (n * n)%nat ->
  exists res', ds_pairs (length mx) (minmax_from_bool mx) n k rest res = Ret res' /\ length res' = (n * n)%nat /\
    forall a b, (a < n)%nat -> (b < n)%nat ->
      nth (a * n + b) res' 0 = if negb (a =? b)%nat && (k <=? a)%nat && (k <=? b)%nat then count_of mx F a b else nth (a * n + b) res 0.
Proof.
  induction rest as [|A rest IH]; intros k res Hs L.
  - exists res. split; auto. split; auto. intros a b Ha Hb.
    assert (n <= k)%nat. { unfold n in *. assert (length (skipn k F) = 0)%nat by now rewrite Hs. rewrite skipn_length in H. lia. }
    destruct (Nat.leb_spec k a); [lia|]. now rewrite andb_false_r.
  - destruct (skipn_cons _ F k A rest [] Hs) as (EA & Hs' & Hk). fold n in Hk. cbn [ds_pairs]. rewrite <- EA.
    destruct (row_ok rest k (S k) res) as (res1 & E1 & L1 & V1); auto. rewrite E1. cbn [bind].
    destruct (IH (S k) res1) as (res' & E & L' & V); auto. exists res'. split; auto. split; auto. intros a b Ha Hb. rewrite V, V1 by auto.
    destruct (Nat.eqb_spec a b), (Nat.leb_spec (S k) a), (Nat.leb_spec (S k) b), (Nat.leb_spec k a), (Nat.leb_spec k b),
      (Nat.eqb_spec a k), (Nat.eqb_spec b k); cbn; try lia; auto.
Qed.
Lemma results_ok : exists res, ds_pairs (length mx) (minmax_from_bool mx) n 0 F (repeat (-1) (n * n)) = Ret res /\
  forall a b, (a < n)%nat -> (b < n)%nat -> rd res (a * n + b) = Ret (if (a =? b)%nat then -1 else count_of mx F a b).
Proof.
  destruct (pairs_ok F 0 (repeat (-1) (n * n)) eq_refl (repeat_length _ _)) as (res & E & L & V).
  exists res. split; auto. intros a b Ha Hb. assert (Hi : (a * n + b < n * n)%nat) by nia. rewrite (rd_ok _ _ _ 0) by lia. rewrite V by auto. cbn [Nat.leb]. rewrite !andb_true_r.
  destruct (Nat.eqb_spec a b); cbn [negb]; auto. rewrite (nth_indep _ 0 (-1)) by (rewrite repeat_length; auto). now rewrite nth_repeat.
Qed.
End Pairs.

(** ** The tables *)
Lemma cat_map_ok : forall A (f : A -> outcome text) g l, (forall x, In x l -> f x = Ret (g x)) -> cat_map f l = Ret (concat (map g l)).
Proof.
  intros A f g l. induction l as [|x l IH]; intros H; auto. cbn [cat_map map concat]. rewrite H by now left. cbn [bind]. rewrite IH by (intros; apply H; now right). reflexivity.
Qed.
Lemma all_of_ok : forall A B (f : A -> outcome B) g l, (forall x, In x l -> f x = Ret (g x)) -> all_of f l = Ret (map g l).
Proof.
  intros A B f g l. induction l as [|x l IH]; intros H; auto. cbn [all_of map]. rewrite H by now left. cbn [bind]. rewrite IH by (intros; apply H; now right). reflexivity.
Qed.
Lemma table_ok : forall names w c cell g,
  (forall k j, (k < length names)%nat -> (j < length names)%nat -> k <> j -> cell k j = Ret (g k j)) ->
  ds_table names w c cell = Ret (table names w c g).
Proof.
  intros names w c cell g H. unfold ds_table, table.
  erewrite (cat_map_ok _ _ (fun k => [nl] ++ right w (nth k names []) ++
                        concat (map (fun j => st " " ++ right c (if (k =? j)%nat then st "--" else g k j)) (seq 0 (length names))))).
  - reflexivity.
  - intros k Hk. apply in_seq in Hk. rewrite (rd_ok _ _ _ []) by lia. cbn [bind].
    erewrite (cat_map_ok _ _ (fun j => st " " ++ right c (if (k =? j)%nat then st "--" else g k j))).
    + reflexivity.
    + intros j Hj. apply in_seq in Hj. destruct (Nat.eqb_spec k j); [reflexivity|]. rewrite H by lia. reflexivity.
Qed.
Lemma fold_max_max : forall l m, fold_left Nat.max l m = Nat.max m (list_max l).
Proof.
  induction l as [|x l IH]; intros m; cbn [fold_left list_max fold_right]. { lia. } rewrite IH. fold (list_max l). lia.
Qed.
Lemma largest_cons : forall x l, largest (x :: l) = Z.max x (largest l). Proof. reflexivity. Qed.
Lemma largest_nil : largest [] = 0. Proof. reflexivity. Qed.
Lemma total_cons : forall x l, total (x :: l) = x + total l. Proof. reflexivity. Qed.
Lemma largest_pos : forall l, 0 <= largest l.
Proof. induction l as [|x l IH]; rewrite ?largest_cons, ?largest_nil; lia. Qed.
Lemma largest_app : forall a b, largest (a ++ b) = Z.max (largest a) (largest b).
Proof.
  induction a as [|x a IH]; intros b; cbn [app]; rewrite ?largest_cons, ?largest_nil. { pose proof (largest_pos b). lia. } rewrite IH. lia.
Qed.
Lemma ds_max_ok : forall res g l m, 0 <= m -> (forall i, In i l -> rd res i = Ret (g i)) -> ds_max res l m = Ret (Z.max m (largest (map g l))).
Proof.
  intros res g l. induction l as [|i l IH]; intros m Hm H; cbn [ds_max map]; rewrite ?largest_cons, ?largest_nil. { f_equal. lia. }
  rewrite H by now left. cbn [bind]. rewrite IH by (try lia; intros; apply H; now right). f_equal. lia.
Qed.
Lemma largest_others : forall (g : nat -> Z) k l, largest (map (fun j => if (k =? j)%nat then -1 else g j) l) = largest (map g (filter (fun j => negb (k =? j)%nat) l)).
Proof.
  intros g k l. induction l as [|j l IH]; auto. cbn [map filter]. rewrite largest_cons, IH. destruct (Nat.eqb_spec k j); cbn [negb map]; rewrite ?largest_cons.
  - pose proof (largest_pos (map g (filter (fun j => negb (k =? j)%nat) l))). lia.
  - reflexivity.
Qed.
Lemma ds_rank_ok : forall res n g k l rank, (forall j, In j l -> k <> j -> rd res (j * n + k) = Ret (g j)) ->
  ds_rank res n k l rank = Ret (rank + total (map g (filter (fun j => negb (k =? j)%nat) l))).
Proof.
  intros res n g k l. induction l as [|j l IH]; intros rank H; cbn [ds_rank filter]. { cbn. f_equal. lia. }
  destruct (Nat.eqb_spec k j); cbn [negb]. { apply IH. intros; apply H; auto. now right. }
  rewrite H by (auto; now left). cbn [bind]. rewrite IH by (intros; apply H; auto; now right). cbn [map]. rewrite total_cons. f_equal. lia.
Qed.

Section Print.
Variable fmt_int : Z -> text.
Variable fmt_percent : Z -> Z -> text.
Hypothesis Hfmt : forall z, (length (fmt_int z) <= 30)%nat.

Lemma print_ok : forall percent nsets count res, let n := length nsets in
  (forall a b, (a < n)%nat -> (b < n)%nat -> rd res (a * n + b) = Ret (if (a =? b)%nat then -1 else count a b)) ->
  print_results fmt_int fmt_percent percent (shorts fmt_int n) nsets res = Ret (results_text fmt_int fmt_percent percent nsets count).
Proof.
  intros percent nsets count res n H. unfold print_results, results_text. fold n.
  assert (Ln : length (shorts fmt_int n) = n) by (unfold shorts; now rewrite map_length, seq_length). rewrite Ln.
  assert (Em : ds_max res (flat_map (fun k => map (fun j => (k * n + j)%nat) (seq 0 n)) (seq 0 n)) 0 =
     Ret (largest (concat (map (fun k => map (count k) (others n k)) (seq 0 n))))).
  { set (g := fun i => nth i res 0).
    erewrite (ds_max_ok res g); [|lia|].
    - f_equal.
      assert (Q : forall l, (forall k, In k l -> (k < n)%nat) -> largest (map g (flat_map (fun k => map (fun j => (k * n + j)%nat) (seq 0 n)) l)) =
                   largest (concat (map (fun k => map (count k) (others n k)) l))).
      { induction l as [|k l IH]; intros Hl; auto. cbn [flat_map map concat]. rewrite map_app, !largest_app, IH by (intros; apply Hl; now right). f_equal.
        unfold others. rewrite <- largest_others. f_equal. rewrite map_map. apply map_ext_in. intros j Hj. apply in_seq in Hj.
        specialize (H k j (Hl k (or_introl eq_refl)) ltac:(lia)). unfold g. unfold rd in H. destruct (nth_error res (k * n + j)) eqn:E; [|discriminate].
        rewrite (nth_error_nth _ _ _ E). congruence. }
      rewrite Q by (intros k Hk; apply in_seq in Hk; lia). pose proof (largest_pos (concat (map (fun k => map (count k) (others n k)) (seq 0 n)))). lia.
    - intros i Hi. apply in_flat_map in Hi. destruct Hi as (k & Hk & Hi). apply in_map_iff in Hi. destruct Hi as (j & <- & Hj). apply in_seq in Hk, Hj.
      specialize (H k j ltac:(lia) ltac:(lia)). unfold g. unfold rd in *. destruct (nth_error res (k * n + j)) eqn:E; [|discriminate].
      now rewrite (nth_error_nth _ _ _ E). }
  rewrite Em. cbn [bind]. clear Em. set (big := largest _). rewrite fold_max_max, Nat.max_0_l.
  rewrite (firstn_all2 (fmt_int big)) by (specialize (Hfmt big); lia).
  set (tw := list_max _). set (cw := Nat.max tw _).
  rewrite (table_ok _ _ _ _ (fun k j => fmt_int (count k j))).
  2: { rewrite Ln. intros k j Hk Hj N. rewrite H by auto. destruct (Nat.eqb_spec k j); [contradiction|]. reflexivity. }
  cbn [bind].
  assert (Ep : (if percent then
           t <- ds_table (shorts fmt_int n) tw (Nat.max cw 5) (fun k j =>
                  x <- rd res (k * n + j) ;; a <- rd nsets k ;; b <- rd nsets j ;; Ret (fmt_percent x (Z.of_nat a * Z.of_nat b))) ;;
           Ret ([nl; nl] ++ list_ascii_of_string "Percentage of times that <row> is better than <column>:" ++ [nl] ++ t)
         else Ret []) = Ret (if percent then
     [nl; nl] ++ st "Percentage of times that <row> is better than <column>:" ++ [nl] ++
     table (shorts fmt_int n) tw (Nat.max cw 5) (fun k j => fmt_percent (count k j) (Z.of_nat (nth k nsets 0%nat) * Z.of_nat (nth j nsets 0%nat)))
   else [])).
  { destruct percent; auto. erewrite table_ok; [reflexivity|]. rewrite Ln. intros k j Hk Hj N. rewrite H by auto. destruct (Nat.eqb_spec k j); [contradiction|].
    cbn [bind]. rewrite !(rd_ok _ _ _ 0%nat) by (unfold n in *; lia). reflexivity. }
  rewrite Ep. cbn [bind]. clear Ep.
  erewrite (cat_map_ok _ _ (fun k => st " " ++ right 3 (fmt_int (total (map (fun j => count j k) (others n k)))))).
  - reflexivity.
  - intros k Hk. apply in_seq in Hk. rewrite (ds_rank_ok res n (fun j => count j k)).
    + reflexivity.
    + intros j Hj N. apply in_seq in Hj. rewrite H by lia. destruct (Nat.eqb_spec j k); [congruence|]. reflexivity.
Qed.
End Print.
