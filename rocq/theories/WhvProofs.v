(** Proofs about the rectangle-weighted hypervolume. *)
From Coq Require Import List ZArith Lia Bool Arith Permutation Sorted.
From Verif Require Import Base Spec HvSpec RectSpec WhvSpec WhvModel.
Import ListNotations.
Open Scope Z_scope.

(** ** preprocessing keeps exactly the rectangles that are not degenerate *)
Definition kept (cs : list crect) : list crect := filter (fun c => negb (degenerate c)) cs.

Lemma find_skips_length : forall cs k, (length (find_skips k cs) + length (kept cs) = length cs)%nat.
Proof.
  induction cs as [ | c cs IH ]; intros k; cbn [find_skips kept filter length]; [ reflexivity | ].
  specialize (IH (S k)). unfold kept in IH.
  destruct (degenerate c); cbn [negb length]; lia.
Qed.

Lemma find_skips_none : forall cs k, find_skips k cs = [] -> kept cs = cs.
Proof.
  induction cs as [ | c cs IH ]; intros k H; cbn [find_skips kept filter] in *; [ reflexivity | ].
  destruct (degenerate c); [ discriminate | ]. cbn [negb]. f_equal. exact (IH _ H).
Qed.

Lemma copy_while_ok : forall m fuel k lim j src dest,
  (lim = k + m)%nat -> (m < fuel)%nat -> (lim <= length src)%nat -> (j + m <= length dest)%nat ->
  exists dest', copy_while fuel k lim j src dest = Ret ((j + m)%nat, dest') /\
    length dest' = length dest /\ firstn (j + m) dest' = firstn j dest ++ firstn m (skipn k src).
Proof.
  induction m as [ | m IH ]; intros fuel k lim j src dest El Hf Hs Hd;
    (destruct fuel as [ | fuel ]; [ lia | ]); cbn [copy_while].
  - destruct (Nat.ltb_spec k lim); [ lia | ].
    exists dest. rewrite Nat.add_0_r. cbn [firstn]. rewrite app_nil_r. auto.
  - destruct (Nat.ltb_spec k lim); [ | lia ].
    rewrite (rd_ok _ src k c_zero) by lia. cbn [bind].
    rewrite wr_ok by lia. cbn [bind].
    destruct (IH fuel (S k) lim (S j) src (upd dest j (nth k src c_zero))) as [d' [E [HL HF]]];
      try lia; [ rewrite upd_length; lia | ].
    exists d'. rewrite E. rewrite upd_length in HL.
    split; [ f_equal; f_equal; lia | split; [ exact HL | ] ].
    replace (j + S m)%nat with (S j + m)%nat by lia. rewrite HF.
    replace (firstn (S j) (upd dest j (nth k src c_zero))) with (firstn j dest ++ [nth k src c_zero]).
    + rewrite <- app_assoc. f_equal.
      replace (skipn k src) with (nth k src c_zero :: skipn (S k) src); [ reflexivity | ].
      assert (Hk : (k < length src)%nat) by lia. clear - Hk.
      revert k Hk. induction src as [ | a src IH ]; intros k H; cbn [length] in H; [ lia | ].
      destruct k; [ reflexivity | ]. exact (IH k ltac:(lia)).
    + assert (Hj : (j < length dest)%nat) by lia. clear - Hj.
      revert j Hj. induction dest as [ | a dest IH ]; intros j H; cbn [length] in H; [ lia | ].
      destruct j; [ reflexivity | ]. cbn [upd firstn app]. f_equal. apply IH. lia.
Qed.

Lemma copy_skips_ok : forall post pre j dest,
  (length (kept post) + j <= length dest)%nat ->
  exists dest',
    copy_skips (find_skips (length pre) post ++ [(length pre + length post)%nat])
      (length pre) j (pre ++ post) dest = Ret dest' /\
    length dest' = length dest /\
    firstn (j + length (kept post)) dest' = firstn j dest ++ kept post.
Proof.
  assert (Gen : forall post pre mid j dest,
    kept mid = mid ->
    (length (kept post) + length mid + j <= length dest)%nat ->
    exists dest',
      copy_skips (find_skips (length (pre ++ mid)) post ++ [(length pre + length mid + length post)%nat])
        (length pre) j (pre ++ mid ++ post) dest = Ret dest' /\
      length dest' = length dest /\
      firstn (j + length mid + length (kept post)) dest' = firstn j dest ++ mid ++ kept post).
  { induction post as [ | c post IH ]; intros pre mid j dest Hm Hd.
    - cbn [find_skips app copy_skips kept filter length] in *.
      rewrite app_nil_r.
      destruct (copy_while_ok (length mid) (S (length (pre ++ mid))) (length pre)
                 (length pre + length mid + 0) j (pre ++ mid) dest) as [d' [E [HL HF]]];
        try (rewrite ?app_length; lia).
      rewrite E. cbn [bind fst snd]. exists d'. split; [ reflexivity | split; [ exact HL | ] ].
      rewrite Nat.add_0_r, HF. rewrite skipn_app, skipn_all, Nat.sub_diag. cbn [app skipn].
      rewrite firstn_all, ?app_nil_r. reflexivity.
    - cbn [find_skips kept filter]. destruct (degenerate c) eqn:D; cbn [negb].
      + cbn [app copy_skips]. rewrite (app_length pre mid).
        cbn [kept filter] in Hd. rewrite D in Hd. cbn [negb] in Hd. fold (kept post) in Hd |- *.
        destruct (copy_while_ok (length mid) (S (length (pre ++ mid ++ c :: post))) (length pre)
                   (length pre + length mid) j (pre ++ mid ++ c :: post) dest) as [d' [E [HL HF]]];
          try (rewrite ?app_length; cbn [length]; lia).
        rewrite E. cbn [bind fst snd].
        destruct (IH (pre ++ mid ++ [c]) [] (j + length mid)%nat d') as [d2 [E2 [HL2 HF2]]].
        * reflexivity.
        * cbn [length]. lia.
        * rewrite app_nil_r in E2. rewrite !app_length in E2. cbn [length] in E2.
          rewrite !app_nil_l in E2.
          replace (length pre + (length mid + 1))%nat with (S (length pre + length mid))%nat in E2 by lia.
          replace ((pre ++ mid ++ [c]) ++ post) with (pre ++ mid ++ c :: post) in E2
            by (rewrite <- !app_assoc; reflexivity).
          replace (length pre + length mid + 1)%nat with (S (length pre + length mid)) by lia.
          replace (length pre + length mid + length (c :: post))%nat
            with (S (length pre + length mid) + 0 + length post)%nat by (cbn [length]; lia).
          exists d2. split; [ exact E2 | split; [ lia | ] ].
          cbn [length app] in HF2. rewrite Nat.add_0_r in HF2. rewrite HF2, HF.
          rewrite skipn_app, skipn_all, Nat.sub_diag. cbn [app skipn].
          rewrite firstn_app, firstn_all, Nat.sub_diag. cbn [firstn].
          rewrite app_nil_r, <- app_assoc. reflexivity.
      + destruct (IH pre (mid ++ [c]) j dest) as [d2 [E2 [HL2 HF2]]].
        * unfold kept in *. rewrite filter_app, Hm. cbn [filter]. rewrite D. reflexivity.
        * rewrite app_length. cbn [length]. cbn [kept filter] in Hd. rewrite D in Hd.
          cbn [negb length] in Hd. fold (kept post) in Hd. lia.
        * exists d2. fold (kept post).
          rewrite !app_length in E2. cbn [length] in E2.
          rewrite app_length.
          replace (S (length pre + length mid)) with (length pre + (length mid + 1))%nat by lia.
          replace (length pre + length mid + length (c :: post))%nat
            with (length pre + (length mid + 1) + length post)%nat by (cbn [length]; lia).
          replace (mid ++ c :: post) with ((mid ++ [c]) ++ post) by (rewrite <- app_assoc; reflexivity).
          split; [ exact E2 | split; [ exact HL2 | ] ].
          rewrite app_length in HF2. cbn [length] in HF2 |- *.
          replace (j + length mid + S (length (kept post)))%nat
            with (j + (length mid + 1) + length (kept post))%nat by lia.
          rewrite HF2, <- app_assoc. reflexivity. }
  intros post pre j dest H.
  destruct (Gen post pre [] j dest eq_refl) as [d [E [HL HF]]]; [ cbn [length]; lia | ].
  rewrite app_nil_r in E. cbn [length app] in E, HF. rewrite !Nat.add_0_r in E, HF.
  exists d. auto.
Qed.

Lemma preprocess_ok : forall junk rs ref,
  whv_preprocess junk rs ref = Ret (kept (map (clip_rect ref) rs)).
Proof.
  intros junk rs ref. unfold whv_preprocess. cbv zeta.
  set (cs := map (clip_rect ref) rs).
  pose proof (find_skips_length cs 0) as HL.
  destruct (Nat.eqb_spec (length (find_skips 0 cs)) 0) as [E | E].
  - rewrite (find_skips_none cs 0); [ reflexivity | now apply length_zero_iff_nil ].
  - destruct (Nat.eqb_spec (length cs - length (find_skips 0 cs)) 0) as [E2 | E2].
    + symmetry. f_equal. apply length_zero_iff_nil. lia.
    + assert (A : (length (find_skips 0 cs) <? length cs)%nat = true) by (apply Nat.ltb_lt; lia).
      rewrite A. cbn [assert_ bind].
      destruct (copy_skips_ok cs [] 0 (map junk (seq 0 (length cs - length (find_skips 0 cs)))))
        as [d [Ed [HLd HF]]].
      * rewrite map_length, seq_length. lia.
      * cbn [length app] in Ed. rewrite !Nat.add_0_l in Ed. rewrite Ed. f_equal.
        rewrite map_length, seq_length in HLd. cbn [firstn app] in HF.
        rewrite <- HF. rewrite Nat.add_0_l. rewrite firstn_all2; [ reflexivity | lia ].
Qed.

(** ** one slab of one rectangle *)
Definition good_rect (c : crect) : Prop := c_l0 c < c_u0 c /\ c_l1 c < c_u1 c /\ 0 <= c_col c.

(** the cells of rectangle [c] to the right of x = px between y = py and y = top *)
Definition slab_cells (c : crect) (p : point) (top : Z) : list point :=
  map (fun xy => [fst xy; snd xy])
    (list_prod (zrange (Z.max (coord p 0) (c_l0 c)) (c_u0 c))
               (zrange (Z.max (coord p 1) (c_l1 c)) (Z.min top (c_u1 c)))).
Definition slab (c : crect) (p : point) (top : Z) : Z := Z.of_nat (length (slab_cells c p top)).

Definition in_c (c : crect) (z : point) : Prop :=
  c_l0 c <= coord z 0 < c_u0 c /\ c_l1 c <= coord z 1 < c_u1 c.

Lemma in_slab : forall c p top z, In z (slab_cells c p top) <->
  length z = 2%nat /\ in_c c z /\ coord p 0 <= coord z 0 /\ coord p 1 <= coord z 1 /\ coord z 1 < top.
Proof.
  intros c p top z. unfold slab_cells, in_c. rewrite in_map_iff. split.
  - intros [[x y] [<- H]]. apply in_prod_iff in H. rewrite !in_zrange in H.
    unfold coord; cbn [length nth fst snd]. unfold coord in H. lia.
  - intros [HL H]. destruct z as [ | x [ | y [ | ] ] ]; cbn [length] in HL; try lia.
    exists (x, y). split; [ reflexivity | ]. apply in_prod_iff. rewrite !in_zrange.
    unfold coord in *; cbn [nth] in H. lia.
Qed.


Lemma NoDup_app_intro : forall A (l m : list A), NoDup l -> NoDup m ->
  (forall x, In x l -> In x m -> False) -> NoDup (l ++ m).
Proof.
  intros A l m Hl Hm H. induction Hl as [ | a l Ha Hl IH ]; [ exact Hm | ].
  cbn [app]. constructor.
  - rewrite in_app_iff. intros [H1 | H1]; [ contradiction | ]. apply (H a); [ now left | exact H1 ].
  - apply IH. intros x Hx. apply H. now right.
Qed.
Lemma NoDup_prod : forall A B (l : list A) (m : list B), NoDup l -> NoDup m -> NoDup (list_prod l m).
Proof.
  intros A B l m Hl Hm. induction Hl as [ | a l Ha Hl IH ]; cbn [list_prod]; [ constructor | ].
  apply NoDup_app_intro; [ | exact IH | ].
  - apply FinFun.Injective_map_NoDup; [ intros x y E; congruence | exact Hm ].
  - intros [x y] H1 H2. apply in_map_iff in H1. destruct H1 as [b [E _]].
    apply in_prod_iff in H2. destruct H2 as [H2 _]. injection E as -> ->. contradiction.
Qed.

Lemma slab_nodup : forall c p top, NoDup (slab_cells c p top).
Proof.
  intros. unfold slab_cells. apply FinFun.Injective_map_NoDup.
  - intros [x y] [x' y'] E. cbn [fst snd] in E. congruence.
  - apply NoDup_prod; apply zrange_nodup.
Qed.

Lemma slab_formula : forall c p top, good_rect c -> coord p 1 < c_u1 c -> coord p 1 < top ->
  slab c p top =
  if (coord p 0 <? c_u0 c) && (c_l1 c <? top)
  then (c_u0 c - Z.max (coord p 0) (c_l0 c)) * (Z.min top (c_u1 c) - Z.max (coord p 1) (c_l1 c))
  else 0.
Proof.
  intros c p top [G0 [G1 _]] H1 H2. unfold slab, slab_cells.
  rewrite map_length, prod_length, Nat2Z.inj_mul, !zrange_length.
  destruct (Z.ltb_spec (coord p 0) (c_u0 c)), (Z.ltb_spec (c_l1 c) top); cbn [andb].
  - rewrite (Z.max_r 0 (c_u0 c - _)), (Z.max_r 0 (Z.min _ _ - _)) by lia. reflexivity.
  - rewrite (Z.max_l 0 (Z.min top (c_u1 c) - _)) by lia. lia.
  - rewrite (Z.max_l 0 (c_u0 c - _)) by lia. lia.
  - rewrite (Z.max_l 0 (c_u0 c - _)) by lia. lia.
Qed.
Lemma slab_above : forall c p top, c_u1 c <= coord p 1 -> slab c p top = 0.
Proof.
  intros c p top H. unfold slab, slab_cells. rewrite map_length, prod_length, Nat2Z.inj_mul, !zrange_length.
  rewrite (Z.max_l 0 (Z.min top (c_u1 c) - _)) by lia. lia.
Qed.

Definition slabs (cs : list crect) (p : point) (top : Z) : Z :=
  zsum (map (fun c => c_col c * slab c p top) cs).

Lemma slabs_above : forall cs p top, Forall (fun c => c_u1 c <= coord p 1) cs -> slabs cs p top = 0.
Proof.
  intros cs p top H. unfold slabs. induction H as [ | c cs Hc H IH ]; [ reflexivity | ].
  change (zsum (map (fun c => c_col c * slab c p top) (c :: cs)))
    with (c_col c * slab c p top + zsum (map (fun c => c_col c * slab c p top) cs)).
  rewrite IH, slab_above by assumption. lia.
Qed.

(** ** the loop over rectangles *)
Definition desc_u1 (cs : list crect) : Prop := StronglySorted (fun a b => c_u1 b <= c_u1 a) cs.

Lemma skipn_cons : forall A (l : list A) k d, (k < length l)%nat -> skipn k l = nth k l d :: skipn (S k) l.
Proof.
  induction l as [ | a l IH ]; intros k d H; cbn [length] in H; [ lia | ].
  destruct k; [ reflexivity | ]. cbn [nth]. change (skipn (S k) (a :: l)) with (skipn k l).
  change (skipn (S (S k)) (a :: l)) with (skipn (S k) l). apply IH. lia.
Qed.

Lemma get_rectangle_ok : forall rects r, Forall good_rect rects -> (r < length rects)%nat ->
  get_rectangle rects r = Ret (nth r rects c_zero).
Proof.
  intros rects r HF Hr. unfold get_rectangle. rewrite (rd_ok _ rects r c_zero) by assumption. cbn [bind].
  rewrite Forall_forall in HF. destruct (HF (nth r rects c_zero) (nth_In _ _ Hr)) as [H0 [H1 H2]].
  apply Z.ltb_lt in H0, H1. apply Z.leb_le in H2. rewrite H0, H1, H2. reflexivity.
Qed.

Lemma rect_do_ok : forall fuel r rects p top whv,
  Forall good_rect rects -> desc_u1 rects -> (r < length rects)%nat -> (length rects <= fuel + r)%nat ->
  coord p 1 < c_u1 (nth r rects c_zero) -> coord p 1 < top ->
  rect_do fuel r (nth r rects c_zero) rects p top whv = Ret (whv + slabs (skipn r rects) p top).
Proof.
  induction fuel as [ | fuel IH ]; intros r rects p top whv HG HD Hr Hf Hp Ht; [ lia | ].
  cbn [rect_do]. set (c := nth r rects c_zero) in *.
  assert (Gc : good_rect c) by (rewrite Forall_forall in HG; apply HG; now apply nth_In).
  rewrite (skipn_cons _ rects r c_zero) by assumption. fold c.
  assert (E : (if (coord p 0 <? c_u0 c) && (c_l1 c <? top) then
                _ <- assert_ ((coord p 0 <? c_u0 c) && (coord p 1 <? c_u1 c)) ;;
                _ <- assert_ (c_l1 c <? top) ;;
                _ <- assert_ (coord p 1 <? top) ;;
                Ret (whv + (c_u0 c - Z.max (coord p 0) (c_l0 c)) *
                           (Z.min top (c_u1 c) - Z.max (coord p 1) (c_l1 c)) * c_col c)
              else Ret whv) = Ret (whv + c_col c * slab c p top)).
  { rewrite (slab_formula c p top Gc Hp Ht).
    destruct (coord p 0 <? c_u0 c) eqn:E0, (c_l1 c <? top) eqn:E1; cbn [andb].
    2-4: f_equal; lia.
    apply Z.ltb_lt in Hp, Ht. rewrite Hp, Ht. cbn [assert_ bind]. f_equal. ring. }
  rewrite E. cbn [bind]. cbv zeta.
  change (slabs (c :: skipn (S r) rects) p top)
    with (c_col c * slab c p top + slabs (skipn (S r) rects) p top).
  destruct (Nat.leb_spec (length rects) (S r)) as [Hl | Hl].
  - rewrite skipn_all2 by lia. unfold slabs. cbn [map zsum fold_right]. f_equal. lia.
  - rewrite get_rectangle_ok by (assumption || lia). cbn [bind].
    destruct (Z.ltb_spec (coord p 1) (c_u1 (nth (S r) rects c_zero))) as [Hn | Hn].
    + rewrite IH by (assumption || lia). f_equal. lia.
    + rewrite slabs_above; [ f_equal; lia | ].
      apply Forall_forall. intros c' Hc'.
      destruct (In_nth _ _ c_zero Hc') as [k [Hk Ek]].
      rewrite skipn_length in Hk.
      assert (En : nth k (skipn (S r) rects) c_zero = nth (S r + k) rects c_zero).
      { clear. generalize (S r) as m. intros m. revert rects.
        induction m as [ | m IHm ]; intros rects; [ reflexivity | ].
        destruct rects as [ | a rects ]; [ cbn [skipn]; destruct k; reflexivity | ].
        change (nth k (skipn m rects) c_zero = nth (m + k) rects c_zero). apply IHm. }
      rewrite En in Ek. subst c'.
      destruct k as [ | k ]; [ rewrite Nat.add_0_r; exact Hn | ].
      pose proof (StronglySorted_nth _ _ rects c_zero (S r) (S r + S k) HD ltac:(lia)).
      cbv beta in H. lia.
Qed.

(** ** the sweep over points *)
Definition strictly (pts : list point) : Prop :=
  StronglySorted (fun a b => coord b 1 < coord a 1 /\ coord a 0 < coord b 0) pts.

Section Sweep.
Variables lt lr : Z.

Definition stop (p : point) (ps : list point) : bool :=
  match ps with [] => true | _ => (coord p 1 =? lt) || (lr <=? coord p 0) end.

Fixpoint run_val (cs : list crect) (top : Z) (pts : list point) : Z :=
  match pts with
  | [] => 0
  | p :: ps => slabs cs p top + if stop p ps then 0 else run_val cs (coord p 1) ps
  end.
Fixpoint run_cells (c : crect) (top : Z) (pts : list point) : list point :=
  match pts with
  | [] => []
  | p :: ps => slab_cells c p top ++ if stop p ps then [] else run_cells c (coord p 1) ps
  end.

Lemma run_val_cells : forall cs pts top,
  run_val cs top pts = zsum (map (fun c => c_col c * Z.of_nat (length (run_cells c top pts))) cs).
Proof.
  intros cs pts. induction pts as [ | p ps IH ]; intros top; cbn [run_val run_cells].
  - change (0 = zsum (map (fun c => c_col c * 0) cs)).
    induction cs as [ | c cs IHc ]; [ reflexivity | ].
    change (0 = c_col c * 0 + zsum (map (fun c => c_col c * 0) cs)). rewrite <- IHc. lia.
  - destruct (stop p ps).
    + unfold slabs. rewrite Z.add_0_r. f_equal. apply map_ext. intros c. rewrite app_nil_r. reflexivity.
    + rewrite IH. unfold slabs. clear IH. induction cs as [ | c cs IHc ]; [ reflexivity | ].
      cbn [map zsum fold_right]. cbn [map zsum fold_right] in IHc.
      rewrite app_length, Nat2Z.inj_add. unfold zsum in *. rewrite <- IHc. unfold slab. ring.
Qed.

Lemma in_run_cells : forall c pts top z,
  strictly pts -> c_u0 c <= lr ->
  (forall p, In p pts -> coord p 1 < top \/ c_u1 c <= top) ->
  (In z (run_cells c top pts) <->
   length z = 2%nat /\ in_c c z /\ coord z 1 < top /\
   (exists p, In p pts /\ coord p 0 <= coord z 0 /\ coord p 1 <= coord z 1) /\
   (forall p, In p pts -> coord p 1 = lt -> lt <= coord z 1)).
Proof.
  intros c pts. induction pts as [ | p ps IH ]; intros top z HS Hlr Htop; cbn [run_cells].
  - split; [ intros [] | ]. intros (_ & _ & _ & (p & [] & _) & _).
  - inversion HS as [ | ? ? HS' HF ]; subst. rewrite Forall_forall in HF.
    rewrite in_app_iff, in_slab.
    assert (Hrest : forall z, In z (if stop p ps then [] else run_cells c (coord p 1) ps) <->
      stop p ps = false /\ length z = 2%nat /\ in_c c z /\ coord z 1 < coord p 1 /\
      (exists q, In q ps /\ coord q 0 <= coord z 0 /\ coord q 1 <= coord z 1) /\
      (forall q, In q ps -> coord q 1 = lt -> lt <= coord z 1)).
    { intros w. destruct (stop p ps).
      - cbn [In]. intuition congruence.
      - rewrite IH; [ intuition | exact HS' | exact Hlr | ]. intros q Hq. left. apply HF. exact Hq. }
    rewrite Hrest. clear IH Hrest.
    destruct (Z.leb_spec (coord p 1) (coord z 1)) as [Hz | Hz].
    + split.
      * intros [ (HL & HC & H0 & H1 & H2) | (_ & _ & _ & Hlt & _) ]; [ | lia ].
        split; [ exact HL | split; [ exact HC | split; [ exact H2 | split ] ] ].
        -- exists p. split; [ now left | auto ].
        -- intros q [<- | Hq] E; [ lia | ]. destruct (HF q Hq). lia.
      * intros (HL & HC & H2 & (q & Hq & Hq0 & Hq1) & _). left.
        repeat (split; try assumption; auto).
        destruct Hq as [<- | Hq]; [ exact Hq0 | destruct (HF q Hq); lia ].
    + split.
      * intros [ (_ & _ & _ & Hc & _) | (Hst & HL & HC & Hlt & (q & Hq & Hq0 & Hq1) & Hall) ]; [ lia | ].
        split; [ exact HL | split; [ exact HC | split; [ | split ] ] ].
        -- destruct (Htop p (or_introl eq_refl)); unfold in_c in HC; lia.
        -- exists q. split; [ now right | auto ].
        -- intros q' [<- | Hq'] E; [ | now apply (Hall q') ].
           exfalso. destruct ps; [ destruct Hq | ]. cbn [stop] in Hst.
           apply orb_false_iff in Hst. destruct Hst as [Hst _]. apply Z.eqb_neq in Hst. lia.
      * intros (HL & HC & H2 & (q & Hq & Hq0 & Hq1) & Hall). right.
        destruct Hq as [<- | Hq]; [ lia | ].
        split; [ | split; [ exact HL | split; [ exact HC | split; [ exact Hz | split ] ] ] ].
        -- destruct ps as [ | p' ps ]; [ destruct Hq | ]. cbn [stop].
           apply orb_false_iff. split.
           ++ apply Z.eqb_neq. intros E. specialize (Hall p (or_introl eq_refl) E). lia.
           ++ apply Z.leb_gt. destruct (HF q Hq). unfold in_c in HC. lia.
        -- exists q. auto.
        -- intros q' Hq'. apply Hall. now right.
Qed.

Lemma run_cells_nodup : forall c pts top,
  strictly pts -> c_u0 c <= lr -> (forall p, In p pts -> coord p 1 < top \/ c_u1 c <= top) ->
  NoDup (run_cells c top pts).
Proof.
  intros c pts. induction pts as [ | p ps IH ]; intros top HS Hlr Htop; cbn [run_cells]; [ constructor | ].
  inversion HS as [ | ? ? HS' HF ]; subst. rewrite Forall_forall in HF.
  apply NoDup_app_intro; [ apply slab_nodup | | ].
  - destruct (stop p ps); [ constructor | ]. apply IH; [ exact HS' | exact Hlr | ].
    intros q Hq. left. now apply HF.
  - intros z Hz Hz'. destruct (stop p ps); [ destruct Hz' | ].
    apply in_slab in Hz. apply in_run_cells in Hz'; [ lia | exact HS' | exact Hlr | ].
    intros q Hq. left. now apply HF.
Qed.

(** ** the C loops compute [run_val] *)
Lemma next_point_ok : forall data pk, (pk < length data)%nat ->
  next_point data lt lr pk =
  Ret (if stop (row data pk) (skipn (S pk) data) then None else Some (S pk, coord (row data pk) 1)).
Proof.
  intros data pk H. unfold next_point. rewrite (rd_ok _ data pk []) by assumption. cbn [bind].
  cbv zeta. change (nth pk data []) with (row data pk).
  destruct (Nat.leb_spec (length data) (S pk)) as [Hl | Hl]; cbn [orb].
  - rewrite skipn_all2 by lia. reflexivity.
  - rewrite (skipn_cons _ data (S pk) []) by lia. cbn [stop].
    destruct ((coord (row data pk) 1 =? lt) || (lr <=? coord (row data pk) 0)); reflexivity.
Qed.

Section Loops.
Variables (rects : list crect) (data : list point).
Hypothesis HG : Forall good_rect rects.
Hypothesis HD : desc_u1 rects.
Hypothesis HR : (0 < length rects)%nat.
Hypothesis HS : strictly data.
Let c0 := nth 0 rects c_zero.

Lemma all_below_c0 : Forall (fun c => c_u1 c <= c_u1 c0) rects.
Proof.
  apply Forall_forall. intros c Hc. destruct (In_nth _ _ c_zero Hc) as [k [Hk <-]].
  destruct k as [ | k ]; [ unfold c0; lia | ].
  pose proof (StronglySorted_nth _ _ rects c_zero 0 (S k) HD ltac:(lia)).
  cbv beta in H. exact H.
Qed.

Lemma row_order : forall i j, (i < j < length data)%nat ->
  coord (row data j) 1 < coord (row data i) 1 /\ coord (row data i) 0 < coord (row data j) 0.
Proof.
  intros i j H. exact (StronglySorted_nth _ _ data [] i j HS H).
Qed.

Lemma find_first_ok : forall fuel pk top,
  (pk < length data)%nat -> (length data < fuel + pk)%nat ->
  (top = c_u1 c0 \/ coord (row data pk) 1 < top) ->
  exists o, find_first fuel data lt lr (c_u1 c0) pk top = Ret o /\
    match o with
    | None => run_val rects top (skipn pk data) = 0
    | Some (pk', top') => (pk' < length data)%nat /\ coord (row data pk') 1 < c_u1 c0 /\
        coord (row data pk') 1 < top' /\
        run_val rects top (skipn pk data) = run_val rects top' (skipn pk' data)
    end.
Proof.
  induction fuel as [ | fuel IH ]; intros pk top Hpk Hf Ht; [ lia | ].
  cbn [find_first]. rewrite (rd_ok _ data pk []) by assumption. cbn [bind].
  change (nth pk data []) with (row data pk).
  destruct (Z.leb_spec (c_u1 c0) (coord (row data pk) 1)) as [H | H].
  - rewrite next_point_ok by assumption. cbn [bind].
    assert (Z0 : slabs rects (row data pk) top = 0).
    { apply slabs_above. eapply Forall_impl; [ | exact all_below_c0 ]. cbv beta. intros; lia. }
    rewrite (skipn_cons _ data pk []) by assumption. cbn [run_val].
    change (nth pk data []) with (row data pk). rewrite Z0.
    destruct (stop (row data pk) (skipn (S pk) data)) eqn:Es.
    + exists None. split; [ reflexivity | ]. lia.
    + assert (Hn : (S pk < length data)%nat).
      { destruct (Nat.lt_ge_cases (S pk) (length data)); [ assumption | ].
        rewrite skipn_all2 in Es by lia. discriminate. }
      destruct (IH (S pk) (coord (row data pk) 1)) as [o [E Ho]]; [ exact Hn | lia | | ].
      * right. apply row_order. lia.
      * exists o. split; [ exact E | ]. rewrite Z.add_0_l. exact Ho.
  - exists (Some (pk, top)). split; [ reflexivity | ].
    split; [ exact Hpk | split; [ exact H | split; [ destruct Ht; lia | reflexivity ] ] ].
Qed.

Lemma next_useful_ok : forall fuel pk, (pk < length data)%nat -> (0 < fuel)%nat ->
  next_useful fuel data lt lr (c_u1 c0) pk =
  Ret (if stop (row data pk) (skipn (S pk) data) then None else Some (S pk, coord (row data pk) 1)).
Proof.
  intros fuel pk Hpk Hf. destruct fuel as [ | fuel ]; [ lia | ]. cbn [next_useful].
  rewrite next_point_ok by assumption. cbn [bind].
  destruct (stop (row data pk) (skipn (S pk) data)) eqn:Es; [ reflexivity | ].
  assert (Hn : (S pk < length data)%nat).
  { destruct (Nat.lt_ge_cases (S pk) (length data)); [ assumption | ].
    rewrite skipn_all2 in Es by lia. discriminate. }
  rewrite (rd_ok _ data (S pk) []) by assumption. cbn [bind].
  change (nth (S pk) data []) with (row data (S pk)).
  destruct (row_order pk (S pk)) as [H _]; [ lia | ].
  destruct (Z.eqb_spec (coord (row data pk) 1) (coord (row data (S pk)) 1)); [ lia | ]. reflexivity.
Qed.

Lemma whv_loop_ok : forall fuel pk top whv,
  (pk < length data)%nat -> (length data < fuel + pk)%nat ->
  coord (row data pk) 1 < c_u1 c0 -> coord (row data pk) 1 < top ->
  whv_loop fuel data rects lt lr pk top whv = Ret (whv + run_val rects top (skipn pk data)).
Proof.
  induction fuel as [ | fuel IH ]; intros pk top whv Hpk Hf Hu Ht; [ lia | ].
  cbn [whv_loop]. rewrite (rd_ok _ data pk []) by assumption. cbn [bind].
  change (nth pk data []) with (row data pk).
  rewrite get_rectangle_ok by assumption. cbn [bind]. fold c0.
  apply Z.ltb_lt in Hu. rewrite Hu. apply Z.ltb_lt in Hu. cbn [assert_ bind].
  unfold c0. rewrite rect_do_ok; try assumption; try lia. cbn [bind]. fold c0.
  rewrite next_useful_ok by (assumption || lia). cbn [bind].
  rewrite (skipn_cons _ data pk []) by assumption. change (skipn 0 rects) with rects. cbn [run_val].
  change (nth pk data []) with (row data pk).
  destruct (stop (row data pk) (skipn (S pk) data)) eqn:Es.
  - f_equal. lia.
  - assert (Hn : (S pk < length data)%nat).
    { destruct (Nat.lt_ge_cases (S pk) (length data)); [ assumption | ].
      rewrite skipn_all2 in Es by lia. discriminate. }
    destruct (row_order pk (S pk)) as [H _]; [ lia | ].
    rewrite IH by (assumption || lia). f_equal. lia.
Qed.
End Loops.
End Sweep.
