(** C35: removing the points outside given bounds. *)
From Coq Require Import List ZArith Lia Bool Arith.
From Verif Require Import Base FbSpec FbModel.
Import ListNotations.
Open Scope Z_scope.

Section Proofs.
Variables (dim : nat) (lb ub : point).
Notation outb := (out_bounds dim lb ub).
Definition inb (p : point) : bool := negb (outb p).

Lemma inb_inside : forall p, inb p = true <-> inside dim lb ub p.
Proof.
  intros p. unfold inb, out_bounds, any_less_than, inside. rewrite negb_true_iff, orb_false_iff.
  split.
  - intros [H1 H2] d Hd.
    assert (I : In d (seq 0 dim)) by (apply in_seq; lia).
    split; apply Z.nlt_ge; intros N.
    + assert (E : existsb (fun d0 => coord p d0 <? coord lb d0) (seq 0 dim) = true)
        by (apply existsb_exists; exists d; split; [ exact I | now apply Z.ltb_lt ]).
      congruence.
    + assert (E : existsb (fun d0 => coord ub d0 <? coord p d0) (seq 0 dim) = true)
        by (apply existsb_exists; exists d; split; [ exact I | now apply Z.ltb_lt ]).
      congruence.
  - intros H. split; apply not_true_iff_false; intros E; apply existsb_exists in E;
      destruct E as [d [Hd E]]; apply in_seq in Hd; apply Z.ltb_lt in E; specialize (H d ltac:(lia)); lia.
Qed.

Lemma filter_selected : forall l, selected (inside dim lb ub) l (filter inb l).
Proof.
  induction l as [ | x l IH ]; cbn [filter]; [ constructor | ].
  destruct (inb x) eqn:E.
  - apply sel_take; [ now apply inb_inside | exact IH ].
  - apply sel_skip; [ intros H; apply inb_inside in H; congruence | exact IH ].
Qed.

(** marking *)
Lemma mark_out_ok : forall points m o found,
  (m <= length points)%nat -> (m <= length o)%nat ->
  exists o' f', mark_out dim lb ub points m o found = Ret (o', f') /\ length o' = length o /\
    (forall i, (i < m)%nat -> nth i o' false = outb (row points i)) /\
    (forall i, (m <= i)%nat -> nth i o' false = nth i o false) /\
    match f' with
    | None => found = None /\ forall i, (i < m)%nat -> outb (row points i) = false
    | Some k => (forall i, (i < k)%nat -> (i < m)%nat -> outb (row points i) = false) /\
                (((k < m)%nat /\ outb (row points k) = true) \/
                 (found = Some k /\ forall i, (i < m)%nat -> outb (row points i) = false))
    end.
Proof.
  intros points. induction m as [ | n IH ]; intros o found Hm Ho; cbn [mark_out].
  - exists o, found. repeat split; try (intros; lia). destruct found; [ | split; [ reflexivity | intros; lia ] ].
    split; [ intros; lia | right; split; [ reflexivity | intros; lia ] ].
  - rewrite (rd_ok _ points n []) by lia. cbn [bind]. fold (row points n).
    destruct (outb (row points n)) eqn:E; rewrite wr_ok by lia; cbn [bind].
    + destruct (IH (upd o n true) (Some n) ltac:(lia) ltac:(rewrite upd_length; lia))
        as (o' & f' & R & L & H1 & H2 & H3).
      exists o', f'. rewrite upd_length in L. split; [ exact R | split; [ exact L | split; [ | split ] ] ].
      * intros i Hi. destruct (Nat.eq_dec i n) as [ -> | Hne ].
        -- rewrite H2 by lia. rewrite nth_upd_same by lia. now rewrite E.
        -- apply H1. lia.
      * intros i Hi. rewrite H2 by lia. apply nth_upd_other. lia.
      * destruct f' as [k | ]; [ | destruct H3; discriminate ].
        destruct H3 as [G [[Hk Ek] | [Ek Gn]]].
        -- split; [ intros i Hi Hi2; apply G; lia | left; split; [ lia | exact Ek ] ].
        -- injection Ek as <-. split; [ intros i Hi _; apply Gn; lia | left; split; [ lia | exact E ] ].
    + destruct (IH (upd o n false) found ltac:(lia) ltac:(rewrite upd_length; lia))
        as (o' & f' & R & L & H1 & H2 & H3).
      exists o', f'. rewrite upd_length in L. split; [ exact R | split; [ exact L | split; [ | split ] ] ].
      * intros i Hi. destruct (Nat.eq_dec i n) as [ -> | Hne ].
        -- rewrite H2 by lia. rewrite nth_upd_same by lia. now rewrite E.
        -- apply H1. lia.
      * intros i Hi. rewrite H2 by lia. apply nth_upd_other. lia.
      * destruct f' as [k | ].
        -- destruct H3 as [G [[Hk Ek] | [Ek Gn]]].
           ++ split; [ intros i Hi Hi2; apply G; lia | left; split; [ lia | exact Ek ] ].
           ++ assert (Gall : forall i, (i < S n)%nat -> outb (row points i) = false).
              { intros i Hi. destruct (Nat.eq_dec i n) as [ -> | Hne ]; [ exact E | apply Gn; lia ]. }
              split; [ intros i _ Hi; now apply Gall | right; split; [ exact Ek | exact Gall ] ].
        -- destruct H3 as [G1 G2]. split; [ exact G1 | ].
           intros i Hi. destruct (Nat.eq_dec i n) as [ -> | Hne ]; [ exact E | apply G2; lia ].
Qed.

Lemma firstn_upd : forall A (l : list A) n x, (n < length l)%nat ->
  firstn (S n) (upd l n x) = firstn n l ++ [x].
Proof.
  induction l as [ | y l IH ]; intros [ | n ] x H; cbn in H; try lia; cbn [upd].
  - reflexivity.
  - change (y :: firstn (S n) (upd l n x) = (y :: firstn n l) ++ [x]). rewrite IH by lia. reflexivity.
Qed.
Lemma skipn_upd : forall A (l : list A) n m x, (n < m)%nat -> skipn m (upd l n x) = skipn m l.
Proof.
  induction l as [ | y l IH ]; intros [ | n ] [ | m ] x H; try lia; cbn [upd]; try reflexivity.
  change (skipn m (upd l n x) = skipn m l). apply IH. lia.
Qed.

Lemma skipn_add : forall A (l : list A) a b, skipn (a + b) l = skipn b (skipn a l).
Proof.
  induction l as [ | x l IH ]; intros a b; [ now rewrite !skipn_nil | ].
  destruct a as [ | a ]; [ reflexivity | ]. change (skipn (a + b) l = skipn b (skipn a l)). apply IH.
Qed.

Notation keep := (filter inb).
Definition nout (l : list point) : nat := (length l - length (keep l))%nat.
Lemma keep_le : forall l, (length (keep l) <= length l)%nat.
Proof. induction l as [ | x l IH ]; cbn [filter]; [ lia | destruct (inb x); cbn [length]; lia ]. Qed.

Lemma skipn_cons_nth : forall (l : list point) n x t, skipn n l = x :: t ->
  (n < length l)%nat /\ nth n l [] = x /\ skipn (S n) l = t.
Proof.
  induction l as [ | y l IH ]; intros [ | n ] x t H; try discriminate.
  - change (y :: l = x :: t) in H. injection H as <- <-. cbn. repeat split; lia.
  - change (skipn n l = x :: t) in H. destruct (IH n x t H) as [A [B C]]. cbn [length nth]. repeat split; [ lia | exact B | exact C ].
Qed.

(** one set: the segment [seg] starts at n2 *)
Lemma compact_ok : forall seg rest fuel ob k lim n n2 ss pts,
  skipn n2 pts = seg ++ rest -> lim = (n2 + length seg)%nat -> (n < n2)%nat ->
  (forall i, (n2 <= i)%nat -> (i < lim)%nat -> nth i ob false = outb (row pts i)) ->
  (lim <= length ob)%nat -> (k < length ss)%nat -> (length seg < fuel)%nat ->
  exists pts', compact fuel ob k lim n n2 ss pts =
      Ret ((n + length (keep seg))%nat, lim, upd ss k (nth k ss 0 - nout seg)%nat, pts') /\
    length pts' = length pts /\ skipn lim pts' = rest /\
    firstn (n + length (keep seg)) pts' = firstn n pts ++ keep seg.
Proof.
  induction seg as [ | x seg IH ]; intros rest fuel ob k lim n n2 ss pts Hs Hlim Hn Hob Hlo Hk Hf;
    (destruct fuel as [ | fuel ]; [ cbn in Hf; lia | ]); cbn [compact].
  - cbn [length] in Hlim. rewrite Nat.add_0_r in Hlim. subst lim. rewrite Nat.ltb_irrefl.
    exists pts. cbn [filter length]. rewrite Nat.add_0_r. split; [ | split; [ reflexivity | split; [ exact Hs | now rewrite app_nil_r ] ] ].
    unfold nout. cbn [length filter]. rewrite Nat.sub_0_r.
    assert (E : upd ss k (nth k ss 0%nat) = ss).
    { apply (list_ext _ 0%nat); [ apply upd_length | ]. intros i Hi. rewrite upd_length in Hi.
      rewrite nth_upd by exact Hk. destruct (Nat.eqb_spec k i); subst; reflexivity. }
    rewrite E. reflexivity.
  - cbn [length] in Hlim, Hf.
    destruct (skipn_cons_nth pts n2 x (seg ++ rest) Hs) as [Hn2 [Ex Hs']].
    assert (Hlt : (n2 <? lim)%nat = true) by (apply Nat.ltb_lt; lia). rewrite Hlt.
    rewrite (rd_ok _ ob n2 false) by lia. cbn [bind].
    rewrite Hob by lia. unfold row. rewrite Ex.
    destruct (outb x) eqn:E; cbn [bind].
    + unfold decr. rewrite (rd_ok _ ss k 0%nat) by exact Hk. cbn [bind]. rewrite wr_ok by exact Hk. cbn [bind].
      destruct (IH rest fuel ob k lim n (S n2) (upd ss k (nth k ss 0 - 1)%nat) pts Hs' ltac:(lia) ltac:(lia))
        as (pts' & R & L & G1 & G2); [ intros; apply Hob; lia | exact Hlo | rewrite upd_length; exact Hk | lia | ].
      exists pts'. assert (Ef : keep (x :: seg) = keep seg) by (cbn [filter]; unfold inb at 1; now rewrite E).
      rewrite Ef. split; [ | split; [ exact L | split; [ exact G1 | exact G2 ] ] ].
      rewrite R. f_equal. f_equal. f_equal.
      apply (list_ext _ 0%nat); [ rewrite !upd_length; reflexivity | ]. intros i Hi.
      rewrite !nth_upd by (rewrite ?upd_length; exact Hk). rewrite Nat.eqb_refl.
      destruct (Nat.eqb k i); [ | reflexivity ]. unfold nout. rewrite Ef. cbn [length].
      pose proof (keep_le seg). lia.
    + rewrite (rd_ok _ pts n2 []) by exact Hn2. cbn [bind]. rewrite wr_ok by lia. cbn [bind]. rewrite Ex.
      destruct (IH rest fuel ob k lim (S n) (S n2) ss (upd pts n x)) as (pts' & R & L & G1 & G2).
      * rewrite skipn_upd by lia. exact Hs'.
      * lia.
      * lia.
      * intros i Hi Hi2. rewrite Hob by lia. unfold row. now rewrite nth_upd_other by lia.
      * exact Hlo.
      * exact Hk.
      * lia.
      * exists pts'. assert (Ef : keep (x :: seg) = x :: keep seg) by (cbn [filter]; unfold inb at 1; now rewrite E).
        rewrite Ef. cbn [length]. rewrite upd_length in L.
        assert (En : (n + S (length (keep seg)) = S n + length (keep seg))%nat) by lia. rewrite En.
        split; [ | split; [ exact L | split; [ exact G1 | ] ] ].
        -- rewrite R. f_equal. f_equal. f_equal. f_equal. unfold nout. rewrite Ef. cbn [length]. lia.
        -- rewrite G2. rewrite firstn_upd by lia. now rewrite <- app_assoc.
Qed.

(** all remaining sets; [segs] are the segments still to scan *)
Lemma compact_sets_ok : forall segs ob cs k n n2 ss pts,
  skipn n2 pts = concat segs -> (n < n2)%nat ->
  (forall i, (n2 <= i)%nat -> (i < length pts)%nat -> nth i ob false = outb (row pts i)) ->
  length ob = length pts -> (n2 <= length pts)%nat ->
  skipn k cs = cumsizes_from n2 segs -> (k + length segs = length ss)%nat ->
  exists n' ss' pts', compact_sets (length segs) ob cs k n n2 ss pts = Ret (n', ss', pts') /\
    firstn n' pts' = firstn n pts ++ concat (map keep segs) /\
    length pts' = length pts /\ length ss' = length ss /\
    (forall i, (i < k)%nat -> nth i ss' 0%nat = nth i ss 0%nat) /\
    (forall i, (i < length segs)%nat -> nth (k + i) ss' 0%nat = (nth (k + i) ss 0 - nout (nth i segs []))%nat) /\
    n' = (n + length (concat (map keep segs)))%nat.
Proof.
  induction segs as [ | seg segs IH ]; intros ob cs k n n2 ss pts Hs Hn Hob Hlo Hn2 Hcs Hk;
    cbn [length compact_sets].
  - exists n, ss, pts. cbn [map concat length]. rewrite app_nil_r, Nat.add_0_r. repeat split; auto. intros; lia.
  - cbn [cumsizes_from] in Hcs. cbn [length] in Hk.
    assert (Hrd : rd cs k = Ret (n2 + length seg)%nat /\ skipn (S k) cs = cumsizes_from (n2 + length seg) segs).
    { clear - Hcs. revert k Hcs. induction cs as [ | c cs IHc ]; intros [ | k ] H; try discriminate.
      - change (c :: cs = (n2 + length seg)%nat :: cumsizes_from (n2 + length seg) segs) in H.
        injection H as -> ->. split; reflexivity.
      - change (skipn k cs = (n2 + length seg)%nat :: cumsizes_from (n2 + length seg) segs) in H.
        destruct (IHc k H) as [A B]. split; [ exact A | exact B ]. }
    destruct Hrd as [Hrd Hcs']. rewrite Hrd. cbn [bind].
    assert (Hlen : (length pts - n2 = length seg + length (concat segs))%nat).
    { rewrite <- skipn_length, Hs. cbn [concat]. apply app_length. }
    destruct (compact_ok seg (concat segs) (S (length ob)) ob k (n2 + length seg)%nat n n2 ss pts)
      as (pts1 & R1 & L1 & G1 & F1); auto; try lia.
    { intros i Hi Hi2. apply Hob; lia. }
    rewrite R1. cbn [bind].
    destruct (IH ob cs (S k) (n + length (keep seg))%nat (n2 + length seg)%nat
                 (upd ss k (nth k ss 0 - nout seg)%nat) pts1)
      as (n' & ss' & pts' & R & F & L & LS & Pk & Pi & En).
    + exact G1.
    + pose proof (keep_le seg). lia.
    + intros i Hi Hi2. rewrite L1 in Hi2. rewrite Hob by lia. f_equal. unfold row.
      assert (E : skipn (n2 + length seg) pts1 = skipn (n2 + length seg) pts).
      { rewrite G1. rewrite skipn_add, Hs. cbn [concat].
        rewrite skipn_app, skipn_all, Nat.sub_diag. reflexivity. }
      assert (N : forall l : list point, nth i l [] = nth (i - (n2 + length seg)) (skipn (n2 + length seg) l) []).
      { intros l. clear - Hi. revert i Hi. generalize (n2 + length seg)%nat as a.
        induction l as [ | y l IHl ]; intros a i Hi.
        - rewrite skipn_nil. rewrite !nth_overflow by (cbn; lia). reflexivity.
        - destruct a as [ | a ]; [ now rewrite Nat.sub_0_r | ]. destruct i as [ | i ]; [ lia | ].
          change (nth i l [] = nth (i - a) (skipn a l) []). apply IHl. lia. }
      rewrite (N pts), (N pts1), E. reflexivity.
    + lia.
    + lia.
    + exact Hcs'.
    + rewrite upd_length. lia.
    + exists n', ss', pts'. rewrite R. split; [ reflexivity | ].
      rewrite upd_length in LS.
      split; [ | split; [ lia | split; [ exact LS | split; [ | split ] ] ] ].
      * rewrite F, F1. cbn [map concat]. now rewrite app_assoc.
      * intros i Hi. rewrite Pk by lia. apply nth_upd_other. lia.
      * intros [ | i ] Hi.
        -- rewrite Nat.add_0_r. rewrite Pk by lia. rewrite nth_upd_same by lia. reflexivity.
        -- replace (k + S i)%nat with (S k + i)%nat by lia. cbn [nth]. rewrite Pi by lia.
           rewrite nth_upd_other by lia. reflexivity.
      * rewrite En. cbn [map concat]. rewrite app_length. lia.
Qed.

(** the set of the first point out of bounds *)
Lemma cumsizes_length : forall sets acc, length (cumsizes_from acc sets) = length sets.
Proof. induction sets as [ | s sets IH ]; intros acc; cbn [cumsizes_from length]; [ reflexivity | now rewrite IH ]. Qed.

Lemma find_set_ok : forall sets acc fuel cs k found,
  skipn k cs = cumsizes_from acc sets -> (acc <= found)%nat -> (found < acc + length (concat sets))%nat ->
  (length sets < fuel)%nat ->
  exists pre s post, sets = pre ++ s :: post /\
    (acc + length (concat pre) <= found)%nat /\ (found < acc + length (concat pre) + length s)%nat /\
    find_set fuel cs found k = Ret (k + length pre)%nat.
Proof.
  induction sets as [ | s sets IH ]; intros acc fuel cs k found Hcs Ha Hf Hfu.
  - cbn in Hf. lia.
  - destruct fuel as [ | fuel ]; [ cbn in Hfu; lia | ]. cbn [find_set]. cbn [cumsizes_from] in Hcs.
    assert (Hrd : rd cs k = Ret (acc + length s)%nat /\ skipn (S k) cs = cumsizes_from (acc + length s) sets).
    { clear - Hcs. revert k Hcs. induction cs as [ | c cs IHc ]; intros [ | k ] H; try discriminate.
      - change (c :: cs = (acc + length s)%nat :: cumsizes_from (acc + length s) sets) in H.
        injection H as -> ->. split; reflexivity.
      - change (skipn k cs = (acc + length s)%nat :: cumsizes_from (acc + length s) sets) in H.
        destruct (IHc k H) as [A B]. split; [ exact A | exact B ]. }
    destruct Hrd as [Hrd Hcs']. rewrite Hrd. cbn [bind].
    cbn [concat] in Hf. rewrite app_length in Hf. cbn [length] in Hfu.
    destruct (Nat.leb_spec (acc + length s) found) as [Hle | Hgt].
    + destruct (IH (acc + length s)%nat fuel cs (S k) found Hcs' Hle ltac:(lia) ltac:(lia))
        as (pre & s' & post & E & B1 & B2 & R).
      exists (s :: pre), s', post. rewrite E. cbn [concat length app]. rewrite app_length.
      split; [ reflexivity | split; [ lia | split; [ lia | ] ] ].
      rewrite R. f_equal. lia.
    + exists [], s, sets. cbn [concat length app]. rewrite !Nat.add_0_r.
      split; [ reflexivity | split; [ lia | split; [ lia | reflexivity ] ] ].
Qed.

Lemma set_sizes_ok : forall sets acc, set_sizes acc (cumsizes_from acc sets) = map (@length point) sets.
Proof.
  induction sets as [ | s sets IH ]; intros acc; cbn [cumsizes_from set_sizes map]; [ reflexivity | ].
  rewrite IH. f_equal. lia.
Qed.
Lemma cumulate_ok : forall sets acc, cumulate acc (map (@length point) sets) = cumsizes_from acc sets.
Proof. induction sets as [ | s sets IH ]; intros acc; cbn [map cumulate cumsizes_from]; [ reflexivity | now rewrite IH ]. Qed.
Lemma cumsizes_last : forall sets acc, (0 < length sets)%nat ->
  nth (length sets - 1) (cumsizes_from acc sets) 0%nat = (acc + length (concat sets))%nat.
Proof.
  induction sets as [ | s [ | s2 sets ] IH ]; intros acc H; [ cbn in H; lia | | ].
  - cbn. rewrite app_nil_r. reflexivity.
  - specialize (IH (acc + length s)%nat ltac:(cbn; lia)).
    change (length (s :: s2 :: sets) - 1)%nat with (S (length sets)).
    change (length (s2 :: sets) - 1)%nat with (length sets - 0)%nat in IH. rewrite Nat.sub_0_r in IH.
    change (nth (length sets) (cumsizes_from (acc + length s) (s2 :: sets)) 0%nat
            = (acc + length (s ++ concat (s2 :: sets)))%nat).
    rewrite IH, app_length. lia.
Qed.

Lemma keep_all : forall l, (forall x, In x l -> outb x = false) -> keep l = l.
Proof.
  induction l as [ | x l IH ]; intros H; cbn [filter]; [ reflexivity | ].
  unfold inb at 1. rewrite (H x (or_introl eq_refl)). cbn [negb]. f_equal. apply IH. intros; apply H; now right.
Qed.

Lemma force_bounds_ok : forall junk sets,
  sets <> [] ->
  let pts := concat sets in
  exists pts', force_bounds dim lb ub junk pts (cumsizes_of sets)
    = Ret (negb (forallb inb pts), pts', cumsizes_of (map keep sets)) /\
    length pts' = length pts /\
    firstn (length (concat (map keep sets))) pts' = concat (map keep sets).
Proof.
  intros junk sets Hne pts.
  assert (Hl : (0 < length sets)%nat) by (destruct sets; [ congruence | cbn; lia ]).
  unfold force_bounds. cbv zeta. unfold cumsizes_of. rewrite cumsizes_length.
  rewrite (rd_ok _ _ (length sets - 1) 0%nat) by (rewrite cumsizes_length; lia).
  rewrite cumsizes_last by exact Hl. cbn [bind Nat.add]. fold pts.
  destruct (mark_out_ok pts (length pts) (map junk (seq 0 (length pts))) None (Nat.le_refl _)
              ltac:(rewrite map_length, seq_length; lia)) as (o & f & R & L & H1 & _ & H3).
  rewrite map_length, seq_length in L.
  rewrite R. cbn [bind snd fst]. destruct f as [found | ].
  - destruct H3 as [G [[Hk Ek] | [Ek _]]]; [ | discriminate ].
    destruct (find_set_ok sets 0 (S (length sets)) (cumsizes_from 0 sets) 0 found eq_refl ltac:(lia)
                ltac:(cbn [Nat.add]; fold pts; lia) ltac:(lia)) as (pre & s & post & E & B1 & B2 & Rf).
    cbn [Nat.add] in B1, B2, Rf. rewrite Rf. cbn [bind]. rewrite set_sizes_ok.
    unfold decr. rewrite (rd_ok _ _ (length pre) 0%nat) by (rewrite map_length, E, app_length; cbn; lia).
    cbn [bind]. rewrite wr_ok by (rewrite map_length, E, app_length; cbn; lia). cbn [bind].
    (* split the set at the point found *)
    set (i0 := (found - length (concat pre))%nat).
    assert (Hi0 : (i0 < length s)%nat) by (unfold i0; lia).
    set (s1 := firstn i0 s). set (s2 := skipn (S i0) s).
    assert (Es : s = s1 ++ nth i0 s [] :: s2).
    { unfold s1, s2. rewrite <- (firstn_skipn i0 s) at 1. f_equal.
      clear - Hi0. clearbody i0. revert i0 Hi0. induction s as [ | y s IHs ]; intros [ | i ] H; cbn in H; try lia; [ reflexivity | ].
      change (skipn i s = nth i s [] :: skipn (S i) s). apply IHs. lia. }
    assert (L1 : length s1 = i0) by (unfold s1; apply firstn_length_le; lia).
    assert (Epts : pts = concat pre ++ s ++ concat post).
    { unfold pts. rewrite E, concat_app. cbn [concat]. reflexivity. }
    assert (Efound : row pts found = nth i0 s []).
    { unfold row. rewrite Epts. rewrite app_nth2 by lia. fold i0. rewrite app_nth1 by lia. reflexivity. }
    assert (Eskip : skipn (found + 1) pts = concat (s2 :: post)).
    { rewrite Epts. cbn [concat]. rewrite skipn_app, skipn_all2 by lia. cbn [app].
      replace (found + 1 - length (concat pre))%nat with (S i0) by (unfold i0; lia).
      rewrite skipn_app. replace (S i0 - length s)%nat with 0%nat by lia. reflexivity. }
    assert (Efirst : firstn found pts = concat pre ++ s1).
    { rewrite Epts. rewrite firstn_app. rewrite firstn_all2 by lia. f_equal. fold i0.
      rewrite firstn_app. replace (i0 - length s)%nat with 0%nat by lia. rewrite firstn_O, app_nil_r. reflexivity. }
    assert (HL : (length (concat pre) + length s + length (concat post) = length pts)%nat).
    { rewrite Epts. rewrite !app_length. lia. }
    assert (Hpre : forall x, In x (concat pre ++ s1) -> outb x = false).
    { intros x Hx. rewrite <- Efirst in Hx. destruct (In_nth _ _ [] Hx) as [i [Hi <-]].
      rewrite firstn_length_le in Hi by lia.
      assert (W : row pts i = nth i (firstn found pts) []).
      { unfold row. rewrite <- (firstn_skipn found pts) at 1. rewrite app_nth1 by (rewrite firstn_length_le; lia). reflexivity. }
      assert (V := G i ltac:(lia) ltac:(lia)). rewrite W in V. exact V. }
    destruct (compact_sets_ok (s2 :: post) o (cumsizes_from 0 sets) (length pre) found (found + 1)
                (upd (map (@length point) sets) (length pre) (nth (length pre) (map (@length point) sets) 0 - 1)%nat) pts)
      as (n' & ss' & pts' & Rc & F & Lp & LS & Pk & Pi & En).
    + exact Eskip.
    + lia.
    + intros i Hi Hi2. apply H1. exact Hi2.
    + exact L.
    + lia.
    + rewrite E. clear - Hi0 L1 Es B1 B2 i0.
      assert (X : forall acc, skipn (length pre) (cumsizes_from acc (pre ++ s :: post))
                  = cumsizes_from (acc + length (concat pre)) (s :: post)).
      { induction pre as [ | q pre IHp ]; intros acc; cbn [length concat app cumsizes_from].
        - now rewrite Nat.add_0_r.
        - change (skipn (length pre) (cumsizes_from (acc + length q) (pre ++ s :: post))
                  = cumsizes_from (acc + length (q ++ concat pre)) (s :: post)).
          assert (IHp' : forall acc, skipn (length pre) (cumsizes_from acc (pre ++ s :: post))
                  = cumsizes_from (acc + length (concat pre)) (s :: post)).
          { clear. induction pre as [ | q pre IHp ]; intros acc; cbn [length concat app cumsizes_from].
            - now rewrite Nat.add_0_r.
            - change (skipn (length pre) (cumsizes_from (acc + length q) (pre ++ s :: post))
                      = cumsizes_from (acc + length (q ++ concat pre)) (s :: post)).
              rewrite IHp, app_length. f_equal. lia. }
          rewrite IHp', app_length. f_equal. lia. }
      rewrite X. cbn [cumsizes_from Nat.add].
      assert (Ls : length s = (i0 + S (length s2))%nat) by (rewrite Es at 1; rewrite app_length; cbn [length]; lia).
      replace (found + 1 + length s2)%nat with (length (concat pre) + length s)%nat; [ reflexivity | ].
      unfold i0 in *. lia.
    + rewrite upd_length, map_length, E, app_length. cbn [length]. lia.
    + assert (Esz : (length sets - length pre = length (s2 :: post))%nat)
        by (rewrite E, app_length; cbn [length]; lia).
      rewrite Esz, Rc. cbn [bind].
      assert (Ekx : keep s = s1 ++ keep s2).
      { rewrite Es at 1. rewrite filter_app. cbn [filter].
        rewrite (keep_all s1) by (intros x Hx; apply Hpre, in_or_app; now right).
        unfold inb at 1. rewrite <- Efound, Ek. reflexivity. }
      assert (Ekp : map keep pre = pre).
      { assert (W : forall q, In q pre -> keep q = q).
        { intros q Hq. apply keep_all. intros x Hx. apply Hpre, in_or_app. left.
          apply in_concat. exists q. split; assumption. }
        clear - W. induction pre as [ | q pre IHp ]; cbn [map]; [ reflexivity | ].
        rewrite (W q (or_introl eq_refl)), IHp; [ reflexivity | intros; apply W; now right ]. }
      assert (Ecat : concat (map keep sets) = concat pre ++ s1 ++ keep s2 ++ concat (map keep post)).
      { rewrite E, map_app. cbn [map]. rewrite concat_app. cbn [concat]. rewrite Ekp, Ekx.
        now rewrite <- !app_assoc. }
      exists pts'. split; [ | split; [ exact Lp | ] ].
      * assert (Efl : forallb inb pts = false).
        { apply not_true_iff_false. intros T. rewrite forallb_forall in T.
          assert (I : In (row pts found) pts) by (apply In_row; lia).
          apply T in I. unfold inb in I. rewrite Ek in I. discriminate. }
        rewrite Efl. cbn [negb]. f_equal. f_equal.
        rewrite <- cumulate_ok. f_equal.
        apply (list_ext _ 0%nat).
        { rewrite LS, upd_length, !map_length. reflexivity. }
        intros i Hi. rewrite LS, upd_length, map_length in Hi.
        rewrite (nth_map_lt _ _ _ (map keep sets) i 0%nat []) by (now rewrite map_length).
        rewrite (nth_map_lt _ _ _ sets i [] []) by exact Hi.
        destruct (Nat.lt_trichotomy i (length pre)) as [Hlt | [ -> | Hgt]].
        -- rewrite Pk by exact Hlt. rewrite nth_upd_other by lia.
           rewrite (nth_map_lt _ _ _ sets i 0%nat []) by exact Hi.
           rewrite E. rewrite app_nth1 by exact Hlt.
           assert (W : keep (nth i pre []) = nth i pre []).
           { rewrite <- (nth_map_lt _ _ keep pre i [] []) by exact Hlt. now rewrite Ekp. }
           now rewrite W.
        -- assert (P0 := Pi 0%nat ltac:(cbn; lia)). rewrite Nat.add_0_r in P0. cbn [nth] in P0.
           rewrite P0. rewrite nth_upd_same by (rewrite map_length; exact Hi).
           rewrite (nth_map_lt _ _ _ sets (length pre) 0%nat []) by exact Hi.
           rewrite E. rewrite app_nth2, Nat.sub_diag by lia. cbn [nth]. rewrite Ekx.
           assert (Ls : length s = (i0 + S (length s2))%nat) by (rewrite Es at 1; rewrite app_length; cbn [length]; lia).
           rewrite app_length. unfold nout. pose proof (keep_le s2). lia.
        -- assert (Hi' := Hi). rewrite E, app_length in Hi'. cbn [length] in Hi'.
           destruct (i - length pre)%nat as [ | j ] eqn:Ej; [ lia | ].
           assert (P0 := Pi (S j) ltac:(cbn [length]; lia)). cbn [nth] in P0.
           replace (length pre + S j)%nat with i in P0 by lia. rewrite P0.
           rewrite nth_upd_other by lia. rewrite (nth_map_lt _ _ _ sets i 0%nat []) by exact Hi.
           rewrite E. rewrite app_nth2 by lia. rewrite Ej. cbn [nth].
           unfold nout. pose proof (keep_le (nth j post [])). lia.
      * assert (En' : n' = length (concat (map keep sets))).
        { rewrite En, Ecat. cbn [map concat]. rewrite !app_length. unfold i0 in L1. lia. }
        rewrite <- En'. rewrite F, Efirst, Ecat. cbn [map concat]. now rewrite <- !app_assoc.
  - destruct H3 as [_ H3].
    assert (Hall : forall x, In x pts -> outb x = false).
    { intros x Hx. destruct (row_In_inv pts x Hx) as [i [Hi <-]]. now apply H3. }
    assert (Hk : map keep sets = sets).
    { assert (W : forall q, In q sets -> keep q = q).
      { intros q Hq. apply keep_all. intros x Hx. apply Hall. unfold pts. apply in_concat. exists q. split; assumption. }
      clear - W. induction sets as [ | q sets IHp ]; cbn [map]; [ reflexivity | ].
      rewrite (W q (or_introl eq_refl)), IHp; [ reflexivity | intros; apply W; now right ]. }
    exists pts. rewrite Hk. split; [ | split; [ reflexivity | unfold pts; apply firstn_all ] ].
    assert (Ef : forallb inb pts = true).
    { apply forallb_forall. intros x Hx. unfold inb. now rewrite (Hall x Hx). }
    rewrite Ef. reflexivity.
Qed.
End Proofs.

Lemma selected_unique : forall A (P : A -> Prop) l a b, selected P l a -> selected P l b -> a = b.
Proof.
  intros A P l a b Ha. revert b. induction Ha; intros b Hb; inversion Hb; subst; try contradiction; auto.
  f_equal. auto.
Qed.

(** C35: the sets that remain are the original ones with exactly the points inside
    the bounds, in their order; they are stored consecutively at the beginning of
    the array, the cumulative sizes are theirs, and the result says whether
    anything was removed.  No access is out of bounds and nothing aborts. *)
Theorem C35_force_bounds : forall junk dim lb ub sets,
  sets <> [] ->
  exists sets' pts' flag,
    force_bounds dim lb ub junk (concat sets) (cumsizes_of sets) = Ret (flag, pts', cumsizes_of sets') /\
    Forall2 (selected (inside dim lb ub)) sets sets' /\
    firstn (length (concat sets')) pts' = concat sets' /\
    (flag = true <-> exists p, In p (concat sets) /\ ~ inside dim lb ub p).
Proof.
  intros junk dim lb ub sets Hne.
  destruct (force_bounds_ok dim lb ub junk sets Hne) as (pts' & R & L & F).
  exists (map (filter (inb dim lb ub)) sets), pts', (negb (forallb (inb dim lb ub) (concat sets))).
  split; [ exact R | split; [ | split; [ exact F | ] ] ].
  - clear. induction sets as [ | s sets IH ]; cbn [map]; constructor; [ apply filter_selected | exact IH ].
  - rewrite negb_true_iff. split.
    + intros E. apply not_true_iff_false in E.
      assert (D : forall l, forallb (inb dim lb ub) l = true \/ exists p, In p l /\ inb dim lb ub p = false).
      { clear. induction l as [ | x l IH ]; cbn [forallb]; [ now left | ].
        destruct (inb dim lb ub x) eqn:Ex; [ | right; exists x; split; [ now left | exact Ex ] ].
        destruct IH as [IH | [p [Hp Ep]]]; [ left; exact IH | right; exists p; split; [ now right | exact Ep ] ]. }
      destruct (D (concat sets)) as [T | [p [Hp Ep]]]; [ contradiction | ].
      exists p. split; [ exact Hp | ]. intros I. apply inb_inside in I. congruence.
    + intros [p [Hp Np]]. apply not_true_iff_false. intros T. rewrite forallb_forall in T.
      apply Np. apply inb_inside. now apply T.
Qed.
(** non-vacuity: the specification determines the sets, and a case with points
    removed from the beginning, the middle and the end *)
Theorem C35_result_unique : forall dim lb ub sets a b,
  Forall2 (selected (inside dim lb ub)) sets a -> Forall2 (selected (inside dim lb ub)) sets b -> a = b.
Proof.
  intros dim lb ub sets a b Ha. revert b. induction Ha; intros b Hb; inversion Hb; subst; [ reflexivity | ].
  f_equal; [ eapply selected_unique; eassumption | auto ].
Qed.
Example C35_example :
  force_bounds 2 [0;0] [9;9] (fun _ => true) [[1;1]; [10;1]; [2;2]; [-1;3]; [4;4]; [5;10]] [3;4;6]%nat
  = Ret (true, [[1;1]; [2;2]; [4;4]; [-1;3]; [4;4]; [5;10]], [2;2;3]%nat).
Proof. reflexivity. Qed.
(** The bound is inclusive, and a set may become empty (the second set above). *)
Theorem C35_set_may_become_empty :
  exists sets pts', force_bounds 2 [0;0] [9;9] (fun _ => true) (concat sets) (cumsizes_of sets)
    = Ret (true, pts', cumsizes_of [[[0;9]]; []; [[4;4]]]) /\ Forall (fun s => s <> []) sets.
Proof.
  exists [[[0;9]]; [[-1;3]]; [[4;4]]]. eexists. split; [ reflexivity | ].
  repeat constructor; discriminate.
Qed.

Print Assumptions C35_force_bounds.
Print Assumptions C35_result_unique.
Print Assumptions C35_set_may_become_empty.
