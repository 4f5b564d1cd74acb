(** Proofs about RFileModel.v: reading, writing and combining data sets in R. *)
From Coq Require Import List ZArith Lia Bool Arith Ascii Sorted.
From Verif Require Import Base IoModel IoSpec IoProofs IoMain GroupModel GroupSpec GroupProofs RMatModel RMatSpec RMatProofs RVorobModel RFileModel RFileSpec PyEafProofs PropREaf PropRVorob REafSpec PropIo.
Import ListNotations.
Open Scope Z_scope.

Lemma wr_ok : forall A (l : list A) k v, (k < length l)%nat -> wr l k v = Ret (upd l k v).
Proof. intros A l k v H. unfold wr. destruct (Nat.ltb_spec k (length l)); auto; lia. Qed.
Lemma rd_ok : forall A (l : list A) k d, (k < length l)%nat -> rd l k = Ret (nth k l d).
Proof. intros A l k d H. unfold rd. rewrite (nth_error_nth' l d H). reflexivity. Qed.
Lemma upd_split : forall A (l : list A) k v, (k < length l)%nat -> upd l k v = firstn k l ++ v :: skipn (S k) l.
Proof.
  induction l as [|a l IH]; intros k v H; cbn in H; [lia|]. destruct k as [|k]; cbn [upd firstn skipn app]; auto. rewrite IH by lia. reflexivity.
Qed.
Lemma skipn_skipn : forall A a b (l : list A), skipn a (skipn b l) = skipn (b + a) l.
Proof. intros A a. induction b as [|b IH]; intros l; cbn [Nat.add skipn]; auto. destruct l; auto. now rewrite !skipn_nil. Qed.
Lemma upd_len : forall A (l : list A) k v, length (upd l k v) = length l.
Proof. induction l; intros [|k] v; cbn [upd length]; auto. Qed.

Lemma copy_from_ok : forall src cells pos dst, (forall k, In k cells -> (k < length src)%nat) -> (pos + length cells <= length dst)%nat ->
  copy_from cells pos src dst = Ret (firstn pos dst ++ map (fun k => nth k src 0) cells ++ skipn (pos + length cells) dst).
Proof.
  intros src. induction cells as [|k cells IH]; intros pos dst H L; cbn [copy_from map length app] in *.
  - rewrite Nat.add_0_r, firstn_skipn. reflexivity.
  - rewrite (rd_ok _ src k 0) by (apply H; now left). cbn [bind]. rewrite wr_ok by lia. cbn [bind]. rewrite IH.
    + f_equal. rewrite upd_split by lia. assert (E : length (firstn pos dst) = pos) by (rewrite firstn_length; lia).
      replace (S pos) with (length (firstn pos dst) + 1)%nat at 1 by lia. rewrite firstn_app_2. cbn [firstn]. rewrite <- app_assoc. cbn [app]. do 3 f_equal.
      rewrite skipn_app, E. rewrite skipn_all2 by (rewrite E; lia). cbn [app]. replace (S pos + length cells - pos)%nat with (S (length cells)) by lia. rewrite skipn_cons.
      rewrite skipn_skipn. f_equal. lia.
    + intros; apply H; now right.
    + rewrite upd_len. lia.
Qed.

Section PutSets.
Variable one : Z.
Definition numbers_from (j : nat) (sets : list (list (list Z))) : list Z := map (fun rk => Z.of_nat (snd rk) * one) (labelled_from j sets).
Lemma numbers_from_cons : forall j S sets, numbers_from j (S :: sets) = repeat (Z.of_nat j * one) (length S) ++ numbers_from (Datatypes.S j) sets.
Proof.
  intros j S sets. unfold numbers_from. cbn [labelled_from]. rewrite map_app. f_equal. rewrite map_map. cbn [snd]. induction S as [|r S IH]; cbn [map length repeat]; auto. f_equal. exact IH.
Qed.
Lemma put_sets_ok : forall n pos rdata done a b rest, Forall (fun S => S <> []) (done ++ (a ++ b) :: rest) ->
  n = (length b + length (concat rest))%nat -> (pos + n <= length rdata)%nat ->
  put_sets one n (length (concat done) + length a) (length done) pos (cum_from 0 (done ++ (a ++ b) :: rest)) rdata =
  Ret (firstn pos rdata ++ (repeat (Z.of_nat (length done + 1) * one) (length b) ++ numbers_from (length done + 2) rest) ++ skipn (pos + n) rdata).
Proof.
  induction n as [|n IH]; intros pos rdata done a b rest NE En L.
  - destruct b; [|cbn in En; lia]. assert (R : rest = []).
    { destruct rest as [|S rest]; auto. exfalso. apply Forall_app in NE. destruct NE as [_ NE]. inversion NE as [|? ? _ NE']; subst. inversion NE' as [|? ? NS _]; subst. destruct S; [now apply NS|]. cbn in En. lia. }
    subst rest. cbn [put_sets repeat length numbers_from labelled_from map app]. rewrite Nat.add_0_r, firstn_skipn. reflexivity.
  - assert (STEP : forall done a r b rest pos rdata, Forall (fun S => S <> []) (done ++ (a ++ r :: b) :: rest) -> n = (length b + length (concat rest))%nat ->
      (pos + S n <= length rdata)%nat ->
      (rdata <- wr rdata pos (Z.of_nat (length done + 1) * one) ;;
       put_sets one n (S (length (concat done) + length a)) (length done) (S pos) (cum_from 0 (done ++ (a ++ r :: b) :: rest)) rdata) =
      Ret (firstn pos rdata ++ (repeat (Z.of_nat (length done + 1) * one) (length (r :: b)) ++ numbers_from (length done + 2) rest) ++ skipn (pos + S n) rdata)).
    { clear pos rdata done a b rest NE En L. intros done a r b rest pos rdata NE En L. rewrite wr_ok by lia. cbn [bind].
      specialize (IH (S pos) (upd rdata pos (Z.of_nat (length done + 1) * one)) done (a ++ [r]) b rest). rewrite <- app_assoc in IH. cbn [app] in IH.
      rewrite app_length in IH. cbn [length] in IH. replace (length (concat done) + (length a + 1))%nat with (S (length (concat done) + length a)) in IH by lia.
      rewrite IH; auto. 2:{ rewrite upd_len. lia. } f_equal. rewrite upd_split by lia. assert (E : length (firstn pos rdata) = pos) by (rewrite firstn_length; lia).
      replace (S pos) with (length (firstn pos rdata) + 1)%nat at 1 by lia. rewrite firstn_app_2. cbn [firstn length repeat]. rewrite <- !app_assoc. cbn [app]. do 4 f_equal.
      rewrite skipn_app, E. rewrite skipn_all2 by (rewrite E; lia). cbn [app]. replace (S pos + n - pos)%nat with (S n) by lia. rewrite skipn_cons. rewrite skipn_skipn. f_equal. lia. }
    cbn [put_sets].
    assert (C : rd (cum_from 0 (done ++ (a ++ b) :: rest)) (length done) = Ret (length (concat done) + length (a ++ b))%nat).
    { rewrite cum_from_app. rewrite (rd_ok _ _ _ 0%nat) by (rewrite app_length, !cum_from_length; cbn [length]; lia). rewrite app_nth2 by (rewrite cum_from_length; lia).
      rewrite cum_from_length, Nat.sub_diag. cbn [cum_from nth]. reflexivity. }
    rewrite C. cbn [bind]. destruct b as [|r b].
    + destruct rest as [|S0 rest]; [cbn in En; lia|]. rewrite app_nil_r. rewrite Nat.eqb_refl. cbn [length repeat app].
      assert (NS : S0 <> []). { apply Forall_app in NE. destruct NE as [_ NE]. inversion NE as [|? ? _ NE']; subst. now inversion NE'. }
      destruct S0 as [|r S0]; [easy|]. specialize (STEP (done ++ [a]) [] r S0 rest pos rdata). rewrite <- app_assoc in STEP. cbn [app length] in STEP.
      rewrite app_length, concat_app, app_length in STEP. cbn [length concat] in STEP. rewrite app_nil_r in STEP. rewrite Nat.add_0_r in STEP.
      rewrite app_nil_r in NE. replace (length done + 1)%nat with (S (length done)) in * by lia.
      rewrite STEP; auto. 2:{ cbn [length concat] in En. rewrite app_length in En. cbn in En. lia. }
      rewrite numbers_from_cons. cbn [length]. replace (length done + 2)%nat with (S (length done) + 1)%nat by lia.
      replace (S (length done) + 2)%nat with (S (S (length done) + 1)) by lia. reflexivity.
    + replace (length (concat done) + length a =? length (concat done) + length (a ++ r :: b))%nat with false.
      2:{ symmetry. apply Nat.eqb_neq. rewrite app_length. cbn [length]. lia. }
      apply STEP; auto.
Qed.
End PutSets.

(** the rows of a matrix given by its columns *)
Lemma nth_flat_cols : forall (f : nat -> nat -> Z) n c s i j, (i < n)%nat -> (j < c)%nat ->
  nth (j * n + i) (flat_map (fun j => map (fun i => f i j) (seq 0 n)) (seq s c)) 0 = f i (s + j)%nat.
Proof. intros. rewrite flat_map_concat_map. rewrite (concat_cols 0 f); auto. Qed.

Lemma numbered_cons : forall one j (S : list (list Z)) sets, map (fun rk : list Z * nat => fst rk ++ [Z.of_nat (snd rk) * one]) (labelled_from j (S :: sets)) =
  map (fun r => r ++ [Z.of_nat j * one]) S ++ map (fun rk => fst rk ++ [Z.of_nat (snd rk) * one]) (labelled_from (Datatypes.S j) sets).
Proof. intros. cbn [labelled_from]. rewrite map_app, map_map. reflexivity. Qed.
Lemma labelled_fst : forall A (sets : list (list A)) j, map fst (labelled_from j sets) = concat sets.
Proof. induction sets as [|S sets IH]; intros j; cbn [labelled_from concat map]; auto. rewrite map_app, IH, map_map. cbn [fst]. now rewrite map_id. Qed.
Lemma labelled_length : forall A (sets : list (list A)) j, length (labelled_from j sets) = length (concat sets).
Proof. intros. rewrite <- (labelled_fst A sets j). now rewrite map_length. Qed.

Lemma rows_nth : forall w (rows : list (list Z)) i j, (forall r, In r rows -> length r = w) -> (i < length rows)%nat -> (j < w)%nat ->
  nth (j + i * w) (concat rows) 0 = nth j (nth i rows []) 0.
Proof.
  intros w. induction rows as [|r rows IH]; intros i j H Hi Hj; cbn [length] in Hi; [lia|]. cbn [concat].
  assert (Lr : length r = w) by (apply H; now left). destruct i as [|i].
  - cbn [nth]. rewrite Nat.mul_0_l, Nat.add_0_r. apply app_nth1. lia.
  - cbn [nth]. rewrite app_nth2 by nia. rewrite Lr. replace (j + S i * w - w)%nat with (j + i * w)%nat by nia. apply IH; auto. { intros; apply H; now right. } lia.
Qed.

Section Read.
Variables (junk : Z) (junk_int : nat) (scan : text -> option (Z * text)) (inc : nat) (fresh : nat -> Z) (one : Z).
Hypothesis Hscan : valid_scanner Z scan.
Hypothesis Hinc : (0 < inc)%nat.

Lemma R_read_ok : forall t w sets, good_text t -> describes Z scan t w sets ->
  exists m, R_read_datasets junk junk_int scan inc fresh one t = Ret m /\ has_rows m (S w) (numbered one sets).
Proof.
  intros t w sets [G1 G2] D. unfold R_read_datasets.
  pose proof (C31_accepts Z junk junk_int scan inc t 0 w [] sets Hscan Hinc G1 G2 (or_introl eq_refl) (or_intror eq_refl) D) as E. cbn [app] in E.
  change (layout 0 []) with (mk_ds Z 0 [] 0 []) in E. rewrite E. cbn [bind fst snd]. rewrite Z.eqb_refl. cbn [orb assert_ bind].
  destruct (describes_wide Z scan t w sets D) as (W & NE & Ns).
  unfold layout. cbn [ds_nsets ds_nobjs ds_cumsizes ds_data].
  destruct sets as [|S0 sets]; [easy|]. replace (length (S0 :: sets) =? 0)%nat with false by reflexivity.
  pose proof (last_cum inc Hinc (list Z) (S0 :: sets) 0 Ns) as LC.
  set (ss := S0 :: sets) in *. set (n := length (concat ss)).
  assert (LEN : length (concat (concat ss)) = (w * n)%nat) by (apply (IoMain.flat_length Z inc Hinc w); auto).
  assert (RD : rd (cum_from 0 ss) (length ss - 1) = Ret n).
  { rewrite (rd_ok _ _ _ 0%nat) by (rewrite cum_from_length; unfold ss; cbn [length]; lia). now rewrite LC. }
  rewrite RD. cbn [bind].
  assert (WR : forall r, In r (concat ss) -> length r = w). { intros r Hr. apply in_concat in Hr. destruct Hr as (S1 & H1 & H2). eapply W; eauto. }
  assert (TL : length (transposed n w) = (n * w)%nat). { unfold transposed. rewrite flat_map_concat_map. apply (concat_cols_length (fun i j => (j + i * w)%nat)). }
  rewrite copy_from_ok.
  2:{ intros k Hk. unfold transposed in Hk. apply in_flat_map in Hk. destruct Hk as (j & Hj & Hk). apply in_map_iff in Hk. destruct Hk as (i & <- & Hi).
      apply in_seq in Hi, Hj. rewrite LEN. nia. }
  2:{ rewrite map_length, seq_length, TL. nia. }
  cbn [bind firstn app]. rewrite TL. rewrite Nat.add_0_l.
  set (V := map (fun k => nth k (concat (concat ss)) 0) (transposed n w) ++ skipn (n * w) (map fresh (seq 0 (n * (w + 1))))).
  assert (LV : length V = (n * (w + 1))%nat). { unfold V. rewrite app_length, map_length, TL, skipn_length, map_length, seq_length. nia. }
  pose proof (put_sets_ok one n (n * w) V [] [] S0 sets) as P. cbn [app length concat] in P. rewrite !Nat.add_0_l in P. change (S0 :: sets) with ss in P. rewrite P; auto.
  2:{ unfold n, ss. cbn [concat]. rewrite app_length. reflexivity. }
  2:{ rewrite LV. nia. }
  cbn [bind]. eexists. split. { reflexivity. }
  assert (F1 : firstn (n * w) V = map (fun k => nth k (concat (concat ss)) 0) (transposed n w)).
  { unfold V. rewrite firstn_app, map_length, TL, Nat.sub_diag. cbn [firstn]. rewrite app_nil_r. apply firstn_all2. rewrite map_length, TL. lia. }
  rewrite F1. rewrite (skipn_all2 V) by (rewrite LV; nia). rewrite app_nil_r.
  replace (Z.of_nat 1) with (Z.of_nat 1) by reflexivity. change 2%nat with (S 1). rewrite <- numbers_from_cons. fold ss.
  assert (LN : length (numbers_from one 1 ss) = n). { unfold numbers_from. rewrite map_length. apply labelled_length. }
  unfold has_rows. cbn [nrow ncol values].
  assert (NL : length (numbered one ss) = n). { unfold numbered. rewrite map_length. apply labelled_length. }
  rewrite NL. repeat split.
  - lia.
  - rewrite app_length, map_length, TL, LN. nia.
  - apply Forall_forall. intros r Hr. unfold numbered in Hr. apply in_map_iff in Hr. destruct Hr as ([r' k] & <- & Hr). cbn [fst snd]. rewrite app_length. cbn [length].
    assert (In r' (concat ss)). { rewrite <- (labelled_fst _ ss 1). apply in_map_iff. exists (r', k). auto. } rewrite (WR r') by auto. lia.
  - intros na i j Hi Hj.
    assert (ROW : nth i (numbered one ss) [] = nth i (concat ss) [] ++ [nth i (numbers_from one 1 ss) 0]).
    { unfold numbered, numbers_from. rewrite <- (labelled_fst _ ss 1). rewrite (nth_map_in _ _ i [] ([], 0%nat)) by (rewrite labelled_length; auto).
      rewrite (nth_map_in fst _ i [] ([], 0%nat)) by (rewrite labelled_length; auto). rewrite (nth_map_in _ _ i 0 ([], 0%nat)) by (rewrite labelled_length; auto). reflexivity. }
    rewrite ROW. assert (LI : length (nth i (concat ss) []) = w) by (apply WR, nth_In; auto).
    destruct (Nat.eq_dec j w) as [->|Nj].
    + rewrite app_nth2 by (rewrite map_length, TL; nia). rewrite map_length, TL. replace (w * n + i - n * w)%nat with i by nia.
      rewrite app_nth2 by lia. rewrite LI, Nat.sub_diag. cbn [nth]. apply nth_indep. lia.
    + assert (PB : (j * n + i < n * w)%nat) by nia. rewrite app_nth1 by (rewrite map_length, TL; auto). rewrite app_nth1 by lia.
      rewrite (nth_map_in _ _ _ na 0%nat) by (rewrite TL; auto). 
      assert (TR : nth (j * n + i) (transposed n w) 0%nat = (j + i * w)%nat).
      { unfold transposed. rewrite flat_map_concat_map. rewrite (concat_cols 0%nat (fun i j => (j + i * w)%nat)); auto. lia. }
      rewrite TR. rewrite rows_nth; auto. 2: lia. apply nth_indep. lia.
Qed.
End Read.
