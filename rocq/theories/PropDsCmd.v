(** C64: the dominatedsets program. *)
From Coq Require Import Ascii String List ZArith Lia Bool Arith.
From Verif Require Import Base Spec IndSpec NondomModel NondomProofs2d EpsModel OptModel IoModel IoSpec
  CmdModel CmdSpec CmdProofs CmdExample IndCmdSpec NdCmdSpec DsCmdModel DsCmdSpec DsCmdProofs DsCmdRun.
Import ListNotations.
Local Open Scope list_scope.
Open Scope Z_scope.

Section C64.
Variable sort2d : list point -> list nat.
Variable junk : Z.
Variable junk_int : nat.
Variable scan : text -> option (Z * text).
Variable data_inc : nat.
Variable block : nat -> nat.
Variable fmt_int : Z -> text.
Variable fmt_percent : Z -> Z -> text.
Variable usage : text.
Local Notation ds_main := (ds_main sort2d junk junk_int scan data_inc block fmt_int fmt_percent usage).

(** the parts of the C library that are used; "%d" prints at most 30 characters *)
Definition ds_libc : Prop := valid_sort2d sort2d /\ valid_scanner Z scan /\ (0 < data_inc)%nat /\ forall z, (length (fmt_int z) <= 30)%nat.
(** what is written to standard output; nothing else changes *)
Definition prints (t : text) (w w' : world) : Prop :=
  (forall n, w_files w' n = w_files w n) /\ w_stdin w' = w_stdin w /\ w_stdout w' = w_stdout w ++ t.

Lemma say_prints : forall t w, prints t w (say t w).
Proof. intros. repeat split. Qed.

(** Files of sets without dominated or duplicated points, and with at least two
    points each (unless --no-check): the program prints, for each pair of files, in
    how many pairs of sets the first one is better; with --percentages also out of
    100; and, for each file, how many times another one is better. *)
Theorem C64_table : forall d opts mx names contents w, ds_libc -> (forall n, 32 <= block n)%nat ->
  (0 < d)%nat -> Forall (ds_usable d) opts -> aims d opts mx ->
  (2 <= length names)%nat -> Forall2 (contains scan w d) names contents ->
  (forall sets S, In sets contents -> In S sets -> ~ redundant mx S) ->
  unchecked opts = true \/ (forall sets S, In sets contents -> In S sets -> (2 <= length S)%nat) ->
  exists count w',
    ds_main opts names w = Ret (inr EXIT_SUCCESS, w') /\
    (forall k j, (k < length contents)%nat -> (j < length contents)%nat -> k <> j ->
       wins mx (nth k contents []) (nth j contents []) (count k j)) /\
    prints (ds_heading fmt_int mx names contents ++
            results_text fmt_int fmt_percent (percent_on opts) (map (@length (list point)) contents) count) w w'.
Proof.
  intros d opts mx names contents w (Hs & Hc & Hi & Hf) Hb Hd U A L F N C.
  destruct (main_table sort2d junk junk_int scan data_inc block fmt_int fmt_percent usage Hc Hi d Hd opts mx A names contents w U F L Hf Hs Hb N C) as (count & E & V).
  exists count. eexists. split; [exact E|]. split; auto. apply say_prints.
Qed.

(** A set with a dominated or duplicated point, or with a single point: the program
    fails after the heading. *)
Theorem C64_check : forall d opts mx names contents w, ds_libc -> (forall n, 32 <= block n)%nat ->
  (0 < d)%nat -> Forall (ds_usable d) opts -> aims d opts mx ->
  (2 <= length names)%nat -> Forall2 (contains scan w d) names contents -> unchecked opts = false ->
  (exists sets S, In sets contents /\ In S sets /\ (redundant mx S \/ length S = 1%nat)) ->
  exists w', ds_main opts names w = Ret (inr EXIT_FAILURE, w') /\ prints (ds_heading fmt_int mx names contents) w w'.
Proof.
  intros d opts mx names contents w (Hs & Hc & Hi & Hf) Hb Hd U A L F N R.
  eexists. split; [eapply main_rejected; eauto|apply say_prints].
Qed.

(** A wrong option: nothing is read or written. *)
Theorem C64_option_refused : forall d pre x post names status w, (0 < d)%nat ->
  Forall (ds_usable d) pre -> ds_refused x status -> ds_main (pre ++ x :: post) names w = Ret (inr status, w).
Proof. intros. eapply main_option_refused; eauto. Qed.

(** Fewer than two files: the usage is printed. *)
Theorem C64_too_few_files : forall d opts names w, (0 < d)%nat -> Forall (ds_usable d) opts -> (length names <= 1)%nat ->
  exists w', ds_main opts names w = Ret (inr EXIT_FAILURE, w') /\ prints usage w w'.
Proof. intros. eexists. split; [eapply main_too_few; eauto|apply say_prints]. Qed.

(** A file that cannot be read, or whose number of columns is not that of --obj and
    of the files before it: nothing is written. *)
Theorem C64_file_refused : forall d opts pre cpre f post w, ds_libc -> (0 < d)%nat -> Forall (ds_usable d) opts ->
  Forall2 (contains scan w d) pre cpre -> (1 <= length pre + length post)%nat ->
  (forall t, w_files w f = Some t -> ~ In vt t /\ ~ In ff t) ->
  (forall d' sets, contains scan w d' f sets -> d' <> d /\ (obj_arg opts <> None \/ pre <> [])) ->
  ds_main opts (pre ++ f :: post) w = Ret (inr EXIT_FAILURE, w).
Proof. intros d opts pre cpre f post w (Hs & Hc & Hi & Hf) Hd U F L T N. exact (main_file_refused sort2d junk junk_int scan data_inc block fmt_int fmt_percent usage Hc Hi d Hd opts pre cpre f post w U F L T N). Qed.

(** The short names are copied with strncpy (p, buffer, 32) to a block of
    strlen (buffer) + 1 bytes.  With an allocator whose block of this size has fewer than
    32 bytes, the program writes out of the block, whatever the files are. *)
Theorem C64_no_overflow_refuted : forall d opts mx names contents w, ds_libc -> (block (length (fmt_int 1) + 2) < 32)%nat ->
  (0 < d)%nat -> Forall (ds_usable d) opts -> aims d opts mx ->
  (2 <= length names)%nat -> Forall2 (contains scan w d) names contents ->
  ds_main opts names w = OutOfBounds.
Proof.
  intros d opts mx names contents w (Hs & Hc & Hi & Hf) Hb Hd U A L F. eapply main_overflow; eauto.
  unfold short. cbn [length]. replace (S (length (fmt_int (Z.of_nat 0 + 1))) + 1)%nat with (length (fmt_int 1) + 2)%nat by (cbn [Z.of_nat Z.add]; lia). exact Hb.
Qed.
End C64.

Print Assumptions C64_table.
Print Assumptions C64_check.
Print Assumptions C64_option_refused.
Print Assumptions C64_too_few_files.
Print Assumptions C64_file_refused.
Print Assumptions C64_no_overflow_refuted.

(** ** Examples *)
Definition files4 : string -> option text := fun n =>
  if String.eqb n "a" then Some (lines ["1 5"; "3 2"; ""; "2 6"; "4 1"]%string)
  else if String.eqb n "b" then Some (lines ["2 7"; "5 6"]%string)
  else if String.eqb n "c" then Some (lines ["1 5"; "3 2"; ""; "9 9"; "8 10"; "10 1"]%string)
  else if String.eqb n "one" then Some (lines ["1 1"]%string)
  else if String.eqb n "dup" then Some (lines ["3 4"; "3 4"]%string)
  else if String.eqb n "single" then Some (lines ["3 4"]%string)
  else if String.eqb n "three" then Some (lines ["1 2 3"; "3 2 1"]%string)
  else None.
Definition world4 : world := mkWorld files4 [] [].
Definition fmt4 (z : Z) : text := firstn 30 (fmtZ z).
(** one decimal, rounded down *)
Definition percent4 (a b : Z) : text := fmtZ (a * 100 / b) ++ txt "." ++ fmtZ (a * 1000 / b mod 10).
Definition run4 (block : nat -> nat) := ds_main sort2d_exec 7 7%nat scanZ 512 block fmt4 percent4 (lines ["Usage:"]%string).
(** an allocator with blocks of at least 32 bytes; one with blocks of 24, 40, 56, ... bytes *)
Definition large (n : nat) : nat := Nat.max n 32.
Definition sixteens (n : nat) : nat := (24 + (n - 24 + 15) / 16 * 16)%nat.
Definition contents4 : list (list (list point)) := [[[[1; 5]; [3; 2]]; [[2; 6]; [4; 1]]]; [[[2; 7]; [5; 6]]]; [[[1; 5]; [3; 2]]; [[9; 9]; [8; 10]; [10; 1]]]].

Lemma libc4 : ds_libc sort2d_exec scanZ 512 fmt4.
Proof. split. apply sort2d_exec_valid. split. apply scanZ_valid. split. lia. intros z. unfold fmt4. rewrite firstn_length. lia. Qed.
Ltac read_file := eexists; split; [reflexivity|]; apply sets_text_read; [lia|reflexivity|reflexivity|vm_compute; reflexivity].

Lemma files4_contain : Forall2 (contains scanZ world4 2) ["a"; "b"; "c"]%string contents4.
Proof. repeat (constructor; [read_file|]). constructor. Qed.
Definition redundantb (mx : list bool) (S : list point) : bool :=
  existsb (fun i => existsb (fun j => negb (i =? j)%nat &&
    forallb (fun k => if nth k mx false then coord (row S j) k <=? coord (row S i) k else coord (row S i) k <=? coord (row S j) k) (seq 0 (length mx)))
    (seq 0 (length S))) (seq 0 (length S)).
Lemma redundantb_false : forall mx S, redundantb mx S = false -> ~ redundant mx S.
Proof.
  intros mx S H (i & j & Hi & Hj & N & D). assert (K : redundantb mx S = true); [|congruence].
  apply existsb_exists. exists i. split. { apply in_seq. lia. } apply existsb_exists. exists j. split. { apply in_seq. lia. }
  apply andb_true_intro. split. { destruct (Nat.eqb_spec i j); [contradiction|reflexivity]. }
  apply forallb_forall. intros k Hk. apply in_seq in Hk. specialize (D k ltac:(lia)). unfold as_good in D. destruct (nth k mx false); now apply Z.leb_le.
Qed.

Lemma contents4_good : (forall sets S, In sets contents4 -> In S sets -> ~ redundant [false; false] S) /\
  (forall sets S, In sets contents4 -> In S sets -> (2 <= length S)%nat).
Proof.
  assert (K : forallb (fun sets => forallb (fun S => negb (redundantb [false; false] S) && (2 <=? length S)%nat) sets) contents4 = true) by (vm_compute; reflexivity).
  rewrite forallb_forall in K.
  split; intros sets S Hs HS; specialize (K sets Hs); rewrite forallb_forall in K; specialize (K S HS); apply andb_prop in K; destruct K as [K1 K2].
  - apply redundantb_false. now destruct (redundantb [false; false] S).
  - now apply Nat.leb_le.
Qed.

Example C64_nonvacuous_table : exists count w',
  run4 large [DsPercentages] ["a"; "b"; "c"]%string world4 = Ret (inr EXIT_SUCCESS, w') /\
  (forall k j, (k < 3)%nat -> (j < 3)%nat -> k <> j -> wins [false; false] (nth k contents4 []) (nth j contents4 []) (count k j)) /\
  w_stdout w' = lines ["# f1: a"; "# f2: b"; "# f3: c"; ""; "# f1: 2 (2, 4)"; "# f2: 1 (2)"; "# f3: 2 (2, 5)"; "# objectives (2): --"; ""; "";
    "Number of times that <row> is better than <column>:"; ""; "   f1 f2 f3"; "f1 --  2  1"; "f2  0 --  0"; "f3  0  1 --"; ""; "";
    "Percentage of times that <row> is better than <column>:"; ""; "      f1    f2    f3"; "f1    -- 100.0  25.0"; "f2   0.0    --   0.0"; "f3   0.0  50.0    --";
    ""; "Ranks:   0   3   1"]%string.
Proof.
  destruct (C64_table sort2d_exec 7 7%nat scanZ 512 large fmt4 percent4 (lines ["Usage:"]%string) 2 [DsPercentages] [false; false] ["a"; "b"; "c"]%string contents4 world4)
    as (count & w' & E & V & _).
  - apply libc4.
  - intros n. unfold large. lia.
  - lia.
  - repeat constructor.
  - reflexivity.
  - cbn; lia.
  - apply files4_contain.
  - apply contents4_good.
  - right. apply contents4_good.
  - exists count. eexists. split; [vm_compute; reflexivity|]. split; [exact V|]. vm_compute. reflexivity.
Qed.
(** the first file against the third one: one pair out of four, and the numbers are not
    symmetric *)
Example C64_nonvacuous_wins : better_set [false; false] [[2; 6]; [4; 1]] [[9; 9]; [8; 10]; [10; 1]] /\
  ~ better_set [false; false] [[1; 5]; [3; 2]] [[9; 9]; [8; 10]; [10; 1]] /\ ~ better_set [false; false] [[1; 5]; [3; 2]] [[1; 5]; [3; 2]].
Proof.
  split; [|split].
  - split.
    + intros q [<-|[<-|[<-|[]]]]; [exists [2; 6]|exists [2; 6]|exists [4; 1]]; (split; [cbn; auto|]); intros [|[|k]] Hk; cbn in *; lia.
    + intros H. destruct (H [2; 6]) as (p & Hp & D); [now left|]. specialize (D 0%nat ltac:(cbn; lia)). destruct Hp as [<-|[<-|[<-|[]]]]; cbn in D; lia.
  - intros [H _]. destruct (H [10; 1]) as (p & Hp & D); [cbn; auto|]. specialize (D 1%nat ltac:(cbn; lia)). destruct Hp as [<-|[<-|[]]]; cbn in D; lia.
  - intros [H N]. contradiction.
Qed.
Example C64_nonvacuous_check : exists w',
  run4 large [DsObj (txt "-+")] ["a"; "b"]%string world4 = Ret (inr EXIT_FAILURE, w') /\
  w_stdout w' = lines ["# f1: a"; "# f2: b"; ""; "# f1: 2 (2, 4)"; "# f2: 1 (2)"; "# objectives (2): -+"]%string /\
  aims 2 [DsObj (txt "-+")] [false; true] /\ redundant [false; true] [[1; 5]; [3; 2]].
Proof.
  eexists. split; [vm_compute; reflexivity|]. split; [vm_compute; reflexivity|]. split. { split; [repeat constructor|reflexivity]. }
  exists 0%nat, 1%nat. split; [cbn; lia|]. split; [cbn; lia|]. split; [lia|]. intros [|[|k]] Hk; cbn in *; lia.
Qed.
Example C64_nonvacuous_refused :
  run4 large [DsVerbose; DsUnknown; DsPercentages] ["a"; "b"]%string world4 = Ret (inr EXIT_FAILURE, world4) /\
  run4 large [DsObj (txt "0i")] ["a"; "b"]%string world4 = Ret (inr EXIT_SUCCESS, world4) /\
  run4 large [] ["a"; "three"; "b"]%string world4 = Ret (inr EXIT_FAILURE, world4) /\
  run4 large [] ["absent"; "b"]%string world4 = Ret (inr EXIT_FAILURE, world4) /\
  run4 large [] ["a"%string] world4 = Ret (inr EXIT_FAILURE, mkWorld files4 [] (lines ["Usage:"]%string)) /\
  ds_refused (DsObj (txt "0i")) EXIT_SUCCESS.
Proof.
  split; [vm_compute; reflexivity|]. split; [vm_compute; reflexivity|]. split; [vm_compute; reflexivity|]. split; [vm_compute; reflexivity|]. split; [vm_compute; reflexivity|].
  right. split; auto. intros ch [<-|[<-|[]]]; auto.
Qed.
Example C64_nonvacuous_overflow : (sixteens (length (fmt4 1) + 2) = 24)%nat /\ run4 sixteens [] ["a"; "b"]%string world4 = OutOfBounds /\
  run4 (fun n => n) [] ["a"; "b"]%string world4 = OutOfBounds.
Proof. repeat split; vm_compute; reflexivity. Qed.

(** ** Where the program differs from its documentation *)
(** A set with a single point is nondominated, but the check refuses it; with
    --no-check the files are compared. *)
Theorem C64_single_point_refuted : ~ redundant [false; false] [[1; 1]] /\
  (exists w', run4 large [] ["a"; "one"]%string world4 = Ret (inr EXIT_FAILURE, w')) /\
  exists w', run4 large [DsNoCheck] ["a"; "one"]%string world4 = Ret (inr EXIT_SUCCESS, w') /\
    w_stdout w' = lines ["# f1: a"; "# f2: one"; ""; "# f1: 2 (2, 4)"; "# f2: 1 (1)"; "# objectives (2): --"; ""; "";
      "Number of times that <row> is better than <column>:"; ""; "   f1 f2"; "f1 --  0"; "f2  2 --"; ""; ""; "Ranks:   2   0"]%string.
Proof.
  split. { apply redundantb_false. reflexivity. } split. { eexists. vm_compute. reflexivity. }
  eexists. split; vm_compute; reflexivity.
Qed.
(** With --no-check, a duplicated point ends in abort (): the two comparisons of the
    sets disagree (see C34). *)
Theorem C64_no_check_refuted : contains scanZ world4 2 "dup"%string [[[3; 4]; [3; 4]]] /\ contains scanZ world4 2 "single"%string [[[3; 4]]] /\
  run4 large [DsNoCheck] ["dup"; "single"]%string world4 = AssertFailed.
Proof. split; [read_file|]. split; [read_file|]. vm_compute. reflexivity. Qed.
Print Assumptions C64_single_point_refuted.
Print Assumptions C64_no_check_refuted.
