(** Concrete number formats for the examples of the command-line programs. *)
From Coq Require Import Ascii String List ZArith Lia Bool Arith.
From Verif Require Import Base IoModel IoSpec IoProofs IoMain IoFmt PropIo CmdModel CmdSpec CmdProofs.
Import ListNotations.
Local Open Scope list_scope.
Open Scope Z_scope.

(** decimal integers (numbers with an exponent are scaled) *)
Definition scanZ : text -> option (Z * text) := scan_dec Z (fun m e => m * 10 ^ e).
Definition strtodZ (s : text) : option (Z * text) := scanZ (drop_while isspace s).

Lemma scanZ_valid : valid_scanner Z scanZ.
Proof. apply scan_dec_valid. Qed.
Lemma strtodZ_valid : valid_strtod strtodZ.
Proof.
  intros s x r H. unfold strtodZ in H. destruct (proj1 scanZ_valid _ _ _ H) as (tok & N & E).
  pose proof (drop_while_length isspace s) as L. rewrite E, app_length in L. destruct tok; [congruence|]. cbn in L. lia.
Qed.

(** printing an integer *)
Fixpoint digits_of (fuel : nat) (n : Z) (acc : text) : text :=
  match fuel with
  | O => acc
  | S fuel => let acc := ascii_of_nat (48 + Z.to_nat (n mod 10)) :: acc in
              if n / 10 =? 0 then acc else digits_of fuel (n / 10) acc
  end.
Definition fmtZ (z : Z) : text :=
  let d := digits_of (S (Z.to_nat (Z.log2 (Z.abs z)))) (Z.abs z) [] in
  if z <? 0 then "-"%char :: d else d.

Lemma rows_inj : forall d (a b : list point), (0 < d)%nat -> wide d a -> wide d b -> concat a = concat b -> a = b.
Proof.
  induction a as [|x a IH]; intros [|y b] Hd Wa Wb E; auto.
  - exfalso. cbn in E. assert (length y = d) by (apply Wb; now left). destruct y; [cbn in *; lia|discriminate].
  - exfalso. cbn in E. assert (length x = d) by (apply Wa; now left). destruct x; [cbn in *; lia|discriminate].
  - cbn in E. assert (Lx : length x = d) by (apply Wa; now left). assert (Ly : length y = d) by (apply Wb; now left).
    assert (x = y). { apply (f_equal (firstn d)) in E. rewrite !firstn_app, Lx, Ly, !Nat.sub_diag in E. cbn in E. rewrite !app_nil_r in E.
      rewrite <- Lx in E at 1. rewrite <- Ly in E. now rewrite !firstn_all in E. }
    subst y. apply app_inv_head in E. f_equal. apply IH; auto; intros z Hz; [apply Wa|apply Wb]; now right.
Qed.
Lemma sets_inj : forall (a b : list (list point)) n, cum_from n a = cum_from n b -> concat a = concat b -> a = b.
Proof.
  induction a as [|x a IH]; intros [|y b] n C E; auto; try discriminate.
  cbn in C, E. inversion C as [[C1 C2]]. assert (L : length x = length y) by lia.
  assert (x = y). { apply (f_equal (firstn (length x))) in E. rewrite !firstn_app, L, !Nat.sub_diag in E. cbn in E. rewrite !app_nil_r in E.
    rewrite <- L in E at 1. now rewrite !firstn_all in E. }
  subst y. apply app_inv_head in E. f_equal. eapply IH; eauto.
Qed.

(** a text describes the sets that the reader finds in it *)
Lemma sets_text_read : forall t d sets, (0 < d)%nat ->
  existsb (fun c => (c =? vt)%char || (c =? ff)%char) t = false -> forallb (fun s => forallb (fun r => (length r =? d)%nat) s) sets = true ->
  read_objective_t_data Z 0 0 scanZ 512 t (mk_ds Z 0 [] 0 []) = Ret (0, layout d sets) ->
  sets_text scanZ d t sets.
Proof.
  intros t d sets Hd Hv Hw R.
  assert (A : ~ In vt t /\ ~ In ff t).
  { split; intros H; assert (existsb (fun c => (c =? vt)%char || (c =? ff)%char) t = true); try congruence; apply existsb_exists; eauto. }
  split; [tauto|]. split; [tauto|]. apply C31_accepted_iff in R; try tauto. 2: apply scanZ_valid. 2: lia.
  destruct R as (w & sets' & D & E). inversion E; subst w. destruct (describes_sets _ _ _ _ D) as [_ W].
  assert (sets = sets'); [|now subst]. apply (sets_inj _ _ 0); auto. apply (rows_inj d); auto.
  - intros r Hr. apply in_concat in Hr. destruct Hr as (s & Hs & Hr). rewrite forallb_forall in Hw. specialize (Hw s Hs).
    rewrite forallb_forall in Hw. apply Nat.eqb_eq. auto.
  - apply wide_concat. intros; now apply W.
Qed.

Definition txt (s : string) : text := list_ascii_of_string s.
(** a line break in the text of an example *)
Definition lines (l : list string) : text := concat (map (fun s => txt s ++ [nl]) l).
