(** C66, continued: igd, igd_plus and avg_hausdorff_dist of the R package.
    Specification: IgdSpec.v, RMatSpec.v.  Model: RIndModel.v. *)
From Coq Require Import List ZArith QArith Reals Lia Bool Arith.
From Verif Require Import Base Spec IndSpec EpsModel IgdSpec IgdModel PropIgd RMatModel RMatSpec RMatProofs RIndModel PropRInd.
Import ListNotations.

Theorem C66_igd : forall x d rows reference ref maximise mx, data_matrix x d rows -> data_matrix reference d ref -> for_each d maximise mx ->
  exists v ms, r_igd x reference maximise = Ret (Fin v) /\ nearest_dists (euclid d) ref rows ms /\ v = (rlist_sum ms / INR (length ref))%R.
Proof.
  intros x d rows reference ref maximise mx D Dr F. unfold r_igd. rewrite (unary_ok x d rows reference ref maximise mx) by auto.
  destruct (C18_gd_igd_definition mx rows ref) as (_ & v & ms & E & K). apply D. apply Dr. rewrite (for_each_length _ _ _ F) in K. exists v, ms. rewrite E. auto.
Qed.
Theorem C66_igd_plus : forall x d rows reference ref maximise mx, data_matrix x d rows -> data_matrix reference d ref -> for_each d maximise mx ->
  exists v ms, r_igd_plus x reference maximise = Ret (Fin v) /\ nearest_dists (fun r a => dist_plus mx a r) ref rows ms /\ v = (rlist_sum ms / INR (length ref))%R.
Proof.
  intros x d rows reference ref maximise mx D Dr F. unfold r_igd_plus. rewrite (unary_ok x d rows reference ref maximise mx) by auto.
  destruct (C19_igd_plus_definition mx rows ref) as (v & ms & E & K). apply D. apply Dr. exists v, ms. rewrite E. auto.
Qed.
Theorem C66_avg_hausdorff_dist : forall x d rows reference ref maximise mx p, data_matrix x d rows -> data_matrix reference d ref -> for_each d maximise mx -> (1 <= p)%nat ->
  exists v gd igd, r_avg_hausdorff_dist x reference maximise p = Ret (Fin v) /\
    p_mean_nearest d rows ref p gd /\ p_mean_nearest d ref rows p igd /\ v = Rmax gd igd /\
    (v = 0%R <-> forall q, In q rows <-> In q ref).
Proof.
  intros x d rows reference ref maximise mx p D Dr F Hp. unfold r_avg_hausdorff_dist. rewrite (unary_ok x d rows reference ref maximise mx) by auto.
  pose proof (for_each_length _ _ _ F) as Lm.
  destruct (C18_avg_hausdorff_definition mx rows ref p) as (v & gd & igd & E & K1 & K2 & K3 & K4 & K5); auto. apply D. apply Dr.
  rewrite Lm in *. exists v, gd, igd. rewrite E. split; auto. split; auto. split; auto. split; auto. apply K5; eapply data_wf; eassumption.
Qed.
Print Assumptions C66_igd.
Print Assumptions C66_igd_plus.
Print Assumptions C66_avg_hausdorff_dist.

(** the matrix of C66_nonvacuous and a reference set of two points *)
Example C66_igd_nonvacuous : exists reference ref, data_matrix m66 2 m66_rows /\ data_matrix reference 2 ref /\ for_each 2 [true] [true;true] /\ length ref = 2%nat.
Proof.
  exists (mkMat 2 2 [1;3;2;4]%Z), [[1;2];[3;4]]%Z. split; [apply m66_matrix|]. split; [|split; [right; now exists true|reflexivity]].
  split; [|split; [discriminate|lia]]. do 3 (split; [reflexivity|]). split; [repeat constructor|].
  intros na i j Hi Hj. cbn in Hi. do 2 (destruct i as [|i]; [do 2 (destruct j as [|j]; [reflexivity|]); lia|]). lia.
Qed.
