(** Model of c/whv_hype.c and of the Python wrapper whv_hype with the weight
    distributions "exponential" and "point" (HypeModel.v models "uniform").

    Values are real numbers (exact arithmetic); log is the real logarithm and is
    only applied to positive numbers: a build without assertions that draws
    exactly 0 is not modelled.  Two objectives. *)
From Coq Require Import List ZArith Reals Bool Arith.
From Verif Require Import Base MtModel RngModel.
Import ListNotations.
Open Scope R_scope.

Definition rco (p : list R) (d : nat) : R := nth d p 0.
Definition Rltb (a b : R) : bool := if Rlt_dec a b then true else false.

(** whv_hype.c:172-181: dom for the point [p] and one sample *)
Definition r_sample_dom (sample p : list R) : bool :=
  forallb (fun d => negb (Rltb (rco sample d) (rco p d))) (seq 0 2).
(** whv_hype.c:184-190, [count] = dominated[s] *)
Fixpoint r_sum_alpha (is_dominator : list bool) (count : nat) (whv : R) : outcome R :=
  match is_dominator with
  | [] => Ret whv
  | b :: bs => whv <- (if b : bool then
                         _ <- assert_ (0 <? count)%nat ;;
                         Ret (whv + 1 / INR count)
                       else Ret whv) ;;
               r_sum_alpha bs count whv
  end.
(** whv_hype.c:154-196 estimate_whv *)
Fixpoint r_estimate_whv (points samples : list (list R)) (whv : R) : outcome R :=
  match samples with
  | [] => Ret whv
  | s :: samples =>
      let is_dominator := map (r_sample_dom s) points in
      let count := length (filter (fun b => b) is_dominator) in
      whv <- r_sum_alpha is_dominator count whv ;;
      r_estimate_whv points samples whv
  end.

(** whv_hype.c:198-204 calculate_volume_between_points *)
Definition r_volume_between (p1 p2 : list R) (dim : nat) : R :=
  fold_left (fun v k => v * (rco p2 k - rco p1 k)) (seq 0 dim) 1.

(** whv_hype.c:206-225 normalise01 and normalise01_inplace, for one row:
    nondominated.h:340-367 with minmax all -1, agree -1 and the range 0..1 *)
Definition r_normalise01 (dim : nat) (lbound ubound p : list R) : list R :=
  map (fun d => let diff := rco ubound d - rco lbound d in
                let diff := if Req_EM_T diff 0 then 1 else diff in
                0 + (1 - 0) * (rco p d - rco lbound d) / diff) (seq 0 dim).

(** whv_hype.c:228-244 whv_hype_sample, with the samples returned by create_samples *)
Definition r_whv_hype_value (points : list (list R)) (ideal ref : list R) (samples : list (list R)) : outcome R :=
  let points2 := map (r_normalise01 2 ideal ref) points in
  whv <- r_estimate_whv points2 samples 0 ;;
  Ret (whv * (r_volume_between ideal ref 2 / INR (length samples))).

(** whv_hype.c:62-68, the first loop of exp_dist_sample, with lower = 0 and range = 1
    (hype_dist_new, whv_hype.c:96-110) *)
Fixpoint exp_loop1 (k : nat) (mu : R) (st : mt_state) : outcome (list (list R) * mt_state) :=
  match k with
  | O => Ret ([], st)
  | S k => r1 <- mt_next_double53 st ;;
           _ <- assert_ (0 <? fst r1)%Z ;;
           r2 <- mt_next_double53 (snd r1) ;;
           rest <- exp_loop1 k mu (snd r2) ;;
           Ret ([0 - mu * ln (frac53 (fst r1)); 0 + frac53 (fst r2) * 1] :: fst rest, snd rest)
  end.
(** whv_hype.c:69-75, the second loop *)
Fixpoint exp_loop2 (k : nat) (mu : R) (st : mt_state) : outcome (list (list R) * mt_state) :=
  match k with
  | O => Ret ([], st)
  | S k => r1 <- mt_next_double53 st ;;
           r2 <- mt_next_double53 (snd r1) ;;
           _ <- assert_ (0 <? fst r2)%Z ;;
           rest <- exp_loop2 k mu (snd r2) ;;
           Ret ([0 + frac53 (fst r1) * 1; 0 - mu * ln (frac53 (fst r2))] :: fst rest, snd rest)
  end.
(** whv_hype.c:51-77 exp_dist_sample; (int)(0.5 * nsamples) *)
Definition exp_dist_sample (mu : R) (nsamples : nat) (st : mt_state) : outcome (list (list R)) :=
  let n := (nsamples / 2)%nat in
  a <- exp_loop1 n mu st ;;
  b <- exp_loop2 (nsamples - n) mu (snd a) ;;
  Ret (fst a ++ fst b).
(** whv_hype.c:271-280 whv_hype_expo; [key0] is the uninitialised generator state *)
Definition whv_hype_expo (key0 : list Z) (points : list (list R)) (ideal ref : list R) (nsamples : nat)
           (seed : Z) (mu : R) : outcome R :=
  st <- mt_seed key0 seed ;;
  samples <- exp_dist_sample mu nsamples st ;;
  r_whv_hype_value points ideal ref samples.

(** the buffer of 2 * n values as n rows *)
Fixpoint rows_of_two (l : list R) : list (list R) :=
  match l with
  | a :: b :: l => [a; b] :: rows_of_two l
  | _ => []
  end.
(** whv_hype.c:32-49 gaussian_dist_sample *)
Definition gaussian_dist_sample (lf : bool) (fuel : nat) (mu : list R) (nsamples : nat) (st : mt_state)
  : outcome (list (list R)) :=
  r <- rng_bivariate_normal_fill lf fuel (rco mu 0) (rco mu 1) (1 / 4) (1 / 4) 1 nsamples st ;;
  Ret (rows_of_two (fst r)).
(** whv_hype.c:282-294 whv_hype_gaus *)
Definition whv_hype_gaus (lf : bool) (fuel : nat) (key0 : list Z) (points : list (list R)) (ideal ref : list R)
           (nsamples : nat) (seed : Z) (mu : list R) : outcome R :=
  st <- mt_seed key0 seed ;;
  samples <- gaussian_dist_sample lf fuel (r_normalise01 2 ideal ref mu) nsamples st ;;
  r_whv_hype_value points ideal ref samples.

(** _moocore.py:1840-1850: columns of objectives to maximise are negated in data,
    ref and ideal (but not in mu) *)
Definition r_negate_max (maximise : list bool) (p : list R) : list R :=
  map (fun d => if nth d maximise false then - rco p d else rco p d) (seq 0 2).
(** _moocore.py:1832-1872 whv_hype with dist = "exponential" *)
Definition py_whv_hype_expo (key0 : list Z) (data : list (list R)) (ref ideal : list R) (maximise : list bool)
           (nsamples : nat) (seed : Z) (mu : R) : outcome R :=
  whv_hype_expo key0 (map (r_negate_max maximise) data) (r_negate_max maximise ideal) (r_negate_max maximise ref)
                nsamples seed mu.
(** the same with dist = "point" *)
Definition py_whv_hype_point (lf : bool) (fuel : nat) (key0 : list Z) (data : list (list R)) (ref ideal : list R)
           (maximise : list bool) (nsamples : nat) (seed : Z) (mu : list R) : outcome R :=
  whv_hype_gaus lf fuel key0 (map (r_negate_max maximise) data) (r_negate_max maximise ideal)
                (r_negate_max maximise ref) nsamples seed mu.
