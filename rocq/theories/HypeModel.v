(** Model of c/whv_hype.c (HypE estimate of the weighted hypervolume) and of the
    Python wrapper whv_hype.

    Values are rational numbers (exact arithmetic).  Two objectives.  The samples
    are either given (any distribution) or drawn by the uniform sampler from the
    generator of MtModel.v. *)
From Coq Require Import List ZArith Lia Bool Arith QArith.
From Verif Require Import Base NormModel MtModel.
Import ListNotations.
Open Scope Q_scope.

Definition Qltb (a b : Q) : bool := negb (Qle_bool b a).

(** whv_hype.c:172-181: dom for the point [p] and one sample *)
Definition sample_dom (sample p : qpoint) : bool :=
  forallb (fun d => negb (Qltb (qcoord sample d) (qcoord p d))) (seq 0 2).
(** whv_hype.c:184-190, [count] = dominated[s] *)
Fixpoint sum_alpha (is_dominator : list bool) (count : nat) (whv : Q) : outcome Q :=
  match is_dominator with
  | [] => Ret whv
  | b :: bs => whv <- (if b : bool then
                         _ <- assert_ (0 <? count)%nat ;;
                         Ret (whv + 1 / inject_Z (Z.of_nat count))
                       else Ret whv) ;;
               sum_alpha bs count whv
  end.
(** whv_hype.c:154-196 estimate_whv *)
Fixpoint estimate_whv (points samples : list qpoint) (whv : Q) : outcome Q :=
  match samples with
  | [] => Ret whv
  | s :: samples =>
      let is_dominator := map (sample_dom s) points in
      let count := countb (fun b => b) is_dominator in
      whv <- sum_alpha is_dominator count whv ;;
      estimate_whv points samples whv
  end.

(** whv_hype.c:198-204 calculate_volume_between_points *)
Definition volume_between (p1 p2 : qpoint) (dim : nat) : Q :=
  fold_left (fun v k => v * (qcoord p2 k - qcoord p1 k)) (seq 0 dim) 1.

(** whv_hype.c:206-225 normalise01 and normalise01_inplace: minmax all -1, agree -1 *)
Definition normalise01 (points : list qpoint) (dim : nat) (lbound ubound : qpoint) : list qpoint :=
  c_normalise dim (repeat (-1)%Z dim) (-1)%Z 0 1 lbound ubound points.

(** whv_hype.c:228-244 whv_hype_sample, with the samples returned by create_samples *)
Definition whv_hype_value (points : list qpoint) (ideal ref : qpoint) (samples : list qpoint) : outcome Q :=
  let points2 := normalise01 points 2 ideal ref in
  whv <- estimate_whv points2 samples 0 ;;
  Ret (whv * (volume_between ideal ref 2 / inject_Z (Z.of_nat (length samples)))).

(** whv_hype.c:79-94 uniform_dist_sample with lower = 0 and range = 1
    (hype_dist_new, whv_hype.c:96-110); rng_random is a 53-bit fraction *)
Definition rng_random (st : mt_state) : outcome (Q * mt_state) :=
  r <- mt_next_double53 st ;; Ret (Qmake (fst r) 9007199254740992, snd r).
Fixpoint uniform_dist_sample (nsamples : nat) (st : mt_state) : outcome (list qpoint) :=
  match nsamples with
  | O => Ret []
  | S n => r1 <- rng_random st ;;
           r2 <- rng_random (snd r1) ;;
           rest <- uniform_dist_sample n (snd r2) ;;
           Ret ([0 + fst r1 * 1; 0 + fst r2 * 1] :: rest)
  end.
(** whv_hype.c:260-269 whv_hype_unif; [key0] is the uninitialised generator state *)
Definition whv_hype_unif (key0 : list Z) (points : list qpoint) (ideal ref : qpoint) (nsamples : nat) (seed : Z)
  : outcome Q :=
  st <- mt_seed key0 seed ;;
  samples <- uniform_dist_sample nsamples st ;;
  whv_hype_value points ideal ref samples.

(** _moocore.py:1840-1850: columns of objectives to maximise are negated in data,
    ref and ideal (but not in mu) *)
Definition negate_max (maximise : list bool) (p : qpoint) : qpoint :=
  map (fun d => if nth d maximise false then - qcoord p d else qcoord p d) (seq 0 2).
(** _moocore.py:1832-1872 whv_hype with dist = "uniform" *)
Definition py_whv_hype_unif (key0 : list Z) (data : list qpoint) (ref ideal : qpoint) (maximise : list bool)
           (nsamples : nat) (seed : Z) : outcome Q :=
  whv_hype_unif key0 (map (negate_max maximise) data) (negate_max maximise ideal) (negate_max maximise ref)
                nsamples seed.
(** the same for given samples *)
Definition py_whv_hype_value (data : list qpoint) (ref ideal : qpoint) (maximise : list bool)
           (samples : list qpoint) : outcome Q :=
  whv_hype_value (map (negate_max maximise) data) (negate_max maximise ideal) (negate_max maximise ref) samples.

(** whv_hype.c:282-294 whv_hype_gaus and _moocore.py:1864-1867: the centre, in
    normalised coordinates, of the normal distribution with dist = "point" *)
Definition py_gauss_centre (mu ref ideal : qpoint) (maximise : list bool) : qpoint :=
  nth 0 (normalise01 [mu] 2 (negate_max maximise ideal) (negate_max maximise ref)) [].
(** whv_hype.c:246-258 whv_hype_estimate: mu is normalised in place, so that the
    n-th call with the same distribution uses this centre *)
Fixpoint estimate_centre (calls : nat) (mu ideal ref : qpoint) : qpoint :=
  match calls with
  | O => mu
  | S n => nth 0 (normalise01 [estimate_centre n mu ideal ref] 2 ideal ref) []
  end.
