(** Specification of the matrices returned by the R functions eaf and eafdiff.  Nothing
    here refers to the model. *)
From Coq Require Import List ZArith QArith Lia Bool Arith Sorted.
From Verif Require Import Base Spec GroupSpec PyEafSpec RMatModel RMatSpec.
Import ListNotations.
Open Scope Z_scope.

(** points and the numbers of their sets: the last column of [x], or given separately *)
Definition attach (rows : list point) (labels : list Z) : list (list Z) := map (fun pl => fst pl ++ [snd pl]) (combine rows labels).
Definition labelled (x : rmat Z) (sets : option (list Z)) (d : nat) (rows : list point) (labels : list Z) : Prop :=
  length labels = length rows /\ rows <> [] /\
  match sets with None => has_rows x (S d) (attach rows labels) | Some s => has_rows x d rows /\ s = labels end /\
  wf_points d rows.

(** [s] is the attainment surface of level [l]: no point of [s] is as good as another one,
    and the points of [s] are as good as exactly the locations attained by [l] of the sets *)
Definition surface_of (d : nat) (mx : list bool) (runs : list (list point)) (l : nat) (s : list point) : Prop :=
  wf_points d s /\
  (forall i j, (i < length s)%nat -> (j < length s)%nat -> i <> j -> ~ wdom mx (row s i) (row s j)) /\
  forall z, length z = d -> ((exists p, In p s /\ wdom mx p z) <-> at_least_attain mx l runs z).

(** the percentiles of the result, in increasing order, and their levels: a percentile p
    stands for the smallest level l >= 1 with l >= n * p / 100 (up to 2^-26); without
    percentiles, the levels 1, ..., n *)
Definition chosen (percentiles : option (list Q)) (n : nat) (qs : list Q) (ls : list nat) : Prop :=
  match percentiles with
  | Some ps =>
      StronglySorted Qlt qs /\ (forall q, In q qs -> In q ps) /\ (forall p, In p ps -> exists q, In q qs /\ (q == p)%Q) /\
      Forall2 (fun q (l : nat) => (1 <= l <= n)%nat /\
        forall m : nat, ((l <= m)%nat <-> (1 <= m)%nat /\ (inject_Z (Z.of_nat n) * q / 100 - (1 # (2 ^ 26)) <= inject_Z (Z.of_nat m))%Q)) qs ls
  | None => ls = seq 1 n /\ Forall2 (fun q (l : nat) => (q * inject_Z (Z.of_nat n) == inject_Z (Z.of_nat l) * 100)%Q) qs ls
  end.

(** a row of the result: coordinates and a value *)
Definition out_row (r : point * Q) : list Q := map inject_Z (fst r) ++ [snd r].

(** the rows returned by eaf: the surfaces one after the other, each with its percentile *)
Definition eaf_rows (d : nat) (mx : list bool) (rows : list point) (labels : list Z) (percentiles : option (list Q)) (out : list (list Q)) : Prop :=
  exists qs ls ss, chosen percentiles (length (sets_of rows labels)) qs ls /\
    Forall2 (surface_of d mx (sets_of rows labels)) ls ss /\
    out = concat (map (fun sq => map (fun p => out_row (p, snd sq)) (fst sq)) (combine ss qs)).

(** the points and values returned by eafdiff: every point of every attainment surface of
    the 2 n sets, once, with the difference of the fractions of the sets that attain it *)
Definition eafdiff_points (d : nat) (mx : list bool) (rx : list point) (lx : list Z) (ry : list point) (ly : list Z) (iv : nat)
  (out : list (point * Q)) : Prop :=
  let n := length (sets_of rx lx) in
  exists ss, Forall2 (surface_of d mx (sets_of rx lx ++ sets_of ry ly)) (seq 1 (2 * n)) ss /\
    (forall p, In p (map fst out) <-> exists s, In s ss /\ In p s) /\ NoDup (map fst out) /\
    forall p c, In (p, c) out -> exists L R,
      exactly_attain mx L (sets_of rx lx) p /\ exactly_attain mx R (sets_of ry ly) p /\
      (c == inject_Z (Z.of_nat iv) * (inject_Z (Z.of_nat L) / inject_Z (Z.of_nat n) - inject_Z (Z.of_nat R) / inject_Z (Z.of_nat n)))%Q.
