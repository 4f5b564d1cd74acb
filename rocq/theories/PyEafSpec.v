(** Specification for C39: attainment of the sets given by a label column, with
    some objectives maximised. *)
From Coq Require Import List ZArith Bool Arith QArith.
From Verif Require Import Base Spec GroupSpec.
Import ListNotations.
Open Scope Z_scope.

(** the sets of a labelled data set, one per distinct label *)
Definition sets_of (data : list point) (labels : list Z) : list (list point) :=
  map (rows_with data labels) (in_order_of_appearance labels).

(** a set attains [z] if one of its points is at least as good as [z] *)
Definition attains_mx (mx : list bool) (run : list point) (z : point) : Prop :=
  exists p, In p run /\ wdom mx p z.

Definition at_least_attain (mx : list bool) (l : nat) (runs : list (list point)) (z : point) : Prop :=
  exists ks : list nat, NoDup ks /\ length ks = l /\
    forall k, In k ks -> (k < length runs)%nat /\ attains_mx mx (nth k runs []) z.

Definition exactly_attain (mx : list bool) (m : nat) (runs : list (list point)) (z : point) : Prop :=
  exists ks : list nat, NoDup ks /\ length ks = m /\
    forall k, In k ks <-> (k < length runs)%nat /\ attains_mx mx (nth k runs []) z.

(** [s] is the attainment surface of level [l]: mutually incomparable points
    that weakly dominate exactly the locations attained by at least [l] sets *)
Definition is_surface_mx (mx : list bool) (runs : list (list point)) (l : nat) (s : list point) : Prop :=
  wf_points 2 s /\
  (forall p q, In p s -> In q s -> wdom mx p q -> p = q) /\
  forall z, length z = 2%nat ->
    ((exists p, In p s /\ wdom mx p z) <-> at_least_attain mx l runs z).
