(** Specification of normalisation and of dominance for rational rows. *)
From Coq Require Import List ZArith Lia Bool Arith QArith.
Import ListNotations.
Open Scope Q_scope.

(** [a] is at least as good as [b] in every one of the [dim] objectives *)
Definition q_wdom (dim : nat) (mx : list bool) (a b : list Q) : Prop :=
  forall d, (d < dim)%nat ->
    if nth d mx false then nth d b 0 <= nth d a 0 else nth d a 0 <= nth d b 0.
Definition q_dom (dim : nat) (mx : list bool) (a b : list Q) : Prop :=
  q_wdom dim mx a b /\
  exists d, (d < dim)%nat /\ if nth d mx false then nth d b 0 < nth d a 0 else nth d a 0 < nth d b 0.

(** the affine map sending [from0] to [to0] and [from1] to [to1] *)
Definition affine_map (from0 from1 to0 to1 : Q) (f : Q -> Q) : Prop :=
  (forall v, f v == to0 + (to1 - to0) * ((v - from0) / (from1 - from0))).
