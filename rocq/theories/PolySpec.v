(** Specification of the coloured polygons of an EAF difference. *)
From Coq Require Import List ZArith Lia Bool Arith.
From Verif Require Import Base Spec EafSpec RectSpec.
Import ListNotations.
Open Scope Z_scope.

(** a polygon is the list of its vertices; a coordinate may be +infinity *)
Definition vertex : Type := (bound * bound)%type.

(** the edges between consecutive vertices, and the edge that closes the polygon *)
Fixpoint path_edges (vs : list vertex) : list (vertex * vertex) :=
  match vs with
  | v :: ((w :: _) as rest) => (v, w) :: path_edges rest
  | _ => []
  end.
Definition edges (P : list vertex) : list (vertex * vertex) :=
  match P with [] => [] | v :: _ => path_edges (P ++ [v]) end.

(** every edge is horizontal or vertical *)
Definition orthogonal (P : list vertex) : Prop :=
  forall v w, In (v, w) (edges P) -> fst v = fst w \/ snd v = snd w.

Definition lt_bound (x : Z) (b : bound) : bool := match b with At y => x <? y | Infty => true end.

(** the horizontal ray that goes left from [z] meets the vertical edge [e]; the
    lower end belongs to the edge, the upper end does not *)
Definition meets (z : point) (e : vertex * vertex) : bool :=
  match e with
  | ((At x1, y1), (At x2, y2)) =>
      (x1 =? x2) && (x1 <=? coord z 0) && xorb (lt_bound (coord z 1) y1) (lt_bound (coord z 1) y2)
  | _ => false
  end.
(** the even-odd rule: [z] is inside if the ray meets an odd number of edges *)
Definition inside (P : list vertex) (z : point) : bool :=
  Nat.odd (length (filter (meets z) (edges P))).

(** the polygons of a list that contain [z] *)
Definition containing (ps : list (list vertex * Z)) (z : point) : list (list vertex * Z) :=
  filter (fun p => inside (fst p) z) ps.

(** how polygons are laid out: after the vertices of each polygon comes a
    terminator (here [None]) *)
Definition layout (ps : list (list vertex * Z)) : list (option vertex) :=
  concat (map (fun p => map Some (fst p) ++ [None]) ps).
