(** Specification of what eaf --polygons prints.  Nothing here refers to the modelled
    code. *)
From Coq Require Import Ascii String List ZArith Lia Bool Arith.
From Verif Require Import Base RectSpec PolySpec EafMainSpec.
Import ListNotations.
Local Open Scope list_scope.
Open Scope Z_scope.

(** a token of EafMainSpec.v, inf, -inf, or a piece of text *)
Inductive ptoken : Type := PTok (t : token) | PInf | PMinusInf | PText (s : string).

Definition number (b : bound) : ptoken := match b with At x => PTok (TNum x) | Infty => PInf end.
(** a vertex is a line with its two coordinates *)
Definition vertex_line (v : vertex) : list ptoken := [number (fst v); PTok TSp; number (snd v); PTok TNl].
(** a line "-inf -inf" ends each polygon; the last line has the colours *)
Definition polygon_lines (P : list vertex) : list ptoken :=
  concat (map vertex_line P) ++ [PMinusInf; PTok TSp; PMinusInf; PTok TNl].
Definition colour_line (cs : list Z) : list ptoken :=
  PText "# col =" :: concat (map (fun c => [PTok TSp; PTok (TInt c)]) cs) ++ [PTok TNl].
Definition polygons_text (ps : list (list vertex * Z)) : list ptoken :=
  concat (map (fun p => polygon_lines (fst p)) ps) ++ colour_line (map snd ps).

(** what was written to a stream *)
Definition pwritten_to (f : stream) (w : list (stream * ptoken)) : list ptoken :=
  map snd (filter (fun x => stream_eqb f (fst x)) w).
