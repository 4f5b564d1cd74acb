(** The end of eaf3d (c/eaf3d.c:779-844): after the outputs have been completed the
    trees of the sets are given back, and the result is read from the output lists.

    [fr] records what has been given back: the nodes, and the nodes whose item has
    been.  Touching a node that was given back, giving back a node or an item twice,
    or giving back an item that is not the separately allocated item of a sentinel
    (those of the other nodes of a set point into the caller's data) is an error.
    Not modelled: the tree headers, the arrays set and level and the list of
    setup_cdllist, which are given back at lines 721 and 817-822 without being used again. *)
From Coq Require Import List ZArith Lia Bool Arith.
From Verif Require Import Base EafModel AvlModel Eaf3dModel Eaf3dPtrModel.
Import ListNotations.
Open Scope Z_scope.

Definition given : Type := (list nat * list nat)%type.
Definition alive (freed : list nat) (a : nat) : outcome unit :=
  if existsb (Nat.eqb a) freed then OutOfBounds else Ret tt.

Section FreeSets.
Variables (lo hi : Z) (wipe : avl).

(** c/eaf3d.c:710 and 718: free (aux->item) *)
Definition free_item (st : pst) (fr : given) (a : nat) : outcome given :=
  _ <- alive (fst fr) a ;; _ <- alive (snd fr) a ;;
  p <- pt st a ;;
  if (px p =? lo) || (px p =? hi) then Ret (fst fr, snd fr ++ [a]) else OutOfBounds.
(** c/eaf3d.c:715 and 719: free (node) *)
Definition free_one (fr : given) (a : nat) : outcome given :=
  _ <- alive (fst fr) a ;; Ret (fst fr ++ [a], snd fr).
(** c/eaf3d.c:712-716: the loop of freetree2 *)
Fixpoint free_walk (fuel : nat) (st : pst) (fr : given) (aux : nat) : outcome (given * nat) :=
  match fuel with
  | O => OutOfFuel
  | S fuel =>
      _ <- alive (fst fr) aux ;;
      match AvlModel.nxt (mem st) aux with
      | None => Ret (fr, aux)
      | Some a => fr <- free_one fr aux ;; free_walk fuel st fr a
      end
  end.
(** c/eaf3d.c:704-722 freetree2 *)
Definition freetree2 (fuel : nat) (st : pst) (fr : given) (h : hdr) : outcome given :=
  a <- deref (fst (fst h)) ;;
  fr <- free_item st fr a ;;
  r <- free_walk fuel st fr a ;;
  fr <- free_item st (fst r) (snd r) ;;
  free_one fr (snd r).
(** c/eaf3d.c:815-818 *)
Fixpoint free_sets (fuel : nat) (st : pst) (fr : given) (hs : list hdr) : outcome given :=
  match hs with
  | [] => Ret fr
  | h :: hs => fr <- freetree2 fuel st fr h ;; free_sets fuel st fr hs
  end.

(** c/eaf3d.c:829-842, as p_flag_points and p_select_levels of Eaf3dPtrModel.v, with a
    check that the node has not been given back *)
Fixpoint f_flag_points (freed : list nat) (fuel : nat) (st : pst) (nruns : nat) (a : option nat) : outcome (list (point * list bool)) :=
  match a with
  | None => Ret []
  | Some a =>
    match fuel with
    | O => OutOfFuel
    | S fuel =>
      _ <- alive freed a ;;
      p <- pt st a ;; i <- addr_id a ;;
      fl <- find_all_promoters (fields st) nruns (mkNode (px p) (py p) (pz p) (Some i)) ;;
      rest <- f_flag_points freed fuel st nruns (AvlModel.nxt (mem st) a) ;;
      Ret (([px p; py p; pz p], fl) :: rest)
    end
  end.
Fixpoint f_select_levels (freed : list nat) (st : pst) (nruns : nat) (os : list (option nat)) (attlevel : list Z)
  : outcome (list (list (point * list bool))) :=
  match attlevel with
  | [] => Ret []
  | l :: ls => _ <- (if l <=? 0 then OutOfBounds else Ret tt) ;;
               o <- rd os (Z.to_nat l - 1) ;;
               s <- f_flag_points freed (3 + length (fields st)) st nruns o ;;
               rest <- f_select_levels freed st nruns os ls ;; Ret (s :: rest)
  end.

(** c/eaf3d.c:779-844 eaf3d: the result, the memory when the sets are given back, the
    trees of the sets, and what has been given back.  The fuel of the loop is the
    number of nodes ever allocated for sentinels and sets. *)
Definition f_eaf3d (start : avl) (sortz : list point -> list nat) (junk : nat -> Z)
  (data : list point) (cumsize : list nat) (nruns : nat) (attlevel : list Z)
  : outcome (list (list (point * list bool)) * (pst * list hdr * given)) :=
  st <- p_alloc lo hi nruns junk 0 (mkP start (fun _ => None) [] [] [] None [] 0) ;;
  l <- setup_cdllist sortz data cumsize ;;
  s <- p_eaf3df wipe nruns st l ;;
  r <- p_outputs wipe (ps s) (pouts (ps s)) (plevs (ps s)) ;;
  fr <- free_sets (fresh (ps s)) (fst r) ([], []) (psets (ps s)) ;;
  out <- f_select_levels (fst fr) (fst r) nruns (snd r) attlevel ;;
  Ret (out, (fst r, psets (ps s), fr)).
End FreeSets.
