(** Model of force_bounds, the option of the command-line tool nondominated that
    removes the points outside given bounds (c/nondominated.c:208-216, 255-311).

    [points] is the list of rows; ints are natural numbers (ssizes[k]-- happens at
    most once per point of set k, see PropFb.v, so no value becomes negative). *)
From Coq Require Import List ZArith Lia Bool Arith.
From Verif Require Import Base.
Import ListNotations.
Open Scope Z_scope.

(** nondominated.c:208-216 any_less_than *)
Definition any_less_than (dim : nat) (a b : point) : bool :=
  existsb (fun d => coord a d <? coord b d) (seq 0 dim).

Section Fb.
Variables (dim : nat) (lbound ubound : point).

(** nondominated.c:264-265 *)
Definition out_bounds (p : point) : bool := any_less_than dim p lbound || any_less_than dim ubound p.

(** nondominated.c:263-270: for (n = size - 1; n >= 0; n--); [m] = n + 1.
    outbounds_found = -1 is [None]. *)
Fixpoint mark_out (points : list point) (m : nat) (outb : list bool) (found : option nat)
  : outcome (list bool * option nat) :=
  match m with
  | O => Ret (outb, found)
  | S n => p <- rd points n ;;
           if out_bounds p then outb <- wr outb n true ;; mark_out points n outb (Some n)
           else outb <- wr outb n false ;; mark_out points n outb found
  end.

(** nondominated.c:280-282: ssizes[k] = cumsizes[k] - cumsizes[k-1] *)
Fixpoint set_sizes (prev : nat) (cumsizes : list nat) : list nat :=
  match cumsizes with
  | [] => []
  | c :: cs => (c - prev)%nat :: set_sizes c cs
  end.

(** nondominated.c:285: for (k = 0; outbounds_found >= cumsizes[k]; k++); *)
Fixpoint find_set (fuel : nat) (cumsizes : list nat) (found k : nat) : outcome nat :=
  match fuel with
  | O => OutOfFuel
  | S fuel => c <- rd cumsizes k ;;
              if (c <=? found)%nat then find_set fuel cumsizes found (S k) else Ret k
  end.

(** ssizes[k]-- *)
Definition decr (ss : list nat) (k : nat) : outcome (list nat) :=
  v <- rd ss k ;; wr ss k (v - 1)%nat.

(** nondominated.c:292-300: while (n2 < cumsizes[k]) *)
Fixpoint compact (fuel : nat) (outb : list bool) (k lim n n2 : nat) (ss : list nat) (points : list point)
  : outcome (nat * nat * list nat * list point) :=
  match fuel with
  | O => OutOfFuel
  | S fuel =>
      if (n2 <? lim)%nat then
        o <- rd outb n2 ;;
        if o : bool then ss <- decr ss k ;; compact fuel outb k lim n (S n2) ss points
        else p <- rd points n2 ;; points <- wr points n p ;; compact fuel outb k lim (S n) (S n2) ss points
      else Ret (n, n2, ss, points)
  end.
(** nondominated.c:291-301: for (...; k < nsets; k++); [m] = nsets - k *)
Fixpoint compact_sets (m : nat) (outb : list bool) (cumsizes : list nat) (k n n2 : nat) (ss : list nat)
         (points : list point) : outcome (nat * list nat * list point) :=
  match m with
  | O => Ret (n, ss, points)
  | S m => lim <- rd cumsizes k ;;
           r <- compact (S (length outb)) outb k lim n n2 ss points ;;
           match r with (n, n2, ss, points) => compact_sets m outb cumsizes (S k) n n2 ss points end
  end.

(** nondominated.c:306-308 *)
Fixpoint cumulate (acc : nat) (ss : list nat) : list nat :=
  match ss with
  | [] => []
  | s :: ss => (acc + s)%nat :: cumulate (acc + s)%nat ss
  end.

(** nondominated.c:255-311 force_bounds: the result, the points and the cumulative
    sizes afterwards.  The contents of the malloc'ed array outbounds is [junk]. *)
Definition force_bounds (junk : nat -> bool) (points : list point) (cumsizes : list nat)
  : outcome (bool * list point * list nat) :=
  let nsets := length cumsizes in
  size <- rd cumsizes (nsets - 1) ;;
  r <- mark_out points size (map junk (seq 0 size)) None ;;
  match snd r with
  | None => Ret (false, points, cumsizes)
  | Some found =>
      let ss := set_sizes 0 cumsizes in
      k <- find_set (S nsets) cumsizes found 0 ;;
      ss <- decr ss k ;;
      r <- compact_sets (nsets - k) (fst r) cumsizes k found (found + 1) ss points ;;
      match r with (_, ss, points) => Ret (true, points, cumulate 0 ss) end
  end.
End Fb.
