(** Model of the 2-objective EAF computation (c/eaf.c:292-433).

    [data] is the list of rows (row k = data + nobj*k), [cumsize] the cumulative
    run sizes.  The arrays of pointers datax/datay are lists of row indices; they
    are parameters, required to be the results of a qsort with compare_x_asc /
    compare_y_desc (c/eaf.c:50-64, 325-326), i.e. arbitrary sorted permutations.
    Storage of the result (eaf_t with its growing arrays, c/eaf.c:80-165) is a
    list of (point, flags); the bit packing of the flags is modelled in
    BitArray.v. *)
From Coq Require Import List ZArith Lia Bool Arith.
From Verif Require Import Base.
Import ListNotations.
Open Scope Z_scope.

(** c/eaf.c:50-64 compare_x_asc, compare_y_desc as orders on row indices *)
Definition le_x_asc (data : list point) (i j : nat) : Prop :=
  coord (row data i) 0 <= coord (row data j) 0.
Definition le_y_desc (data : list point) (i j : nat) : Prop :=
  coord (row data j) 1 <= coord (row data i) 1.
Definition is_datax (data : list point) (dx : list nat) : Prop :=
  is_qsort_of (le_x_asc data) (seq 0 (length data)) dx.
Definition is_datay (data : list point) (dy : list nat) : Prop :=
  is_qsort_of (le_y_desc data) (seq 0 (length data)) dy.

(** c/eaf.c:338-343: runtab; [m] points remain, the current one is number [k] *)
Fixpoint runtab_loop (cumsize : list nat) (m k j : nat) : outcome (list nat) :=
  match m with
  | O => Ret []
  | S m' => c <- rd cumsize j ;;
            let j := if (k =? c)%nat then S j else j in
            rest <- runtab_loop cumsize m' (S k) j ;;
            Ret (j :: rest)
  end.

(** the local state of the sweep for one level: x, y, attained[], nattained *)
Record sweep : Type := mkSweep { sx : nat; sy : nat; satt : list Z; snat : Z }.

(** datax[x][c], datay[y][c] *)
Definition rdc (data : list point) (dd : list nat) (x c : nat) : outcome Z :=
  i <- rd dd x ;; p <- rd data i ;; rd p c.

(** runtab[(datax[x] - data) / nobj] *)
Definition rdrun (runtab dd : list nat) (x : nat) : outcome nat :=
  i <- rd dd x ;; rd runtab i.

(** c/eaf.c:379-382: run = ...; if (!attained[run]) nattained++; attained[run]++ *)
Definition att_inc (runtab dd : list nat) (i : nat) (att : list Z) (nat_ : Z)
  : outcome (list Z * Z) :=
  run <- rdrun runtab dd i ;;
  v <- rd att run ;;
  att' <- wr att run (v + 1) ;;
  Ret (att', if v =? 0 then nat_ + 1 else nat_).

(** c/eaf.c:404-407: run = ...; attained[run]--; if (!attained[run]) nattained-- *)
Definition att_dec (runtab dd : list nat) (i : nat) (att : list Z) (nat_ : Z)
  : outcome (list Z * Z) :=
  run <- rdrun runtab dd i ;;
  v <- rd att run ;;
  att' <- wr att run (v - 1) ;;
  Ret (att', if v - 1 =? 0 then nat_ - 1 else nat_).

Section Sweep.
Variables (data : list point) (dx dy runtab : list nat) (level : Z).
Let ntotal := length data.

(** c/eaf.c:375-384: move right until the level is reached (and the x value
    changes) *)
Fixpoint move_right (fuel : nat) (s : sweep) : outcome sweep :=
  match fuel with
  | O => OutOfFuel
  | S fuel =>
    if negb (sx s <? ntotal - 1)%nat then Ret s else
    go <- (if snat s <? level then Ret true
           else a <- rdc data dx (sx s) 0 ;; b <- rdc data dx (sx s + 1) 0 ;; Ret (a =? b)) ;;
    if negb go then Ret s else
    let x := (sx s + 1)%nat in
    a <- rdc data dx x 1 ;; b <- rdc data dy (sy s) 1 ;;
    if a <=? b then
      r <- att_inc runtab dx x (satt s) (snat s) ;;
      move_right fuel (mkSweep x (sy s) (fst r) (snd r))
    else move_right fuel (mkSweep x (sy s) (satt s) (snat s))
  end.

(** c/eaf.c:402-415: remove the points with the current y value *)
Fixpoint drop_group (fuel : nat) (s : sweep) : outcome sweep :=
  match fuel with
  | O => OutOfFuel
  | S fuel =>
    a <- rdc data dy (sy s) 0 ;; b <- rdc data dx (sx s) 0 ;;
    r <- (if a <=? b then att_dec runtab dy (sy s) (satt s) (snat s)
          else Ret (satt s, snat s)) ;;
    let s' := mkSweep (sx s) (sy s + 1) (fst r) (snd r) in
    again <- (if (sy s' <? ntotal)%nat
              then u <- rdc data dy (sy s') 1 ;; v <- rdc data dy (sy s' - 1) 1 ;; Ret (u =? v)
              else Ret false) ;;
    if again : bool then drop_group fuel s' else Ret s'
  end.

(** c/eaf.c:396-416: move down until the level is lost; also returns
    save_attained *)
Fixpoint move_down (fuel : nat) (s : sweep) : outcome (sweep * list Z) :=
  match fuel with
  | O => OutOfFuel
  | S fuel =>
    let save_attained := satt s in
    s' <- drop_group (S ntotal) s ;;
    if (level <=? snat s') && (sy s' <? ntotal)%nat then move_down fuel s'
    else Ret (s', save_attained)
  end.

(** c/eaf.c:373-423: the outer loop; an output is the point and the flags
    [(bool) save_attained[k]] stored by eaf_store_point_2d *)
Fixpoint sweep_loop (fuel : nat) (s : sweep) (out : list (point * list bool))
  : outcome (list (point * list bool)) :=
  match fuel with
  | O => OutOfFuel
  | S fuel =>
    s <- move_right (S ntotal) s ;;
    sr <- (if snat s <? level then Ret (s, out)
           else
             d <- move_down (S ntotal) s ;;
             let s' := fst d in
             _ <- assert_ (snat s' <? level) ;;
             px <- rdc data dx (sx s') 0 ;;
             py <- rdc data dy (sy s' - 1) 1 ;;
             Ret (s', out ++ [([px; py], map (fun v => negb (v =? 0)) (snd d))])) ;;
    let s := fst sr in
    if (sx s <? ntotal - 1)%nat && (sy s <? ntotal)%nat then sweep_loop fuel s (snd sr)
    else Ret (snd sr)
  end.

(** c/eaf.c:361-424: one level *)
Definition eaf2d_level (nruns : nat) : outcome (list (point * list bool)) :=
  r <- (run <- rdrun runtab dx 0 ;;
        v <- rd (repeat 0 nruns) run ;;
        att <- wr (repeat 0 nruns) run (v + 1) ;; Ret (att, 1)) ;;
  sweep_loop (S ntotal) (mkSweep 0 0 (fst r) (snd r)) [].
End Sweep.

(** c/eaf.c:359-425: the loop over the levels *)
Fixpoint eaf2d_levels data dx dy runtab (nruns : nat) (levels : list Z)
  : outcome (list (list (point * list bool))) :=
  match levels with
  | [] => Ret []
  | l :: ls => s <- eaf2d_level data dx dy runtab l nruns ;;
               rest <- eaf2d_levels data dx dy runtab nruns ls ;;
               Ret (s :: rest)
  end.

(** c/eaf.c:292-433: eaf2d.  [sortx], [sorty] stand for the two qsort calls;
    ntotal = cumsize[nruns-1] is the number of rows. *)
Definition eaf2d (sortx sorty : list point -> list nat)
  (data : list point) (cumsize : list nat) (nruns : nat) (levels : list Z)
  : outcome (list (list (point * list bool))) :=
  ntotal <- rd cumsize (nruns - 1) ;;
  let data := firstn ntotal data in
  runtab <- runtab_loop cumsize (length data) 0 0 ;;
  eaf2d_levels data (sortx data) (sorty data) runtab nruns levels.

(** executable sorts, for the examples *)
Definition sortx_exec (data : list point) : list nat :=
  sort_by (fun i j => coord (row data i) 0 <=? coord (row data j) 0) (seq 0 (length data)).
Definition sorty_exec (data : list point) : list nat :=
  sort_by (fun i j => coord (row data j) 1 <=? coord (row data i) 1) (seq 0 (length data)).
