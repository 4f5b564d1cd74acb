(** Model of the storage of attainment surfaces (eaf_t, c/eaf.h:66-73) and of the
    output matrices built from it.

    Memory returned by malloc/realloc has unspecified contents: the functions take
    a parameter [junk : nat -> Z] giving the contents of fresh cells.  The growth
    factor of the arrays, (1 + 1/2^(nreallocs/4.0)) computed in floating point
    (c/eaf.c:132), is a parameter [grow maxsize nreallocs]. *)
From Coq Require Import List ZArith Lia Bool Arith QArith Qround.
From Verif Require Import Base BitArrayModel EafModel.
Import ListNotations.
Open Scope Z_scope.

Record eaf_t : Type := mkEaf {
  e_nruns : nat; e_size : nat; e_maxsize : nat; e_nreallocs : nat;
  e_bits : list Z;   (* bit_attained: maxsize * bit_nwords(nruns) words *)
  e_data : list Z    (* data: maxsize * nobj coordinates *) }.

Section Store.
Variable junk : nat -> Z.
Variable grow : nat -> nat -> nat.

(** realloc (a, n): keeps the common prefix *)
Definition realloc_ (a : list Z) (n : nat) : list Z :=
  firstn n a ++ map junk (seq (length a) (n - length a)).

(** c/eaf.c:80-95 eaf_create *)
Definition eaf_create (nobj nruns npoints : nat) : eaf_t :=
  let maxsize := (256 + npoints / (2 * nruns))%nat in
  mkEaf nruns 0 maxsize 0
    (realloc_ [] (bit_nwords nruns * maxsize)) (realloc_ [] (nobj * maxsize)).

(** c/eaf.c:111-120 eaf_realloc.  realloc to 0 bytes may return NULL, which fails
    the eaf_assert; the model always fails there. *)
Definition eaf_realloc (e : eaf_t) (nobj maxsize nreallocs : nat) : outcome eaf_t :=
  _ <- assert_ (negb (maxsize =? 0)%nat) ;;
  Ret (mkEaf (e_nruns e) (e_size e) maxsize nreallocs
         (realloc_ (e_bits e) (bit_nwords (e_nruns e) * maxsize))
         (realloc_ (e_data e) (nobj * maxsize))).

(** c/eaf.c:139-142: for (k...) bit_array_set (bit_array_offset (bits, size, nruns), k, (bool) save_attained[k]) *)
Fixpoint store_flags (bits : list Z) (size nruns k : nat) (flags : list bool) : outcome (list Z) :=
  match flags with
  | [] => Ret bits
  | f :: flags => bits <- bit_array_set bits (bit_array_offset 0 size nruns) k f ;;
                  store_flags bits size nruns (S k) flags
  end.

(** c/eaf.c:122-144 eaf_store_point_help: make room, store the flags *)
Definition eaf_store_point_help (e : eaf_t) (nobj : nat) (flags : list bool) : outcome eaf_t :=
  e <- (if (e_size e =? e_maxsize e)%nat then
          _ <- assert_ (Z.of_nat (e_size e) <? (2 ^ 31 - 1) / 2) ;;
          eaf_realloc e nobj (grow (e_maxsize e) (e_nreallocs e) + 100) (S (e_nreallocs e))
        else Ret e) ;;
  bits <- store_flags (e_bits e) (e_size e) (e_nruns e) 0 flags ;;
  Ret (mkEaf (e_nruns e) (e_size e) (e_maxsize e) (e_nreallocs e) bits (e_data e)).

(** the coordinates: pos[0] = x; pos[1] = y; ... *)
Fixpoint store_coords (d : list Z) (i : nat) (p : list Z) : outcome (list Z) :=
  match p with
  | [] => Ret d
  | x :: p => d <- wr d i x ;; store_coords d (S i) p
  end.

(** c/eaf.c:156-165 eaf_store_point_2d (and eaf_store_point_3d, c/eaf3d.c) *)
Definition eaf_store_point (e : eaf_t) (nobj : nat) (p : point) (flags : list bool) : outcome eaf_t :=
  e <- eaf_store_point_help e nobj flags ;;
  d <- store_coords (e_data e) (nobj * e_size e) p ;;
  Ret (mkEaf (e_nruns e) (S (e_size e)) (e_maxsize e) (e_nreallocs e) (e_bits e) d).

(** c/eaf.c:146-154 eaf_adjust_memory *)
Definition eaf_adjust_memory (e : eaf_t) (nobj : nat) : outcome eaf_t :=
  if (e_size e <? e_maxsize e)%nat then eaf_realloc e nobj (e_size e) (e_nreallocs e) else Ret e.

(** the calls made by eaf2d for the points of one surface, in order (the sweep
    never reads the eaf_t, so storing after the sweep is the same as during it) *)
Fixpoint store_points (e : eaf_t) (nobj : nat) (s : list (point * list bool)) : outcome eaf_t :=
  match s with
  | [] => Ret e
  | o :: s => e <- eaf_store_point e nobj (fst o) (snd o) ;; store_points e nobj s
  end.
Definition store_surface (nobj nruns npoints : nat) (s : list (point * list bool)) : outcome eaf_t :=
  e <- store_points (eaf_create nobj nruns npoints) nobj s ;; eaf_adjust_memory e nobj.
Fixpoint store_surfaces (nobj nruns npoints : nat) (ss : list (list (point * list bool)))
  : outcome (list eaf_t) :=
  match ss with
  | [] => Ret []
  | s :: ss => e <- store_surface nobj nruns npoints s ;;
               rest <- store_surfaces nobj nruns npoints ss ;; Ret (e :: rest)
  end.
End Store.

(** ** Reading the stored surfaces *)

(** c/eaf.h:129-145 attained_left_right *)
Fixpoint count_bits (bits : list Z) (off k m : nat) : outcome Z :=
  match m with
  | O => Ret 0
  | S m => v <- bit_array_get bits off k ;;
           rest <- count_bits bits off (S k) m ;;
           Ret ((if v =? 0 then 0 else 1) + rest)
  end.
Definition attained_left_right (bits : list Z) (off division total : nat) : outcome (Z * Z) :=
  _ <- assert_ (division <? total)%nat ;;
  l <- count_bits bits off 0 division ;;
  r <- count_bits bits off division (total - division) ;;
  Ret (l, r).

(** nobj coordinates of row i: data[j + i * nobj], j = 0..nobj-1 *)
Fixpoint read_coords (d : list Z) (i m : nat) : outcome (list Z) :=
  match m with
  | O => Ret []
  | S m => x <- rd d i ;; rest <- read_coords d (S i) m ;; Ret (x :: rest)
  end.
Definition read_point (e : eaf_t) (nobj i : nat) : outcome point :=
  read_coords (e_data e) (i * nobj) nobj.

(** a loop over i = i0, i0+1, ... (m iterations) collecting results *)
Fixpoint collect {A} (f : nat -> outcome A) (i m : nat) : outcome (list A) :=
  match m with
  | O => Ret []
  | S m => x <- f i ;; rest <- collect f (S i) m ;; Ret (x :: rest)
  end.

(** c/eaf.h:147-152 level2percentile, in exact arithmetic *)
Definition level2percentile (level n : Z) : Q :=
  if level =? n then inject_Z 100 else (inject_Z level * inject_Z 100 / inject_Z n)%Q.

(** c/eaf.h:154-166 percentile2level, in exact arithmetic; sqrt(DBL_EPSILON) is
    exactly 2^-26 *)
Definition tolerance : Q := 1 # (2 ^ 26).
Definition percentile2level (p : Q) (n : Z) : outcome Z :=
  let x := (inject_Z n * p / inject_Z 100)%Q in
  let level := if Qle_bool (x - inject_Z (Qfloor x)) tolerance then Qfloor x else Qceiling x in
  _ <- assert_ (level <=? n) ;;
  _ <- assert_ (0 <=? level) ;;
  Ret (if level <? 1 then 1 else level).

(** c/eaf.h:168-183 levels_from_percentiles *)
Fixpoint percentiles2levels (ps : list Q) (n : Z) : outcome (list Z) :=
  match ps with
  | [] => Ret []
  | p :: ps => l <- percentile2level p n ;; rest <- percentiles2levels ps n ;; Ret (l :: rest)
  end.
Definition levels_from_percentiles (percentile : option (list Q)) (nlevels nruns : nat) : outcome (list Z) :=
  match percentile with
  | Some ps => percentiles2levels (firstn nlevels ps) (Z.of_nat nruns)
  | None => _ <- assert_ (nlevels =? nruns)%nat ;;
            Ret (map (fun k => Z.of_nat (k + 1)) (seq 0 nruns))
  end.

(** c/eaf.h:185-191 all_percentiles *)
Definition all_percentiles (n_sets : nat) : list Q :=
  let x := (inject_Z 100 / inject_Z (Z.of_nat n_sets))%Q in
  map (fun i => (inject_Z (Z.of_nat i) * x)%Q) (seq 1 n_sets).

(** c/eaf.c:239-256 eaf2matrix: rows of nobj coordinates and a percentile, here
    pairs (point, percentile) *)
Fixpoint eaf2matrix (eafs : list eaf_t) (nobj k : nat) (percentile : option (list Q)) (nlevels : nat)
  : outcome (list (point * Q)) :=
  match eafs with
  | [] => Ret []
  | e :: eafs =>
    p <- (match percentile with Some ps => rd ps k
          | None => Ret (level2percentile (Z.of_nat (k + 1)) (Z.of_nat nlevels)) end) ;;
    rows <- collect (fun i => x <- read_point e nobj i ;; Ret (x, p)) 0 (e_size e) ;;
    rest <- eaf2matrix eafs nobj (S k) percentile nlevels ;;
    Ret (rows ++ rest)
  end.

(** c/eaf.c:258-272 eaf_compute_matrix, for nobj = 2 (attsurf, c/eaf.h:107-127) *)
Definition eaf_compute_matrix_2d (sortx sorty : list point -> list nat) (junk : nat -> Z) (grow : nat -> nat -> nat)
  (data : list point) (cumsizes : list nat) (nruns : nat) (percentile : option (list Q)) (nlevels : nat)
  : outcome (list (point * Q)) :=
  level <- levels_from_percentiles percentile nlevels nruns ;;
  ss <- eaf2d sortx sorty data cumsizes nruns level ;;
  eafs <- store_surfaces junk grow 2 nruns (length data) ss ;;
  eaf2matrix eafs 2 0 percentile nlevels.

(** c/eaf.h:203-211 eafdiff_percentile, exact arithmetic; a division by zero is
    0 in Q (it would be NaN in C), excluded by nruns >= 2 *)
Definition eafdiff_percentile (e : eaf_t) (i division nruns n_intervals : nat) : outcome Q :=
  lr <- attained_left_right (e_bits e) (bit_array_offset 0 i nruns) division nruns ;;
  Ret (inject_Z (Z.of_nat n_intervals) *
       (inject_Z (fst lr) / inject_Z (Z.of_nat division) -
        inject_Z (snd lr) / inject_Z (Z.of_nat (nruns - division))))%Q.

(** c/eafdiff.c:40-70 eafdiff_compute_matrix *)
Fixpoint eafdiff_rows (eafs : list eaf_t) (nobj nsets1 nruns intervals : nat) : outcome (list (point * Q)) :=
  match eafs with
  | [] => Ret []
  | e :: eafs =>
    rows <- collect (fun i => x <- read_point e nobj i ;;
                              c <- eafdiff_percentile e i nsets1 nruns intervals ;;
                              Ret (x, c)) 0 (e_size e) ;;
    rest <- eafdiff_rows eafs nobj nsets1 nruns intervals ;;
    Ret (rows ++ rest)
  end.
Definition eafdiff_compute_matrix_2d (sortx sorty : list point -> list nat) (junk : nat -> Z) (grow : nat -> nat -> nat)
  (data : list point) (cumsizes : list nat) (nruns intervals : nat) : outcome (list (point * Q)) :=
  level <- levels_from_percentiles None nruns nruns ;;
  ss <- eaf2d sortx sorty data cumsizes nruns level ;;
  eafs <- store_surfaces junk grow 2 nruns (length data) ss ;;
  eafdiff_rows eafs 2 (nruns / 2) nruns intervals.

(** executable parameters, for the examples *)
Definition junk_exec (i : nat) : Z := Z.of_nat i * 17.
Definition grow_exec (m r : nat) : nat := (m + m / 2)%nat.
