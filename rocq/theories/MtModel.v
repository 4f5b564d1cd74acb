(** Model of c/mt19937/mt19937.c, mt19937.h and the parts of c/rng.h built on them.

    Words (uint32_t) are integers in [0, 2^32); unsigned arithmetic is done in Z
    and reduced where the code masks or converts ([w32]).  The state array is a
    list read and written through the bounds-checked [rd]/[wr]. *)
From Coq Require Import List ZArith Lia Bool Arith.
From Verif Require Import Base.
Import ListNotations.
Open Scope Z_scope.

(** mt19937.h:10-16 *)
Definition NN : nat := Z.to_nat 624.
Definition MM : nat := Z.to_nat 397.
Definition MATRIX_A : Z := 0x9908b0df.
Definition UPPER_MASK : Z := 0x80000000.
Definition LOWER_MASK : Z := 0x7fffffff.

(** conversion to uint32_t, and "& 0xffffffffUL" *)
Definition w32 (x : Z) : Z := x mod 2 ^ 32.

(** mt19937.h:18-21; pos is an int that only ever takes values 0..624 *)
Record mt_state : Type := mkMt { mt_key : list Z; mt_pos : nat }.

(** mt19937.c:6-16 mt19937_seed.  [key0] is the uninitialised array. *)
Fixpoint seed_loop (k : nat) (pos : nat) (seed : Z) (key : list Z) : outcome (list Z) :=
  match k with
  | O => Ret key
  | S k' =>
      key <- wr key pos seed ;;
      seed_loop k' (S pos)
        (w32 (1812433253 * Z.lxor seed (Z.shiftr seed 30) + Z.of_nat pos + 1)) key
  end.
Definition mt_seed (key0 : list Z) (seed : Z) : outcome mt_state :=
  key <- seed_loop NN 0 (w32 seed) key0 ;;
  Ret (mkMt key NN).

(** mt19937.c:19-49 init_genrand *)
Fixpoint genrand_loop (k : nat) (mti : nat) (mt : list Z) : outcome (list Z) :=
  match k with
  | O => Ret mt
  | S k' =>
      p <- rd mt (mti - 1) ;;
      mt <- wr mt mti (w32 (1812433253 * Z.lxor p (Z.shiftr p 30) + Z.of_nat mti)) ;;
      genrand_loop k' (S mti) mt
  end.
Definition init_genrand (key0 : list Z) (s : Z) : outcome mt_state :=
  mt <- wr key0 0 (w32 s) ;;
  mt <- genrand_loop (NN - 1) 1 mt ;;
  Ret (mkMt mt NN).

(** mt19937.c:66-81, first loop of mt19937_init_by_array *)
Fixpoint array_loop1 (k : nat) (init_key : list Z) (i j : nat) (mt : list Z)
  : outcome (nat * list Z) :=
  match k with
  | O => Ret (i, mt)
  | S k' =>
      mi <- rd mt i ;;
      mp <- rd mt (i - 1) ;;
      kj <- rd init_key j ;;
      mt <- wr mt i (w32 (Z.lxor mi (Z.lxor mp (Z.shiftr mp 30) * 1664525) + kj + Z.of_nat j)) ;;
      let i1 := S i in
      let j1 := S j in
      r <- (if (NN <=? i1)%nat then
              last <- rd mt (NN - 1) ;; mt <- wr mt 0 last ;; Ret (1%nat, mt)
            else Ret (i1, mt)) ;;
      let j2 := if (length init_key <=? j1)%nat then O else j1 in
      array_loop1 k' init_key (fst r) j2 (snd r)
  end.
(** mt19937.c:82-91, second loop *)
Fixpoint array_loop2 (k : nat) (i : nat) (mt : list Z) : outcome (nat * list Z) :=
  match k with
  | O => Ret (i, mt)
  | S k' =>
      mi <- rd mt i ;;
      mp <- rd mt (i - 1) ;;
      mt <- wr mt i (w32 (Z.lxor mi (Z.lxor mp (Z.shiftr mp 30) * 1566083941) - Z.of_nat i)) ;;
      let i1 := S i in
      r <- (if (NN <=? i1)%nat then
              last <- rd mt (NN - 1) ;; mt <- wr mt 0 last ;; Ret (1%nat, mt)
            else Ret (i1, mt)) ;;
      array_loop2 k' (fst r) (snd r)
  end.
(** mt19937.c:56-94 mt19937_init_by_array *)
Definition mt_init_by_array (key0 : list Z) (init_key : list Z) : outcome mt_state :=
  st <- init_genrand key0 19650218 ;;
  let k := if (length init_key <? NN)%nat then NN else length init_key in
  r <- array_loop1 k init_key 1 0 (mt_key st) ;;
  r <- array_loop2 (NN - 1) (fst r) (snd r) ;;
  mt <- wr (snd r) 0 0x80000000 ;;
  Ret (mkMt mt (mt_pos st)).

(** one assignment of mt19937_gen: mt19937.c:118-119, 122-123, 125-126.
    [i] is the word rewritten, [i1] the word giving the low bits and [src] the
    word combined with.  -(y & 1) is computed in uint32_t. *)
Definition gen_step (key : list Z) (i i1 src : nat) : outcome (list Z) :=
  ki <- rd key i ;;
  ki1 <- rd key i1 ;;
  let y := Z.lor (Z.land ki UPPER_MASK) (Z.land ki1 LOWER_MASK) in
  ks <- rd key src ;;
  wr key i (Z.lxor (Z.lxor ks (Z.shiftr y 1)) (Z.land (w32 (- Z.land y 1)) MATRIX_A)).

(** mt19937.c:117-120 *)
Fixpoint gen_loop1 (k i : nat) (key : list Z) : outcome (list Z) :=
  match k with
  | O => Ret key
  | S k' => key <- gen_step key i (i + 1) (i + MM) ;; gen_loop1 k' (S i) key
  end.
(** mt19937.c:121-124; i + (M - N) with M - N negative *)
Fixpoint gen_loop2 (k i : nat) (key : list Z) : outcome (list Z) :=
  match k with
  | O => Ret key
  | S k' => key <- gen_step key i (i + 1) (i - (NN - MM)) ;; gen_loop2 k' (S i) key
  end.
(** mt19937.c:96-133 mt19937_gen *)
Definition mt_gen (st : mt_state) : outcome mt_state :=
  key <- gen_loop1 (NN - MM) 0 (mt_key st) ;;
  key <- gen_loop2 (NN - 1 - (NN - MM)) (NN - MM) key ;;
  key <- gen_step key (NN - 1) 0 (MM - 1) ;;
  Ret (mkMt key 0).

(** mt19937.h:37-41, tempering; shifts left are truncated to 32 bits *)
Definition temper (y : Z) : Z :=
  let y := Z.lxor y (Z.shiftr y 11) in
  let y := Z.lxor y (Z.land (w32 (Z.shiftl y 7)) 0x9d2c5680) in
  let y := Z.lxor y (Z.land (w32 (Z.shiftl y 15)) 0xefc60000) in
  Z.lxor y (Z.shiftr y 18).

(** mt19937.h:28-44 mt19937_next *)
Definition mt_next (st : mt_state) : outcome (Z * mt_state) :=
  st <- (if (mt_pos st =? NN)%nat then mt_gen st else Ret st) ;;
  y <- rd (mt_key st) (mt_pos st) ;;
  Ret (temper y, mkMt (mt_key st) (S (mt_pos st))).

(** mt19937.h:49-51 mt19937_next64.  The order of evaluation of the two calls is
    unspecified in C: [left_first] says which one the compiler chose. *)
Definition mt_next64 (left_first : bool) (st : mt_state) : outcome (Z * mt_state) :=
  r1 <- mt_next st ;;
  r2 <- mt_next (snd r1) ;;
  let '(hi, lo) := if left_first then (fst r1, fst r2) else (fst r2, fst r1) in
  Ret (Z.lor (Z.shiftl hi 32) lo, snd r2).

(** mt19937.h:57-60 mt19937_next_double, as the numerator of a fraction with
    denominator 2^53 = 9007199254740992.  (The double computation is exact: all
    intermediate values are integers below 2^53.)  The two declarators are
    evaluated in order. *)
Definition mt_next_double53 (st : mt_state) : outcome (Z * mt_state) :=
  r1 <- mt_next st ;;
  let a := Z.shiftr (fst r1) 5 in
  r2 <- mt_next (snd r1) ;;
  let b := Z.shiftr (fst r2) 6 in
  Ret (a * 67108864 + b, snd r2).

(** a client drawing [t] values one after the other *)
Fixpoint mt_draws (t : nat) (st : mt_state) : outcome (list Z * mt_state) :=
  match t with
  | O => Ret ([], st)
  | S t' => r <- mt_next st ;;
            s <- mt_draws t' (snd r) ;;
            Ret (fst r :: fst s, snd s)
  end.

(** an arbitrary client mixing the three kinds of draws; [lf k] is the
    evaluation order chosen at the k-th remaining call *)
Inductive mt_op : Type := Draw32 | Draw64 | DrawDouble.
Definition mt_run_op (lf : bool) (o : mt_op) (st : mt_state) : outcome (Z * mt_state) :=
  match o with
  | Draw32 => mt_next st
  | Draw64 => mt_next64 lf st
  | DrawDouble => mt_next_double53 st
  end.
Fixpoint mt_run (lf : nat -> bool) (os : list mt_op) (st : mt_state) : outcome (list (mt_op * Z) * mt_state) :=
  match os with
  | [] => Ret ([], st)
  | o :: os' => r <- mt_run_op (lf (length os)) o st ;;
                s <- mt_run lf os' (snd r) ;;
                Ret ((o, fst r) :: fst s, snd s)
  end.
