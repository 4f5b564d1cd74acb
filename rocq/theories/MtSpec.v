(** Specification of MT19937 (Matsumoto and Nishimura, 1998), written from the
    published definition: word size 32, degree n = 624, middle word m = 397,
    separation point r = 31, twist coefficient a, tempering parameters. *)
From Coq Require Import List ZArith Lia Bool Arith.
Import ListNotations.
Open Scope Z_scope.

Definition mt_n : nat := Z.to_nat 624.
Definition mt_m : nat := Z.to_nat 397.
Definition mt_a : Z := 0x9908b0df.

Definition word (x : Z) : Prop := 0 <= x < 2 ^ 32.

(** concatenation of the top bit of [u] with the low 31 bits of [v] *)
Definition concat_bits (u v : Z) : Z := (u / 2 ^ 31) * 2 ^ 31 + v mod 2 ^ 31.

(** multiplication by the twist matrix A *)
Definition times_A (x : Z) : Z := if Z.odd x then Z.lxor (x / 2) mt_a else x / 2.

(** the linear recurrence x_{k+n} = x_{k+m} xor (x_k^u | x_{k+1}^l) A *)
Definition mt_sequence (x : nat -> Z) : Prop :=
  forall k, x (k + mt_n)%nat = Z.lxor (x (k + mt_m)%nat) (times_A (concat_bits (x k) (x (S k)))).

(** tempering *)
Definition mt_temper (x : Z) : Z :=
  let y1 := Z.lxor x (Z.shiftr x 11) in
  let y2 := Z.lxor y1 (Z.land (Z.shiftl y1 7) 0x9d2c5680) in
  let y3 := Z.lxor y2 (Z.land (Z.shiftl y2 15) 0xefc60000) in
  Z.lxor y3 (Z.shiftr y3 18).

(** the published initialisation from one 32-bit seed *)
Fixpoint knuth (seed : Z) (i : nat) : Z :=
  match i with
  | O => seed
  | S i' => let p := knuth seed i' in
            (1812433253 * Z.lxor p (p / 2 ^ 30) + Z.of_nat i) mod 2 ^ 32
  end.

(** the sequence with given first 624 words, as lists of growing length *)
Fixpoint mt_list (key : list Z) (k : nat) : list Z :=
  match k with
  | O => key
  | S k' => let l := mt_list key k' in
            l ++ [Z.lxor (nth (k' + mt_m) l 0) (times_A (concat_bits (nth k' l 0) (nth (S k') l 0)))]
  end.
Definition mt_seq (key : list Z) (k : nat) : Z := nth k (mt_list key (S k)) 0.
