(** Model of c/bit_array.h: arrays of 64-bit words used as bit sets.

    A [bit_array *] is a pair of a memory block (list of words) and an offset into
    it; a word is an integer below 2^64.  size_t arithmetic on indices is exact
    (overflow is not modelled). *)
From Coq Require Import List ZArith Lia Bool Arith.
From Verif Require Import Base.
Import ListNotations.
Open Scope Z_scope.

(** bit_array.h:13 bit_array_word_size *)
Definition word_size : nat := 64.
(** bit_array.h:15-19 bitset_index, bitset_word *)
Definition bitset_index (pos : nat) : nat := (pos mod word_size)%nat.
Definition bitset_word (pos : nat) : nat := (pos / word_size)%nat.
(** uint64_t arithmetic *)
Definition wrap64 (x : Z) : Z := x mod 2 ^ 64.
(** bit_array.h:21-22 bitset_mask *)
Definition bitset_mask (k : nat) : Z := wrap64 (Z.shiftl 1 (Z.of_nat k)).
(** ~ on uint64_t *)
Definition not64 (x : Z) : Z := wrap64 (Z.lnot x).

(** bit_array.h:24-27 bit_array_set_one *)
Definition bit_array_set_one (b : list Z) (off i : nat) : outcome (list Z) :=
  w <- rd b (off + bitset_word i) ;;
  wr b (off + bitset_word i) (Z.lor w (bitset_mask (bitset_index i))).
(** bit_array.h:29-32 bit_array_set_zero *)
Definition bit_array_set_zero (b : list Z) (off i : nat) : outcome (list Z) :=
  w <- rd b (off + bitset_word i) ;;
  wr b (off + bitset_word i) (Z.land w (not64 (bitset_mask (bitset_index i)))).
(** bit_array.h:34-37 bit_array_get *)
Definition bit_array_get (b : list Z) (off i : nat) : outcome Z :=
  w <- rd b (off + bitset_word i) ;;
  Ret (Z.land (Z.shiftr w (Z.of_nat (bitset_index i))) 1).
(** bit_array.h:39-42 bit_nwords *)
Definition bit_nwords (nbits : nat) : nat := ((nbits + word_size - 1) / word_size)%nat.
(** bit_array.h:76-79 bit_array_set *)
Definition bit_array_set (b : list Z) (off i : nat) (x : bool) : outcome (list Z) :=
  if x then bit_array_set_one b off i else bit_array_set_zero b off i.
(** bit_array.h:92-96 bit_array_offset *)
Definition bit_array_offset (off k nbits : nat) : nat := (off + k * bit_nwords nbits)%nat.
(** bit_array.h:70-74 bit_array_zero_all; :108-111 bit_array_copy: memset and
    memcpy of bit_nwords(n) words, as checked word-by-word loops *)
Fixpoint zero_words (b : list Z) (off m : nat) : outcome (list Z) :=
  match m with
  | O => Ret b
  | S m => b <- wr b off 0 ;; zero_words b (S off) m
  end.
Definition bit_array_zero_all (b : list Z) (off n : nat) := zero_words b off (bit_nwords n).
Fixpoint copy_words (dest : list Z) (doff : nat) (src : list Z) (soff m : nat) : outcome (list Z) :=
  match m with
  | O => Ret dest
  | S m => w <- rd src soff ;; dest <- wr dest doff w ;;
           copy_words dest (S doff) src (S soff) m
  end.
Definition bit_array_copy (dest : list Z) (doff : nat) (src : list Z) (soff n : nat) :=
  copy_words dest doff src soff (bit_nwords n).
