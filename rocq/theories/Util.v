(** Model of include/util.hpp: word-level helpers. *)
From Coq Require Import ZArith List Bool.
From Verif Require Import Base.
Import ListNotations.
Open Scope Z_scope.

(** util.hpp:7-9 BITMASK(nbits), for 0 <= nbits <= 64. *)
Definition bitmask (n : Z) : Z := Z.ones n.

(** util.hpp:159-161 lowbit_pos *)
Definition lowbit_pos (x : Z) : Z := tzcnt x.
(** util.hpp:165-167 highbit_pos; -1 on zero. *)
Definition highbit_pos (x : Z) : Z := 64 - lzcnt x - 1.
(** util.hpp:153-155 bit_rank *)
Definition bit_rank (x i : Z) : Z := popcount (Z.land x (bitmask i)).

(** The x86 instruction pdep (Intel SDM), used by util.hpp:142-149: the low bits
    of [src] are deposited at the set bits of [mask].  [n] is the word width and
    [k] the number of mask bits already consumed. *)
Fixpoint pdep_from (n : nat) (i k src mask : Z) : Z :=
  match n with
  | O => 0
  | S m =>
      if Z.testbit mask i
      then (if Z.testbit src k then Z.shiftl 1 i else 0)
           + pdep_from m (i + 1) (k + 1) src mask
      else pdep_from m (i + 1) k src mask
  end.
Definition pdep (src mask : Z) : Z := pdep_from 64 0 0 src mask.

(** util.hpp:142-149 bit_select, BMI2 build.  The shift [1ULL << i] is in range
    because every caller passes i < 64; for i >= 64 the C++ is undefined. *)
Definition bit_select (x i : Z) : Z := tzcnt (pdep (Z.shiftl 1 i) x).
