(** Vocabulary for C17, C24 and C30: when the code can carry out a split. *)
From Coq Require Import ZArith List.
From Verif Require Import Base Store Key Diva Spec SpecFilter.
Import ListNotations.
Open Scope Z_scope.

(** The boundary [a] of the block [st] is a truncated key, and [k] is one of the keys
    it stands for: they agree on all bits of [a] that are valid. *)
Definition stands_for (a : key) (st : store) (k : key) : Prop :=
  is_partial_key st = true /\ (length a <= length k)%nat /\
  let n := (8 * length a - Z.to_nat (get_invalid_bits st))%nat in top n a = top n k.

(** A split at [k] has somewhere to cut and something to cut.  Read [k] and the two
    boundaries around it as numbers of [8 * len] bits.  Unless the boundary below
    already stands for [k], the following holds for [k] itself and for every number
    that [k] becomes when [n] low bits are cleared (with [2 ^ n] well below the
    width of the block):
    - it is not the boundary below [k] (the code would not return, see Findings.v);
    - if it is above that boundary, then its distance from both boundaries is at
      least the fraction [3 * elements / 2 ^ 20] of the width of the block (the
      elements of a part that is narrower may expand to more than a block can hold). *)
Definition splittable (len : nat) (d : diva) (k : key) : Prop :=
  forall A a st b st' B, d_tree d = A ++ (a, st) :: (b, st') :: B -> le a k -> lt k b ->
  stands_for a st k \/ forall n, 0 <= n ->
  let lo := top (8 * len) a in
  let hi := top (8 * len) b in
  let x := top (8 * len) k / 2 ^ n * 2 ^ n in
  n = 0 \/ 510 * 2 ^ n < hi - lo ->
  x <> lo /\
  (lo < x -> 3 * get_elem_count st * (hi - lo) <= 2 ^ 20 * (x - lo) /\ 3 * get_elem_count st * (hi - lo) <= 2 ^ 20 * (hi - x)).

(** every split of an insertion sequence, checked along the way *)
Fixpoint splits_fit (c : cfg) (len : nat) (d : diva) (ops : list (key * bool)) : Prop :=
  match ops with
  | [] => True
  | (k, split) :: rest => (split = true -> splittable len d k) /\ forall d', insert c d k split = Ok d' -> splits_fit c len d' rest
  end.

(** No counter overflows along an insertion sequence. *)
Fixpoint counted (c : cfg) (d : diva) (ops : list (key * bool)) : Prop :=
  match ops with
  | [] => True
  | (k, split) :: rest => counters_free d /\ forall d', insert c d k split = Ok d' -> counted c d' rest
  end.
