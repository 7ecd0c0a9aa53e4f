(** Vocabulary of the theorem statements about single blocks and about the
    configuration.  Nothing here is used by the model. *)
From Coq Require Import ZArith List Bool Sorting.Sorted.
From Verif Require Import Base Store Tables Spec.
Import ListNotations.
Open Scope Z_scope.

(** The configuration of the shipped code: load factor 0.95f, x86-64 execution.
    [junk] is the arbitrary content of freshly allocated memory. *)
Definition machine (junk : Z) : cfg := setup lf95 junk false.
(** The same under the letter of the C++ standard (no access outside an
    allocation at all, no oversized shift). *)
Definition standard (junk : Z) : cfg := setup lf95 junk true.

(** An element of a block with [s]-bit slots: an implicit part below 1024 and a
    non-zero explicit part. *)
Definition element (s x : Z) : Prop := 0 <= x < 1024 * 2 ^ s /\ x mod 2 ^ s <> 0.
(** An element [a10..0] stands for the integers that agree with it above its
    lowest set bit. *)
Definition covers (x y : Z) : Prop :=
  exists n, 0 <= n /\ x mod 2 ^ (n + 1) = 2 ^ n /\ x / 2 ^ (n + 1) = y / 2 ^ (n + 1).
(** first integer an element covers *)
Definition start (x : Z) : Z := x - Z.land x (- x).
Definition ordered (L : list Z) : Prop := StronglySorted (fun x y => start x <= start y) L.

(** A block allocated with the list [L], then filled one element at a time. *)
Fixpoint insert_each (c : cfg) (s : Z) (st : store) (keys : list Z) (total : Z) : res store :=
  match keys with
  | [] => Ok st
  | k :: rest => let* st' := insert_raw c s st k total in insert_each c s st' rest total
  end.
Definition block (c : cfg) (s : Z) (L keys : list Z) (total : Z) : res store :=
  let* st := alloc_with_list c s L total in insert_each c s st keys total.

(** number of set bits of [x] among its [n] lowest *)
Fixpoint ones_below (x : Z) (n : nat) : Z :=
  match n with O => 0 | S m => ones_below x m + (if Z.testbit x (Z.of_nat m) then 1 else 0) end.

(** bit [i] of the bitmap that starts at word [base] *)
Definition bitmap (st : store) (base i : Z) : bool := Z.testbit (mem st) (64 * base + i).

(** element count, size grade, invalid-bit count and partial flag of a block *)
Definition fields (st : store) : Z * Z * Z * bool := (get_elem_count st, get_size_grade st, get_invalid_bits st, is_partial_key st).

(** ** Histories of one block *)
Inductive bop := Put (x : Z) | Take (x : Z).
Definition block_op (c : cfg) (s : Z) (st : store) (o : bop) (total : Z) : res store :=
  match o with Put x => insert_raw c s st x total | Take x => delete_raw c s st x total end.
Fixpoint block_ops (c : cfg) (s : Z) (st : store) (ops : list bop) (total : Z) : res store :=
  match ops with [] => Ok st | o :: rest => let* st' := block_op c s st o total in block_ops c s st' rest total end.
(** What they do to the ordered list of elements: a new element goes behind the
    elements that do not start after it, and the last element that covers the
    argument is taken out. *)
Fixpoint put_in (x : Z) (L : list Z) : list Z :=
  match L with [] => [x] | y :: rest => if start x <? start y then x :: L else y :: put_in x rest end.
Definition taken (x : Z) (L L' : list Z) : Prop :=
  exists A y B, L = A ++ y :: B /\ L' = A ++ B /\ covers y x /\ Forall (fun z => ~ covers z x) B.
Fixpoint list_ops (L : list Z) (ops : list bop) (L' : list Z) : Prop :=
  match ops with
  | [] => L' = L
  | Put x :: rest => list_ops (put_in x L) rest L'
  | Take x :: rest => exists L1, taken x L L1 /\ list_ops L1 rest L'
  end.
(** Limits, checked along the way: full-length elements, the 20-bit counter does
    not overflow, and only covered elements are taken, from a block that is not
    crammed. *)
Fixpoint lawful_ops (c : cfg) (s total : Z) (st : store) (L : list Z) (ops : list bop) : Prop :=
  match ops with
  | [] => True
  | o :: rest =>
      match o with
      | Put x => element s x /\ Z.odd x = true /\ Z.of_nat (length L) + 1 < 2 ^ 20
      | Take x => element s x /\ Z.odd x = true /\ (exists y, In y L /\ covers y x) /\
                  forall st1, delete_block c s st total = Ok st1 -> ~ crammed c s st1 total
      end /\
      forall st' L', block_op c s st o total = Ok st' -> list_ops L [o] L' -> lawful_ops c s total st' L' rest
  end.
