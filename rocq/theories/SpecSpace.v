(** Vocabulary of the statements about the space that a filter needs. *)
From Coq Require Import ZArith List Bool.
From Verif Require Import Base Store Key Diva SpecFilter.
Import ListNotations.
Open Scope Z_scope.

(** the number of 64-bit words that the blocks of a filter occupy *)
Definition words (d : diva) : Z := fold_right Z.add 0 (map (fun e => wc (snd e)) (d_tree d)).
(** the sum of the element counters of the blocks *)
Definition elements (d : diva) : Z := fold_right Z.add 0 (map (fun e => get_elem_count (snd e)) (d_tree d)).

(** A key may be deleted, as far as the element counters are concerned: the block
    that it belongs to is not empty unless the key is an untruncated boundary
    ([is_partial_key] marks truncated ones), and where a deletion can merge that
    block with the one before it the merged block does not overflow its 20-bit
    counter. *)
Definition deletable (d : diva) (k : key) : Prop :=
  forall before a st after, d_tree d = before ++ (a, st) :: after -> le a k -> Forall (fun e => lt k (fst e)) after ->
  (a = k /\ is_partial_key st = false \/ 0 < get_elem_count st) /\
  (forall before' p stp, before = before' ++ [(p, stp)] -> a = k \/ is_partial_key st = true ->
     get_elem_count stp + get_elem_count st < 2 ^ 20).
(** The filters that loading, insertions with or without splits and deletions can
    produce while no element counter overflows. *)
Inductive reached (c : cfg) (s : Z) (m : loader) (keys : list key) : diva -> Prop :=
| reached_load d : load c s m keys = Ok d -> reached c s m keys d
| reached_insert d k split d' : reached c s m keys d -> counters_free d -> insert c d k split = Ok d' -> reached c s m keys d'
| reached_delete d k d' : reached c s m keys d -> deletable d k -> delete c d k = Ok d' -> reached c s m keys d'.
