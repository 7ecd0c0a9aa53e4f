(** Vocabulary of the statements about serialization. *)
From Coq Require Import ZArith List Bool.
From Verif Require Import Base Store Key Diva Serial.
Import ListNotations.
Open Scope Z_scope.

(** The space a filter needs when written: 53 bytes for the metadata and the end
    mark, and for every boundary two 4-byte words, the key filled up to a multiple
    of eight bytes, and the words of its block. *)
Definition padded (n : nat) : Z := 8 * Z.of_nat ((n + 7) / 8).
Definition footprint (d : diva) : Z :=
  53 + fold_right Z.add 0 (map (fun e => 8 + padded (length (fst e)) + 8 * wc (snd e)) (d_tree d)).

(** The default load factor is the only one whose files can be read (see
    Findings.v); the seed is a 32-bit number. *)
Definition readable (p : params) : Prop := p_lf p = bits95 /\ 0 <= p_seed p < 2 ^ 32.
(** no boundary key is longer than the array that it is read into *)
Definition short_boundaries (d : diva) : Prop := Forall (fun e => Z.of_nat (length (fst e)) <= 20000) (d_tree d).
Definition keys_fit (keys : list key) : Prop := Forall (fun k => Z.of_nat (length k) <= 20000) keys.
