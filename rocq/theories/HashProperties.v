(** Theorems about the hash table inside the index: C41.  The vocabulary is in
    SpecHash.v, the model in WhHash.v. *)
From Coq Require Import ZArith List Bool.
From Verif Require Import Base Key WhHash SpecHash WhHashProofs WhHashClaims.
Import ListNotations.
Open Scope Z_scope.

(** ** C41: the hash table is a finite map, when its calls return *)
(** For every hash function and every sequence of calls that the index may make: if
    the calls return, each found the node it was called for, and afterwards a look-up
    of any prefix gives exactly the node stored for it, or nothing.  The quick test
    on tags never misses a stored prefix.  (Missing for the full property: that the
    calls return, which is refuted below.) *)
Theorem C41_table_is_a_map_partial H fuel cs f t rs : proper H no_nodes cs f -> trun fuel hinit cs = Ok (t, rs) ->
  rs = repeat true (length cs) /\ forall k, get t k (H k) = Ok (f k) /\ (f k <> None -> peek t (H k) = true).
Proof. exact (table_is_a_map H fuel cs f t rs). Qed.
Print Assumptions C41_table_is_a_map_partial.
(** 33 calls with nodes that are pushed from one bucket to another, and the exchange
    of a node that was pushed *)
Definition C41_calls : list tcall := round_calls ++ [Swap (nth 3 ten (mknode 0 [] 0)) (mknode 12288 (nth 3 ten_keys []) (crc32c (nth 3 ten_keys [])))].
Example C41_example : exists f t rs, proper crc32c no_nodes C41_calls f /\ trun 5 hinit C41_calls = Ok (t, rs)
  /\ get t (nth 3 ten_keys []) (crc32c (nth 3 ten_keys [])) = Ok (Some (mknode 12288 (nth 3 ten_keys []) (crc32c (nth 3 ten_keys []))))
  /\ get t (nth 14 fifteen_keys []) (crc32c (nth 14 fifteen_keys [])) = Ok None.
Proof.
  destruct (properb crc32c [] C41_calls) as [ns|] eqn:E; [|vm_compute in E; discriminate].
  destruct (properb_ok _ _ _ _ _ listed_nil E) as (f & P & _). exists f.
  assert (Hx : match trun 5 hinit C41_calls with
    | Ok (t, _) => get t (nth 3 ten_keys []) (crc32c (nth 3 ten_keys [])) = Ok (Some (mknode 12288 (nth 3 ten_keys []) (crc32c (nth 3 ten_keys []))))
        /\ get t (nth 14 fifteen_keys []) (crc32c (nth 14 fifteen_keys [])) = Ok None
    | _ => False end) by (vm_compute; split; reflexivity).
  destruct (trun 5 hinit C41_calls) as [[t rs]| |]; try contradiction. exists t, rs. split; [exact P|]. split; [reflexivity|exact Hx].
Qed.

(** No call writes outside a bucket or follows a null pointer. *)
Theorem C41_no_UB H fuel cs f : proper H no_nodes cs f -> trun fuel hinit cs <> UB.
Proof. exact (table_no_UB H fuel cs f). Qed.
Print Assumptions C41_no_UB.

(** The calls return when every new prefix finds room in its first bucket. *)
Theorem C41_calls_return_partial H fuel cs f : proper H no_nodes cs f -> roomy H no_nodes cs -> (2 <= fuel)%nat ->
  exists t rs, trun fuel hinit cs = Ok (t, rs).
Proof.
  intros P R Hf. destruct fuel as [|[|fuel]]; [inversion Hf|apply le_S_n in Hf; inversion Hf|].
  exact (trun_room H fuel cs hinit no_nodes f (hinit_stores H) eq_refl P R).
Qed.
Print Assumptions C41_calls_return_partial.
Definition C41_short : list tcall :=
  map Add (firstn 4 ten) ++ [Drop (nth 2 ten (mknode 0 [] 0)); Swap (nth 3 ten (mknode 0 [] 0)) (mknode 12288 (nth 3 ten_keys []) (crc32c (nth 3 ten_keys [])))].
Example C41_short_example : exists f, proper crc32c no_nodes C41_short f /\ roomy crc32c no_nodes C41_short.
Proof.
  destruct (properb crc32c [] C41_short) as [ns|] eqn:E; [|vm_compute in E; discriminate].
  destruct (properb_ok _ _ _ _ _ listed_nil E) as (f & P & _). exists f. split; [exact P|].
  apply (roomy_short crc32c C41_short no_nodes []); [intros q Hq; exfalso; apply Hq; reflexivity|]. vm_compute. repeat constructor.
Qed.

(** Storing nine prefixes with the same hash does not return: the table is made
    larger again and again. *)
Theorem C41_equal_hashes_refuted : exists cs f, proper crc32c no_nodes cs f /\ length cs = 9%nat /\ forall fuel, trun fuel hinit cs = Fuel.
Proof.
  destruct equal_hashes as (f & P & E). exists (map Add nine), f. split; [exact P|]. split; [vm_compute; reflexivity|exact E].
Qed.
Print Assumptions C41_equal_hashes_refuted.
(** With different hashes too: two buckets can each hold a node whose first bucket is
    the other one, and making room then goes round between them, with 16 nodes in a
    table of 32768 slots. *)
Theorem C41_round_moves_refuted : exists cs m f, proper crc32c no_nodes (cs ++ [Add m]) f
  /\ (forall fuel, (3 <= fuel)%nat -> exists t rs, trun fuel hinit cs = Ok (t, rs))
  /\ forall fuel, trun fuel hinit (cs ++ [Add m]) = Fuel.
Proof. destruct moves_round as (f & H). exists round_calls, (nth 9 ten (mknode 0 [] 0)), f. exact H. Qed.
Print Assumptions C41_round_moves_refuted.
