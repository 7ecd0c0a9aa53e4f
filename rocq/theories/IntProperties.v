(** Properties of the integer index, which the filter uses instead of the ordered index
    of IndexProperties.v when it is built with int_optimized (C39 of
    /verif/properties.jsonl).  Vocabulary: SpecIndex.v, SpecInt.v. *)
From Coq Require Import ZArith List Bool Lia.
From Verif Require Import Base Key Store Diva SpecFilter SpecIndex SpecInt Wormhole WhKey WhRun WhClaims WhInt WhIntRun WhIntClaims.
Import ListNotations.
Open Scope Z_scope.

(** ** C39: the integer index is a map ordered by key, for callers that look before they
    write.  Part: until more than 32 keys are bound, or as long as no key is
    erased.  Beyond that the code can fail, see below. *)
Theorem C39_integer_index_partial :
  forall (V : Type) (cs : list ((key -> bool) * call V)), (forall fp c, In (fp, c) cs -> call_short c) -> orderly nothing unseen (map snd cs) ->
  growing (map snd cs) \/ always (few 32) nothing (map snd cs) ->
  exists w rs, int_calls true wh_create cs = Ok (w, rs) /\ serves nothing (map snd cs) rs.
Proof. intros V cs H1 H2 H3. apply int_serves; auto. Qed.
Print Assumptions C39_integer_index_partial.
(** and it gives the answers of the sorted list that the model of the filter uses *)
Theorem C39_is_the_sorted_list_partial :
  forall cs : list ((key -> bool) * call store), (forall fp c, In (fp, c) cs -> call_short c) -> orderly nothing unseen (map snd cs) ->
  growing (map snd cs) \/ always (few 32) nothing (map snd cs) ->
  exists w, int_calls true wh_create cs = Ok (w, tree_calls [] (map snd cs)).
Proof. intros cs H1 H2 H3. apply int_is_tree; auto. Qed.
Print Assumptions C39_is_the_sorted_list_partial.
(** with the second change of nr_sorted left out of wormleaf_merge, no limit is needed *)
Theorem C39_integer_index_repaired :
  forall (V : Type) (cs : list ((key -> bool) * call V)), (forall fp c, In (fp, c) cs -> call_short c) -> orderly nothing unseen (map snd cs) ->
  exists w rs, int_calls false wh_create cs = Ok (w, rs) /\ serves nothing (map snd cs) rs.
Proof. intros V cs H1 H2. apply int_serves; auto. Qed.
Print Assumptions C39_integer_index_repaired.

Definition ex_store (n : Z) : store := mkstore n 0 0 true.
Definition ex_key (i : nat) : key := [Z.of_nat (i * 7); 0; 0; 0; 0; 0; 0; Z.of_nat (i * 37 mod 256)].
(** how the filter removes a boundary: it looks at the neighbours, erases the key and
    binds the key before it to the merged block (diva.hpp:1565-1643) *)
Definition ex_unbind (i : nat) : list (call store) := [Walk (ex_key i) [true; false; false]; Erase (ex_key i); Bind (ex_key (i - 1)) (ex_store 2)].
Definition quiet (cs : list (call store)) : list ((key -> bool) * call store) := map (fun c => (fun _ => false, c)) cs.
Lemma quiet_snd cs : map snd (quiet cs) = cs.
Proof. unfold quiet. rewrite map_map. apply map_id. Qed.
(** 34 keys, then ten boundaries removed from above: the two leaves merge, nr_sorted is 32
    for 23 keys, and the next iterator that comes there sorts 2^32 - 9 pairs *)
Definition ex_bad : list (call store) := map (fun i => Bind (ex_key i) (ex_store 1)) (seq 1 34) ++ flat_map ex_unbind (rev (seq 15 11)) ++ [Walk (ex_key 1) []].
Theorem C39_integer_index_refuted : exists cs : list ((key -> bool) * call store),
  (forall fp c, In (fp, c) cs -> call_short c) /\ orderly nothing unseen (map snd cs) /\ int_calls true wh_create cs = UB.
Proof.
  exists (quiet ex_bad). split; [apply shortb_ok; rewrite quiet_snd; vm_compute; reflexivity|]. split; [rewrite quiet_snd; apply orderlyb_start; vm_compute; reflexivity|].
  vm_compute. reflexivity.
Qed.
Print Assumptions C39_integer_index_refuted.
(** A caller that does not look first can be answered wrongly: the pairs 3 and 1 are in
    the unsorted part of the leaf, the second binding of 1 does not find the first,
    and the iterator then shows 1 twice. *)
Theorem C39_unordered_calls_refuted : exists (cs : list ((key -> bool) * call store)) w rs,
  (forall fp c, In (fp, c) cs -> call_short c) /\ int_calls true wh_create cs = Ok (w, rs) /\ ~ serves nothing (map snd cs) rs.
Proof.
  set (cs := [Bind [5] (ex_store 1); Bind [3] (ex_store 2); Bind [1] (ex_store 3); Bind [1] (ex_store 4); Walk [0] [true]]).
  exists (quiet cs). assert (exists w, int_calls true wh_create (quiet cs) = Ok (w, repeat (Stored true) 4 ++ [Seen [Some ([1], ex_store 3); Some ([1], ex_store 4)]])) as [w E].
  { destruct (int_calls true wh_create (quiet cs)) as [[w rs]| |] eqn:E; [|exfalso; revert E; vm_compute; discriminate|exfalso; revert E; vm_compute; discriminate].
    exists w. do 2 f_equal. assert (match int_calls true wh_create (quiet cs) with Ok (_, rs) => rs = repeat (Stored true) 4 ++ [Seen [Some ([1], ex_store 3); Some ([1], ex_store 4)]] | _ => True end) as G by (vm_compute; reflexivity).
    rewrite E in G. exact G. }
  eexists w, _. split; [apply shortb_ok; rewrite quiet_snd; vm_compute; reflexivity|]. split; [exact E|]. rewrite quiet_snd. intros S.
  unfold cs in S. cbn [repeat app] in S.
  inversion S as [|? m1 ? ? ? ? _ S1| |]; subst. inversion S1 as [|? m2 ? ? ? ? _ S2| |]; subst. inversion S2 as [|? m3 ? ? ? ? _ S3| |]; subst. inversion S3 as [|? m4 ? ? ? ? _ S4| |]; subst.
  inversion S4 as [| | |? ? ? ? ? ? ? L M _]; subst. inversion M as [| |k v o' mv ps L' M' |]; subst. inversion M'; subst. destruct L' as (_ & L' & _).
  assert (key_lt [1] [1] = true) as C by (apply lt_klt; exact L'). vm_compute in C. discriminate.
Qed.
Print Assumptions C39_unordered_calls_refuted.

(** cases: 36 keys without erasing, in an order that leaves pairs unsorted; 30 keys with
    erasing; and the sequence above up to the merge, where the repaired code goes on *)
Definition ex_grow : list (call store) :=
  flat_map (fun i => [Bind (ex_key (i * 23 mod 37)) (ex_store (Z.of_nat i)); Walk (ex_key (i * 23 mod 37)) [true]; Bind (ex_key (i * 23 mod 37)) (ex_store 5)]) (seq 0 36).
Definition ex_few : list (call store) := firstn 30 ex_bad ++ ex_unbind 9 ++ ex_unbind 28 ++ [Erase [1; 2]; Walk (ex_key 29) [false]].
Example C39_example :
  ((forall fp c, In (fp, c) (quiet ex_grow) -> call_short c) /\ orderly nothing unseen ex_grow /\ growing ex_grow /\
    exists w rs, int_calls true wh_create (quiet ex_grow) = Ok (w, rs) /\ (2 <= length (w_leaves w))%nat) /\
  ((forall fp c, In (fp, c) (quiet ex_few) -> call_short c) /\ orderly nothing unseen ex_few /\ always (few 32) nothing ex_few /\
    exists w rs, int_calls true wh_create (quiet ex_few) = Ok (w, rs) /\ skipn 36 rs = [Erased false; Seen [Some (ex_key 29, ex_store 1); Some (ex_key 27, ex_store 2)]]) /\
  exists w rs, int_calls false wh_create (quiet ex_bad) = Ok (w, rs) /\ last rs (Stored true) = Seen [Some (ex_key 1, ex_store 1)] /\ length (w_leaves w) = 1%nat.
Proof.
  split; [|split].
  - split; [apply shortb_ok; rewrite quiet_snd; vm_compute; reflexivity|]. split; [apply orderlyb_start; vm_compute; reflexivity|]. split.
    + intros k Hin. unfold ex_grow in Hin. apply in_flat_map in Hin. destruct Hin as (i & _ & [E|[E|[E|[]]]]); discriminate.
    + destruct (int_calls true wh_create (quiet ex_grow)) as [[w rs]| |] eqn:E; [|exfalso; revert E; vm_compute; discriminate|exfalso; revert E; vm_compute; discriminate].
      exists w, rs. split; [reflexivity|]. assert (match int_calls true wh_create (quiet ex_grow) with Ok (w, _) => Nat.leb 2 (length (w_leaves w)) = true | _ => True end) as G by (vm_compute; reflexivity).
      rewrite E in G. apply PeanoNat.Nat.leb_le. exact G.
  - split; [apply shortb_ok; rewrite quiet_snd; vm_compute; reflexivity|]. split; [apply orderlyb_start; vm_compute; reflexivity|]. split; [apply fewb_start; vm_compute; reflexivity|].
    destruct (int_calls true wh_create (quiet ex_few)) as [[w rs]| |] eqn:E; [|exfalso; revert E; vm_compute; discriminate|exfalso; revert E; vm_compute; discriminate].
    exists w, rs. split; [reflexivity|].
    assert (match int_calls true wh_create (quiet ex_few) with Ok (_, rs) => skipn 36 rs = [Erased false; Seen [Some (ex_key 29, ex_store 1); Some (ex_key 27, ex_store 2)]] | _ => True end) as G by (vm_compute; reflexivity).
    rewrite E in G. exact G.
  - destruct (int_calls false wh_create (quiet ex_bad)) as [[w rs]| |] eqn:E; [|exfalso; revert E; vm_compute; discriminate|exfalso; revert E; vm_compute; discriminate].
    exists w, rs. split; [reflexivity|].
    assert (match int_calls false wh_create (quiet ex_bad) with Ok (w, rs) => last rs (Stored true) = Seen [Some (ex_key 1, ex_store 1)] /\ length (w_leaves w) = 1%nat | _ => True end) as G by (vm_compute; split; reflexivity).
    rewrite E in G. exact G.
Qed.
