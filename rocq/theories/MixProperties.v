(** The properties of /verif/properties.jsonl for histories in which insertions, splits
    and deletions alternate.  Vocabulary: SpecMixed.v, SpecFilter.v, SpecSplit.v. *)
From Coq Require Import ZArith List Bool Lia Sorting.Sorted Permutation.
From Coq Require Import ZifyBool.
From Verif Require Import Base Util Store Spec Tables Key Diva Serial SpecFilter SpecBlock SpecSerial SpecSplit SpecMixed Hist Claims DelClaims SplitHist SplitTotal SerialClaims ShrinkTree MixHist Explain MixClaims.
Import ListNotations.
Open Scope Z_scope.

(** Concrete inputs used in the examples: four keys become boundaries, one of them
    truncated; keys are taken out of blocks behind both kinds, one of them stored twice. *)
Definition mx_keys : list key := [[1; 2]; [3; 4]; [200; 7]].
Definition mx_acts : list act :=
  [Put [3; 5] true; Put [2; 150] false; Put [150; 1] true; Put [3; 4] false; Drop [3; 4]; Put [160; 7] true; Put [3; 7] false; Drop [2; 150];
   Put [3; 5] false; Drop [3; 5]; Put [2; 100] true; Drop [3; 7]].
Lemma mx_loadable : loadable (FixedLength 2) mx_keys.
Proof. constructor; [repeat constructor; lia|discriminate|discriminate|]. split; [repeat constructor|]. repeat constructor. Qed.
Definition mx_ends : list key := [[0; 0]; [1; 2]; [2; 100]; [3; 0]; [150; 1]; [160; 7]; [200; 7]; [255; 255]].
Lemma mx_mixed : exists d, mixed (machine 0) 3 2 mx_keys mx_acts d /\ boundaries d = mx_ends /\ footprint d < 2 ^ 32 /\ map (fun e => is_partial_key (snd e)) (d_tree d) = [false; false; false; true; false; false; false; false].
Proof.
  assert (H : match mixedb (machine 0) 3 2 mx_keys mx_acts with
              | Some d => boundaries d = mx_ends /\ (footprint d <? 2 ^ 32) = true /\ map (fun e => is_partial_key (snd e)) (d_tree d) = [false; false; false; true; false; false; false; false]
              | None => False end) by (vm_compute; repeat split; reflexivity).
  destruct (mixedb (machine 0) 3 2 mx_keys mx_acts) as [d|] eqn:E; [|contradiction]. destruct H as (H1 & H2 & H3). exists d.
  split; [apply mixedb_ok; [lia|lia|apply machine_ok|exact mx_loadable|exact E]|]. split; [exact H1|]. split; [apply Z.ltb_lt; exact H2|exact H3].
Qed.

(** ** C07 (also C01 and C02): every key that is left is found, by point queries and by
    the range queries that contain it.
    Missing: deletions that merge two blocks after a split.  Behind a truncated
    boundary they lose keys at once ([Findings.C07_C25_delete_after_split_refuted]),
    at a whole boundary with the next deletion ([C07_C25_merge_after_split_refuted]). *)
Theorem C07_deletes_lose_nothing_with_splits_partial :
  forall junk s, 1 <= s <= 46 -> forall len keys acts d, mixed (machine junk) s len keys acts d ->
  forall k, In k (left_over keys acts) -> point_query (machine junk) d k = Ok true /\
    forall int_opt l r, bytes l -> bytes r -> suited int_opt (FixedLength len) l r -> le l k -> le k r -> range_query int_opt (machine junk) d l r = Ok true.
Proof. exact mixed_found. Qed.
Print Assumptions C07_deletes_lose_nothing_with_splits_partial.
Example C07_example_with_splits : (exists d, mixed (machine 0) 3 2 mx_keys mx_acts d) /\
  left_over mx_keys mx_acts = [[2; 100]; [160; 7]; [150; 1]; [3; 5]; [1; 2]; [3; 4]; [200; 7]].
Proof. destruct mx_mixed as (d & H & _). split; [exists d; exact H|reflexivity]. Qed.

(** One deletion in such a filter: it returns, moves no boundary, and loses no other
    key, if the key is no boundary and not behind a truncated one. *)
Theorem C07_C17_delete_returns_with_splits_partial :
  forall junk s, 1 <= s <= 46 -> forall len keys acts d k, mixed (machine junk) s len keys acts d ->
  In k (left_over keys acts) -> ~ In k (boundaries d) -> whole_start d k -> uncrammed (machine junk) d k ->
  exists d', delete (machine junk) d k = Ok d' /\ boundaries d' = boundaries d /\
    forall k', In k' (remove_one k (left_over keys acts)) -> point_query (machine junk) d' k' = Ok true /\
      forall int_opt l r, bytes l -> bytes r -> suited int_opt (FixedLength len) l r -> le l k' -> le k' r -> range_query int_opt (machine junk) d' l r = Ok true.
Proof. exact mixed_drop. Qed.
Print Assumptions C07_C17_delete_returns_with_splits_partial.
(** The whole history returns when each of its steps is of a kind that is known to. *)
Theorem C17_mixed_histories_return_partial :
  forall junk s, 1 <= s <= 46 -> forall len keys acts, Z.of_nat len < 2 ^ 29 -> loadable (FixedLength len) keys ->
  (forall d0, load (machine junk) s (FixedLength len) keys = Ok d0 -> smooth (machine junk) s len d0 keys acts) ->
  exists d, mixed (machine junk) s len keys acts d.
Proof. exact smooth_succeeds. Qed.
Print Assumptions C17_mixed_histories_return_partial.
Definition mx_smooth : list act := [Put [3; 5] true; Put [2; 150] false; Put [150; 1] true; Drop [2; 150]; Put [2; 100] true; Put [170; 1] false; Drop [170; 1]].
Example C17_example_mixed : forall d0, load (machine 0) 3 (FixedLength 2) mx_keys = Ok d0 -> smooth (machine 0) 3 2 d0 mx_keys mx_smooth.
Proof.
  intros d0 E. apply smoothb_ok; [lia|apply machine_ok|].
  assert (H : match load (machine 0) 3 (FixedLength 2) mx_keys with Ok d => smoothb (machine 0) 3 2 d mx_keys mx_smooth | _ => false end = true) by (vm_compute; reflexivity).
  rewrite E in H. exact H.
Qed.
Example C07_C17_example_mixed : exists d, mixed (machine 0) 3 2 mx_keys (removelast mx_smooth) d /\ In [170; 1] (left_over mx_keys (removelast mx_smooth)) /\
  ~ In [170; 1] (boundaries d) /\ whole_start d [170; 1] /\ uncrammed (machine 0) d [170; 1].
Proof.
  assert (H : match mixedb (machine 0) 3 2 mx_keys (removelast mx_smooth) with
              | Some d => negb (existsb (same_key [170; 1]) (boundaries d)) && whole_startb (d_tree d) [170; 1] && uncrammedb (machine 0) (d_size d) (d_tree d) [170; 1] | None => false end = true)
    by (vm_compute; reflexivity).
  destruct (mixedb (machine 0) 3 2 mx_keys (removelast mx_smooth)) as [d|] eqn:E; [|discriminate]. apply andb_true_iff in H as [H H3]. apply andb_true_iff in H as [H1 H2].
  exists d. split; [apply mixedb_ok; [lia|lia|apply machine_ok|exact mx_loadable|exact E]|]. split; [cbn; auto|].
  split; [intros Hin; apply negb_true_iff in H1; apply existsb_held in Hin; congruence|]. split; [apply whole_startb_ok; exact H2|apply uncrammedb_ok; [apply machine_ok|exact H3]].
Qed.

(** ** C08: shrinking the elements afterwards loses none of the keys that are left. *)
Theorem C08_shrink_after_mixed_partial :
  forall junk s s', 1 <= s <= 46 -> 1 <= s' <= s -> forall len keys acts d, mixed (machine junk) s len keys acts d -> shrinkable d ->
  exists d', shrink (machine junk) d s' = Ok d' /\ d_size d' = s' /\ boundaries d' = boundaries d /\
    (forall k, In k (left_over keys acts) -> point_query (machine junk) d' k = Ok true /\
      forall int_opt l r, bytes l -> bytes r -> suited int_opt (FixedLength len) l r -> le l k -> le k r -> range_query int_opt (machine junk) d' l r = Ok true).
Proof. exact (fun junk s s' Hs Hs' len keys acts d => mixed_shrink junk s Hs s' len keys acts d Hs'). Qed.
Print Assumptions C08_shrink_after_mixed_partial.
Definition mx_two : list act := [Put [0; 99] false; Put [250; 9] false; Put [120; 9] true; Drop [250; 9]].
Example C08_example_mixed : exists d, mixed (machine 0) 9 2 [[1; 2]; [200; 7]] mx_two d /\ shrinkable d /\ length (boundaries d) = 5%nat.
Proof.
  assert (H : match mixedb (machine 0) 9 2 [[1; 2]; [200; 7]] mx_two with
              | Some d => forallb (fun e => (get_elem_count (snd e) =? 0) || (get_size_grade (snd e) =? 55)) (d_tree d) && (length (boundaries d) =? 5)%nat | None => false end = true) by (vm_compute; reflexivity).
  destruct (mixedb (machine 0) 9 2 [[1; 2]; [200; 7]] mx_two) as [d|] eqn:E; [|discriminate]. apply andb_true_iff in H as [H1 H2]. exists d.
  split; [apply mixedb_ok; [lia|lia|apply machine_ok| |exact E]|].
  - constructor; [repeat constructor; lia|discriminate|discriminate|]. split; repeat constructor.
  - split; [|apply Nat.eqb_eq; exact H2]. unfold shrinkable. rewrite forallb_forall in H1. rewrite Forall_forall. intros e He. specialize (H1 e He). lia.
Qed.

(** ** C09: the filter survives being written and read back. *)
Theorem C09_round_trip_mixed_partial :
  forall junk s, 1 <= s <= 46 -> forall len keys acts d, mixed (machine junk) s len keys acts d -> Z.of_nat len <= 20000 ->
  forall p, readable p -> footprint d < 2 ^ 32 ->
  exists buf d', serialize (machine junk) p d = Ok buf /\ Z.of_nat (length buf) = footprint d /\
    deserialize (machine junk) (p_int p) buf = Ok (d', p_seed p) /\
    d_size d' = d_size d /\ boundaries d' = boundaries d /\ serialize (machine junk) p d' = Ok buf /\
    (forall k, bytes k -> point_query (machine junk) d' k = point_query (machine junk) d k) /\
    (forall int_opt l r, bytes l -> bytes r -> le l r -> suited int_opt (FixedLength len) l r -> range_query int_opt (machine junk) d' l r = range_query int_opt (machine junk) d l r).
Proof. exact mixed_round_trip. Qed.
Print Assumptions C09_round_trip_mixed_partial.
Example C09_example_mixed : exists d, mixed (machine 0) 3 2 mx_keys mx_acts d /\ footprint d < 2 ^ 32 /\ readable (mkparams false bits95 42).
Proof. destruct mx_mixed as (d & H & _ & H2 & _). exists d. split; [exact H|]. split; [exact H2|]. split; [reflexivity|simpl; lia]. Qed.

(** ** C10: Size reports the number of bytes that Serialize writes; the build for
    integers leaves the padding of the keys out. *)
Theorem C10_size_mixed_partial :
  forall junk s, 1 <= s <= 46 -> forall len keys acts d, mixed (machine junk) s len keys acts d ->
  forall p buf, serialize (machine junk) p d = Ok buf ->
  size (machine junk) false d = Z.of_nat (length buf) /\
  size (machine junk) true d = Z.of_nat (length buf) - fold_right Z.add 0 (map (fun k => padded (length k) - Z.of_nat (length k)) (boundaries d)).
Proof. exact mixed_size. Qed.
Print Assumptions C10_size_mixed_partial.
Example C10_example_mixed : exists d buf, mixed (machine 0) 3 2 mx_keys mx_acts d /\ serialize (machine 0) (mkparams false bits95 42) d = Ok buf.
Proof.
  destruct C09_example_mixed as (d & Hg & Hf & Hp).
  destruct (C09_round_trip_mixed_partial 0 3 ltac:(lia) 2 mx_keys mx_acts d Hg ltac:(lia) _ Hp Hf) as (buf & d' & E & _). exists d, buf. auto.
Qed.

(** ** C11, C12, C15, C17, C22: a point query is the range query of one key, the two
    builds agree, wider ranges keep positive answers, and every query returns. *)
Theorem C11_C22_queries_agree_mixed :
  forall junk s, 1 <= s <= 46 -> forall len keys acts d, mixed (machine junk) s len keys acts d ->
  (forall int_opt k, bytes k -> suited int_opt (FixedLength len) k k -> point_query (machine junk) d k = range_query int_opt (machine junk) d k k) /\
  (forall l r, bytes l -> bytes r -> suited true (FixedLength len) l r -> range_query true (machine junk) d l r = range_query false (machine junk) d l r).
Proof. exact mixed_agree. Qed.
Print Assumptions C11_C22_queries_agree_mixed.
Example C11_C22_example_mixed : (exists d, mixed (machine 0) 3 2 mx_keys mx_acts d) /\ suited true (FixedLength 2) [3; 5] [3; 5].
Proof. destruct mx_mixed as (d & H & _). split; [exists d; exact H|]. intros _. split; [exists 2%nat; split; [reflexivity|lia]|]. split; unfold short; cbn; lia. Qed.
Theorem C12_range_answers_grow_mixed :
  forall junk s, 1 <= s <= 46 -> forall len keys acts d, mixed (machine junk) s len keys acts d ->
  forall i1 i2 l r l' r', bytes l -> bytes r -> bytes l' -> bytes r' ->
  suited i1 (FixedLength len) l r -> suited i2 (FixedLength len) l' r' -> le l r -> le l' l -> le r r' ->
  range_query i1 (machine junk) d l r = Ok true -> range_query i2 (machine junk) d l' r' = Ok true.
Proof. exact mixed_grows. Qed.
Print Assumptions C12_range_answers_grow_mixed.
Example C12_example_mixed : exists d, mixed (machine 0) 3 2 mx_keys mx_acts d /\ range_query false (machine 0) d [3; 5] [3; 5] = Ok true.
Proof.
  destruct mx_mixed as (d & H & _). exists d. split; [exact H|].
  apply (C07_deletes_lose_nothing_with_splits_partial 0 3 ltac:(lia) 2 mx_keys mx_acts d H [3; 5]); [cbn; auto 10|repeat constructor; lia|repeat constructor; lia|discriminate|left; reflexivity|left; reflexivity].
Qed.
Theorem C15_C17_queries_return_mixed_partial :
  forall junk s, 1 <= s <= 46 -> forall len keys acts d, mixed (machine junk) s len keys acts d ->
  (forall k, bytes k -> le (repeat 0 len) k -> le k (repeat 255 len) -> exists b, point_query (machine junk) d k = Ok b) /\
  (forall i l r, bytes l -> bytes r -> suited i (FixedLength len) l r -> le (repeat 0 len) l -> le l r -> le r (repeat 255 len) ->
     exists b, range_query i (machine junk) d l r = Ok b).
Proof. exact mixed_answers. Qed.
Print Assumptions C15_C17_queries_return_mixed_partial.
(** ** C29: such a filter can be destroyed, and each of its blocks is freed. *)
Theorem C29_can_be_destroyed_mixed_partial :
  forall junk s, 1 <= s <= 46 -> forall len keys acts d, mixed (machine junk) s len keys acts d -> destroy d = Ok (map snd (d_tree d)).
Proof. exact mixed_destroy. Qed.
Print Assumptions C29_can_be_destroyed_mixed_partial.
Example C15_C17_C29_example_mixed : exists d, mixed (machine 0) 3 2 mx_keys mx_acts d.
Proof. destruct mx_mixed as (d & H & _). exists d. exact H. Qed.

(** ** C07, C25: merging two blocks after a split can put their elements in the wrong
    order.  The key [k] was stored, coarsely, before its block was split: its element
    covers the whole neighbourhood of the boundary [b], also below it.  [y] is stored
    precisely below [b].  Deleting [b] appends the elements of the block above to those
    of the block below (diva.hpp:1604-1615), so that [y] comes before the coarse
    element although it begins after it (an assertion of the debug build,
    diva.hpp:1617-1623, would fail).  Nothing is lost yet.  But Delete looks
    for the last element that matches (diva.hpp:2400-2417), and for [y] that is now the
    element of [k]: deleting [y] loses [k] and leaves [y].  All boundaries are whole
    keys, no block is crammed, all deleted keys are stored. *)
Definition turn_keys : list key := [[100; 0; 102; 77]; [200; 0; 0; 0]].
Definition turn_acts : list act := [Put [100; 0; 102; 78] false; Put [100; 64; 0; 0] true; Put [99; 220; 0; 0] true; Put [100; 0; 98; 0] false].
Theorem C07_C25_merge_after_split_refuted : exists d d1 d2,
  let b := [100; 0; 102; 77] in let y := [100; 0; 98; 0] in let k := [100; 0; 102; 78] in
  mixed (machine 0) 6 4 turn_keys turn_acts d /\ Forall (fun e => is_partial_key (snd e) = false) (d_tree d) /\
  In b (boundaries d) /\ mergeable d b /\ left_over turn_keys turn_acts = [y; [99; 220; 0; 0]; [100; 64; 0; 0]; k; b; [200; 0; 0; 0]] /\
  delete (machine 0) d b = Ok d1 /\ (forall x, In x [y; [99; 220; 0; 0]; [100; 64; 0; 0]; k; [200; 0; 0; 0]] -> point_query (machine 0) d1 x = Ok true) /\
  uncrammed (machine 0) d1 y /\ ~ In y (boundaries d1) /\ delete (machine 0) d1 y = Ok d2 /\
  point_query (machine 0) d2 k = Ok false /\ point_query (machine 0) d2 y = Ok true.
Proof.
  assert (H : match mixedb (machine 0) 6 4 turn_keys turn_acts with
              | Some d => forallb (fun e => negb (is_partial_key (snd e))) (d_tree d) && existsb (same_key [100; 0; 102; 77]) (boundaries d) && mergeableb (d_tree d) [100; 0; 102; 77] = true /\
                  match delete (machine 0) d [100; 0; 102; 77] with
                  | Ok d1 => map (point_query (machine 0) d1) [[100; 0; 98; 0]; [99; 220; 0; 0]; [100; 64; 0; 0]; [100; 0; 102; 78]; [200; 0; 0; 0]] = repeat (Ok true) 5 /\
                      uncrammedb (machine 0) (d_size d1) (d_tree d1) [100; 0; 98; 0] && negb (existsb (same_key [100; 0; 98; 0]) (boundaries d1)) = true /\
                      match delete (machine 0) d1 [100; 0; 98; 0] with
                      | Ok d2 => point_query (machine 0) d2 [100; 0; 102; 78] = Ok false /\ point_query (machine 0) d2 [100; 0; 98; 0] = Ok true
                      | _ => False end
                  | _ => False end
              | None => False end) by (vm_compute; repeat split; reflexivity).
  destruct (mixedb (machine 0) 6 4 turn_keys turn_acts) as [d|] eqn:E; [|contradiction]. destruct H as [H1 H].
  destruct (delete (machine 0) d [100; 0; 102; 77]) as [d1| |] eqn:E1; try contradiction. destruct H as (H2 & H3 & H).
  destruct (delete (machine 0) d1 [100; 0; 98; 0]) as [d2| |] eqn:E2; try contradiction. destruct H as [H4 H5].
  apply andb_true_iff in H1 as [H1 H8]. apply andb_true_iff in H1 as [H6 H7]. apply andb_true_iff in H3 as [H9 H10].
  exists d, d1, d2. cbv zeta. split; [|split; [|split; [|split; [|split; [reflexivity|]]]]].
  - apply mixedb_ok; [lia|lia|apply machine_ok| |exact E]. constructor; [repeat constructor; lia|discriminate|discriminate|]. split; repeat constructor.
  - rewrite forallb_forall in H6. rewrite Forall_forall. intros e He. apply negb_true_iff. apply H6. exact He.
  - apply held_existsb. exact H7.
  - apply mergeableb_ok. exact H8.
  - split; [exact E1|]. split; [intros x Hx; cbn [map repeat] in H2; injection H2 as ? ? ? ? ?; repeat (destruct Hx as [<-|Hx]; [assumption|]); destruct Hx|]. split; [apply uncrammedb_ok; [apply machine_ok|exact H9]|].
    split; [intros Hin; apply existsb_held in Hin; rewrite Hin in H10; discriminate|]. split; [exact E2|]. split; assumption.
Qed.
Print Assumptions C07_C25_merge_after_split_refuted.

(** ** C40: after splits and deletions, too, every positive answer has a reason
    ([SpecMixed.reason]).
    Missing: deletions that merge two blocks. *)
Theorem C40_answers_explained_mixed_partial :
  forall junk s, 1 <= s <= 46 -> forall len keys acts d d0, mixed (machine junk) s len keys acts d -> load (machine junk) s (FixedLength len) keys = Ok d0 ->
  (forall k, bytes k -> length k = len -> point_query (machine junk) d k = Ok true -> reason s len d0 (keys ++ put_in acts) k k) /\
  (forall l r, bytes l -> length l = len -> bytes r -> le l r -> range_query false (machine junk) d l r = Ok true -> reason s len d0 (keys ++ put_in acts) l r).
Proof.
  intros junk s Hs len keys acts d d0 HM E. split; intros; [eapply (mixed_point_explained (machine junk) s Hs (machine_ok junk) (machine_fits junk s (proj1 Hs)))|eapply (mixed_explained (machine junk) s Hs (machine_ok junk) (machine_fits junk s (proj1 Hs)))]; eassumption.
Qed.
Print Assumptions C40_answers_explained_mixed_partial.
(** The bound of C34 on the number of positive prefixes also holds after splits, between
    the boundaries of the loaded filter: the splits in between add nothing. *)
Theorem C40_few_positives_mixed_partial :
  forall junk s, 1 <= s <= 46 -> forall len keys acts d d0 a b, mixed (machine junk) s len keys acts d -> load (machine junk) s (FixedLength len) keys = Ok d0 ->
  neighbours d0 a b -> exists (n : nat) (P : list Z),
  (510 * 2 ^ (s - 1) < top n b - top n a < 1024 * 2 ^ (s - 1) \/ n = (8 * len - 7)%nat) /\
  (length P <= count_between a b (keys ++ put_in acts))%nat /\
  (forall k, bytes k -> length k = len -> lt a k -> lt k b -> point_query (machine junk) d k = Ok true -> In (top n k) P) /\
  (forall l r, bytes l -> length l = len -> bytes r -> lt a l -> le l r -> lt r b -> range_query false (machine junk) d l r = Ok true ->
     exists p, In p P /\ top n l <= p <= top n r).
Proof. intros junk s Hs. exact (mixed_few (machine junk) s Hs (machine_ok junk) (machine_fits junk s (proj1 Hs))). Qed.
Print Assumptions C40_few_positives_mixed_partial.
Lemma mx_load : exists d0, load (machine 0) 3 (FixedLength 2) mx_keys = Ok d0 /\ boundaries d0 = [[0; 0]; [1; 2]; [200; 7]; [255; 255]].
Proof.
  assert (H : match load (machine 0) 3 (FixedLength 2) mx_keys with Ok d0 => boundaries d0 = [[0; 0]; [1; 2]; [200; 7]; [255; 255]] | _ => False end) by (vm_compute; reflexivity).
  destruct (load (machine 0) 3 (FixedLength 2) mx_keys) as [d0| |]; try contradiction. exists d0. auto.
Qed.
Example C40_example : exists d d0, mixed (machine 0) 3 2 mx_keys mx_acts d /\ load (machine 0) 3 (FixedLength 2) mx_keys = Ok d0 /\ neighbours d0 [1; 2] [200; 7] /\
  point_query (machine 0) d [3; 9] = Ok true /\ range_query false (machine 0) d [140; 0] [159; 255] = Ok true /\ range_query false (machine 0) d [161; 0] [199; 255] = Ok false.
Proof.
  destruct mx_load as (d0 & E0 & H2).
  assert (H : match mixedb (machine 0) 3 2 mx_keys mx_acts with
              | Some d => point_query (machine 0) d [3; 9] = Ok true /\ range_query false (machine 0) d [140; 0] [159; 255] = Ok true /\ range_query false (machine 0) d [161; 0] [199; 255] = Ok false
              | None => False end) by (vm_compute; repeat split; reflexivity).
  destruct (mixedb (machine 0) 3 2 mx_keys mx_acts) as [d|] eqn:E; [|contradiction]. exists d, d0.
  split; [apply mixedb_ok; [lia|lia|apply machine_ok|exact mx_loadable|exact E]|]. split; [exact E0|]. split; [exists [[0; 0]], [[255; 255]]; exact H2|exact H].
Qed.
(** The last seven bits are needed.  Where a block is finer than the keys, a key that is
    inserted again and chosen as a boundary is not truncated (it has no byte to lose),
    but its boundary is still marked as covering up to seven bits
    (diva.hpp:840-847): here 63 keys that the filter told apart from the inserted one
    become positive. *)
Definition again_acts : list act := [Put [50; 64] false].
Theorem C40_split_adds_positives_refuted :
  ~ (forall junk s, 1 <= s <= 46 -> forall len keys acts d k d' k', mixed (machine junk) s len keys acts d -> In k (left_over keys acts) ->
     mixed (machine junk) s len keys (acts ++ [Put k true]) d' -> bytes k' -> length k' = len ->
     point_query (machine junk) d k' = Ok false -> point_query (machine junk) d' k' = Ok false).
Proof.
  assert (H : match mixedb (machine 0) 16 2 mx_keys again_acts, mixedb (machine 0) 16 2 mx_keys (again_acts ++ [Put [50; 64] true]) with
              | Some d, Some d' => (point_query (machine 0) d [50; 65], point_query (machine 0) d' [50; 65]) = (Ok false, Ok true) | _, _ => False end) by (vm_compute; reflexivity).
  destruct (mixedb (machine 0) 16 2 mx_keys again_acts) as [d|] eqn:E; [|contradiction].
  destruct (mixedb (machine 0) 16 2 mx_keys (again_acts ++ [Put [50; 64] true])) as [d'|] eqn:E'; [|contradiction]. injection H as H1 H2. intros H.
  rewrite (H 0 16 ltac:(lia) 2%nat mx_keys again_acts d [50; 64] d' [50; 65]) in H2; [discriminate| | | | | |exact H1].
  - apply mixedb_ok; [lia|lia|apply machine_ok|exact mx_loadable|exact E].
  - left. reflexivity.
  - apply mixedb_ok; [lia|lia|apply machine_ok|exact mx_loadable|exact E'].
  - repeat constructor; lia.
  - reflexivity.
Qed.
Print Assumptions C40_split_adds_positives_refuted.
