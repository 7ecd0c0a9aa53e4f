(** The properties of /verif/properties.jsonl.  Vocabulary: SpecFilter.v (keys,
    loading, histories), SpecBlock.v (configuration, blocks), SpecSerial.v (written
    filters), Words.v (fields, bitmaps, ones_below).  A name that ends in _partial covers part of the
    property; the comment says what is missing. *)
From Coq Require Import ZArith List Bool Lia Sorting.Sorted Permutation.
From Verif Require Import Base Util Store Spec Tables Key Diva Serial SpecFilter SpecBlock SpecSerial SpecSpace Hist Claims BlockClaims DelClaims TablesProofs Words Broadword BroadwordProofs SplitHist SpecSplit SplitTotal SerialClaims HistClaims ShrinkTree SpaceClaims BulkSame.
Import ListNotations.
Open Scope Z_scope.

(** Concrete inputs used in the examples. *)
Definition ex_keys : list key := [[1; 2]; [3; 4]; [200; 7]].
Definition ex_more : list key := [[3; 5]; [2; 255]; [3; 4]; [0; 0]].
Lemma ex_loadable : loadable (FixedLength 2) ex_keys.
Proof.
  constructor; [repeat constructor; lia|discriminate|discriminate|]. split; [repeat constructor|]. repeat constructor.
Qed.
Lemma ex_insertable junk s : insertable (machine junk) s (FixedLength 2) ex_keys ex_more.
Proof.
  apply insertable_few; [repeat constructor; lia| | |reflexivity].
  - repeat first [apply Forall_cons | apply Forall_nil]; first [left; reflexivity | right; reflexivity].
  - repeat constructor.
Qed.
Definition ex_strings : list key := [[1]; [1; 0; 2]; [1; 7]; [9]].
Lemma ex_strings_loadable : loadable Strings ex_strings.
Proof.
  constructor; [repeat constructor; lia|discriminate|discriminate|]. split; [|right; reflexivity]. repeat constructor.
Qed.
Lemma ex_stream_loadable : loadable Streaming ex_strings.
Proof.
  constructor; [repeat constructor; lia|discriminate|discriminate|]. split; [|reflexivity]. repeat constructor.
Qed.

(** insertions whose random choice asks for a split at [true] *)
Definition ex_splits : list (key * bool) :=
  [([3; 5], true); ([2; 255], false); ([3; 4], true); ([150; 1], true); ([3; 7], true); ([3; 5], false)].
Lemma ex_grown : exists d, grown (machine 0) 3 2 ex_keys ex_splits d /\
  boundaries d = [[0; 0]; [1; 2]; [3; 0]; [150; 1]; [200; 7]; [255; 255]].
Proof.
  assert (H : match grownb (machine 0) 3 2 ex_keys ex_splits with
              | Some d => boundaries d = [[0; 0]; [1; 2]; [3; 0]; [150; 1]; [200; 7]; [255; 255]] | None => False end)
    by (vm_compute; reflexivity).
  destruct (grownb (machine 0) 3 2 ex_keys ex_splits) as [d|] eqn:E; [|contradiction].
  exists d. split; [apply grownb_ok; [lia|exact ex_loadable|exact E]|exact H].
Qed.
(** the same filter, about to receive another key *)
Lemma ex_next : exists d d', grown (machine 0) 3 2 ex_keys ex_splits d /\
  (bytes [100; 1] /\ length [100; 1] = 2%nat /\ lt [100; 1] (repeat 255 2)) /\ counters_free d /\ apart 3 2 d [100; 1] /\
  insert (machine 0) d [100; 1] true = Ok d'.
Proof.
  assert (H : match grownb (machine 0) 3 2 ex_keys ex_splits with
              | Some d => withinb (machine 0) 3 2 d [([100; 1], true)] = true /\
                          (match insert (machine 0) d [100; 1] true with Ok _ => true | _ => false end) = true
              | None => False end)
    by (vm_compute; split; reflexivity).
  destruct (grownb (machine 0) 3 2 ex_keys ex_splits) as [d|] eqn:E; [|contradiction]. destruct H as [H1 H2].
  apply grownb_ok in E; [|lia|exact ex_loadable]. apply withinb_ok in H1; [|lia].
  cbn [within_limits] in H1. destruct H1 as (W1 & W2 & W3 & _).
  destruct (insert (machine 0) d [100; 1] true) as [d'| |] eqn:Ei; try discriminate.
  exists d, d'. split; [exact E|]. split; [exact W1|]. split; [exact W2|]. split; [apply W3; reflexivity|exact Ei].
Qed.

(** ** C01: point queries never miss a stored key.
    The first theorem is about histories without splits, for all three loaders.
    The second one allows splits, for keys of one length.
    Missing: splits of blocks of strings of different lengths (refuted in
    Findings.v), splits next to a boundary (see [apart]). *)
Theorem C01_point_queries_never_miss_partial :
  forall junk s, 1 <= s <= 46 -> forall m keys ks, loadable m keys -> insertable (machine junk) s m keys ks ->
  exists d, build (machine junk) s m keys ks = Ok d /\
    forall k, In k keys \/ In k ks -> point_query (machine junk) d k = Ok true.
Proof. exact never_miss_point. Qed.
Print Assumptions C01_point_queries_never_miss_partial.
Example C01_example : loadable (FixedLength 2) ex_keys /\ insertable (machine 0) 6 (FixedLength 2) ex_keys ex_more.
Proof. exact (conj ex_loadable (ex_insertable 0 6)). Qed.

Theorem C01_point_queries_never_miss_with_splits_partial :
  forall junk s, 1 <= s <= 46 -> forall len keys ops d, grown (machine junk) s len keys ops d ->
  forall k, In k keys \/ In k (map fst ops) -> point_query (machine junk) d k = Ok true.
Proof. exact grown_point. Qed.
Print Assumptions C01_point_queries_never_miss_with_splits_partial.
Example C01_example_with_splits : exists d, grown (machine 0) 3 2 ex_keys ex_splits d /\ boundaries d = [[0; 0]; [1; 2]; [3; 0]; [150; 1]; [200; 7]; [255; 255]].
Proof. exact ex_grown. Qed.

(** For short keys ([8 * len + s <= 53] bits, for example 4 byte integers) no key
    has to keep a distance from the boundaries. *)
Theorem C01_C02_C24_short_keys_partial :
  forall junk s, 1 <= s <= 46 -> forall len keys ops d, 8 * Z.of_nat len + s <= 53 -> loadable (FixedLength len) keys ->
  Forall (fun o => bytes (fst o) /\ length (fst o) = len /\ lt (fst o) (repeat 255 len)) ops ->
  (forall d0, load (machine junk) s (FixedLength len) keys = Ok d0 -> counted (machine junk) d0 ops) ->
  grow (machine junk) s len keys ops = Ok d ->
  forall k, In k keys \/ In k (map fst ops) -> point_query (machine junk) d k = Ok true /\
    forall int_opt l r, bytes l -> bytes r -> suited int_opt (FixedLength len) l r -> le l k -> le k r ->
      range_query int_opt (machine junk) d l r = Ok true.
Proof. exact short_keys. Qed.
Print Assumptions C01_C02_C24_short_keys_partial.
Example C01_C02_C24_example_short : exists d,
  Forall (fun o => bytes (fst o) /\ length (fst o) = 2%nat /\ lt (fst o) (repeat 255 2)) ex_splits /\
  (forall d0, load (machine 0) 3 (FixedLength 2) ex_keys = Ok d0 -> counted (machine 0) d0 ex_splits) /\
  grow (machine 0) 3 2 ex_keys ex_splits = Ok d.
Proof.
  destruct ex_grown as (d & (_ & _ & HG) & _). exists d. split; [repeat constructor; lia|]. split; [|exact HG].
  assert (H : match load (machine 0) 3 (FixedLength 2) ex_keys with Ok d0 => countedb (machine 0) d0 ex_splits | _ => false end = true) by (vm_compute; reflexivity).
  intros d0 E. rewrite E in H. apply countedb_ok. exact H.
Qed.

(** ** C02: range queries never miss a stored key.  Missing: as in C01. *)
Theorem C02_range_queries_never_miss_partial :
  forall junk s, 1 <= s <= 46 -> forall m keys ks, loadable m keys -> insertable (machine junk) s m keys ks ->
  exists d, build (machine junk) s m keys ks = Ok d /\
    forall int_opt l r k, In k keys \/ In k ks -> bytes l -> bytes r -> suited int_opt m l r ->
      le l k -> le k r -> range_query int_opt (machine junk) d l r = Ok true.
Proof. exact never_miss_range. Qed.
Print Assumptions C02_range_queries_never_miss_partial.
Example C02_example : suited true (FixedLength 2) [1; 0] [1; 9] /\ le [1; 0] [1; 2] /\ le [1; 2] [1; 9].
Proof. split; [|split; right; reflexivity]. intros _. split; [exists 2%nat; split; [reflexivity|lia]|]. simpl. lia. Qed.

Theorem C02_range_queries_never_miss_with_splits_partial :
  forall junk s, 1 <= s <= 46 -> forall len keys ops d, grown (machine junk) s len keys ops d ->
  forall int_opt l r k, In k keys \/ In k (map fst ops) -> bytes l -> bytes r -> suited int_opt (FixedLength len) l r ->
    le l k -> le k r -> range_query int_opt (machine junk) d l r = Ok true.
Proof. exact grown_range. Qed.
Print Assumptions C02_range_queries_never_miss_with_splits_partial.
Example C02_example_with_splits : exists d, grown (machine 0) 3 2 ex_keys ex_splits d.
Proof. destruct ex_grown as (d & H & _). exists d. exact H. Qed.

(** ** C03: Insert keeps everything already stored: the content of a block after
    any insertions is exactly what was there before plus the new elements. *)
Theorem C03_insert_keeps_content :
  forall junk s total L keys, 1 <= s <= 53 -> 512 <= total <= 1024 -> Forall (element s) L -> ordered L ->
  Forall (fun k => element s k /\ Z.odd k = true) keys -> Z.of_nat (length L + length keys) < 2 ^ 20 ->
  exists st L', block (machine junk) s L keys total = Ok st /\ get_infix_list (machine junk) s st = Ok L' /\
    Permutation L' (L ++ keys) /\ ordered L' /\
    get_elem_count st = Z.of_nat (length L') /\ Z.of_nat (length L') <= c_size (machine junk) (get_size_grade st).
Proof. exact (fun junk s total L keys Hs => block_contents (machine junk) s Hs (machine_ok junk) (machine_fits junk s (proj1 Hs)) total L keys). Qed.
Print Assumptions C03_insert_keeps_content.
Example C03_example : Forall (element 4) [3; 20; 33] /\ ordered [3; 20; 33] /\ Forall (fun k => element 4 k /\ Z.odd k = true) [35; 5; 16383].
Proof.
  split; [repeat constructor; simpl; lia|]. split; [repeat constructor; vm_compute; discriminate|]. repeat constructor; simpl; lia.
Qed.

(** For a whole filter: Insert turns no positive answer into a negative one and
    the new key is found, whatever the random choice was.
    Missing: as in C01 (keys of different lengths, splits next to a boundary). *)
Theorem C03_insert_keeps_positives_partial :
  forall junk s, 1 <= s <= 46 -> forall len keys ops d k split d', grown (machine junk) s len keys ops d ->
  bytes k -> length k = len -> lt k (repeat 255 len) -> counters_free d -> (split = true -> apart s len d k) ->
  insert (machine junk) d k split = Ok d' ->
  grown (machine junk) s len keys (ops ++ [(k, split)]) d' /\
  point_query (machine junk) d' k = Ok true /\
  (forall k', bytes k' -> length k' = len -> point_query (machine junk) d k' = Ok true -> point_query (machine junk) d' k' = Ok true) /\
  (forall int_opt l r k', bytes k' -> length k' = len -> point_query (machine junk) d k' = Ok true ->
     bytes l -> bytes r -> suited int_opt (FixedLength len) l r -> le l k' -> le k' r -> range_query int_opt (machine junk) d' l r = Ok true).
Proof. exact insert_keeps_positives. Qed.
Print Assumptions C03_insert_keeps_positives_partial.
Example C03_example_positives : exists d d', grown (machine 0) 3 2 ex_keys ex_splits d /\
  (bytes [100; 1] /\ length [100; 1] = 2%nat /\ lt [100; 1] (repeat 255 2)) /\ counters_free d /\ apart 3 2 d [100; 1] /\
  insert (machine 0) d [100; 1] true = Ok d'.
Proof. exact ex_next. Qed.

(** ** C04, C05, C06: the three bulk loaders lose nothing.
    [loadable] leaves out numbers of keys that are 1 modulo 1024, where the code
    hangs or loses a key (Findings.v). *)
Theorem C04_fixed_length_load_partial :
  forall junk s, 1 <= s <= 46 -> forall len keys, loadable (FixedLength len) keys ->
  exists d, load (machine junk) s (FixedLength len) keys = Ok d /\
    (forall k, In k keys -> point_query (machine junk) d k = Ok true) /\
    (forall int_opt l r k, In k keys -> bytes l -> bytes r -> suited int_opt (FixedLength len) l r -> le l k -> le k r ->
       range_query int_opt (machine junk) d l r = Ok true).
Proof. exact (fun junk s Hs len => load_complete junk s Hs (FixedLength len)). Qed.
Print Assumptions C04_fixed_length_load_partial.
Example C04_example : loadable (FixedLength 2) ex_keys.
Proof. exact ex_loadable. Qed.

Theorem C05_string_load_partial :
  forall junk s, 1 <= s <= 46 -> forall keys, loadable Strings keys ->
  exists d, load (machine junk) s Strings keys = Ok d /\
    (forall k, In k keys -> point_query (machine junk) d k = Ok true) /\
    (forall int_opt l r k, In k keys -> bytes l -> bytes r -> suited int_opt Strings l r -> le l k -> le k r ->
       range_query int_opt (machine junk) d l r = Ok true).
Proof. exact (fun junk s Hs => load_complete junk s Hs Strings). Qed.
Print Assumptions C05_string_load_partial.
Example C05_example : loadable Strings ex_strings.
Proof. exact ex_strings_loadable. Qed.

Theorem C06_streaming_load_partial :
  forall junk s, 1 <= s <= 46 -> forall keys, loadable Streaming keys ->
  exists d, load (machine junk) s Streaming keys = Ok d /\
    (forall k, In k keys -> point_query (machine junk) d k = Ok true) /\
    (forall int_opt l r k, In k keys -> bytes l -> bytes r -> suited int_opt Streaming l r -> le l k -> le k r ->
       range_query int_opt (machine junk) d l r = Ok true).
Proof. exact (fun junk s Hs => load_complete junk s Hs Streaming). Qed.
Print Assumptions C06_streaming_load_partial.
Example C06_example : loadable Streaming ex_strings.
Proof. exact ex_stream_loadable. Qed.
(** The streamed filter is the one of the iterator-based loads: identical for keys
    of one length, and for strings identical up to the artificial lowest boundary,
    which has 8 zero bytes there and as many as the longest key here. *)
Theorem C06_same_as_iterators_partial :
  forall c s keys, loadable Streaming keys ->
  (forall len, Forall (fun k => length k = len) keys -> load c s Streaming keys = load c s (FixedLength len) keys) /\
  (forall d, load c s Streaming keys = Ok d -> exists st t,
     d = mkdiva s ((repeat 0 (longest keys), st) :: t) /\ load c s Strings keys = Ok (mkdiva s ((repeat 0 8, st) :: t))).
Proof. exact stream_same_as_iterators. Qed.
Print Assumptions C06_same_as_iterators_partial.
Example C06_same_example : loadable Streaming ex_keys /\ Forall (fun k => length k = 2%nat) ex_keys /\
  exists d, load (machine 0) 3 Streaming ex_keys = Ok d.
Proof.
  split; [|split; [repeat constructor|vm_compute; eexists; reflexivity]].
  split; [repeat constructor; cbn; lia|discriminate|cbn; lia|]. split; [|vm_compute; reflexivity]. repeat constructor.
Qed.

(** ** C07: Delete removes only the deleted key.  For every history of insertions
    and deletions, boundaries included, after any of the three loaders: every key
    that is left of the multiset of keys is found; a positive answer has a key that
    is left as its reason, so a deleted key leaves no trace; and only the net effect
    of the history matters, so that a deletion undoes an insertion.
    Missing: deletions from crammed blocks (refuted in Findings.v), and after splits. *)
Theorem C07_deletes_lose_nothing_partial :
  forall junk s, 1 <= s <= 46 -> forall m keys ops, loadable m keys -> lawful_history (machine junk) s m keys ops ->
  exists d, history (machine junk) s m keys ops = Ok d /\
    forall k, In k (remaining keys ops) -> point_query (machine junk) d k = Ok true /\
      forall int_opt l r, bytes l -> bytes r -> suited int_opt m l r -> le l k -> le k r -> range_query int_opt (machine junk) d l r = Ok true.
Proof. exact history_found. Qed.
Print Assumptions C07_deletes_lose_nothing_partial.
Definition ex_ops : list op :=
  [Ins [3; 5]; Del [3; 4]; Ins [3; 9]; Ins [3; 5]; Ins [250; 1]; Del [3; 5]; Del [200; 7]; Del [250; 1]; Ins [3; 4]; Del [1; 2]; Ins [200; 7]].
Example C07_example : lawful_history (machine 0) 3 (FixedLength 2) ex_keys ex_ops /\
  remaining ex_keys ex_ops = [[200; 7]; [3; 4]; [3; 9]; [3; 5]].
Proof. split; [apply lawful_historyb_ok; [apply machine_ok|vm_compute; reflexivity]|reflexivity]. Qed.

Theorem C07_deleted_keys_leave_no_trace_partial :
  forall junk s, 1 <= s <= 46 -> forall m keys ops d a b, loadable m keys -> lawful_history (machine junk) s m keys ops ->
  history (machine junk) s m keys ops = Ok d -> neighbours d a b ->
  exists q : nat, 512 <= top q b - top q a + 1 <= 1024 /\
    let n := (q + Z.to_nat s - 1)%nat in
    let inner := in_blocks_of d keys (remaining keys ops) in
    (forall k, bytes k -> lt a k -> lt k b -> exists ans, point_query (machine junk) d k = Ok ans /\
       (ans = true <-> exists k', In k' inner /\ le a k' /\ lt k' b /\ top n k' = top n k)) /\
    (forall l r, bytes l -> bytes r -> lt a l -> le l r -> lt r b -> exists ans, range_query false (machine junk) d l r = Ok ans /\
       (ans = true <-> exists k', In k' inner /\ le a k' /\ lt k' b /\ top n l <= top n k' <= top n r)).
Proof. exact history_explained. Qed.
Print Assumptions C07_deleted_keys_leave_no_trace_partial.
Lemma both_ok {A B} (r : res A) (r' : res B) (P : A -> B -> Prop) : match r, r' with Ok x, Ok y => P x y | _, _ => False end -> exists x y, r = Ok x /\ r' = Ok y /\ P x y.
Proof. destruct r as [x| |], r' as [y| |]; try contradiction. intros H. exists x, y. auto. Qed.
Example C07_example_trace : exists d0 d, load (machine 0) 3 (FixedLength 2) ex_keys = Ok d0 /\ history (machine 0) 3 (FixedLength 2) ex_keys ex_ops = Ok d /\
  boundaries d0 = [[0; 0]; [1; 2]; [200; 7]; [255; 255]] /\ boundaries d = [[0; 0]; [255; 255]] /\
  in_blocks_of d ex_keys (remaining ex_keys ex_ops) = [[200; 7]; [3; 4]; [3; 9]; [3; 5]].
Proof. apply both_ok. vm_compute. repeat split; reflexivity. Qed.

Theorem C07_only_net_effect_matters_partial :
  forall junk s, 1 <= s <= 46 -> forall m keys ops ops' d d', loadable m keys ->
  lawful_history (machine junk) s m keys ops -> lawful_history (machine junk) s m keys ops' ->
  Permutation (inserted ops ++ deleted ops') (inserted ops' ++ deleted ops) ->
  history (machine junk) s m keys ops = Ok d -> history (machine junk) s m keys ops' = Ok d' -> boundaries d = boundaries d' ->
  (forall k, bytes k -> point_query (machine junk) d k = point_query (machine junk) d' k) /\
  (forall i l r, bytes l -> bytes r -> le l r -> suited i m l r -> range_query i (machine junk) d l r = range_query i (machine junk) d' l r).
Proof. exact history_net. Qed.
Print Assumptions C07_only_net_effect_matters_partial.
Definition ex_ops2 : list op := [Ins [3; 9]; Del [1; 2]; Ins [3; 5]; Ins [200; 7]; Del [200; 7]].
Example C07_example_net : lawful_history (machine 0) 3 (FixedLength 2) ex_keys ex_ops2 /\
  Permutation (inserted ex_ops ++ deleted ex_ops2) (inserted ex_ops2 ++ deleted ex_ops) /\
  exists d d', history (machine 0) 3 (FixedLength 2) ex_keys ex_ops = Ok d /\ history (machine 0) 3 (FixedLength 2) ex_keys ex_ops2 = Ok d' /\ boundaries d = boundaries d'.
Proof.
  split; [apply lawful_historyb_ok; [apply machine_ok|vm_compute; reflexivity]|]. split; [|apply both_ok; vm_compute; reflexivity].
  cbn [ex_ops ex_ops2 inserted deleted flat_map app].
  apply perm_ok. vm_compute. reflexivity.
Qed.

(** ** C08: shrinking the infix size loses nothing.  Proved for filters whose blocks
    are empty or have the default capacity ([shrinkable]); a block of another
    capacity is damaged (C08_shrink_refuted). *)
Theorem C08_shrink_keeps_keys_partial :
  forall junk s s', 1 <= s <= 46 -> 1 <= s' <= s -> forall m keys ops d, loadable m keys -> lawful_history (machine junk) s m keys ops ->
  history (machine junk) s m keys ops = Ok d -> shrinkable d ->
  exists d', shrink (machine junk) d s' = Ok d' /\ d_size d' = s' /\ boundaries d' = boundaries d /\
    (forall k, bytes k -> point_query (machine junk) d k = Ok true -> point_query (machine junk) d' k = Ok true) /\
    (forall int_opt l r, bytes l -> bytes r -> le l r -> suited int_opt m l r -> range_query int_opt (machine junk) d l r = Ok true -> range_query int_opt (machine junk) d' l r = Ok true) /\
    (forall k, In k (remaining keys ops) -> point_query (machine junk) d' k = Ok true /\
      forall int_opt l r, bytes l -> bytes r -> suited int_opt m l r -> le l k -> le k r -> range_query int_opt (machine junk) d' l r = Ok true).
Proof. exact shrink_history. Qed.
Print Assumptions C08_shrink_keeps_keys_partial.
Definition ex_two : list key := [[1; 2]; [200; 7]].
Definition ex_two_ops : list op := [Ins [0; 1]; Ins [250; 9]; Ins [0; 77]].
Lemma ex_two_loadable : loadable (FixedLength 2) ex_two.
Proof. constructor; [repeat constructor; lia|discriminate|discriminate|]. split; repeat constructor. Qed.
Definition shrinkableb (d : diva) : bool := forallb (fun e => (get_elem_count (snd e) =? 0) || (get_size_grade (snd e) =? 55)) (d_tree d).
Lemma shrinkableb_ok d : shrinkableb d = true -> shrinkable d.
Proof. unfold shrinkableb, shrinkable. rewrite forallb_forall, Forall_forall. intros H e He. specialize (H e He). lia. Qed.
Example C08_example : loadable (FixedLength 2) ex_two /\ lawful_history (machine 0) 9 (FixedLength 2) ex_two ex_two_ops /\
  exists d d', history (machine 0) 9 (FixedLength 2) ex_two ex_two_ops = Ok d /\ shrink (machine 0) d 4 = Ok d' /\
    shrinkable d /\ remaining ex_two ex_two_ops = [[0; 77]; [250; 9]; [0; 1]; [1; 2]; [200; 7]] /\
    point_query (machine 0) d [0; 78] = Ok false /\ point_query (machine 0) d [0; 77] = Ok true /\ point_query (machine 0) d' [0; 77] = Ok true.
Proof.
  split; [exact ex_two_loadable|]. split; [apply lawful_historyb_ok; [apply machine_ok|vm_compute; reflexivity]|].
  assert (H : match history (machine 0) 9 (FixedLength 2) ex_two ex_two_ops with
              | Ok d => match shrink (machine 0) d 4 with
                        | Ok d' => shrinkableb d = true /\ point_query (machine 0) d [0; 78] = Ok false /\ point_query (machine 0) d [0; 77] = Ok true /\ point_query (machine 0) d' [0; 77] = Ok true
                        | _ => False end
              | _ => False end) by (vm_compute; repeat split; reflexivity).
  destruct (history (machine 0) 9 (FixedLength 2) ex_two ex_two_ops) as [d| |]; try contradiction.
  destruct (shrink (machine 0) d 4) as [d'| |] eqn:E'; try contradiction. destruct H as (H1 & H2). exists d, d'. split; [reflexivity|]. split; [exact E'|].
  split; [apply shrinkableb_ok; exact H1|]. split; [reflexivity|exact H2].
Qed.

Theorem C08_shrink_after_splits_partial :
  forall junk s s', 1 <= s <= 46 -> 1 <= s' <= s -> forall len keys ops d, grown (machine junk) s len keys ops d -> shrinkable d ->
  exists d', shrink (machine junk) d s' = Ok d' /\ d_size d' = s' /\ boundaries d' = boundaries d /\
    (forall k, bytes k -> point_query (machine junk) d k = Ok true -> point_query (machine junk) d' k = Ok true) /\
    (forall int_opt l r, bytes l -> bytes r -> le l r -> suited int_opt (FixedLength len) l r -> range_query int_opt (machine junk) d l r = Ok true -> range_query int_opt (machine junk) d' l r = Ok true).
Proof. exact shrink_grown. Qed.
Print Assumptions C08_shrink_after_splits_partial.
Definition ex_two_splits : list (key * bool) := [([0; 99], false); ([120; 9], true); ([250; 9], false)].
Example C08_example_after_splits : exists d d', grown (machine 0) 9 2 ex_two ex_two_splits d /\ shrinkable d /\ shrink (machine 0) d 4 = Ok d' /\ length (boundaries d) = 5%nat.
Proof.
  assert (H : match grownb (machine 0) 9 2 ex_two ex_two_splits with
              | Some d => match shrink (machine 0) d 4 with Ok d' => shrinkableb d = true /\ length (boundaries d) = 5%nat | _ => False end
              | None => False end) by (vm_compute; split; reflexivity).
  destruct (grownb (machine 0) 9 2 ex_two ex_two_splits) as [d|] eqn:E; [|contradiction]. destruct (shrink (machine 0) d 4) as [d'| |] eqn:E'; try contradiction. destruct H as [H1 H2].
  exists d, d'. split; [apply grownb_ok; [lia|exact ex_two_loadable|exact E]|]. split; [apply shrinkableb_ok; exact H1|]. split; [exact E'|exact H2].
Qed.

(** A filter loaded from 1024 * i + 2 keys can be shrunk. *)
Theorem C08_load_then_shrink_partial :
  forall junk s m keys s', 1 <= s <= 46 -> 1 <= s' <= s -> loadable m keys -> (length keys mod 1024 = 2)%nat ->
  exists d d', load (machine junk) s m keys = Ok d /\ shrink (machine junk) d s' = Ok d' /\ d_size d' = s' /\ boundaries d' = boundaries d /\
    forall k, In k keys -> point_query (machine junk) d' k = Ok true /\
      forall int_opt l r, bytes l -> bytes r -> suited int_opt m l r -> le l k -> le k r -> range_query int_opt (machine junk) d' l r = Ok true.
Proof. exact load_shrinks. Qed.
Print Assumptions C08_load_then_shrink_partial.
Example C08_example_load : loadable (FixedLength 2) ex_two /\ (length ex_two mod 1024 = 2)%nat.
Proof. exact (conj ex_two_loadable eq_refl). Qed.

(** ** C09: Serialize then deserialize gives an equal filter: same boundaries, same
    infix size and seed, same answers, and writing it again gives the same bytes.
    Missing: filters of 4 GiB and more, boundary keys longer than 20000 bytes and
    load factors other than the default one (refuted in Findings.v). *)
Theorem C09_round_trip_partial :
  forall junk s, 1 <= s <= 46 -> forall m keys ks d, loadable m keys -> insertable (machine junk) s m keys ks ->
  build (machine junk) s m keys ks = Ok d -> keys_fit keys -> forall p, readable p -> footprint d < 2 ^ 32 ->
  exists buf d', serialize (machine junk) p d = Ok buf /\ Z.of_nat (length buf) = footprint d /\
    deserialize (machine junk) (p_int p) buf = Ok (d', p_seed p) /\
    d_size d' = d_size d /\ boundaries d' = boundaries d /\ serialize (machine junk) p d' = Ok buf /\
    (forall k, bytes k -> point_query (machine junk) d' k = point_query (machine junk) d k) /\
    (forall int_opt l r, bytes l -> bytes r -> le l r -> suited int_opt m l r -> range_query int_opt (machine junk) d' l r = range_query int_opt (machine junk) d l r).
Proof. exact built_round_trip. Qed.
Print Assumptions C09_round_trip_partial.
Definition ex_params : params := mkparams false bits95 42.
Example C09_example : readable ex_params /\ keys_fit ex_keys /\
  exists d, build (machine 0) 6 (FixedLength 2) ex_keys ex_more = Ok d /\ footprint d = 3549.
Proof.
  split; [split; [reflexivity|simpl; lia]|]. split; [repeat constructor; simpl; lia|].
  assert (H : match build (machine 0) 6 (FixedLength 2) ex_keys ex_more with Ok d => footprint d = 3549 | _ => False end) by (vm_compute; reflexivity).
  destruct (build (machine 0) 6 (FixedLength 2) ex_keys ex_more) as [d| |]; try contradiction. exists d. auto.
Qed.

Theorem C09_round_trip_with_splits_partial :
  forall junk s, 1 <= s <= 46 -> forall len keys ops d, grown (machine junk) s len keys ops d -> Z.of_nat len <= 20000 ->
  forall p, readable p -> footprint d < 2 ^ 32 ->
  exists buf d', serialize (machine junk) p d = Ok buf /\ Z.of_nat (length buf) = footprint d /\
    deserialize (machine junk) (p_int p) buf = Ok (d', p_seed p) /\
    d_size d' = d_size d /\ boundaries d' = boundaries d /\ serialize (machine junk) p d' = Ok buf /\
    (forall k, bytes k -> point_query (machine junk) d' k = point_query (machine junk) d k) /\
    (forall int_opt l r, bytes l -> bytes r -> le l r -> suited int_opt (FixedLength len) l r -> range_query int_opt (machine junk) d' l r = range_query int_opt (machine junk) d l r).
Proof. exact grown_round_trip. Qed.
Print Assumptions C09_round_trip_with_splits_partial.
Example C09_example_with_splits : exists d, grown (machine 0) 3 2 ex_keys ex_splits d /\ footprint d < 2 ^ 32.
Proof.
  assert (H : match grownb (machine 0) 3 2 ex_keys ex_splits with Some d => footprint d <? 2 ^ 32 = true | None => False end) by (vm_compute; reflexivity).
  destruct (grownb (machine 0) 3 2 ex_keys ex_splits) as [d|] eqn:E; [|contradiction].
  exists d. split; [apply grownb_ok; [lia|exact ex_loadable|exact E]|apply Z.ltb_lt; exact H].
Qed.

Theorem C09_round_trip_after_deletes_partial :
  forall junk s, 1 <= s <= 46 -> forall m keys ops d, loadable m keys -> lawful_history (machine junk) s m keys ops ->
  history (machine junk) s m keys ops = Ok d -> keys_fit keys -> forall p, readable p -> footprint d < 2 ^ 32 ->
  exists buf d', serialize (machine junk) p d = Ok buf /\ Z.of_nat (length buf) = footprint d /\
    deserialize (machine junk) (p_int p) buf = Ok (d', p_seed p) /\
    d_size d' = d_size d /\ boundaries d' = boundaries d /\ serialize (machine junk) p d' = Ok buf /\
    (forall k, bytes k -> point_query (machine junk) d' k = point_query (machine junk) d k) /\
    (forall int_opt l r, bytes l -> bytes r -> le l r -> suited int_opt m l r -> range_query int_opt (machine junk) d' l r = range_query int_opt (machine junk) d l r).
Proof. exact history_round_trip. Qed.
Print Assumptions C09_round_trip_after_deletes_partial.
Example C09_example_after_deletes : lawful_history (machine 0) 3 (FixedLength 2) ex_keys ex_ops /\
  exists d, history (machine 0) 3 (FixedLength 2) ex_keys ex_ops = Ok d /\ footprint d < 2 ^ 32.
Proof.
  split; [exact (proj1 C07_example)|].
  assert (H : match history (machine 0) 3 (FixedLength 2) ex_keys ex_ops with Ok d => footprint d <? 2 ^ 32 = true | _ => False end) by (vm_compute; reflexivity).
  destruct (history (machine 0) 3 (FixedLength 2) ex_keys ex_ops) as [d| |]; try contradiction. exists d. split; [reflexivity|apply Z.ltb_lt; exact H].
Qed.

(** ** C10: Size() is the number of bytes that Serialize writes.  The integer build
    counts keys without their padding: it is exact if every boundary has a
    multiple of eight bytes, and otherwise too small by the padding (Findings.v). *)
Theorem C10_size_partial :
  forall junk s, 1 <= s <= 46 -> forall m keys ks d, loadable m keys -> insertable (machine junk) s m keys ks ->
  build (machine junk) s m keys ks = Ok d -> forall p int_opt buf, serialize (machine junk) p d = Ok buf ->
  (int_opt = true -> exists len, m = FixedLength len /\ (len mod 8 = 0)%nat) ->
  size (machine junk) int_opt d = Z.of_nat (length buf).
Proof. exact built_size. Qed.
Print Assumptions C10_size_partial.
Theorem C10_size_with_splits_partial :
  forall junk s, 1 <= s <= 46 -> forall len keys ops d, grown (machine junk) s len keys ops d ->
  forall p buf, serialize (machine junk) p d = Ok buf ->
  size (machine junk) false d = Z.of_nat (length buf) /\
  size (machine junk) true d = Z.of_nat (length buf) - fold_right Z.add 0 (map (fun k => padded (length k) - Z.of_nat (length k)) (boundaries d)).
Proof. exact grown_size. Qed.
Print Assumptions C10_size_with_splits_partial.
Example C10_example : exists d buf, grown (machine 0) 3 2 ex_keys ex_splits d /\ serialize (machine 0) ex_params d = Ok buf.
Proof.
  destruct C09_example_with_splits as (d & Hg & Hf). destruct C09_example as (Hp & _).
  destruct (C09_round_trip_with_splits_partial 0 3 ltac:(lia) 2 ex_keys ex_splits d Hg ltac:(lia) ex_params Hp Hf) as (buf & d' & E & _).
  exists d, buf. auto.
Qed.

Theorem C10_size_after_deletes_partial :
  forall junk s, 1 <= s <= 46 -> forall m keys ops d, loadable m keys -> lawful_history (machine junk) s m keys ops ->
  history (machine junk) s m keys ops = Ok d -> forall p buf, serialize (machine junk) p d = Ok buf ->
  size (machine junk) false d = Z.of_nat (length buf) /\
  size (machine junk) true d = Z.of_nat (length buf) - fold_right Z.add 0 (map (fun k => padded (length k) - Z.of_nat (length k)) (boundaries d)).
Proof. exact history_size. Qed.
Print Assumptions C10_size_after_deletes_partial.
Example C10_example_after_deletes : exists d buf, history (machine 0) 3 (FixedLength 2) ex_keys ex_ops = Ok d /\ serialize (machine 0) ex_params d = Ok buf.
Proof.
  destruct C09_example_after_deletes as (HA & d & E & Hf). destruct C09_example as (Hp & HK & _).
  destruct (C09_round_trip_after_deletes_partial 0 3 ltac:(lia) _ ex_keys ex_ops d ex_loadable HA E HK ex_params Hp Hf) as (buf & d' & E2 & _).
  exists d, buf. auto.
Qed.

(** ** C11: a point query is a one-key range query, also outside the boundaries *)
Theorem C11_point_is_one_key_range :
  forall junk s, 1 <= s <= 46 -> forall m keys ks d, loadable m keys -> insertable (machine junk) s m keys ks ->
  build (machine junk) s m keys ks = Ok d ->
  forall int_opt k, bytes k -> suited int_opt m k k ->
  point_query (machine junk) d k = range_query int_opt (machine junk) d k k.
Proof. exact one_key_range. Qed.
Print Assumptions C11_point_is_one_key_range.
Example C11_example : exists d, build (machine 0) 6 (FixedLength 2) ex_keys ex_more = Ok d.
Proof. destruct (never_miss_point 0 6 ltac:(lia) _ _ _ ex_loadable (ex_insertable 0 6)) as (d & E & _). exists d. exact E. Qed.

Theorem C11_point_is_one_key_range_with_splits :
  forall junk s, 1 <= s <= 46 -> forall len keys ops d, grown (machine junk) s len keys ops d ->
  forall int_opt k, bytes k -> suited int_opt (FixedLength len) k k ->
  point_query (machine junk) d k = range_query int_opt (machine junk) d k k.
Proof. exact grown_one_key. Qed.
Print Assumptions C11_point_is_one_key_range_with_splits.
Example C11_example_with_splits : exists d, grown (machine 0) 3 2 ex_keys ex_splits d.
Proof. exact C02_example_with_splits. Qed.

Theorem C11_point_is_one_key_range_after_deletes :
  forall junk s, 1 <= s <= 46 -> forall m keys ops d, loadable m keys -> lawful_history (machine junk) s m keys ops ->
  history (machine junk) s m keys ops = Ok d ->
  forall int_opt k, bytes k -> suited int_opt m k k -> point_query (machine junk) d k = range_query int_opt (machine junk) d k k.
Proof. exact history_one_key. Qed.
Print Assumptions C11_point_is_one_key_range_after_deletes.
Example C11_example_after_deletes : lawful_history (machine 0) 3 (FixedLength 2) ex_keys ex_ops /\ exists d, history (machine 0) 3 (FixedLength 2) ex_keys ex_ops = Ok d.
Proof. destruct C09_example_after_deletes as (HA & d & E & _). split; [exact HA|]. exists d. exact E. Qed.

(** ** C12: range answers grow with the range *)
Theorem C12_range_answers_grow :
  forall junk s, 1 <= s <= 46 -> forall m keys ks d, loadable m keys -> insertable (machine junk) s m keys ks ->
  build (machine junk) s m keys ks = Ok d ->
  forall i1 i2 l r l' r', bytes l -> bytes r -> bytes l' -> bytes r' -> suited i1 m l r -> suited i2 m l' r' ->
  le l' l -> le l r -> le r r' ->
  range_query i1 (machine junk) d l r = Ok true -> range_query i2 (machine junk) d l' r' = Ok true.
Proof. exact wider_range. Qed.
Print Assumptions C12_range_answers_grow.
Example C12_example : exists d, build (machine 0) 6 (FixedLength 2) ex_keys ex_more = Ok d /\ range_query true (machine 0) d [1; 0] [1; 9] = Ok true.
Proof.
  destruct (never_miss_range 0 6 ltac:(lia) _ _ _ ex_loadable (ex_insertable 0 6)) as (d & E & H). exists d. split; [exact E|].
  destruct C02_example as (S & L1 & L2). apply (H true [1; 0] [1; 9] [1; 2]); try assumption; [left; left; reflexivity|repeat constructor; lia|repeat constructor; lia].
Qed.

Theorem C12_range_answers_grow_with_splits :
  forall junk s, 1 <= s <= 46 -> forall len keys ops d, grown (machine junk) s len keys ops d ->
  forall i1 i2 l r l' r', bytes l -> bytes r -> bytes l' -> bytes r' ->
  suited i1 (FixedLength len) l r -> suited i2 (FixedLength len) l' r' -> le l r -> le l' l -> le r r' ->
  range_query i1 (machine junk) d l r = Ok true -> range_query i2 (machine junk) d l' r' = Ok true.
Proof. exact grown_grows. Qed.
Print Assumptions C12_range_answers_grow_with_splits.
Example C12_example_with_splits : exists d, grown (machine 0) 3 2 ex_keys ex_splits d.
Proof. exact C02_example_with_splits. Qed.

Theorem C12_range_answers_grow_after_deletes :
  forall junk s, 1 <= s <= 46 -> forall m keys ops d, loadable m keys -> lawful_history (machine junk) s m keys ops ->
  history (machine junk) s m keys ops = Ok d ->
  forall i1 i2 l r l' r', bytes l -> bytes r -> bytes l' -> bytes r' -> suited i1 m l r -> suited i2 m l' r' ->
  le l' l -> le l r -> le r r' ->
  range_query i1 (machine junk) d l r = Ok true -> range_query i2 (machine junk) d l' r' = Ok true.
Proof. exact history_grows. Qed.
Print Assumptions C12_range_answers_grow_after_deletes.
Example C12_example_after_deletes : lawful_history (machine 0) 3 (FixedLength 2) ex_keys ex_ops /\ exists d, history (machine 0) 3 (FixedLength 2) ex_keys ex_ops = Ok d.
Proof. destruct C09_example_after_deletes as (HA & d & E & _). split; [exact HA|]. exists d. exact E. Qed.

(** ** C13: positive answers are explained by a stored key.  Between neighbouring
    boundary keys [a] and [b] the filter keeps the first [n] bits of each key: an
    answer is true exactly if a key stored there agrees with the query on these. *)
Theorem C13_answers_explained :
  forall junk s, 1 <= s <= 46 -> forall m keys ks d a b, loadable m keys -> insertable (machine junk) s m keys ks ->
  build (machine junk) s m keys ks = Ok d -> neighbours d a b ->
  exists q : nat, 512 <= top q b - top q a + 1 <= 1024 /\
    let n := (q + Z.to_nat s - 1)%nat in
    (forall k, bytes k -> lt a k -> lt k b -> exists ans, point_query (machine junk) d k = Ok ans /\
       (ans = true <-> exists k', in_blocks keys ks d k' /\ le a k' /\ lt k' b /\ top n k' = top n k)) /\
    (forall l r, bytes l -> bytes r -> lt a l -> le l r -> lt r b -> exists ans, range_query false (machine junk) d l r = Ok ans /\
       (ans = true <-> exists k', in_blocks keys ks d k' /\ le a k' /\ lt k' b /\ top n l <= top n k' <= top n r)).
Proof. exact explained. Qed.
Print Assumptions C13_answers_explained.
Example C13_example : exists d, build (machine 0) 3 (FixedLength 2) ex_keys ex_more = Ok d /\ neighbours d [1; 2] [200; 7].
Proof.
  assert (H : match build (machine 0) 3 (FixedLength 2) ex_keys ex_more with
              | Ok d => boundaries d = [[0; 0]; [1; 2]; [200; 7]; [255; 255]] | _ => False end) by (vm_compute; reflexivity).
  destruct (build (machine 0) 3 (FixedLength 2) ex_keys ex_more) as [d| |]; try contradiction.
  exists d. split; [reflexivity|]. exists [[0; 0]], [[255; 255]]. exact H.
Qed.

(** ** C14: the order of insertions does not matter *)
Theorem C14_any_order :
  forall junk s, 1 <= s <= 46 -> forall m keys ks ks' d d', loadable m keys -> insertable (machine junk) s m keys ks -> Permutation ks ks' ->
  build (machine junk) s m keys ks = Ok d -> build (machine junk) s m keys ks' = Ok d' ->
  (forall k, bytes k -> point_query (machine junk) d k = point_query (machine junk) d' k) /\
  (forall i l r, bytes l -> bytes r -> le l r -> suited i m l r -> range_query i (machine junk) d l r = range_query i (machine junk) d' l r).
Proof. exact any_order. Qed.
Print Assumptions C14_any_order.
Example C14_example : Permutation ex_more (rev ex_more).
Proof. apply Permutation_rev. Qed.

(** ** C15 and C17: every query between the two ends returns an answer: no access
    further than 8 bytes behind a block, no loop that does not end.  (C01 states
    the same of the loaders and of Insert.)  Missing: the 8 bytes (Findings.v). *)
Theorem C15_C17_queries_return_partial :
  forall junk s, 1 <= s <= 46 -> forall m keys ks d, loadable m keys -> insertable (machine junk) s m keys ks ->
  build (machine junk) s m keys ks = Ok d ->
  (forall k, bytes k -> le (low_end m keys) k -> le k (high_end m keys) -> exists b, point_query (machine junk) d k = Ok b) /\
  (forall i l r, bytes l -> bytes r -> suited i m l r -> le (low_end m keys) l -> le l r -> le r (high_end m keys) ->
     exists b, range_query i (machine junk) d l r = Ok b).
Proof. exact always_answers. Qed.
Print Assumptions C15_C17_queries_return_partial.
Example C15_C17_example : le (low_end (FixedLength 2) ex_keys) [0; 9] /\ le [0; 9] [255; 255] /\ le [255; 255] (high_end (FixedLength 2) ex_keys).
Proof. split; [right; reflexivity|]. split; [right; reflexivity|left; reflexivity]. Qed.

Theorem C15_C17_queries_return_after_deletes_partial :
  forall junk s, 1 <= s <= 46 -> forall m keys ops d, loadable m keys -> lawful_history (machine junk) s m keys ops ->
  history (machine junk) s m keys ops = Ok d ->
  (forall k, bytes k -> le (low_end m keys) k -> le k (high_end m keys) -> exists b, point_query (machine junk) d k = Ok b) /\
  (forall i l r, bytes l -> bytes r -> suited i m l r -> le (low_end m keys) l -> le l r -> le r (high_end m keys) ->
     exists b, range_query i (machine junk) d l r = Ok b).
Proof. exact history_always_answers. Qed.
Print Assumptions C15_C17_queries_return_after_deletes_partial.
Example C15_C17_example_after_deletes : lawful_history (machine 0) 3 (FixedLength 2) ex_keys ex_ops /\ exists d, history (machine 0) 3 (FixedLength 2) ex_keys ex_ops = Ok d.
Proof. destruct C09_example_after_deletes as (HA & d & E & _). split; [exact HA|]. exists d. exact E. Qed.

Theorem C15_C17_queries_return_after_splits_partial :
  forall junk s, 1 <= s <= 46 -> forall len keys ops d, grown (machine junk) s len keys ops d ->
  (forall k, bytes k -> le (repeat 0 len) k -> le k (repeat 255 len) -> exists b, point_query (machine junk) d k = Ok b) /\
  (forall i l r, bytes l -> bytes r -> suited i (FixedLength len) l r -> le (repeat 0 len) l -> le l r -> le r (repeat 255 len) ->
     exists b, range_query i (machine junk) d l r = Ok b).
Proof. exact grown_answers. Qed.
Print Assumptions C15_C17_queries_return_after_splits_partial.
Example C15_C17_example_after_splits : exists d, grown (machine 0) 3 2 ex_keys ex_splits d.
Proof. exact C02_example_with_splits. Qed.

(** ** C17: every Insert returns, whatever its random choice: no undefined
    behaviour, no loop that does not end.  A key that becomes a boundary must be
    [apart] from the boundaries around it and [splittable] (SpecSplit.v).
    Missing: keys that are not (Findings.v), keys of different lengths. *)
Theorem C17_insert_returns_partial :
  forall junk s, 1 <= s <= 46 -> forall len keys ops d k split, grown (machine junk) s len keys ops d ->
  bytes k -> length k = len -> lt k (repeat 255 len) -> counters_free d ->
  (split = true -> apart s len d k /\ splittable len d k) ->
  exists d', insert (machine junk) d k split = Ok d' /\ grown (machine junk) s len keys (ops ++ [(k, split)]) d'.
Proof. exact insert_succeeds. Qed.
Print Assumptions C17_insert_returns_partial.
Theorem C17_growth_returns_partial :
  forall junk s, 1 <= s <= 46 -> forall len keys ops, loadable (FixedLength len) keys ->
  (forall d0, load (machine junk) s (FixedLength len) keys = Ok d0 -> within_limits (machine junk) s len d0 ops /\ splits_fit (machine junk) len d0 ops) ->
  exists d, grown (machine junk) s len keys ops d.
Proof. exact growth_succeeds. Qed.
Print Assumptions C17_growth_returns_partial.
Example C17_example_growth : forall d0, load (machine 0) 3 (FixedLength 2) ex_keys = Ok d0 ->
  within_limits (machine 0) 3 2 d0 ex_splits /\ splits_fit (machine 0) 2 d0 ex_splits.
Proof.
  assert (H : match load (machine 0) 3 (FixedLength 2) ex_keys with Ok d0 => withinb (machine 0) 3 2 d0 ex_splits && splits_fitb (machine 0) 2 d0 ex_splits | _ => false end = true) by (vm_compute; reflexivity).
  intros d0 E. rewrite E in H. apply andb_true_iff in H as [H1 H2]. split; [apply withinb_ok; [lia|exact H1]|apply splits_fitb_ok; exact H2].
Qed.

(** ** C16: an insertion always finds room: see C03 (the block is returned, its
    counter is the number of elements, which is at most the number of slots). *)

(** ** C18: bit-range shifts move exactly the range *)
Theorem C18_shift_right :
  forall c st base l r d, 0 <= base -> 0 <= l -> l - 1 <= r -> 0 < d -> 64 * (base + (r + d) / 64) + 64 <= limit c st ->
  exists st', shift_bitmap_right c st base l r d = Ok st' /\ status st' = status st /\ wc st' = wc st /\ owned st' = owned st /\
    forall i, - (64 * base) <= i -> bitmap st' base i =
      if (l <=? i) && (i <? l + d) then false else if (l + d <=? i) && (i <=? r + d) then bitmap st base (i - d) else bitmap st base i.
Proof. exact shift_right_spec. Qed.
Print Assumptions C18_shift_right.
Theorem C18_shift_left :
  forall c st base l r d, 0 <= base -> 0 < d -> d <= l -> l - 1 <= r -> 64 * (base + r / 64) + 64 <= limit c st ->
  exists st', shift_bitmap_left c st base l r d = Ok st' /\ status st' = status st /\ wc st' = wc st /\ owned st' = owned st /\
    forall i, - (64 * base) <= i -> bitmap st' base i =
      if (r - d <? i) && (i <=? r) then false else if (l - d <=? i) && (i <=? r - d) then bitmap st base (i + d) else bitmap st base i.
Proof. exact shift_left_spec. Qed.
Print Assumptions C18_shift_left.
Example C18_example : 64 * (0 + (100 + 7) / 64) + 64 <= limit (standard 0) (mkstore 0 2 (2 ^ 70) true).
Proof. vm_compute. discriminate. Qed.

(** ** C19: select and rank.  Both builds of select, the one with the pdep
    instruction ([bit_select]) and the portable one ([select64]), return the
    position of the set bit that has [k] set bits below it, and 64 if there is none. *)
Theorem C19_rank : forall x i, 0 <= x < 2 ^ 64 -> (i <= 64)%nat -> bit_rank x (Z.of_nat i) = ones_below x i.
Proof. exact rank_spec. Qed.
Print Assumptions C19_rank.
Theorem C19_select :
  forall x k, 0 <= x < 2 ^ 64 -> 0 <= k < ones_below x 64 ->
  exists e, (e < 64)%nat /\ Z.testbit x (Z.of_nat e) = true /\ ones_below x e = k /\ select64 x k = Ok (Z.of_nat e) /\ bit_select x k = Z.of_nat e.
Proof. exact select_found. Qed.
Print Assumptions C19_select.
Theorem C19_select_missing :
  forall x k, 0 <= x < 2 ^ 64 -> ones_below x 64 <= k -> select64 x k = Ok 64 /\ (k < 64 -> bit_select x k = 64).
Proof. exact select_missing. Qed.
Print Assumptions C19_select_missing.
Example C19_example : ones_below 200 64 = 3 /\ Z.testbit 200 (Z.of_nat 6) = true /\ ones_below 200 6 = 1 /\ select64 200 1 = Ok 6.
Proof. repeat split; reflexivity. Qed.

(** ** C20: integer keys keep their order as byte strings *)
Theorem C20_integer_order :
  forall x y, 0 <= x < 2 ^ 64 -> 0 <= y < 2 ^ 64 ->
  bytes (key_of_int x) /\ length (key_of_int x) = 8%nat /\ number (key_of_int x) = x /\ (lt (key_of_int x) (key_of_int y) <-> x < y) /\
  key_lt (key_of_int x) (key_of_int y) = (x <? y).
Proof. exact int_order. Qed.
Print Assumptions C20_integer_order.
Example C20_example : key_of_int 258 = [0; 0; 0; 0; 0; 0; 1; 2].
Proof. reflexivity. Qed.

(** ** C21: slot tables are well formed *)
Theorem C21_slot_tables :
  forall junk, let c := machine junk in
  (forall g, 0 <= g < 255 -> 0 < c_size c g < c_size c (g + 1)) /\ 2 ^ 20 <= c_size c 253 /\ 0 < c_exc c <= c_size c 0 /\
  (forall g i p, 0 <= g < 256 -> 0 <= i <= 512 -> 0 <= p < 1024 -> 0 <= p * c_scal c g * c_impl c i < 2 ^ 64) /\
  (forall total g p q, 512 <= total <= 1024 -> 0 <= g < 256 -> 0 <= p <= q -> q < 1024 -> exists sc, implicit_scalar c total = Ok sc /\
     0 <= mapped_pos c p g sc <= mapped_pos c q g sc /\ mapped_pos c q g sc < c_size c g).
Proof. exact slot_tables. Qed.
Print Assumptions C21_slot_tables.

(** ** C22: integer-optimised and generic range queries agree *)
Theorem C22_builds_agree :
  forall junk s, 1 <= s <= 46 -> forall m keys ks d, loadable m keys -> insertable (machine junk) s m keys ks ->
  build (machine junk) s m keys ks = Ok d ->
  forall l r, bytes l -> bytes r -> suited true m l r -> range_query true (machine junk) d l r = range_query false (machine junk) d l r.
Proof. exact builds_agree. Qed.
Print Assumptions C22_builds_agree.

Theorem C22_builds_agree_with_splits :
  forall junk s, 1 <= s <= 46 -> forall len keys ops d, grown (machine junk) s len keys ops d ->
  forall l r, bytes l -> bytes r -> suited true (FixedLength len) l r -> range_query true (machine junk) d l r = range_query false (machine junk) d l r.
Proof. exact grown_builds_agree. Qed.
Print Assumptions C22_builds_agree_with_splits.
Example C22_example : (exists d, grown (machine 0) 3 2 ex_keys ex_splits d) /\ suited true (FixedLength 2) [1; 0] [1; 9].
Proof. exact (conj C02_example_with_splits (proj1 C02_example)). Qed.

Theorem C22_builds_agree_after_deletes :
  forall junk s, 1 <= s <= 46 -> forall m keys ops d, loadable m keys -> lawful_history (machine junk) s m keys ops ->
  history (machine junk) s m keys ops = Ok d ->
  forall l r, bytes l -> bytes r -> suited true m l r -> range_query true (machine junk) d l r = range_query false (machine junk) d l r.
Proof. exact history_builds_agree. Qed.
Print Assumptions C22_builds_agree_after_deletes.
Example C22_example_after_deletes : lawful_history (machine 0) 3 (FixedLength 2) ex_keys ex_ops /\ exists d, history (machine 0) 3 (FixedLength 2) ex_keys ex_ops = Ok d.
Proof. destruct C09_example_after_deletes as (HA & d & E & _). split; [exact HA|]. exists d. exact E. Qed.

(** ** C23: growing or shrinking a block keeps its content *)
Theorem C23_resize_keeps_content :
  forall junk s total L keys st (grow : bool), 1 <= s <= 53 -> 512 <= total <= 1024 -> Forall (element s) L -> ordered L ->
  Forall (fun k => element s k /\ Z.odd k = true) keys -> Z.of_nat (length L + length keys) < 2 ^ 20 ->
  block (machine junk) s L keys total = Ok st ->
  let g := get_size_grade st + (if grow then 1 else -1) in
  0 <= g < 256 -> get_elem_count st <= c_size (machine junk) g ->
  exists st', resize (machine junk) s st grow total = Ok st' /\ get_size_grade st' = g /\
    get_infix_list (machine junk) s st' = get_infix_list (machine junk) s st /\
    get_elem_count st' = get_elem_count st /\ is_partial_key st' = is_partial_key st /\ get_invalid_bits st' = get_invalid_bits st /\
    (forall y, 0 <= y < 1024 * 2 ^ s -> point_query_store (machine junk) s st' y total = point_query_store (machine junk) s st y total) /\
    (forall y z, 0 <= y <= z -> z < 1024 * 2 ^ s -> range_query_store (machine junk) s st' y z = range_query_store (machine junk) s st y z).
Proof. exact (fun junk s total L keys st grow Hs => block_resized (machine junk) s Hs (machine_ok junk) (machine_fits junk s (proj1 Hs)) total L keys st grow). Qed.
Print Assumptions C23_resize_keeps_content.
Example C23_example : exists st, block (machine 0) 4 [3; 20; 33] [35; 5; 16383] 700 = Ok st /\ get_size_grade st = 0 /\ get_elem_count st = 6.
Proof.
  assert (H : match block (machine 0) 4 [3; 20; 33] [35; 5; 16383] 700 with Ok st => get_size_grade st = 0 /\ get_elem_count st = 6 | _ => False end)
    by (vm_compute; split; reflexivity).
  destruct (block (machine 0) 4 [3; 20; 33] [35; 5; 16383] 700) as [st| |]; try contradiction. exists st. split; [reflexivity|exact H].
Qed.

(** ** C24: an Insert that splits a block keeps every key, and a truncated
    boundary key still stands for every key it came from.  Every key of the block
    that was reported before the split is reported after it, by point queries and
    by range queries that contain it, and so is the key that caused the split.
    Missing: as in C01 (keys of different lengths, splits next to a boundary). *)
Theorem C24_split_keeps_keys_partial :
  forall junk s, 1 <= s <= 46 -> forall len keys ops d k d', grown (machine junk) s len keys ops d ->
  bytes k -> length k = len -> lt k (repeat 255 len) -> counters_free d -> apart s len d k ->
  insert (machine junk) d k true = Ok d' ->
  forall k', bytes k' -> length k' = len -> k' = k \/ point_query (machine junk) d k' = Ok true ->
    point_query (machine junk) d' k' = Ok true /\
    forall int_opt l r, bytes l -> bytes r -> suited int_opt (FixedLength len) l r -> le l k' -> le k' r ->
      range_query int_opt (machine junk) d' l r = Ok true.
Proof. exact split_keeps_keys. Qed.
Print Assumptions C24_split_keeps_keys_partial.
Example C24_example : exists d d', grown (machine 0) 3 2 ex_keys ex_splits d /\
  (bytes [100; 1] /\ length [100; 1] = 2%nat /\ lt [100; 1] (repeat 255 2)) /\ counters_free d /\ apart 3 2 d [100; 1] /\
  insert (machine 0) d [100; 1] true = Ok d'.
Proof. exact ex_next. Qed.

(** ** C25: deleting a boundary merges the two blocks beside it; the boundaries lose
    exactly this key and every other key is still found, those in the merged block
    as well as the others.  What the merged block answers is in C07 above: a
    positive answer still needs a key that is left.
    Missing: merges after splits and blocks whose counters would overflow. *)
Theorem C25_merge_keeps_keys_partial :
  forall junk s, 1 <= s <= 46 -> forall m keys ops d k, loadable m keys -> lawful_history (machine junk) s m keys ops ->
  history (machine junk) s m keys ops = Ok d -> mergeable d k ->
  exists d', delete (machine junk) d k = Ok d' /\
    (exists before after, boundaries d = before ++ k :: after /\ boundaries d' = before ++ after) /\
    forall k', In k' (in_blocks_of d keys (remaining keys ops)) \/ In k' (boundaries d') -> point_query (machine junk) d' k' = Ok true /\
      forall int_opt l r, bytes l -> bytes r -> suited int_opt m l r -> le l k' -> le k' r -> range_query int_opt (machine junk) d' l r = Ok true.
Proof. exact merge_keeps. Qed.
Print Assumptions C25_merge_keeps_keys_partial.
Definition ex_ops3 : list op := [Ins [3; 5]; Ins [250; 1]; Ins [1; 1]; Ins [200; 7]].
Example C25_example : lawful_history (machine 0) 3 (FixedLength 2) ex_keys ex_ops3 /\
  exists d, history (machine 0) 3 (FixedLength 2) ex_keys ex_ops3 = Ok d /\ mergeable d [200; 7] /\
    in_blocks_of d ex_keys (remaining ex_keys ex_ops3) = [[1; 1]; [250; 1]; [3; 5]; [3; 4]; [200; 7]].
Proof.
  split; [apply lawful_historyb_ok; [apply machine_ok|vm_compute; reflexivity]|].
  assert (H : match history (machine 0) 3 (FixedLength 2) ex_keys ex_ops3 with Ok d => mergeableb (d_tree d) [200; 7] = true /\
    in_blocks_of d ex_keys (remaining ex_keys ex_ops3) = [[1; 1]; [250; 1]; [3; 5]; [3; 4]; [200; 7]] | _ => False end) by (vm_compute; split; reflexivity).
  destruct (history (machine 0) 3 (FixedLength 2) ex_keys ex_ops3) as [d| |]; try contradiction. destruct H as [H1 H2].
  exists d. split; [reflexivity|]. split; [apply mergeableb_ok; exact H1|exact H2].
Qed.

(** ** C26: keys map monotonically into their interval *)
Theorem C26_monotone_mapping :
  forall c s a b, bytes a -> bytes b -> padlt a b -> 1 <= s <= 46 ->
  exists sh ig isz ea eb, shared_ignore_implicit c a b = Ok (sh, ig, isz) /\
    extract c s a sh ig isz 0 = Ok ea /\ extract c s b sh ig isz 1 = Ok eb /\ 511 <= eb / 2 ^ s - ea / 2 ^ s < 1024 /\
    forall k1 k2, bytes k1 -> bytes k2 -> le a k1 -> le k1 k2 -> le k2 b ->
      exists e1 e2, extract c s k1 sh ig isz (get_key_bit k1 sh) = Ok e1 /\ extract c s k2 sh ig isz (get_key_bit k2 sh) = Ok e2 /\
        ea <= e1 <= e2 /\ e2 <= eb.
Proof. exact interval_monotone. Qed.
Print Assumptions C26_monotone_mapping.
Example C26_example : padlt [1] [1; 0; 2] /\ le [1] [1; 0; 1] /\ le [1; 0; 1] [1; 0; 1; 7] /\ le [1; 0; 1; 7] [1; 0; 2].
Proof. split; [reflexivity|]. split; [right; reflexivity|]. split; right; reflexivity. Qed.

(** ** C27: the interval of a block always has 512 to 1024 implicit values *)
Theorem C27_interval_size :
  forall c a b, bytes a -> bytes b -> padlt a b ->
  exists sh ig isz, shared_ignore_implicit c a b = Ok (sh, ig, isz) /\ 0 <= sh /\ 0 <= ig /\ 10 <= isz <= 11 /\
    512 <= top (Z.to_nat (sh + ig + isz)) b - top (Z.to_nat (sh + ig + isz)) a + 1 <= 1024.
Proof. exact interval_size. Qed.
Print Assumptions C27_interval_size.
Example C27_example : bytes [1] /\ bytes [1; 0; 2] /\ padlt [1] [1; 0; 2].
Proof. split; [repeat constructor; lia|]. split; [repeat constructor; lia|reflexivity]. Qed.

(** ** C28: block metadata fields do not disturb each other *)
Theorem C28_fields_apart :
  forall st, 0 <= status st < 2 ^ 32 ->
  (forall n, 0 <= n < 2 ^ 20 -> fields (set_elem_count st n) = (n, get_size_grade st, get_invalid_bits st, is_partial_key st)) /\
  (forall g, 0 <= g < 2 ^ 8 -> fields (set_size_grade st g) = (get_elem_count st, g, get_invalid_bits st, is_partial_key st)) /\
  (forall b, 0 <= b < 2 ^ 3 -> fields (set_invalid_bits st b) = (get_elem_count st, get_size_grade st, b, is_partial_key st)) /\
  (forall p, fields (set_partial_key st p) = (get_elem_count st, get_size_grade st, get_invalid_bits st, p)).
Proof. exact fields_apart. Qed.
Print Assumptions C28_fields_apart.
Example C28_example : fields (set_invalid_bits (set_elem_count (mkstore (2 ^ 32 - 1) 0 0 true) 1000) 2) = (1000, 255, 2, true).
Proof. vm_compute. reflexivity. Qed.

(** ** C29: who owns the memory.  A filter that was loaded and filled owns all its
    blocks: destroying it frees each of them once.
    Missing: a filter read from a buffer owns none of them, its destruction frees
    foreign memory (refuted in Findings.v). *)
Theorem C29_built_filters_can_be_destroyed_partial :
  forall junk s, 1 <= s <= 46 ->
  (forall m keys ks d, loadable m keys -> insertable (machine junk) s m keys ks -> build (machine junk) s m keys ks = Ok d -> destroy d = Ok (map snd (d_tree d))) /\
  (forall len keys ops d, grown (machine junk) s len keys ops d -> destroy d = Ok (map snd (d_tree d))).
Proof. exact (fun junk s Hs => conj (built_destroy junk s Hs) (grown_destroy junk s Hs)). Qed.
Print Assumptions C29_built_filters_can_be_destroyed_partial.
Example C29_example : exists d, grown (machine 0) 3 2 ex_keys ex_splits d.
Proof. destruct ex_grown as (d & H & _). exists d. exact H. Qed.

Theorem C29_can_be_destroyed_after_deletes_partial :
  forall junk s, 1 <= s <= 46 -> forall m keys ops d, loadable m keys -> lawful_history (machine junk) s m keys ops ->
  history (machine junk) s m keys ops = Ok d -> destroy d = Ok (map snd (d_tree d)).
Proof. exact history_destroy. Qed.
Print Assumptions C29_can_be_destroyed_after_deletes_partial.
Example C29_example_after_deletes : lawful_history (machine 0) 3 (FixedLength 2) ex_keys ex_ops /\ exists d, history (machine 0) 3 (FixedLength 2) ex_keys ex_ops = Ok d.
Proof. destruct C09_example_after_deletes as (HA & d & E & _). split; [exact HA|]. exists d. exact E. Qed.

(** ** C30: stored keys are reported whatever the random generator returns.
    Missing: as in C01. *)
Theorem C30_any_random_outcome_partial :
  forall junk s, 1 <= s <= 46 -> forall len keys ks flags d, length flags = length ks ->
  grown (machine junk) s len keys (combine ks flags) d ->
  forall k, In k keys \/ In k ks -> point_query (machine junk) d k = Ok true /\
    forall int_opt l r, bytes l -> bytes r -> suited int_opt (FixedLength len) l r -> le l k -> le k r ->
      range_query int_opt (machine junk) d l r = Ok true.
Proof. exact any_random_outcome. Qed.
Print Assumptions C30_any_random_outcome_partial.
Example C30_example : exists d, grown (machine 0) 3 2 ex_keys (combine (map fst ex_splits) [true; false; true; true; true; false]) d.
Proof. exact C02_example_with_splits. Qed.

(** ** C31: a block answers queries exactly by its content *)
Theorem C31_block_answers :
  forall junk s total L keys, 1 <= s <= 53 -> 512 <= total <= 1024 -> Forall (element s) L -> ordered L ->
  Forall (fun k => element s k /\ Z.odd k = true) keys -> Z.of_nat (length L + length keys) < 2 ^ 20 ->
  exists st, block (machine junk) s L keys total = Ok st /\
    (forall y, 0 <= y < 1024 * 2 ^ s -> exists b, point_query_store (machine junk) s st y total = Ok b /\
       (b = true <-> exists x, In x (L ++ keys) /\ covers x y)) /\
    (forall y z, 0 <= y <= z -> z < 1024 * 2 ^ s -> exists b, range_query_store (machine junk) s st y z = Ok b /\
       (b = true <-> exists x w, In x (L ++ keys) /\ y <= w <= z /\ covers x w)).
Proof. exact (fun junk s total L keys Hs => block_answers (machine junk) s Hs (machine_ok junk) (machine_fits junk s (proj1 Hs)) total L keys). Qed.
Print Assumptions C31_block_answers.
Example C31_example : covers 20 17 /\ covers 20 23 /\ covers 33 33.
Proof.
  split; [exists 2; split; [lia|split; reflexivity]|]. split; [exists 2; split; [lia|split; reflexivity]|]. exists 0; split; [lia|split; reflexivity].
Qed.

(** ** C32: the preferred slots of a block are spread evenly: value [p] of [total]
    values goes to slot [p * S / total] of [S] slots, up to an error of one slot
    upwards and of two slots plus one in 2^15 of the block downwards. *)
Theorem C32_even_spread :
  forall junk total g p, 512 <= total <= 1024 -> 0 <= g < 256 -> 0 <= p < total -> let c := machine junk in
  exists sc, implicit_scalar c total = Ok sc /\
    mapped_pos c p g sc * total <= p * c_size c g + total /\
    p * c_size c g <= (mapped_pos c p g sc + c_size c g / 2 ^ 15 + 2) * total.
Proof. exact (fun junk => spread junk false). Qed.
Print Assumptions C32_even_spread.
Example C32_example : c_size (machine 0) 10 = 107 /\ exists sc, implicit_scalar (machine 0) 700 = Ok sc /\ mapped_pos (machine 0) 350 10 sc = 53.
Proof. split; [vm_compute; reflexivity|]. eexists. split; [reflexivity|]. vm_compute. reflexivity. Qed.

(** ** C33: one block is an ordered list.  Any sequence of insertions into and
    deletions from a block has on the ordered list of its elements the effect of
    [put_in] and [taken], and the block answers by that list.
    Missing: deletions from crammed blocks (refuted in Findings.v). *)
Theorem C33_block_is_an_ordered_list_partial :
  forall junk s total L ops st0, 1 <= s <= 53 -> 512 <= total <= 1024 -> Forall (element s) L -> ordered L -> Z.of_nat (length L) < 2 ^ 20 ->
  alloc_with_list (machine junk) s L total = Ok st0 -> lawful_ops (machine junk) s total st0 L ops ->
  exists st L', block_ops (machine junk) s st0 ops total = Ok st /\ list_ops L ops L' /\
    get_infix_list (machine junk) s st = Ok L' /\ Forall (element s) L' /\ ordered L' /\
    get_elem_count st = Z.of_nat (length L') /\ Z.of_nat (length L') <= c_size (machine junk) (get_size_grade st) /\
    (forall y, 0 <= y < 1024 * 2 ^ s -> exists b, point_query_store (machine junk) s st y total = Ok b /\
       (b = true <-> exists x, In x L' /\ covers x y)) /\
    (forall y z, 0 <= y <= z -> z < 1024 * 2 ^ s -> exists b, range_query_store (machine junk) s st y z = Ok b /\
       (b = true <-> exists x w, In x L' /\ y <= w <= z /\ covers x w)).
Proof. exact (fun junk s total L ops st0 Hs => block_history (machine junk) s Hs (machine_ok junk) (machine_fits junk s (proj1 Hs)) total L ops st0). Qed.
Print Assumptions C33_block_is_an_ordered_list_partial.
Definition ex_bops : list bop := [Put 77; Put 4097; Put 77; Take 77; Take 13; Put 21; Take 4097; Take 4101].
Example C33_example : exists st0, alloc_with_list (machine 0) 4 [12; 77; 4104] 700 = Ok st0 /\ lawful_ops (machine 0) 4 700 st0 [12; 77; 4104] ex_bops /\
  exists st, block_ops (machine 0) 4 st0 ex_bops 700 = Ok st /\ get_infix_list (machine 0) 4 st = Ok [21; 77; 77].
Proof.
  assert (H : match alloc_with_list (machine 0) 4 [12; 77; 4104] 700 with
    | Ok st0 => lawful_opsb (machine 0) 4 700 st0 [12; 77; 4104] ex_bops = true /\
        match block_ops (machine 0) 4 st0 ex_bops 700 with Ok st => get_infix_list (machine 0) 4 st = Ok [21; 77; 77] | _ => False end
    | _ => False end) by (vm_compute; split; reflexivity).
  destruct (alloc_with_list (machine 0) 4 [12; 77; 4104] 700) as [st0| |]; try contradiction. destruct H as [H1 H2]. exists st0. split; [reflexivity|]. split.
  - apply lawful_opsb_ok; [lia| |exact H1]. repeat constructor; discriminate.
  - destruct (block_ops (machine 0) 4 st0 ex_bops 700) as [st| |]; try contradiction. eauto.
Qed.

(** ** C34: false positives are rare.  Between neighbouring boundaries there are
    more than [510 * 2 ^ (s - 1)] prefixes of [n] bits, and at most as many of them
    are answered positively as keys are stored there; a range query is positive only
    if it contains such a prefix.
    Missing: blocks that come from splits (their old elements cover several prefixes). *)
Theorem C34_few_positives_partial :
  forall junk s, 1 <= s <= 46 -> forall m keys ops d, loadable m keys -> lawful_history (machine junk) s m keys ops ->
  history (machine junk) s m keys ops = Ok d -> forall a b, neighbours d a b -> exists (n : nat) (P : list Z),
  510 * 2 ^ (s - 1) < top n b - top n a < 1024 * 2 ^ (s - 1) /\
  (length P <= count_between a b (remaining keys ops))%nat /\
  (forall k, bytes k -> lt a k -> lt k b -> (point_query (machine junk) d k = Ok true <-> In (top n k) P)) /\
  (forall l r, bytes l -> bytes r -> lt a l -> le l r -> lt r b ->
     (range_query false (machine junk) d l r = Ok true <-> exists p, In p P /\ top n l <= p <= top n r)).
Proof. exact history_few_positives. Qed.
Print Assumptions C34_few_positives_partial.
Example C34_example : lawful_history (machine 0) 3 (FixedLength 2) ex_keys ex_ops3 /\
  exists d, history (machine 0) 3 (FixedLength 2) ex_keys ex_ops3 = Ok d /\ neighbours d [1; 2] [200; 7] /\
    count_between [1; 2] [200; 7] (remaining ex_keys ex_ops3) = 3%nat.
Proof.
  destruct C25_example as (HA & _). split; [exact HA|].
  assert (H : match history (machine 0) 3 (FixedLength 2) ex_keys ex_ops3 with
              | Ok d => boundaries d = [[0; 0]; [1; 2]; [200; 7]; [255; 255]] | _ => False end) by (vm_compute; reflexivity).
  destruct (history (machine 0) 3 (FixedLength 2) ex_keys ex_ops3) as [d| |]; try contradiction.
  exists d. split; [reflexivity|]. split; [exists [[0; 0]], [[255; 255]]; exact H|]. vm_compute. reflexivity.
Qed.

(** ** C35: a shrunk filter answers like one that had the smaller infix size from
    the beginning. *)
Theorem C35_shrunk_like_narrow_partial :
  forall junk s s', 1 <= s <= 46 -> 1 <= s' <= s -> forall m keys ops d, loadable m keys ->
  lawful_history (machine junk) s m keys ops -> lawful_history (machine junk) s' m keys ops ->
  history (machine junk) s m keys ops = Ok d -> shrinkable d ->
  exists d' d2, shrink (machine junk) d s' = Ok d' /\ history (machine junk) s' m keys ops = Ok d2 /\ boundaries d' = boundaries d2 /\
    (forall k, bytes k -> point_query (machine junk) d' k = point_query (machine junk) d2 k) /\
    (forall int_opt l r, bytes l -> bytes r -> le l r -> suited int_opt m l r -> range_query int_opt (machine junk) d' l r = range_query int_opt (machine junk) d2 l r).
Proof. exact shrink_like_narrow. Qed.
Print Assumptions C35_shrunk_like_narrow_partial.
Example C35_example : lawful_history (machine 0) 9 (FixedLength 2) ex_two ex_two_ops /\ lawful_history (machine 0) 4 (FixedLength 2) ex_two ex_two_ops /\
  exists d, history (machine 0) 9 (FixedLength 2) ex_two ex_two_ops = Ok d /\ shrinkable d.
Proof.
  split; [apply C08_example|]. split; [apply lawful_historyb_ok; [apply machine_ok|vm_compute; reflexivity]|].
  destruct C08_example as (_ & _ & d & d' & E & _ & H & _). exists d. split; assumption.
Qed.

(** ** C36: the filter needs little space, whatever is done to it.  The first two
    theorems hold for every filter that operations reach (all loaders, splits,
    deletions behind truncated boundaries); the other two bound the space by the
    numbers of loaded and of stored keys.  After loading that is about
    1.05 * (s + 1) + 1.1 bits per key. *)
Theorem C36_block_space :
  forall junk s m keys d, reached (machine junk) s m keys d ->
  Forall (fun e => let slots := c_size (machine junk) (get_size_grade (snd e)) in
    (slots <= 1077 \/ 100 * slots <= 112 * get_elem_count (snd e)) /\ wc (snd e) = 1 + (1024 + slots * (s + 1) + 63) / 64) (d_tree d).
Proof. exact block_space. Qed.
Print Assumptions C36_block_space.
Theorem C36_filter_space :
  forall junk s m keys d, 0 <= s -> reached (machine junk) s m keys d ->
  StronglySorted lt (boundaries d) /\
  6400 * words d <= Z.of_nat (length (boundaries d)) * (115100 + 107700 * (s + 1)) + 112 * (s + 1) * elements d.
Proof. exact filter_space. Qed.
Print Assumptions C36_filter_space.
Theorem C36_space_of_history :
  forall junk s m keys ops d, 1 <= s <= 46 -> loadable m keys -> lawful_history (machine junk) s m keys ops -> history (machine junk) s m keys ops = Ok d ->
  elements d <= Z.of_nat (length (remaining keys ops)) /\
  Z.of_nat (length (boundaries d)) <= Z.of_nat (length keys) / 1024 + 4 /\
  6400 * words d <= (Z.of_nat (length keys) / 1024 + 4) * (115100 + 107700 * (s + 1)) + 112 * (s + 1) * Z.of_nat (length (remaining keys ops)).
Proof. exact space_after_history. Qed.
Print Assumptions C36_space_of_history.
Theorem C36_space_of_load :
  forall junk s m keys d, 0 <= s -> load (machine junk) s m keys = Ok d ->
  Z.of_nat (length (boundaries d)) <= Z.of_nat (length keys) / 1024 + 4 /\
  words d <= (Z.of_nat (length keys) / 1024 + 4) * (1 + (1087 + 1077 * (s + 1)) / 64).
Proof. exact space_of_load. Qed.
Print Assumptions C36_space_of_load.
Lemma ok_words (r : res diva) n : match r with Ok d => words d = n | _ => False end -> exists d, r = Ok d /\ words d = n.
Proof. destruct r as [d| |]; [|contradiction|contradiction]. intros H. exists d. split; [reflexivity|exact H]. Qed.
Example C36_example_load : exists d, load (machine 0) 3 (FixedLength 2) ex_keys = Ok d /\ words d = 276.
Proof. apply ok_words. vm_compute. reflexivity. Qed.
Definition ex_steps : list (key * option bool) := [([3; 5], Some true); ([2; 255], Some false); ([150; 1], Some true); ([3; 7], Some true); ([2; 255], None); ([150; 1], None)].
Example C36_example : exists d, reached (machine 0) 3 (FixedLength 2) ex_keys d /\ length (boundaries d) = 5%nat /\ words d = 297 /\ elements d = 2.
Proof.
  assert (H : match load (machine 0) 3 (FixedLength 2) ex_keys with
              | Ok d => match stepsb (machine 0) d ex_steps with Some d' => length (boundaries d') = 5%nat /\ words d' = 297 /\ elements d' = 2 | None => False end
              | _ => False end) by (vm_compute; repeat split; reflexivity).
  destruct (load (machine 0) 3 (FixedLength 2) ex_keys) as [d| |] eqn:E; try contradiction. destruct (stepsb (machine 0) d ex_steps) as [d'|] eqn:E'; [|contradiction].
  exists d'. split; [|exact H]. apply (stepsb_ok _ _ _ _ ex_steps d); [apply reached_load; exact E|exact E'].
Qed.
Example C36_example_history : loadable (FixedLength 2) ex_keys /\ lawful_history (machine 0) 3 (FixedLength 2) ex_keys ex_ops3.
Proof. exact (conj ex_loadable (proj1 C34_example)). Qed.
