(** Properties that the code does not have.  Every theorem here is about the same
    model as the theorems of Properties.v; the hypotheses of those theorems leave
    out what is shown here. *)
From Coq Require Import ZArith List Bool Lia Sorting.Sorted.
From Verif Require Import Base Util Store Tables Key Diva Serial SpecFilter SpecBlock SpecSerial Bits DelRun SplitList SplitHist SerialProofs SerialClaims.
Import ListNotations.
Open Scope Z_scope.

(** ** Loops without exit *)
(** Two keys that are equal when filled up with zero bytes: the loop that looks
    for their first difference (diva.hpp:1023-1034) never ends, however many
    steps it is given. *)
Lemma same_words a b : (forall i, 0 <= i -> word_at a i = word_at b i) -> forall fuel share ind, 0 <= ind ->
  loop fuel (fun x : Z * Z => let '(share, ind) := x in
     let delta := lzcnt (Z.lxor (word_at a (ind * 8)) (word_at b (ind * 8))) in
     if delta =? 64 then Ok (inl (share + delta, ind + 1)) else Ok (inr (share + delta, ind))) (share, ind) = @Fuel (Z * Z).
Proof.
  intros H fuel. induction fuel as [|n IH]; intros share ind Hi; [reflexivity|]. cbn [loop]. rewrite H, Z.lxor_nilpotent by lia.
  change (lzcnt 0) with 64. rewrite Z.eqb_refl. apply IH. lia.
Qed.
Lemma pad_byte a m i : byte (a ++ repeat 0 m) i = byte a i.
Proof.
  unfold byte. generalize (Z.to_nat i). clear i. induction a as [|x a IH]; intros i.
  - cbn [app]. rewrite nth_repeat. destruct i; reflexivity.
  - destruct i; [reflexivity|]. cbn [app nth]. apply IH.
Qed.
Lemma word_bytes k p : 0 <= p -> word_at k p = Z.shiftl (byte k p) 56 + Z.shiftl (byte k (p + 1)) 48
     + Z.shiftl (byte k (p + 2)) 40 + Z.shiftl (byte k (p + 3)) 32 + Z.shiftl (byte k (p + 4)) 24 + Z.shiftl (byte k (p + 5)) 16
     + Z.shiftl (byte k (p + 6)) 8 + byte k (p + 7).
Proof.
  intros Hp. unfold word_at. destruct (Z.leb_spec (klen k) p) as [H|H]; [|reflexivity].
  assert (E : forall j, 0 <= j -> byte k (p + j) = 0). { intros j Hj. unfold byte, klen in *. apply nth_overflow. lia. }
  rewrite <- (Z.add_0_r p) at 1. rewrite !E by lia. reflexivity.
Qed.
Theorem C17_equal_keys_loop_forever_refuted : forall c a b m n, a ++ repeat 0 m = b ++ repeat 0 n ->
  forall fuel, shared_ignore_implicit_fuel fuel c a b = Fuel.
Proof.
  intros c a b m n E fuel. assert (H : forall i, 0 <= i -> word_at a i = word_at b i).
  { intros i Hi. rewrite !word_bytes by exact Hi.
    assert (Eb : forall j, byte a j = byte b j). { intros j. rewrite <- (pad_byte a m j), <- (pad_byte b n j), E. reflexivity. } rewrite !Eb. reflexivity. }
  unfold shared_ignore_implicit_fuel, shared_loop. rewrite (same_words a b H) by lia. reflexivity.
Qed.
Print Assumptions C17_equal_keys_loop_forever_refuted.
Lemma same_segment c s a b m n : a ++ repeat 0 m = b ++ repeat 0 n -> segment c s a b = Fuel.
Proof. intros E. unfold segment, shared_ignore_implicit. rewrite (C17_equal_keys_loop_forever_refuted c a b m n E). reflexivity. Qed.

(** *** Bulk loading 1, 1025, 2049, ... keys never returns (C04, C05). *)
Lemma chunks_tail_empty c n : forall fuel d left rest, (length rest = 1024 * n)%nat -> forall d', load_chunks fuel c d left rest <> Ok d'.
Proof.
  induction n as [|n IH]; intros fuel d left rest Hl d' E; (destruct fuel as [|fuel]; [discriminate|]); cbn [load_chunks] in E.
  - destruct rest; [|cbn in Hl; lia]. cbn in E. unfold load_tail in E. cbn [removelast last length] in E. apply bind_ok in E as (g & _ & E).
    apply bind_ok in E as (st & E & _). unfold chunk_store in E. rewrite (same_segment c _ left left 0 0) in E by reflexivity. discriminate.
  - replace (target_size <=? Z.of_nat (length rest)) with true in E by (symmetry; apply Z.leb_le; unfold target_size; lia).
    apply bind_ok in E as (st & _ & E). apply IH in E; [exact E|]. rewrite skipn_length. unfold target_size. lia.
Qed.
Theorem C04_C05_load_refuted : forall c s keys, (length keys mod 1024 = 1)%nat ->
  (forall len d, load c s (FixedLength len) keys <> Ok d) /\ (forall d, load c s Strings keys <> Ok d).
Proof.
  intros c s keys Hk. assert (HL : exists n, (length keys = 1024 * n + 1)%nat).
  { exists (length keys / 1024)%nat. pose proof (Nat.div_mod (length keys) 1024 ltac:(lia)). lia. } destruct HL as [n HL].
  assert (H : forall d0 d, load_keys c d0 keys <> Ok d).
  { intros d0 d. destruct keys as [|k keys]; [discriminate|]. cbn [load_keys length] in *. apply (chunks_tail_empty c n). lia. }
  split.
  - intros len d. cbn [load]. unfold bulk_load_fixed. apply H.
  - intros d. cbn [load]. unfold bulk_load_var. intros E. apply bind_ok in E as (d1 & E & _). revert E. apply H.
Qed.
Print Assumptions C04_C05_load_refuted.
Example C04_refuted_example : (length [[7; 7]] mod 1024 = 1)%nat.
Proof. reflexivity. Qed.
(** Strings that are equal when filled up with zero bytes cannot be loaded. *)
Theorem C05_padded_duplicates_refuted : forall c s k n d, load c s Strings [k; k ++ repeat 0 n] <> Ok d.
Proof.
  intros c s k n d E. cbn [load] in E. unfold bulk_load_var in E. apply bind_ok in E as (d1 & E & _).
  unfold load_keys in E. cbn [length] in E. cbn [load_chunks] in E. cbn in E. unfold load_tail in E. cbn [removelast last length] in E.
  apply bind_ok in E as (g & _ & E). apply bind_ok in E as (st & E & _). unfold chunk_store in E.
  rewrite (same_segment c _ k (k ++ repeat 0 n) n 0) in E by (cbn [repeat]; rewrite app_nil_r; reflexivity). discriminate.
Qed.
Print Assumptions C05_padded_duplicates_refuted.

(** *** An Insert that splits at a boundary key never returns: the key is compared
    with itself.  Witness: keys of 3 bytes, [1;0;0] loaded and inserted again.
    Nor does one whose stored prefix is a boundary key filled up with zeros. *)
Theorem C17_insert_refuted :
  (exists keys d, loadable (FixedLength 3) keys /\ load (machine 0) 3 (FixedLength 3) keys = Ok d /\ insert (machine 0) d [1; 0; 0] true = Fuel) /\
  (exists keys d d', loadable (FixedLength 2) keys /\ load (machine 0) 3 (FixedLength 2) keys = Ok d /\
     insert (machine 0) d [0; 5] false = Ok d' /\ insert (machine 0) d' [0; 7] true = Fuel).
Proof.
  split.
  - exists [[1; 0; 0]; [128; 0; 0]].
    assert (H : match load (machine 0) 3 (FixedLength 3) [[1; 0; 0]; [128; 0; 0]] with Ok d => insert (machine 0) d [1; 0; 0] true = Fuel | _ => False end) by (vm_compute; reflexivity).
    destruct (load (machine 0) 3 (FixedLength 3) [[1; 0; 0]; [128; 0; 0]]) as [d| |] eqn:E; try contradiction. exists d. split; [|auto].
    constructor; [repeat constructor; lia|discriminate|discriminate|]. split; repeat constructor.
  - exists [[0; 0]; [128; 0]].
    assert (H : match load (machine 0) 3 (FixedLength 2) [[0; 0]; [128; 0]] with
                | Ok d => match insert (machine 0) d [0; 5] false with Ok d' => insert (machine 0) d' [0; 7] true = Fuel | _ => False end
                | _ => False end) by (vm_compute; reflexivity).
    destruct (load (machine 0) 3 (FixedLength 2) [[0; 0]; [128; 0]]) as [d| |] eqn:E; try contradiction.
    destruct (insert (machine 0) d [0; 5] false) as [d'| |] eqn:E'; try contradiction. exists d, d'. split; [|auto].
    constructor; [repeat constructor; lia|discriminate|discriminate|]. split; repeat constructor.
Qed.
Print Assumptions C17_insert_refuted.

(** ** Lost keys *)
(** A single streamed key (more generally the last of 1, 1025, ... keys) is lost. *)
Theorem C06_last_key_refuted : exists d, load (machine 0) 3 Streaming [[5]] = Ok d /\ point_query (machine 0) d [5] = Ok false.
Proof.
  assert (H : match load (machine 0) 3 Streaming [[5]] with Ok d => point_query (machine 0) d [5] = Ok false | _ => False end) by (vm_compute; reflexivity).
  destruct (load (machine 0) 3 Streaming [[5]]) as [d| |]; try contradiction. exists d. auto.
Qed.
Print Assumptions C06_last_key_refuted.

(** Strings of different lengths: after a split a stored key is no longer found.
    The key 80 (hex) is stored, then 80 01 is inserted and becomes the reason for
    a boundary; 80 is now below the boundary but its infix went to the right. *)
Theorem C01_C24_strings_refuted : exists d0 d1 d2, loadable Strings [[1]; [255; 1]] /\
  load (machine 0) 3 Strings [[1]; [255; 1]] = Ok d0 /\ insert (machine 0) d0 [128] false = Ok d1 /\
  point_query (machine 0) d1 [128] = Ok true /\ insert (machine 0) d1 [128; 1] true = Ok d2 /\ point_query (machine 0) d2 [128] = Ok false.
Proof.
  assert (H : match load (machine 0) 3 Strings [[1]; [255; 1]] with
              | Ok d => match insert (machine 0) d [128] false with
                        | Ok d1 => point_query (machine 0) d1 [128] = Ok true /\
                            match insert (machine 0) d1 [128; 1] true with Ok d2 => point_query (machine 0) d2 [128] = Ok false | _ => False end
                        | _ => False end
              | _ => False end) by (vm_compute; split; reflexivity).
  destruct (load (machine 0) 3 Strings [[1]; [255; 1]]) as [d| |]; try contradiction.
  destruct (insert (machine 0) d [128] false) as [d1| |] eqn:E1; try contradiction. destruct H as [H1 H].
  destruct (insert (machine 0) d1 [128; 1] true) as [d2| |] eqn:E2; try contradiction. exists d, d1, d2. split; [|auto].
  constructor; [repeat constructor; lia|discriminate|discriminate|]. split; [repeat constructor|right; reflexivity].
Qed.
Print Assumptions C01_C24_strings_refuted.

(** ** Memory *)
(** 8-byte keys, a split next to a boundary: the stored infix is shifted beyond
    64 bits, the array for the left half gets a length that has nothing to do
    with what is written to it. *)
Definition near_pk : key := [127; 255; 255; 255; 255; 255; 255; 240].
Definition near_x : key := [127; 255; 255; 255; 255; 255; 255; 250].
Definition near_k : key := [128; 0; 0; 0; 0; 0; 0; 1].
Theorem C15_C24_near_boundary_refuted : exists d0 d1, loadable (FixedLength 8) [near_pk; [240; 0; 0; 0; 0; 0; 0; 0]] /\
  load (machine 0) 6 (FixedLength 8) [near_pk; [240; 0; 0; 0; 0; 0; 0; 0]] = Ok d0 /\
  insert (machine 0) d0 near_x false = Ok d1 /\ insert (machine 0) d1 near_k true = UB.
Proof.
  assert (H : match load (machine 0) 6 (FixedLength 8) [near_pk; [240; 0; 0; 0; 0; 0; 0; 0]] with
              | Ok d => match insert (machine 0) d near_x false with Ok d1 => insert (machine 0) d1 near_k true = UB | _ => False end
              | _ => False end) by (vm_compute; reflexivity).
  destruct (load (machine 0) 6 (FixedLength 8) [near_pk; [240; 0; 0; 0; 0; 0; 0; 0]]) as [d| |]; try contradiction.
  destruct (insert (machine 0) d near_x false) as [d1| |] eqn:E1; try contradiction. exists d, d1. split; [|auto].
  constructor; [repeat constructor; lia|discriminate|discriminate|]. split; repeat constructor.
Qed.
Print Assumptions C15_C24_near_boundary_refuted.

(** ShrinkInfixSize writes outside the new block as soon as a block has another
    size grade than a freshly allocated one. *)
Theorem C08_shrink_refuted : exists d, loadable (FixedLength 2) [[1; 2]; [3; 4]; [200; 7]] /\
  load (machine 0) 6 (FixedLength 2) [[1; 2]; [3; 4]; [200; 7]] = Ok d /\ shrink (machine 0) d 5 = UB.
Proof.
  assert (H : match load (machine 0) 6 (FixedLength 2) [[1; 2]; [3; 4]; [200; 7]] with Ok d => shrink (machine 0) d 5 = UB | _ => False end) by (vm_compute; reflexivity).
  destruct (load (machine 0) 6 (FixedLength 2) [[1; 2]; [3; 4]; [200; 7]]) as [d| |]; try contradiction. exists d. split; [|auto].
  constructor; [repeat constructor; lia|discriminate|discriminate|]. split; repeat constructor.
Qed.
Print Assumptions C08_shrink_refuted.

(** For every slot width, reading the last slot of a block of the smallest size
    touches bytes behind its allocation (up to 7 of them).  The configuration
    [standard] forbids this, [machine] allows 8 bytes. *)
Definition last_slot (c : cfg) (s g : Z) : res Z := get_slot c s (new_store c (c_size c g) s g) (c_size c g - 1).
Definition is_ub {A} (x : res A) : bool := match x with UB => true | _ => false end.
Definition all_bad (c : cfg) : bool := forallb (fun s => is_ub (last_slot c (Z.of_nat s) 0)) (seq 1 46).
Lemma all_bad_ok c : all_bad c = true -> forall s, 1 <= s <= 46 -> last_slot c s 0 = UB.
Proof.
  unfold all_bad. rewrite forallb_forall. intros H s Hs. specialize (H (Z.to_nat s)). rewrite in_seq in H. specialize (H ltac:(lia)).
  rewrite Z2Nat.id in H by lia. destruct (last_slot c s 0); [discriminate H|reflexivity|discriminate H].
Qed.
Theorem C15_slot_access_refuted : forall s, 1 <= s <= 46 -> last_slot (standard 0) s 0 = UB.
Proof. apply all_bad_ok. vm_compute. reflexivity. Qed.
Print Assumptions C15_slot_access_refuted.

(** ** Serialization *)
(** A filter whose load factor is not the default cannot be read back: the
    constructor compares the stored value with the initialiser of its own member. *)
Theorem C09_load_factor_refuted : forall c p d buf, p_lf p mod 2 ^ 32 <> bits95 -> serialize c p d = Ok buf -> forall i, deserialize c i buf = UB.
Proof.
  intros c p d buf Hp Hb i. unfold serialize in Hb. apply bind_ok in Hb as (t & _ & Hb). destruct (_ <? _); [|discriminate]. apply ok_inj in Hb. subst buf.
  set (R := t ++ word32 terminator). set (s := d_size d). set (buf := meta p s ++ R).
  unfold deserialize. enough (E : get_meta i buf = UB) by (rewrite E; reflexivity). unfold get_meta.
  rewrite (get_at' buf [] [Z.b2z (p_int p)] (skipn 1 (meta p s) ++ R) 0 1) by reflexivity. cbn [bind].
  destruct (negb (eqb _ i)); [reflexivity|].
  rewrite (expect_at buf (firstn 1 (meta p s)) target_size (skipn 5 (meta p s) ++ R) 1 eq_refl eq_refl) by (unfold target_size; lia). cbn [bind].
  rewrite (expect_at buf (firstn 5 (meta p s)) base_implicit_size (skipn 9 (meta p s) ++ R) 5 eq_refl eq_refl) by (unfold base_implicit_size; lia). cbn [bind].
  rewrite (expect_at buf (firstn 9 (meta p s)) scale_shift (skipn 13 (meta p s) ++ R) 9 eq_refl eq_refl) by (unfold scale_shift; lia). cbn [bind].
  rewrite (expect_at buf (firstn 13 (meta p s)) scale_implicit_shift (skipn 17 (meta p s) ++ R) 13 eq_refl eq_refl) by (unfold scale_implicit_shift; lia). cbn [bind].
  rewrite (expect_at buf (firstn 17 (meta p s)) size_scalar_count (skipn 21 (meta p s) ++ R) 17 eq_refl eq_refl) by (unfold size_scalar_count; lia). cbn [bind].
  rewrite (expect_at buf (firstn 21 (meta p s)) grow_sep (skipn 25 (meta p s) ++ R) 21 eq_refl eq_refl) by (unfold grow_sep; lia). cbn [bind].
  unfold expect, get32. rewrite (get_at' buf (firstn 25 (meta p s)) (word32 (p_lf p)) (skipn 29 (meta p s) ++ R) 25 4) by reflexivity. cbn [bind].
  unfold word32. rewrite of_le_bytes. change (8 * Z.of_nat 4) with 32. rewrite low_mod by lia. destruct (Z.eqb_spec (p_lf p mod 2 ^ 32) bits95); [contradiction|reflexivity].
Qed.
Print Assumptions C09_load_factor_refuted.
(** A boundary key longer than 20000 bytes overflows the array it is read into. *)
Theorem C09_long_boundary_refuted : forall c p d k st t buf, readable p -> 0 <= d_size d < 2 ^ 32 -> d_tree d = (k, st) :: t ->
  20000 < Z.of_nat (length k) < 2 ^ 32 - 1 -> serialize c p d = Ok buf -> deserialize c (p_int p) buf = UB.
Proof.
  intros c p d k st t buf [Hp1 Hp2] Hd Ht Hk Hb. unfold serialize in Hb. rewrite Ht in Hb. apply bind_ok in Hb as (b & Eb & Hb). destruct (_ <? _); [|discriminate]. apply ok_inj in Hb. subst buf.
  unfold deserialize. rewrite get_meta_ok by assumption. cbn [bind]. unfold deser_loop. cbn [loop].
  cbn [ser_tree] in Eb. apply bind_ok in Eb as (b1 & E1 & Eb). apply bind_ok in Eb as (b2 & _ & Eb). apply ok_inj in Eb. subst b.
  unfold ser_entry in E1. apply bind_ok in E1 as (b0 & _ & E1). apply ok_inj in E1. subst b1.
  set (pad := repeat 0 _). set (buf := meta p (d_size d) ++ _).
  rewrite (get32_at buf (meta p (d_size d)) (klen k) (k ++ pad ++ b0 ++ b2 ++ word32 terminator) meta_len);
    [|unfold buf; rewrite <- !app_assoc; reflexivity|rewrite meta_length; reflexivity|unfold klen; lia]. cbn [bind].
  replace (klen k =? terminator) with false by (symmetry; apply Z.eqb_neq; unfold terminator, klen; lia).
  replace (max_key <? klen k) with true by (symmetry; apply Z.ltb_lt; unfold max_key, klen; lia). reflexivity.
Qed.
Print Assumptions C09_long_boundary_refuted.
Example C09_long_boundary_example : 20000 < Z.of_nat (length (repeat 0 (Z.to_nat 20001))) < 2 ^ 32 - 1.
Proof. rewrite repeat_length. lia. Qed.

(** The integer build reports a size that is too small as soon as a boundary has
    been cut to less than eight bytes: the caller's buffer overflows. *)
Theorem C10_integer_size_refuted : exists keys ops d buf, grown (machine 0) 3 8 keys ops d /\
  serialize (machine 0) (mkparams true bits95 1) d = Ok buf /\ size (machine 0) true d < Z.of_nat (length buf).
Proof.
  set (keys := [[1; 0; 0; 0; 0; 0; 0; 0]; [200; 0; 0; 0; 0; 0; 0; 0]]). set (ops := [([101; 0; 0; 0; 0; 0; 0; 1], false); ([101; 0; 0; 0; 0; 0; 0; 7], true)]).
  assert (H : match grownb (machine 0) 3 8 keys ops with
              | Some d => match serialize (machine 0) (mkparams true bits95 1) d with Ok buf => (size (machine 0) true d <? Z.of_nat (length buf)) = true | _ => False end
              | None => False end) by (vm_compute; reflexivity).
  destruct (grownb (machine 0) 3 8 keys ops) as [d|] eqn:E; [|contradiction].
  destruct (serialize (machine 0) (mkparams true bits95 1) d) as [buf| |] eqn:Eb; try contradiction.
  exists keys, ops, d, buf. split; [|split; [exact Eb|apply Z.ltb_lt; exact H]]. apply grownb_ok; [lia| |exact E].
  constructor; [repeat constructor; lia|discriminate|discriminate|]. split; repeat constructor.
Qed.
Print Assumptions C10_integer_size_refuted.

(** A filter read from a buffer does not own its blocks, but its destructor frees
    them. *)
Theorem C29_destroy_refuted : forall c i buf d seed, deserialize c i buf = Ok (d, seed) -> d_tree d <> [] -> destroy d = UB.
Proof. exact read_not_owned. Qed.
Print Assumptions C29_destroy_refuted.

(** ** Deletion from a crammed block (C07, C01) *)
(** The used slots of the last block are exactly its last ones and the first of
    them is the home slot of its element.  Deleting the other element shifts the
    rest of the block off its home slots (diva.hpp:2459-2463): the next insertion
    into the block goes elsewhere and two keys that were never deleted are lost. *)
Theorem C07_C01_delete_then_insert_refuted : exists keys ops d, loadable (FixedLength 2) keys /\
  ops = [Ins [248; 0]; Ins [252; 0]; Del [252; 0]; Ins [250; 32]] /\ history (machine 0) 3 (FixedLength 2) keys ops = Ok d /\
  In [248; 0] (remaining keys ops) /\ In [250; 32] (remaining keys ops) /\
  point_query (machine 0) d [248; 0] = Ok false /\ point_query (machine 0) d [250; 32] = Ok false.
Proof.
  exists [[0; 0]; [255; 255]], [Ins [248; 0]; Ins [252; 0]; Del [252; 0]; Ins [250; 32]].
  assert (H : match history (machine 0) 3 (FixedLength 2) [[0; 0]; [255; 255]] [Ins [248; 0]; Ins [252; 0]; Del [252; 0]; Ins [250; 32]] with
              | Ok d => point_query (machine 0) d [248; 0] = Ok false /\ point_query (machine 0) d [250; 32] = Ok false
              | _ => False end) by (vm_compute; split; reflexivity).
  destruct (history (machine 0) 3 (FixedLength 2) [[0; 0]; [255; 255]] [Ins [248; 0]; Ins [252; 0]; Del [252; 0]; Ins [250; 32]]) as [d| |]; try contradiction.
  destruct H as [H1 H2]. exists d. split.
  { constructor; [repeat constructor; lia|discriminate|discriminate|]. split; [repeat constructor|]. repeat constructor. }
  split; [reflexivity|]. split; [reflexivity|]. split; [cbn; auto|]. split; [cbn; auto|]. split; assumption.
Qed.
Print Assumptions C07_C01_delete_then_insert_refuted.

(** ** Deletion in a block that a split left behind a truncated boundary (C07, C25) *)
(** Delete merges the two blocks around a truncated boundary whenever the boundary
    is more precise than the best matching element, without asking whether the
    boundary matches the key at all (diva.hpp:1543-1551).  Here the key to delete is
    stored as an old, short element and the truncated boundary stands for another
    key: that key is lost and the deleted one stays. *)
Definition split_ops : list (key * bool) :=
  [([157; 1; 0; 0], false); ([149; 0; 0; 0], true); ([160; 0; 0; 0], true); ([155; 1; 1; 0], false); ([155; 1; 30; 0], true);
   ([154; 9; 0; 0], true); ([158; 0; 0; 0], true)].
Definition split_keys : list key := [[1; 0; 0; 0]; [3; 4; 0; 0]; [200; 7; 0; 0]].
Theorem C07_C25_delete_after_split_refuted : exists d d',
  grown (machine 0) 6 4 split_keys split_ops d /\ In [157; 1; 0; 0] (map fst split_ops) /\ In [155; 1; 1; 0] (map fst split_ops) /\
  ~ In [157; 1; 0; 0] (boundaries d) /\ delete (machine 0) d [157; 1; 0; 0] = Ok d' /\
  point_query (machine 0) d [155; 1; 1; 0] = Ok true /\ point_query (machine 0) d' [155; 1; 1; 0] = Ok false /\
  point_query (machine 0) d' [157; 1; 0; 0] = Ok true.
Proof.
  assert (H : match grownb (machine 0) 6 4 split_keys split_ops with
              | Some d => existsb (same_key [157; 1; 0; 0]) (boundaries d) = false /\ point_query (machine 0) d [155; 1; 1; 0] = Ok true /\
                  match delete (machine 0) d [157; 1; 0; 0] with
                  | Ok d' => point_query (machine 0) d' [155; 1; 1; 0] = Ok false /\ point_query (machine 0) d' [157; 1; 0; 0] = Ok true
                  | _ => False end
              | None => False end) by (vm_compute; repeat split; reflexivity).
  destruct (grownb (machine 0) 6 4 split_keys split_ops) as [d|] eqn:E; [|contradiction]. destruct H as (H0 & H1 & H2).
  apply grownb_ok in E; [|lia|].
  - destruct (delete (machine 0) d [157; 1; 0; 0]) as [d'| |] eqn:ED; try contradiction. destruct H2 as [H2 H3]. exists d, d'.
    split; [exact E|]. split; [cbn; auto|]. split; [cbn; auto 10|]. split; [intros Hin; apply existsb_same in Hin; congruence|]. auto 10.
  - constructor; [repeat constructor; lia|discriminate|discriminate|]. split; [repeat constructor|]. repeat constructor.
Qed.
Print Assumptions C07_C25_delete_after_split_refuted.
