(** Theorems about the arrays inside a leaf of the index: C42.  The vocabulary is in
    SpecSlots.v, the model in WhSlots.v. *)
From Coq Require Import ZArith List Bool Arith Lia Permutation Sorted.
From Verif Require Import Base Key Wormhole WhSlots SpecSlots WhSlotsClaims WhSort WhSortProofs.
From Verif Require WhHash.
Import ListNotations.
Open Scope Z_scope.

(** ** C42: a leaf finds exactly the pairs it stores *)
(** For every tag function, however many keys share a tag, and every sequence of calls
    that stores at most 32 keys at a time: no call reads or writes outside the arrays,
    every call answers the value a finite map has for the key, and the pairs of the
    leaf are, in the same order, the ones of the leaf in the index model (Wormhole.v),
    which C37 is about. *)
Theorem C42_leaf_is_a_map {V : Type} T (cs : list (@lcall V)) a : tag_fun T -> fits [] cs ->
  exists l, lrun T no_slots cs = Ok (l, answers (fun _ => None) cs)
  /\ pairs l = l_kvs (fold_left lstep cs (mkleaf a [] 0)).
Proof. exact (leaf_slots T cs a). Qed.
Print Assumptions C42_leaf_is_a_map.

(** The tags of the code, which come from the hash crc32c, are such tags *)
Lemma pkey_tags : tag_fun (fun k => WhHash.pkey (WhHash.crc32c k)).
Proof.
  intros k. unfold WhHash.pkey. set (h := WhHash.crc32c k). clearbody h.
  set (p := Z.lxor (h mod 2 ^ 16) (Z.shiftr h 16 mod 2 ^ 16)).
  assert (B : 0 <= p < 2 ^ 16).
  { unfold p. pose proof (Z.mod_pos_bound h (2 ^ 16) ltac:(lia)) as A. pose proof (Z.mod_pos_bound (Z.shiftr h 16) (2 ^ 16) ltac:(lia)) as C.
    revert A C. generalize (h mod 2 ^ 16) (Z.shiftr h 16 mod 2 ^ 16). intros x y A C.
    assert (N : 0 <= Z.lxor x y) by (apply Z.lxor_nonneg; lia). split; [exact N|].
    destruct (Z.eq_dec (Z.lxor x y) 0) as [E|E]; [rewrite E; lia|]. apply Z.log2_lt_pow2; [lia|].
    eapply Z.le_lt_trans; [apply Z.log2_lxor; lia|]. apply Z.max_lub_lt.
    - destruct (Z.eq_dec x 0) as [->|]; [reflexivity|apply Z.log2_lt_pow2; lia].
    - destruct (Z.eq_dec y 0) as [->|]; [reflexivity|apply Z.log2_lt_pow2; lia]. }
  destruct (Z.eqb_spec p 0); lia.
Qed.
Theorem C42_leaf_with_crc32c {V : Type} (cs : list (@lcall V)) : fits [] cs ->
  exists l, lrun (fun k => WhHash.pkey (WhHash.crc32c k)) no_slots cs = Ok (l, answers (fun _ => None) cs).
Proof. intros F. destruct (leaf_slots _ cs [] pkey_tags F) as (l & E & _). exists l. exact E. Qed.
Print Assumptions C42_leaf_with_crc32c.

(** Six keys with the last possible tag, which is pushed to the left at the end of the
    array, three with a lower tag in their way; then look-ups, removals, another order
    and a key stored again *)
Definition C42_tags (k : key) : Z := match k with [b] => if b <? 6 then 65535 else if b <? 9 then 60000 + b else 2 | _ => 1 end.
Definition C42_calls : list (@lcall Z) :=
  map (fun b => LPut [b] (100 + b)) [0; 1; 2; 3; 4; 5; 6; 7; 8]
  ++ [LGet [3]; LGet [9]; LDel [1]; LGet [1]; LDel [6]; LGet [7]; LOrder [6; 5; 4; 3; 2; 1; 0]%nat; LPut [4] 7; LGet [4]; LPut [1] 8; LGet [5]; LGet [0]].
Example C42_example : tag_fun C42_tags /\ fits [] C42_calls
  /\ answers (fun _ => None) C42_calls =
     repeat None 9 ++ [Some 103; None; Some 101; None; Some 106; Some 107; None; Some 104; Some 7; None; Some 105; Some 100].
Proof.
  split; [|split; [|vm_compute; reflexivity]].
  - intros k. unfold C42_tags. destruct k as [|b [|c r]]; [lia| |lia]. destruct (Z.ltb_spec b 6); [lia|]. destruct (Z.ltb_spec b 9); lia.
  - unfold C42_calls. cbn [map app fits].
    repeat (first [exact I | split; [vm_compute; repeat constructor|] | idtac]).
    apply Permutation_sym. exact (Permutation_rev [0; 1; 2; 3; 4; 5; 6]%nat).
Qed.

(** When a full leaf is split, the two leaves hold the pairs, with the new pair at its
    place, before and from the cut, and are the leaves that result from storing these
    pairs one by one in empty leaves: so what is stated above holds for them too. *)
Theorem C42_split_leaf {V : Type} T (cs : list (@lcall V)) l r cut is1 k v :
  tag_fun T -> fits [] cs -> lrun T no_slots cs = Ok (l, r) ->
  (forall x, In x (pairs l) -> fst x <> k) -> (is1 <= length (pairs l))%nat -> (1 <= cut <= length (pairs l))%nat ->
  let xs := firstn is1 (pairs l) ++ (k, v) :: skipn is1 (pairs l) in
  exists l1 l2 r1 r2, move1 l cut is1 (T k, (k, v)) = Ok (l1, l2)
  /\ pairs l1 = firstn cut xs /\ pairs l2 = skipn cut xs
  /\ lrun T no_slots (puts (firstn cut xs)) = Ok (l1, r1) /\ lrun T no_slots (puts (skipn cut xs)) = Ok (l2, r2).
Proof. exact (split_slots T cs l r cut is1 k v). Qed.
Print Assumptions C42_split_leaf.
(** When two leaves with at most 32 pairs together are merged, the pairs of the second
    follow those of the first. *)
Theorem C42_merge_leaves {V : Type} T (cs1 cs2 : list (@lcall V)) l1 l2 r1 r2 :
  tag_fun T -> fits [] cs1 -> fits [] cs2 -> lrun T no_slots cs1 = Ok (l1, r1) -> lrun T no_slots cs2 = Ok (l2, r2) ->
  (forall x y, In x (pairs l1) -> In y (pairs l2) -> fst x <> fst y) -> (length (pairs l1) + length (pairs l2) <= 32)%nat ->
  exists l r, merge l1 l2 = Ok l /\ pairs l = pairs l1 ++ pairs l2 /\ lrun T no_slots (cs1 ++ puts (pairs l2)) = Ok (l, r).
Proof. exact (merge_slots T cs1 cs2 l1 l2 r1 r2). Qed.
Print Assumptions C42_merge_leaves.
(** A leaf with eight pairs, six of them with the same tag, and a leaf with three others *)
Definition C42_left : list (@lcall Z) := C42_calls.
Definition C42_right : list (@lcall Z) := map (fun b => LPut [b] b) [20; 30; 40].
Example C42_split_example : exists l1 r1 l2 r2,
  lrun C42_tags no_slots C42_left = Ok (l1, r1) /\ lrun C42_tags no_slots C42_right = Ok (l2, r2) /\ fits [] C42_right
  /\ map fst (pairs l1) = [[7]; [5]; [4]; [3]; [2]; [8]; [0]; [1]] /\ map fst (pairs l2) = [[20]; [30]; [40]].
Proof.
  assert (H : match lrun C42_tags no_slots C42_left with Ok (l, _) => map fst (pairs l) | _ => [] end = [[7]; [5]; [4]; [3]; [2]; [8]; [0]; [1]])
    by (vm_compute; reflexivity).
  assert (K : match lrun C42_tags no_slots C42_right with Ok (l, _) => map fst (pairs l) | _ => [] end = [[20]; [30]; [40]])
    by (vm_compute; reflexivity).
  destruct (lrun C42_tags no_slots C42_left) as [[l1 r1]| |]; [|discriminate|discriminate].
  destruct (lrun C42_tags no_slots C42_right) as [[l2 r2]| |]; [|discriminate|discriminate].
  exists l1, r1, l2, r2. split; [reflexivity|]. split; [reflexivity|]. split; [|split; assumption].
  cbn [C42_right map fits]. repeat (first [exact I | split; [vm_compute; repeat constructor|]]).
Qed.

(** Sorting a leaf whose first [s] pairs are in order, in place and with a buffer for
    half of the pairs: nothing is read or written outside the arrays and the buffer, the
    pairs are then in order, no pair is lost or made up, the list is the one of the index
    model, and what follows is as after an order of the pairs ([LOrder]), so what is
    stated above covers sorting. *)
Definition in_order {V} (xs : list (key * V)) : Prop := StronglySorted (fun x y => key_lt (fst x) (fst y) = true) xs.
Theorem C42_sort_leaf {V : Type} T (cs : list (@lcall V)) l r s a :
  tag_fun T -> fits [] cs -> lrun T no_slots cs = Ok (l, r) -> (s <= length (pairs l))%nat -> in_order (firstn s (pairs l)) ->
  exists l' ix, sync l s = Ok l' /\ in_order (pairs l') /\ Permutation (pairs l') (pairs l)
  /\ pairs l' = l_kvs (sync_sorted (mkleaf a (pairs l) s))
  /\ Permutation ix (seq 0 (length (pairs l))) /\ lrun T no_slots (cs ++ [LOrder ix]) = Ok (l', r ++ [None]).
Proof. exact (sort_slots T cs l r s a). Qed.
Print Assumptions C42_sort_leaf.
(** Two pairs in order before three others (merged forwards), and four before two
    (merged backwards) *)
Definition C42_sorted_by (s : nat) (ks : list Z) : list key :=
  match lrun C42_tags no_slots (map (fun b => LPut [b] b) ks) with
  | Ok (l, _) => match sync l s with Ok l' => map fst (pairs l') | _ => [] end
  | _ => []
  end.
Example C42_sort_example :
  C42_sorted_by 2 [3; 8; 9; 1; 5] = [[1]; [3]; [5]; [8]; [9]] /\ C42_sorted_by 4 [2; 4; 6; 7; 5; 1] = [[1]; [2]; [4]; [5]; [6]; [7]]
  /\ exists l r, lrun C42_tags no_slots (map (fun b => LPut [b] b) [2; 4; 6; 7; 5; 1]) = Ok (l, r)
     /\ in_order (firstn 4 (pairs l)) /\ (4 <= length (pairs l))%nat /\ fits [] (map (fun b => LPut [b] b) [2; 4; 6; 7; 5; 1]).
Proof.
  split; [vm_compute; reflexivity|]. split; [vm_compute; reflexivity|].
  set (cs := map (fun b => LPut [b] b) [2; 4; 6; 7; 5; 1]).
  assert (H : match lrun C42_tags no_slots cs with Ok (l, _) => pairs l | _ => [] end = map (fun b => ([b], b)) [2; 4; 6; 7; 5; 1]) by (vm_compute; reflexivity).
  destruct (lrun C42_tags no_slots cs) as [[l r]| |]; [|discriminate|discriminate]. exists l, r. split; [reflexivity|]. rewrite H. split; [|split].
  - cbn [map firstn]. repeat constructor.
  - cbn [map length]. lia.
  - cbn [cs map fits]. repeat (first [exact I | split; [vm_compute; repeat constructor|]]).
Qed.
