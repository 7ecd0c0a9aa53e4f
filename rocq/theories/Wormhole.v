(** Model of the ordered index of include/wormhole/wh.c (wh_put, wh_del and the
    iterator functions that diva.hpp calls), used from one thread.

    What is simplified:
    - Locks, version numbers, epochs (qsbr) and the second copy of the hash table
      (hmap2) are left out: with one thread both copies receive the same updates
      one after the other (wormhole_split_meta 2327-2380, wormhole_meta_merge
      2527-2565).
    - A leaf is its anchor and its pairs in the order of the array ss; the array
      hs, which finds a pair of a leaf by hash (wormleaf_match_hs 1412-1453,
      insert_hs 1767-1833, pull_ih 1859-1884), is replaced by a search through
      all pairs (WhSlots.v models it and C42 shows that it agrees).  Leaves are named by their
      anchor, and the links prev and next
      are the neighbours in the list of leaves.
    - The hash table from prefixes to wormmeta nodes (wormhmap_get, _set, _del,
      _replace 732-1055) is a function; wormhmap_peek, which compares only 16 bits
      of a hash, may also say yes for prefixes that are not in the table: [fp] says
      for which.
    - Memory allocation never fails. *)
From Coq Require Import ZArith List Bool Arith.
From Verif Require Import Base Key.
Import ListNotations.
Open Scope Z_scope.

(** wh.c:24-30, 34: WH_KPN, WH_MID, WH_KPN_MRG, WH_FO *)
Definition KPN : nat := 32.
Definition MID : nat := 16.
Definition MRG : nat := 24.
Definition FO : Z := 256.
(** UINT16_MAX *)
Definition U16MAX : nat := Nat.pow 2 16 - 1.
(** wh.c:1112: pbuf has 2^16 bytes, 16 of them for the header of struct kv
    (kv.h:36-52) *)
Definition PBUF : nat := U16MAX - 15.

(** kv.c:393-398 kv_key_lcp, lib.c:2203-2231 memlcp (which compares eight bytes
    at a time) *)
Fixpoint lcp (a b : key) : nat :=
  match a, b with
  | x :: a', y :: b' => if x =? y then S (lcp a' b') else O
  | _, _ => O
  end.

(** ** Nodes of the hash table *)
(** wh.c:39-45 struct wormmeta: the leftmost and the rightmost leaf below the
    prefix, the leaf [m_lpath] for keys that sort before all children, and the set of
    bytes that continue the prefix: lowest, highest, and a 256-bit map that is
    only present when they differ.  FO = 256 means none. *)
Record meta := mkmeta { m_lmost : key; m_rmost : key; m_lpath : option key; m_min : Z; m_max : Z; m_bits : Z }.
(** the hash table *)
Definition hmap := key -> option meta.
Definition hset (h : hmap) (p : key) (x : option meta) : hmap := fun q => if key_eq q p then x else h q.

(** wh.c:219-230 wormmeta_bm_test *)
Definition bm_test (x : meta) (id : Z) : bool := if m_min x =? m_max x then m_min x =? id else Z.testbit (m_bits x) id.
(** wh.c:232-252 wormmeta_bm_set *)
Definition bm_set (x : meta) (id : Z) : meta :=
  if Z.testbit (m_bits x) id then x
  else mkmeta (m_lmost x) (m_rmost x) (m_lpath x)
         (if id <? m_min x then id else m_min x)
         (if (m_max x =? FO) || (m_max x <? id) then id else m_max x)
         (Z.setbit (m_bits x) id).
(** wh.c:254-272 wormmeta_bm_gt: the lowest bit from [id] on (the four words are
    one number here) *)
Fixpoint scan_up (n : nat) (bits id : Z) : Z :=
  match n with O => FO | S n' => if Z.testbit bits id then id else scan_up n' bits (id + 1) end.
Definition bm_gt (x : meta) (id : Z) : Z := scan_up (Z.to_nat (FO - id)) (m_bits x) id.
(** wh.c:274-291 wormmeta_bm_lt: the highest bit below [id] *)
Fixpoint scan_down (n : nat) (bits id : Z) : Z :=
  match n with O => FO | S n' => if Z.testbit bits (id - 1) then id - 1 else scan_down n' bits (id - 1) end.
Definition bm_lt (x : meta) (id : Z) : Z := scan_down (Z.to_nat id) (m_bits x) id.
(** wh.c:293-308 wormmeta_bm_clear *)
Definition bm_clear (x : meta) (id : Z) : meta :=
  let x1 := mkmeta (m_lmost x) (m_rmost x) (m_lpath x) (m_min x) (m_max x) (Z.clearbit (m_bits x) id) in
  let x2 := if id =? m_min x1 then mkmeta (m_lmost x1) (m_rmost x1) (m_lpath x1) (bm_gt x1 id) (m_max x1) (m_bits x1) else x1 in
  if id =? m_max x2 then mkmeta (m_lmost x2) (m_rmost x2) (m_lpath x2) (m_min x2) (bm_lt x2 id) (m_bits x2) else x2.
(** wh.c:2204-2223 wormmeta_expand: the bitmap is created with its only bit *)
Definition expand (x : meta) : meta :=
  mkmeta (m_lmost x) (m_rmost x) (m_lpath x) (m_min x) (m_max x) (Z.setbit 0 (m_min x)).
(** wh.c:2225-2244 wormmeta_bm_set_helper *)
Definition bm_set_helper (x : meta) (id : Z) : meta :=
  if m_min x <? m_max x then bm_set x id
  else if id =? m_min x then x
  else if m_min x =? FO then mkmeta (m_lmost x) (m_rmost x) (m_lpath x) id id (m_bits x)
  else bm_set (expand x) id.
(** wh.c:2450-2478 wormmeta_shrink (drops the bitmap), wormmeta_bm_clear_helper *)
Definition bm_clear_helper (x : meta) (id : Z) : meta :=
  if m_min x =? m_max x then mkmeta (m_lmost x) (m_rmost x) (m_lpath x) FO FO (m_bits x)
  else let x1 := bm_clear x id in
       if m_min x1 =? m_max x1 then mkmeta (m_lmost x1) (m_rmost x1) (m_lpath x1) (m_min x1) (m_max x1) 0 else x1.
(** wh.c:166-176 wormmeta_lmost_store on the node of a prefix of length [plen]:
    [leaf] is the leaf, [prev] the leaf before it *)
Definition lmost_store (x : meta) (plen : nat) (leaf : key) (prev : option key) : meta :=
  mkmeta leaf (m_rmost x) (if Nat.eqb (length leaf) plen then Some leaf else prev) (m_min x) (m_max x) (m_bits x).
(** wh.c:159-163 wormmeta_lpath_store, 190-194 wormmeta_rmost_store *)
Definition lpath_store (x : meta) (leaf : option key) : meta :=
  mkmeta (m_lmost x) (m_rmost x) leaf (m_min x) (m_max x) (m_bits x).
Definition rmost_store (x : meta) (leaf : key) : meta :=
  mkmeta (m_lmost x) leaf (m_lpath x) (m_min x) (m_max x) (m_bits x).
(** wh.c:196-215 wormmeta_init *)
Definition meta_init (leaf : key) (prev : option key) (plen : nat) (bit : Z) : meta :=
  mkmeta leaf leaf (if Nat.eqb (length leaf) plen then Some leaf else prev) bit bit 0.

(** ** Finding a leaf *)
(** wh.c:1190-1228 wormhole_meta_lcp, first two loops: a binary search for the
    longest prefix of [k] in the table that trusts wormhmap_peek.  The loops differ
    in the step only. *)
Fixpoint search1 (fuel : nat) (h : hmap) (fp : key -> bool) (k : key) (gd lo : nat) : res nat :=
  match fuel with
  | O => Fuel
  | S fuel' =>
      if Nat.leb gd 1 then Ok lo
      else let inc := (if Nat.ltb 7 gd then gd / 8 * 4 else gd / 2)%nat in
           let p := firstn (lo + inc) k in
           if match h p with Some _ => true | None => fp p end
           then search1 fuel' h fp k (gd - inc) (lo + inc)
           else search1 fuel' h fp k inc lo
  end.
(** wh.c:1234-1286 wormhole_meta_lcp, last two loops: the same search with exact
    look-ups, after a miss *)
Fixpoint search2 (fuel : nat) (h : hmap) (k : key) (gd lo : nat) : res (nat * meta) :=
  match fuel with
  | O => Fuel
  | S fuel' =>
      if Nat.leb gd 1 then match h (firstn lo k) with Some x => Ok (lo, x) | None => UB end
      else let inc := (gd * 3 / 4)%nat in
           match h (firstn (lo + inc) k) with
           | Some x =>
               match nth_error k (lo + inc) with
               | None => UB
               | Some b => if bm_test x b then search2 fuel' h k (gd - inc - 1) (lo + inc + 1) else Ok (lo + inc, x)%nat
               end
           | None => search2 fuel' h k inc lo
           end
  end.
(** wh.c:1190-1289 wormhole_meta_lcp *)
Definition meta_lcp (h : hmap) (fp : key -> bool) (maxplen : nat) (k : key) : res (nat * meta) :=
  let gd := (Nat.min maxplen (length k) + 1)%nat in
  let* lo := search1 (S gd) h fp k gd 0 in
  match h (firstn lo k) with
  | Some x => Ok (lo, x)
  | None => search2 (S lo) h k lo 0
  end.
(** wh.c:1293-1311 wormhole_meta_down; the result is a leaf, possibly NULL *)
Definition meta_down (h : hmap) (k : key) (lo : nat) (x : meta) : res (option key) :=
  match nth_error k lo with
  | Some id =>
      if id <? m_min x then Ok (m_lpath x)
      else if m_max x <? id then Ok (Some (m_rmost x))
      else if m_min x =? m_max x then UB
      else match h (firstn lo k ++ [Z.land (bm_lt x id) 255]) with
           | Some y => Ok (Some (m_rmost y))
           | None => UB
           end
  | None => Ok (m_lpath x)
  end.
(** wh.c:1313-1322 wormhole_jump_leaf; a null result is dereferenced by the
    callers (1325-1377) *)
Definition jump (h : hmap) (fp : key -> bool) (maxplen : nat) (k : key) : res key :=
  let* '(lo, x) := meta_lcp h fp maxplen k in
  let* a := meta_down h k lo x in
  match a with Some a => Ok a | None => UB end.

(** ** Updating the hash table *)
(** wh.c:2247-2266 wormmeta_split_touch for the new leaf [leaf] between [prev]
    and [next], on the prefix of length [i] of its anchor *)
Definition split_touch (h : hmap) (prev : key) (leaf : key) (next : option key) (i : nat) : hmap :=
  let p := firstn i leaf in
  match h p with
  | Some x =>
      let x1 := match nth_error leaf i with Some b => bm_set_helper x b | None => x end in
      let x2 :=
        if match next with Some n => key_eq (m_lmost x1) n | None => false end
        then lmost_store x1 i leaf (Some prev)
        else if key_eq (m_rmost x1) prev then rmost_store x1 leaf else x1 in
      hset h p (Some x2)
  | None => hset h p (Some (meta_init leaf (Some prev) i (match nth_error leaf i with Some b => b | None => FO end)))
  end.
(** wh.c:2268-2289 wormmeta_lpath_update *)
Definition lpath_update (h : hmap) (a1 a2 : key) (leaf : key) : res hmap :=
  if Nat.ltb PBUF (length a2) then UB
  else
    let i := S (lcp a1 a2) in
    fold_left (fun rh j => let* g := rh in
      match g (firstn j a2) with
      | Some x => Ok (hset g (firstn j a2) (Some (lpath_store x (Some leaf))))
      | None => UB
      end) (seq i (length a2 - i)) (Ok h).
(** wh.c:2291-2324 wormmeta_split: the new table and maxplen *)
Definition meta_split (h : hmap) (maxplen : nat) (prev leaf : key) (next : option key) : res (hmap * nat) :=
  let i := match next with Some n => lcp prev n | None => O end in
  let h1 := fold_left (fun g j => split_touch g prev leaf next j) (seq i (S (length leaf - i))) h in
  let last := Nat.max i (length leaf) in
  let* h2 := match next with Some n => lpath_update h1 leaf n leaf | None => Ok h1 end in
  Ok (h2, Nat.max maxplen last).
(** wh.c:2490-2518, the loop of wormmeta_merge; [parent] is the prefix of the node
    kept in the variable of that name *)
Fixpoint merge_loop (n : nat) (h : hmap) (prev leaf : key) (next : option key) (i : nat) (parent : option key) : res hmap :=
  let p := firstn i leaf in
  match h p with
  | None => UB
  | Some x =>
      let go h' parent' := match n with O => Ok h' | S n' => merge_loop n' h' prev leaf next (S i) parent' end in
      if key_eq (m_lmost x) (m_rmost x)
      then
        let h1 := hset h p None in
        let* h2 :=
          match parent with
          | None => Ok h1
          | Some q =>
              match h1 q, nth_error leaf (i - 1) with
              | Some y, Some b => Ok (hset h1 q (Some (bm_clear_helper y b)))
              | _, _ => UB
              end
          end in
        if m_min x =? FO then Ok h2 else go h2 None
      else
        let* x1 :=
          if key_eq (m_lmost x) leaf
          then match next with Some n => Ok (lmost_store x i n (Some prev)) | None => UB end
          else Ok (if key_eq (m_rmost x) leaf then rmost_store x prev else x) in
        go (hset h p (Some x1)) (Some p)
  end.
(** wh.c:2480-2524 wormmeta_merge *)
Definition meta_merge (h : hmap) (prev leaf : key) (next : option key) : res hmap :=
  if Nat.ltb PBUF (length leaf) then UB
  else
    let i := match next with Some n => lcp prev n | None => O end in
    let* h1 := merge_loop (length leaf - i) h prev leaf next i None in
    match next with Some n => lpath_update h1 leaf n prev | None => Ok h1 end.

Section Values.
Context {V : Type}.

(** ** Leaves *)
(** wh.c:50-65 struct wormleaf: anchor, pairs in the order of ss, nr_sorted *)
Record leaf := mkleaf { l_anchor : key; l_kvs : list (key * V); l_sorted : nat }.

(** wh.c:1412-1453 wormleaf_match_hs and 1512-1537 wormleaf_search_is: the position
    of the pair with key [k] *)
Fixpoint find_pos (l : list (key * V)) (k : key) : option nat :=
  match l with
  | [] => None
  | x :: r => if key_eq (fst x) k then Some O else option_map S (find_pos r k)
  end.
(** wh.c:1541-1554 wormleaf_search_ss: binary search among the sorted pairs *)
Fixpoint search_ss (fuel : nat) (l : list (key * V)) (k : key) (lo hi : nat) : res nat :=
  match fuel with
  | O => Fuel
  | S fuel' =>
      if Nat.ltb lo hi then
        let i := ((lo + hi) / 2)%nat in
        match nth_error l i with
        | None => UB
        | Some x => if key_lt k (fst x) then search_ss fuel' l k lo i else search_ss fuel' l k (S i) hi
        end
      else Ok lo
  end.
(** wh.c:1556-1566 wormleaf_seek *)
Definition leaf_seek (l : leaf) (k : key) : res nat :=
  match find_pos (l_kvs l) k with
  | Some i => Ok i
  | None => search_ss (S (l_sorted l)) (l_kvs l) k 0 (l_sorted l)
  end.

(** wh.c:1659-1667 wormleaf_sort_range: qsort_r by kv_compare *)
Fixpoint insert_sorted (x : key * V) (l : list (key * V)) : list (key * V) :=
  match l with
  | [] => [x]
  | y :: r => if key_lt (fst x) (fst y) then x :: l else y :: insert_sorted x r
  end.
Definition sort_range (l : list (key * V)) : list (key * V) := fold_left (fun acc x => insert_sorted x acc) l [].
(** wh.c:1589-1638 wormleaf_sort_m2: merges two sorted ranges (in place, from the
    side of the shorter one) *)
Fixpoint sort_m2 (a : list (key * V)) : list (key * V) -> list (key * V) :=
  match a with
  | [] => fun b => b
  | x :: a' =>
      fix go (b : list (key * V)) :=
        match b with
        | [] => a
        | y :: b' => if key_lt (fst y) (fst x) then y :: go b' else x :: sort_m2 a' b
        end
  end.
(** wh.c:1669-1683 wormleaf_sync_sorted *)
Definition sync_sorted (l : leaf) : leaf :=
  if Nat.eqb (l_sorted l) (length (l_kvs l)) then l
  else mkleaf (l_anchor l) (sort_m2 (firstn (l_sorted l) (l_kvs l)) (sort_range (skipn (l_sorted l) (l_kvs l)))) (length (l_kvs l)).

(** wh.c:1835-1856 wormleaf_insert *)
Definition leaf_insert (l : leaf) (k : key) (v : V) : leaf :=
  let nr0 := length (l_kvs l) in
  mkleaf (l_anchor l) (l_kvs l ++ [(k, v)])
    (if Nat.eqb nr0 (l_sorted l)
     then match nr0 with
          | O => 1%nat
          | S n => match nth_error (l_kvs l) n with
                   | Some x => if key_lt (fst x) k then S nr0 else l_sorted l
                   | None => l_sorted l
                   end
          end
     else l_sorted l).
(** wh.c:1886-1912 wormleaf_remove, wormleaf_remove_ih: the last pair takes the
    place of the removed one *)
Definition leaf_remove (l : leaf) (i : nat) : leaf :=
  let n := length (l_kvs l) in
  mkleaf (l_anchor l)
    (firstn (n - 1) (firstn i (l_kvs l) ++ skipn (n - 1) (l_kvs l) ++ skipn (S i) (l_kvs l)))
    (if Nat.ltb i (l_sorted l) then i else l_sorted l).
(** wh.c:1934-1945 wormleaf_update *)
Definition leaf_update (l : leaf) (i : nat) (k : key) (v : V) : leaf :=
  mkleaf (l_anchor l) (firstn i (l_kvs l) ++ (k, v) :: skipn (S i) (l_kvs l)) (l_sorted l).
(** wh.c:2109-2121 wormleaf_merge *)
Definition leaf_merge (l1 l2 : leaf) : leaf :=
  mkleaf (l_anchor l1) (l_kvs l1 ++ l_kvs l2)
    (if Nat.eqb (length (l_kvs l1)) (l_sorted l1) then (l_sorted l1 + l_sorted l2)%nat else l_sorted l1).

(** ** Splitting a leaf *)
(** wh.c:1950-1956 wormhole_split_cut_alen_check *)
Definition alen_check (alen : nat) (k1 k2 : key) : res bool :=
  if Nat.ltb (length k1) alen then Ok true
  else match nth_error k1 (alen - 1), nth_error k2 (alen - 1) with
       | Some a, Some b => Ok (negb (a =? b))
       | _, _ => UB
       end.
(** wh.c:1979-1998, the loop of wormhole_split_cut_search1; [l] is the leaf with the
    new pair in its place (wormleaf_kv_at_is1 1396-1406) *)
Fixpoint cut_loop (fuel : nat) (l : list (key * V)) (alen target lo hi : nat) : res nat :=
  match fuel with
  | O => Fuel
  | S fuel' =>
      if Nat.ltb (lo + 1) hi then
        let m := ((lo + hi + 1) / 2)%nat in
        match nth_error l lo, nth_error l m, nth_error l hi with
        | Some kl, Some km, Some kh =>
            if Nat.leb m target then
              let* b := alen_check alen (fst km) (fst kh) in
              if b then cut_loop fuel' l alen target m hi else cut_loop fuel' l alen target lo m
            else
              let* b := alen_check alen (fst kl) (fst km) in
              if b then cut_loop fuel' l alen target lo m else cut_loop fuel' l alen target m hi
        | _, _, _ => UB
        end
      else Ok hi
  end.
(** wh.c:1966-2000 wormhole_split_cut_search1 from 0 to nr_keys; None is WH_KPN2 *)
Definition cut_search1 (l : list (key * V)) (target : nat) : res (option nat) :=
  let h := (length l - 1)%nat in
  match nth_error l 0, nth_error l h with
  | Some k0, Some kh =>
      let alen := S (lcp (fst k0) (fst kh)) in
      if Nat.ltb U16MAX alen then Ok None
      else let* c := cut_loop (S h) l alen target 0 h in Ok (Some c)
  | _, _ => UB
  end.
(** wh.c:2050-2061 wormhole_split_alloc_anchor, 2063-2100 wormhole_split_leaf with
    wormhole_split_leaf_move1 (2002-2047) *)
Definition split_leaf (l1 : leaf) (has_next : bool) (k : key) (v : V) : res (option (leaf * leaf)) :=
  let l := sync_sorted l1 in
  let* is1 := search_ss (S (l_sorted l)) (l_kvs l) k 0 (l_sorted l) in
  let all := firstn is1 (l_kvs l) ++ (k, v) :: skipn is1 (l_kvs l) in
  let* cut := cut_search1 all (if has_next then MID else MRG) in
  match cut with
  | None => Ok None
  | Some cut =>
      match nth_error all (cut - 1), nth_error all cut with
      | Some key1, Some key2 =>
          let anchor := firstn (S (lcp (fst key1) (fst key2))) (fst key2) in
          Ok (Some (mkleaf (l_anchor l1) (firstn cut all) cut,
                    mkleaf anchor (skipn cut all) (length all - cut)))
      | _, _ => UB
      end
  end.

(** ** The index *)
(** wh.c:88-109 struct wormhole: leaves in order of the links, hash table, maxplen *)
Record wormhole := mkwh { w_leaves : list leaf; w_hmap : hmap; w_maxplen : nat }.
(** wh.c:1058-1091 wormhole_create_leaf0 *)
Definition wh_create : wormhole :=
  mkwh [mkleaf [] [] 0] (hset (fun _ => None) [] (Some (meta_init [] None 0 FO))) 0.

(** the leaf with anchor [a] and its neighbours *)
Fixpoint locate (ls : list leaf) (a : key) : option (list leaf * leaf * list leaf) :=
  match ls with
  | [] => None
  | x :: r =>
      if key_eq (l_anchor x) a then Some ([], x, r)
      else match locate r a with Some (b, y, r') => Some (x :: b, y, r') | None => None end
  end.
Definition next_anchor (r : list leaf) : option key := match r with [] => None | x :: _ => Some (l_anchor x) end.

(** wh.c:2608-2640 wormhole_put with wormhole_split_insert (2383-2403) and
    wormhole_split_meta (2326-2380), 2642-2649 whsafe_put, 3659-3669 wh_put *)
Definition wh_put (fp : key -> bool) (w : wormhole) (k : key) (v : V) : res (wormhole * bool) :=
  let* a := jump (w_hmap w) fp (w_maxplen w) k in
  match locate (w_leaves w) a with
  | None => UB
  | Some (B, l, A) =>
      match find_pos (l_kvs l) k with
      | Some i => Ok (mkwh (B ++ leaf_update l i k v :: A) (w_hmap w) (w_maxplen w), true)
      | None =>
          if Nat.ltb (length (l_kvs l)) KPN
          then Ok (mkwh (B ++ leaf_insert l k v :: A) (w_hmap w) (w_maxplen w), true)
          else
            let* s := split_leaf l (match A with [] => false | _ => true end) k v in
            match s with
            | None => Ok (mkwh (B ++ sync_sorted l :: A) (w_hmap w) (w_maxplen w), false)
            | Some (l1, l2) =>
                let* '(h, m) := meta_split (w_hmap w) (w_maxplen w) (l_anchor l1) (l_anchor l2) (next_anchor A) in
                Ok (mkwh (B ++ l1 :: l2 :: A) h m, true)
            end
      end
  end.

(** wh.c:2864-2898 wormhole_del_try_merge, wormhole_del with
    wormhole_meta_leaf_merge (2567-2587) and wormhole_meta_merge (2526-2565),
    2900-2907 whsafe_del, 3671-3678 wh_del *)
Definition wh_del (fp : key -> bool) (w : wormhole) (k : key) : res (wormhole * bool) :=
  let* a := jump (w_hmap w) fp (w_maxplen w) k in
  match locate (w_leaves w) a with
  | None => UB
  | Some (B, l, A) =>
      match find_pos (l_kvs l) k with
      | None => Ok (w, false)
      | Some i =>
          let l' := leaf_remove l i in
          let n := length (l_kvs l') in
          match A with
          | x :: A' =>
              let n2 := length (l_kvs x) in
              if (Nat.eqb n 0 || Nat.ltb (n + n2) MRG) && Nat.leb (n + n2) KPN
              then
                let* h := meta_merge (w_hmap w) (l_anchor l') (l_anchor x) (next_anchor A') in
                Ok (mkwh (B ++ leaf_merge l' x :: A') h (w_maxplen w), true)
              else Ok (mkwh (B ++ l' :: A) (w_hmap w) (w_maxplen w), true)
          | [] => Ok (mkwh (B ++ [l']) (w_hmap w) (w_maxplen w), true)
          end
      end
  end.

(** ** Iterators *)
(** wh.c:70-75 (wh.h) struct wormhole_iter: the leaf (None is NULL) and the position
    in it *)
Definition wh_iter := option (key * Z).

(** wh.c:3059-3081 wormhole_iter_fix.  Visiting a leaf sorts it (3044-3049), so the
    index changes too. *)
Fixpoint iter_fix (fuel : nat) (w : wormhole) (a : key) (is : Z) : res (wormhole * wh_iter) :=
  match fuel with
  | O => Fuel
  | S fuel' =>
      match locate (w_leaves w) a with
      | None => UB
      | Some (B, l, A) =>
          if is <? Z.of_nat (l_sorted l) then Ok (w, Some (a, is))
          else match A with
               | [] => Ok (w, None)
               | x :: A' => iter_fix fuel' (mkwh (B ++ l :: sync_sorted x :: A') (w_hmap w) (w_maxplen w)) (l_anchor x) 0
               end
      end
  end.
(** wh.c:3083-3105 wormhole_iter_fix_rev *)
Fixpoint iter_fix_rev (fuel : nat) (w : wormhole) (a : key) (is : Z) : res (wormhole * wh_iter) :=
  match fuel with
  | O => Fuel
  | S fuel' =>
      if 0 <=? is then Ok (w, Some (a, is))
      else
        match locate (w_leaves w) a with
        | None => UB
        | Some (B, l, A) =>
            match rev B with
            | [] => Ok (w, None)
            | x :: B' => iter_fix_rev fuel' (mkwh (rev B' ++ sync_sorted x :: l :: A) (w_hmap w) (w_maxplen w)) (l_anchor x)
                           (Z.of_nat (length (l_kvs x)) - 1)
            end
        end
  end.
(** wh.c:3107-3120 wormhole_iter_seek, 3122-3127 whsafe_iter_seek, 3771-3777
    wh_iter_seek *)
Definition wh_iter_seek (fp : key -> bool) (w : wormhole) (k : key) : res (wormhole * wh_iter) :=
  let* a := jump (w_hmap w) fp (w_maxplen w) k in
  match locate (w_leaves w) a with
  | None => UB
  | Some (B, l, A) =>
      let l' := sync_sorted l in
      let* is := leaf_seek l' k in
      iter_fix (S (length (w_leaves w))) (mkwh (B ++ l' :: A) (w_hmap w) (w_maxplen w)) a (Z.of_nat is)
  end.
(** wh.c:3180-3187 wormhole_iter_skip1, 3844-3848 wh_iter_skip1 *)
Definition wh_iter_skip1 (w : wormhole) (it : wh_iter) : res (wormhole * wh_iter) :=
  match it with None => Ok (w, None) | Some (a, is) => iter_fix (S (length (w_leaves w))) w a (is + 1) end.
(** wh.c:3210-3217 wormhole_iter_skip1_rev, 3850-3854 wh_iter_skip1_rev *)
Definition wh_iter_skip1_rev (w : wormhole) (it : wh_iter) : res (wormhole * wh_iter) :=
  match it with None => Ok (w, None) | Some (a, is) => iter_fix_rev (S (length (w_leaves w))) w a (is - 1) end.
(** wh.c:3129-3133 wormhole_iter_valid *)
Definition wh_iter_valid (it : wh_iter) : bool := match it with None => false | Some _ => true end.
(** wh.c:3135-3144 wormhole_iter_current, 3168-3177 wormhole_iter_kvref, 3830-3841
    wh_iter_peek_ref, which reads an uninitialised kvref when the iterator is
    invalid *)
Definition wh_iter_peek_ref (w : wormhole) (it : wh_iter) : res (key * V) :=
  match it with
  | None => UB
  | Some (a, is) =>
      match locate (w_leaves w) a with
      | None => UB
      | Some (_, l, _) => if is <? 0 then UB else match nth_error (l_kvs l) (Z.to_nat is) with Some x => Ok x | None => UB end
      end
  end.
End Values.
Arguments leaf : clear implicits.
Arguments wormhole : clear implicits.
