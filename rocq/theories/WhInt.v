(** Model of the ordered index of include/wormhole/wh_int.c (wh_int_put, wh_int_del
    and the iterator functions), which diva.hpp uses in place of wh.c when it is
    instantiated with int_optimized.  The hash table of prefixes is the one of wh.c
    (the same code: wh_int.c:159-360, 1094-1353, 1977-2095, 2223-2292), and so are the
    simplifications, see Wormhole.v; the leaves differ.

    A leaf holds its pairs, keys of at most eight bytes with their values, in one
    array; [l_kvs] are the first nr_keys of them, and the model stops with UB where
    the code would read or sort beyond those. *)
From Coq Require Import ZArith List Bool Arith.
From Verif Require Import Base Key Wormhole.
Import ListNotations.
Open Scope Z_scope.

(** ** Keys as numbers *)
(** wh_int.c:8-9 BITMASK, 1429, 1598: the bytes of a key and zeros up to eight of
    them, read as a number with the first byte highest (_bswap64) *)
Fixpoint num (n : nat) (k : key) : Z :=
  match n with O => 0 | S n' => hd 0 k * 256 ^ Z.of_nat n' + num n' (tl k) end.
(** wh_int.c:127-137 compare_int_isp, 145-155 compare_isp_isp, negative *)
Definition isp_lt (a b : key) : bool :=
  if num 8 a =? num 8 b then Nat.ltb (length a) (length b) else num 8 a <? num 8 b.
(** and zero *)
Definition isp_eq (a b : key) : bool := (num 8 a =? num 8 b) && Nat.eqb (length a) (length b).

Section Values.
Context {V : Type}.

(** ** Leaves *)
(** wh_int.c:1446-1462 wormleaf_int_search: the first of the sorted pairs that is not
    below [k]; [lo] here is lo + 1 there *)
Fixpoint search_int (fuel : nat) (l : list (key * V)) (k : key) (lo hi : nat) : res nat :=
  match fuel with
  | O => Fuel
  | S fuel' =>
      if Nat.ltb lo hi then
        let i := ((lo + hi - 1) / 2)%nat in
        match nth_error l i with
        | None => UB
        | Some x => if isp_lt (fst x) k then search_int fuel' l k (S i) hi else search_int fuel' l k lo i
        end
      else Ok hi
  end.
(** wh_int.c:1426-1441 wormleaf_int_search_eq: the same search, then one comparison;
    None is WH_KPN *)
Definition search_eq (l : leaf V) (k : key) : res (option nat) :=
  let* i := search_int (S (l_sorted l)) (l_kvs l) k 0 (l_sorted l) in
  Ok (match nth_error (l_kvs l) i with
      | Some x => if isp_eq k (fst x) then Some i else None
      | None => None
      end).
(** wh_int.c:1464-1469 wormleaf_int_seek *)
Definition seek_int (l : leaf V) (k : key) : res nat := search_int (S (l_sorted l)) (l_kvs l) k 0 (l_sorted l).

(** wh_int.c:1545-1557 wormleaf_sort_range: qsort_r by compare_isp_isp *)
Fixpoint insert_sorted_int (x : key * V) (l : list (key * V)) : list (key * V) :=
  match l with
  | [] => [x]
  | y :: r => if isp_lt (fst x) (fst y) then x :: l else y :: insert_sorted_int x r
  end.
Definition sort_range_int (l : list (key * V)) : list (key * V) := fold_left (fun acc x => insert_sorted_int x acc) l [].
(** wh_int.c:1491-1542 wormleaf_int_sort_m2 *)
Fixpoint sort_m2_int (a : list (key * V)) : list (key * V) -> list (key * V) :=
  match a with
  | [] => fun b => b
  | x :: a' =>
      fix go (b : list (key * V)) :=
        match b with
        | [] => a
        | y :: b' => if isp_lt (fst y) (fst x) then y :: go b' else x :: sort_m2_int a' b
        end
  end.
(** wh_int.c:1559-1573 wormleaf_int_sync_sorted.  When nr_sorted is above nr_keys,
    n - s is close to 2^32 and so many pairs are sorted. *)
Definition sync_int (l : leaf V) : res (leaf V) :=
  if Nat.eqb (l_sorted l) (length (l_kvs l)) then Ok l
  else if Nat.ltb (length (l_kvs l)) (l_sorted l) then UB
  else Ok (mkleaf (l_anchor l) (sort_m2_int (firstn (l_sorted l) (l_kvs l)) (sort_range_int (skipn (l_sorted l) (l_kvs l)))) (length (l_kvs l))).

(** wh_int.c:1589-1611 wormleaf_int_insert, 1613-1632 wormleaf_int_insert_isp *)
Definition insert_int (l : leaf V) (k : key) (v : V) : leaf V :=
  let nr0 := length (l_kvs l) in
  mkleaf (l_anchor l) (l_kvs l ++ [(k, v)])
    (if Nat.eqb nr0 (l_sorted l)
     then match nr0 with
          | O => 1%nat
          | S n => match nth_error (l_kvs l) n with
                   | Some x => if isp_lt k (fst x) then l_sorted l else S nr0
                   | None => l_sorted l
                   end
          end
     else l_sorted l).
(** wh_int.c:1635-1643 wormleaf_int_remove is [leaf_remove], 1658-1665
    wormleaf_int_update is [leaf_update] *)
(** wh_int.c:1860-1871 wormleaf_merge: the pairs of the second leaf are inserted into
    the first, which already moves nr_sorted; then, when [again], nr_sorted grows once
    more.  The code does so; without ([again] = false) is what it should do. *)
Definition merge_int (again : bool) (l1 l2 : leaf V) : leaf V :=
  let l := fold_left (fun a x => insert_int a (fst x) (snd x)) (l_kvs l2) l1 in
  mkleaf (l_anchor l) (l_kvs l)
    (if again && Nat.eqb (length (l_kvs l1)) (l_sorted l1) then (l_sorted l + l_sorted l2)%nat else l_sorted l).

(** ** Splitting a leaf *)
(** wh_int.c:1678-1685 wormhole_isp_split_cut_alen_check.  The shift 56 - (alen - 1) * 8
    of the number as it lies in memory selects byte 8 - alen, not alen - 1 as in
    wh.c. *)
Definition alen_check_int (alen : nat) (k1 k2 : key) : res bool :=
  if Nat.ltb (length k1) alen then Ok true
  else if Nat.ltb 8 alen then UB
  else Ok (negb (nth (8 - alen) k1 0 =? nth (8 - alen) k2 0)).
(** wh_int.c:1711-1731, the loop of wormhole_split_cut_search1 *)
Fixpoint cut_loop_int (fuel : nat) (l : list (key * V)) (alen target lo hi : nat) : res nat :=
  match fuel with
  | O => Fuel
  | S fuel' =>
      if Nat.ltb (lo + 1) hi then
        let m := ((lo + hi + 1) / 2)%nat in
        match nth_error l lo, nth_error l m, nth_error l hi with
        | Some kl, Some km, Some kh =>
            if Nat.leb m target then
              let* b := alen_check_int alen (fst km) (fst kh) in
              if b then cut_loop_int fuel' l alen target m hi else cut_loop_int fuel' l alen target lo m
            else
              let* b := alen_check_int alen (fst kl) (fst km) in
              if b then cut_loop_int fuel' l alen target lo m else cut_loop_int fuel' l alen target m hi
        | _, _, _ => UB
        end
      else Ok hi
  end.
(** wh_int.c:1697-1732 wormhole_split_cut_search1 from 0 to nr_keys; the common prefix
    of two different keys of at most eight bytes is never too long *)
Definition cut_search_int (l : list (key * V)) (target : nat) : res nat :=
  let h := (length l - 1)%nat in
  match nth_error l 0, nth_error l h with
  | Some k0, Some kh => cut_loop_int (S h) l (S (lcp (fst k0) (fst kh))) target 0 h
  | _, _ => UB
  end.
(** wh_int.c:1791-1806 wormhole_isp_split_alloc_anchor, 1808-1846 wormhole_split_leaf
    with wormhole_split_leaf_move1 (1734-1776) *)
Definition split_leaf_int (l1 : leaf V) (has_next : bool) (k : key) (v : V) : res (leaf V * leaf V) :=
  let* l := sync_int l1 in
  let* is1 := search_int (S (l_sorted l)) (l_kvs l) k 0 (l_sorted l) in
  let all := firstn is1 (l_kvs l) ++ (k, v) :: skipn is1 (l_kvs l) in
  let* cut := cut_search_int all (if has_next then MID else MRG) in
  match nth_error all (cut - 1), nth_error all cut with
  | Some key1, Some key2 =>
      let anchor := firstn (S (lcp (fst key1) (fst key2))) (fst key2) in
      Ok (mkleaf (l_anchor l1) (firstn cut all) cut, mkleaf anchor (skipn cut all) (length all - cut))
  | _, _ => UB
  end.

(** ** The index *)
(** wh_int.c:2379-2409 wormhole_int_put, 2411-2418 whsafe_int_put, 3144-3161
    wh_int_put *)
Definition put_int (fp : key -> bool) (w : wormhole V) (k : key) (v : V) : res (wormhole V * bool) :=
  let* a := jump (w_hmap w) fp (w_maxplen w) k in
  match locate (w_leaves w) a with
  | None => UB
  | Some (B, l, A) =>
      let* im := search_eq l k in
      match im with
      | Some i => Ok (mkwh (B ++ leaf_update l i k v :: A) (w_hmap w) (w_maxplen w), true)
      | None =>
          if Nat.ltb (length (l_kvs l)) KPN
          then Ok (mkwh (B ++ insert_int l k v :: A) (w_hmap w) (w_maxplen w), true)
          else
            let* '(l1, l2) := split_leaf_int l (match A with [] => false | _ => true end) k v in
            let* '(h, m) := meta_split (w_hmap w) (w_maxplen w) (l_anchor l1) (l_anchor l2) (next_anchor A) in
            Ok (mkwh (B ++ l1 :: l2 :: A) h m, true)
      end
  end.
(** wh_int.c:2472-2500 wormhole_del_try_merge, wormhole_int_del with
    wormhole_meta_leaf_merge (2339-2359) and wormhole_meta_merge (2298-2337), 2503-2510
    whsafe_int_del, 3163-3170 wh_int_del *)
Definition del_int (again : bool) (fp : key -> bool) (w : wormhole V) (k : key) : res (wormhole V * bool) :=
  let* a := jump (w_hmap w) fp (w_maxplen w) k in
  match locate (w_leaves w) a with
  | None => UB
  | Some (B, l, A) =>
      let* im := search_eq l k in
      match im with
      | None => Ok (w, false)
      | Some i =>
          let l' := leaf_remove l i in
          let n := length (l_kvs l') in
          match A with
          | x :: A' =>
              let n2 := length (l_kvs x) in
              if (Nat.eqb n 0 || Nat.ltb (n + n2) MRG) && Nat.leb (n + n2) KPN
              then
                let* h := meta_merge (w_hmap w) (l_anchor l') (l_anchor x) (next_anchor A') in
                Ok (mkwh (B ++ merge_int again l' x :: A') h (w_maxplen w), true)
              else Ok (mkwh (B ++ l' :: A) (w_hmap w) (w_maxplen w), true)
          | [] => Ok (mkwh (B ++ [l']) (w_hmap w) (w_maxplen w), true)
          end
      end
  end.

(** ** Iterators *)
(** wh_int.c:2660-2682 wormhole_int_iter_fix *)
Fixpoint iter_fix_int (fuel : nat) (w : wormhole V) (a : key) (is : Z) : res (wormhole V * wh_iter) :=
  match fuel with
  | O => Fuel
  | S fuel' =>
      match locate (w_leaves w) a with
      | None => UB
      | Some (B, l, A) =>
          if is <? Z.of_nat (l_sorted l) then Ok (w, Some (a, is))
          else match A with
               | [] => Ok (w, None)
               | x :: A' =>
                   let* x' := sync_int x in
                   iter_fix_int fuel' (mkwh (B ++ l :: x' :: A') (w_hmap w) (w_maxplen w)) (l_anchor x) 0
               end
      end
  end.
(** wh_int.c:2684-2706 wormhole_int_iter_fix_rev *)
Fixpoint iter_fix_rev_int (fuel : nat) (w : wormhole V) (a : key) (is : Z) : res (wormhole V * wh_iter) :=
  match fuel with
  | O => Fuel
  | S fuel' =>
      if 0 <=? is then Ok (w, Some (a, is))
      else
        match locate (w_leaves w) a with
        | None => UB
        | Some (B, l, A) =>
            match rev B with
            | [] => Ok (w, None)
            | x :: B' =>
                let* x' := sync_int x in
                iter_fix_rev_int fuel' (mkwh (rev B' ++ x' :: l :: A) (w_hmap w) (w_maxplen w)) (l_anchor x)
                  (Z.of_nat (length (l_kvs x)) - 1)
            end
        end
  end.
(** wh_int.c:2708-2721 wormhole_int_iter_seek, 2723-2728 whsafe_int_iter_seek, 3263-3269
    wh_int_iter_seek *)
Definition iter_seek_int (fp : key -> bool) (w : wormhole V) (k : key) : res (wormhole V * wh_iter) :=
  let* a := jump (w_hmap w) fp (w_maxplen w) k in
  match locate (w_leaves w) a with
  | None => UB
  | Some (B, l, A) =>
      let* l' := sync_int l in
      let* is := seek_int l' k in
      iter_fix_int (S (length (w_leaves w))) (mkwh (B ++ l' :: A) (w_hmap w) (w_maxplen w)) a (Z.of_nat is)
  end.
(** wh_int.c:2773-2780 wormhole_int_iter_skip1, 2804-2811 wormhole_int_iter_skip1_rev *)
Definition iter_skip1_int (w : wormhole V) (it : wh_iter) : res (wormhole V * wh_iter) :=
  match it with None => Ok (w, None) | Some (a, is) => iter_fix_int (S (length (w_leaves w))) w a (is + 1) end.
Definition iter_skip1_rev_int (w : wormhole V) (it : wh_iter) : res (wormhole V * wh_iter) :=
  match it with None => Ok (w, None) | Some (a, is) => iter_fix_rev_int (S (length (w_leaves w))) w a (is - 1) end.
(** wh_int.c:3322-3331 wh_int_iter_peek_ref is [wh_iter_peek_ref] *)
End Values.
