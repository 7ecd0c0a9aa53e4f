(** Model of the public operations of class Diva (include/diva.hpp): bulk
    loading, Insert, Delete, PointQuery, RangeQuery, ShrinkInfixSize.

    The wormhole trees (include/wormhole) are not modelled; a tree is the list of
    its (key, InfixStore) pairs in ascending key order, and the functions of
    section "Tree" state what wh_put, wh_del and the iterator functions are
    assumed to do.  Values reached through wh_iter_peek_ref are references into
    the tree; writes through them become [put]s.  Locks and epochs are left out
    (the filter is used from one thread). *)
From Coq Require Import ZArith List Bool.
From Verif Require Import Base Util Store Key.
Import ListNotations.
Open Scope Z_scope.

(** ** Tree *)
Definition tree := list (key * store).
(** An iterator: the pairs before the current one (nearest first) and the pairs
    from the current one on.  An empty second part is an invalid iterator. *)
Definition iter := (tree * tree)%type.

(** wh_iter_seek: first pair whose key is not below [k] *)
Fixpoint seek_from (before : tree) (t : tree) (k : key) : iter :=
  match t with
  | [] => (before, [])
  | (k', v) :: rest => if key_lt k' k then seek_from ((k', v) :: before) rest k else (before, t)
  end.
Definition seek (t : tree) (k : key) : iter := seek_from [] t k.
(** wh_iter_peek_ref; on an invalid iterator it dereferences a null pointer *)
Definition peek (it : iter) : res (key * store) :=
  match snd it with [] => UB | x :: _ => Ok x end.
(** wh_iter_skip1 *)
Definition skip1 (it : iter) : iter :=
  match it with (b, x :: a) => (x :: b, a) | (b, []) => (b, []) end.
(** wh_iter_skip1_rev: invalid stays invalid; moving before the first pair makes
    the iterator invalid *)
Definition skip1_rev (it : iter) : iter :=
  match it with
  | (x :: b, y :: a) => (b, x :: y :: a)
  | (_, _) => ([], [])
  end.
(** wh_put: insert or overwrite *)
Fixpoint put (t : tree) (k : key) (v : store) : tree :=
  match t with
  | [] => [(k, v)]
  | (k', v') :: rest =>
      if key_eq k' k then (k', v) :: rest
      else if key_lt k' k then (k', v') :: put rest k v
      else (k, v) :: t
  end.
(** wh_del *)
Fixpoint del (t : tree) (k : key) : tree :=
  match t with
  | [] => []
  | (k', v') :: rest => if key_eq k' k then rest else (k', v') :: del rest k
  end.

(** ** Filter *)
(** The members of Diva that change: infix_size_ (diva.hpp:229) and the tree. *)
Record diva := mkdiva { d_size : Z; d_tree : tree }.
Definition with_tree (d : diva) (t : tree) : diva := mkdiva (d_size d) t.

(** diva.hpp:731-738 AddTreeKey *)
Definition add_tree_key (c : cfg) (d : diva) (k : key) : diva :=
  with_tree d (put (d_tree d) k (new_store c (c_size c grow_sep) (d_size d) grow_sep)).

(** The lines (e.g. diva.hpp:515-520, 721-725, 1844-1847) that compute the split
    of the key space between two neighbouring tree keys:
    (shared, ignore, implicit_size, prev_implicit, total_implicit). *)
Definition segment (c : cfg) (s : Z) (prev next : key) : res (Z * Z * Z * Z * Z) :=
  let* '(shared, ignore, isz) := shared_ignore_implicit c prev next in
  let* e := extract c s next shared ignore isz 1 in
  let* e' := extract c s prev shared ignore isz 0 in
  let next_implicit := Z.shiftr e s in
  let prev_implicit := Z.shiftr e' s in
  Ok (shared, ignore, isz, prev_implicit, u32 (next_implicit - prev_implicit + 1)).
(** [ExtractPartialKey(key, shared, ignore, implicit_size, key.GetBit(shared))] *)
Definition extract_key (c : cfg) (s : Z) (k : key) (shared ignore isz : Z) : res Z :=
  extract c s k shared ignore isz (get_key_bit k shared).
(** [(extraction | 1ULL) - (prev_implicit << infix_size_)] *)
Definition infix_of (s extraction prev_implicit : Z) : Z :=
  u64 (Z.lor extraction 1 - u64 (Z.shiftl prev_implicit s)).

(** The search at the head of InsertSimple and InsertSplit (diva.hpp:459-506,
    749-796): (prev_key, its store, next_key). *)
Definition locate (t : tree) (k : key) : res (key * store * key) :=
  let it := seek t k in
  let* '(nk, st) := peek it in
  if key_eq nk k then
    let* '(nk', _) := peek (skip1 it) in Ok (nk, st, nk')
  else
    let* '(pk, st') := peek (skip1_rev it) in Ok (pk, st', nk).

(** diva.hpp:451-523 InsertSimple *)
Definition insert_simple (c : cfg) (d : diva) (k : key) : res diva :=
  let s := d_size d in
  let* '(pk, st, nk) := locate (d_tree d) k in
  let* '(shared, ignore, isz, prev_implicit, total) := segment c s pk nk in
  let* e := extract_key c s k shared ignore isz in
  let* st' := insert_raw c s st (infix_of s e prev_implicit) total in
  Ok (with_tree d (put (d_tree d) pk st')).

(** diva.hpp:542-640 RangeQuery.  [int_opt] is the template argument.  Stores
    always have a non-null pointer, so the test at 596 is false. *)
Definition range_query_generic (c : cfg) (s : Z) (pk nk : key) (st : store) (l r : key)
  : res bool :=
  let* '(shared, ignore, isz, prev_implicit, total) := segment c s pk nk in
  let* le := extract_key c s l shared ignore isz in
  let* re := extract_key c s r shared ignore isz in
  range_query_store c s st (infix_of s le prev_implicit) (infix_of s re prev_implicit).
(** diva.hpp:606-629, the int_optimized branch.  The casts
    [*((uint64_t * ) key.str)] read eight bytes; tree keys of a wormhole_int sit
    in an 8-byte field that is zero behind the key (include/wormhole/wh_int.c:51). *)
Definition range_query_int (c : cfg) (s : Z) (pk nk : key) (st : store) (l r : key)
  : res bool :=
  let* '(shared, ignore, isz) := shared_ignore_implicit c pk nk in
  let li := word_at l 0 in
  let ri := word_at r 0 in
  let pi := word_at pk 0 in
  let ni := word_at nk 0 in
  let sh_l := Z.max 0 (shared + ignore + isz + s - 64) in
  let sh_r := Z.max 0 (64 - shared - ignore - isz - s) in
  let sh_li := Z.max 0 (shared + ignore + isz - 64) in
  let sh_ri := Z.max 0 (64 - shared - ignore - isz) in
  let ex (x : Z) : res Z :=
    let* b := shr64 c x (63 - shared) in
    let* top := shl64 c (Z.land b 1) (isz - 1 + s) in
    let* a := shl64 c x sh_l in
    let* a := shr64 c a sh_r in
    let* m := bitmask_rt c (isz - 1 + s) in
    Ok (Z.lor top (Z.land a m)) in
  let im (x : Z) : res Z :=
    let* a := shl64 c x sh_li in
    let* a := shr64 c a sh_ri in
    let* m := bitmask_rt c (isz - 1) in
    Ok (Z.land a m) in
  let* le := ex li in
  let* re := ex ri in
  let* prev_implicit := im pi in
  let* n := im ni in
  let* top := shl64 c 1 (isz - 1) in
  let next_implicit := Z.lor top n in
  range_query_store c s st (infix_of s le prev_implicit) (infix_of s re prev_implicit).

Definition range_query (int_opt : bool) (c : cfg) (d : diva) (l r : key) : res bool :=
  let it := seek (d_tree d) l in
  let* '(nk, _) := peek it in
  if key_le nk r then Ok true
  else
    let* '(pk, st) := peek (skip1_rev it) in
    let* p := (if is_partial_key st then is_prefix_of pk l (get_invalid_bits st) else Ok false) in
    if p : bool then Ok true
    else if int_opt then range_query_int c (d_size d) pk nk st l r
    else range_query_generic c (d_size d) pk nk st l r.

(** diva.hpp:656-728 PointQuery *)
Definition point_query (c : cfg) (d : diva) (k : key) : res bool :=
  let s := d_size d in
  let it := seek (d_tree d) k in
  let* '(nk, _) := peek it in
  if key_eq nk k then Ok true
  else
    let* '(pk, st) := peek (skip1_rev it) in
    let* p := (if is_partial_key st then is_prefix_of pk k (get_invalid_bits st) else Ok false) in
    if p : bool then Ok true
    else
      let* '(shared, ignore, isz, prev_implicit, total) := segment c s pk nk in
      let* e := extract_key c s k shared ignore isz in
      point_query_store c s st (u64 (e - u64 (Z.shiftl prev_implicit s))) total.

(** ** Splitting *)
(** diva.hpp:941-964 GetExpandedInfixListLength; the length is a uint32_t *)
Fixpoint expanded_length (c : cfg) (s shamt lo hi : Z) (l : list Z) (len : Z) (exp : bool)
  : res (Z * bool) :=
  match l with
  | [] => Ok (len, exp)
  | x :: rest =>
      if s <=? u32 (lowbit_pos x + shamt) then
        let* y := shl64 c x shamt in
        let ip := Z.shiftr y s in
        let start := u64 (ip - lowbit ip) in
        let end_ := Z.lor ip (u64 (ip - 1)) in
        expanded_length c s shamt lo hi rest
          (u32 (len + u64 (Z.min end_ (Z.shiftr hi s) - Z.max start (Z.shiftr lo s)))) true
      else expanded_length c s shamt lo hi rest len exp
  end.

(** The order used by the comparator at diva.hpp:1006-1011, as "not after".  Two
    values the comparator does not tell apart are equal, so std::sort has one
    possible result. *)
Definition infix_le (a b : Z) : bool :=
  let na := u64 (a - lowbit a) in
  let nb := u64 (b - lowbit b) in
  (na <? nb) || ((na =? nb) && (lowbit b <=? lowbit a)).
Fixpoint insert_sorted (x : Z) (l : list Z) : list Z :=
  match l with
  | [] => [x]
  | y :: rest => if infix_le x y then x :: l else y :: insert_sorted x rest
  end.
Definition sort_infixes (l : list Z) : list Z := fold_right insert_sorted [] l.

(** the inner loop at diva.hpp:995-996 *)
Definition expand_one (s lo : Z) (a b : Z) : list Z :=
  map (fun i => let j := a + Z.of_nat i in
                Z.lor (u64 (Z.shiftl (j - lo) s)) (Z.shiftl 1 (s - 1)))
      (seq 0 (Z.to_nat (b - a + 1))).
(** diva.hpp:967-1018 UpdateInfixList; the last argument is [expanded]. *)
Fixpoint shift_infixes (c : cfg) (shamt lo : Z) (l : list Z) : res (list Z) :=
  match l with
  | [] => Ok []
  | x :: rest =>
      let* y := shl64 c x shamt in
      let* t := shift_infixes c shamt lo rest in
      Ok (u64 (y - lo) :: t)
  end.
Fixpoint expand_infixes (c : cfg) (s shamt lo hi : Z) (l : list Z) : res (list Z) :=
  match l with
  | [] => Ok []
  | x :: rest =>
      let* v := shl64 c x shamt in
      let* t := expand_infixes c s shamt lo hi rest in
      let ip := Z.shiftr v s in
      if Z.land v (bitmask s) =? 0 then
        let start := u64 (ip - lowbit ip) in
        let end_ := Z.lor ip (u64 (ip - 1)) in
        Ok (expand_one s (Z.shiftr lo s) (Z.max start (Z.shiftr lo s)) (Z.min end_ (Z.shiftr hi s)) ++ t)
      else Ok (u64 (v - lo) :: t)
  end.
Definition update_infix_list (c : cfg) (s shamt lo hi : Z) (l : list Z) (exp : bool)
  : res (list Z) :=
  if exp then let* r := expand_infixes c s shamt lo hi l in Ok (sort_infixes r)
  else shift_infixes c shamt lo l.
(** One half of the split, diva.hpp:883-903: the length computed first is the
    size of the array that is then filled; a different number of elements would
    overflow it or leave entries unset.  The array lives on the stack: 2^20
    entries fill the whole default stack of 8 MiB, which the model counts as UB. *)
Definition split_half (c : cfg) (s shamt lo hi : Z) (l : list Z) : res (list Z) :=
  let* '(len, exp) := expanded_length c s shamt lo hi l (Z.of_nat (length l)) false in
  let* r := update_infix_list c s shamt lo hi l exp in
  if (Z.of_nat (length r) =? len) && (len <? 2 ^ 20) then Ok r else UB.

(** diva.hpp:822-830 binary search for the separator: (sep_l, sep_r). *)
Definition sep_search (infixes : list Z) (separator : Z) : res (Z * Z) :=
  loop (length infixes + 2)
    (fun x : Z * Z =>
       let '(l, r) := x in
       if 1 <? r - l then
         let mid := Z.quot (l + r) 2 in
         let v := nth (Z.to_nat mid) infixes 0 in
         if u64 (v - lowbit v) <=? u64 (separator - 1) then Ok (inl (mid, r)) else Ok (inl (l, mid))
       else Ok (inr (l, r)))
    (-1, Z.of_nat (length infixes)).
(** diva.hpp:833-839 the scan for stored infixes that are prefixes of the
    separator; [n] is shared + ignore + implicit_size + infix_size_. *)
Definition sep_scan (s n : Z) (infixes : list Z) (separator sep_l split0 : Z) : res (Z * Z) :=
  loop (length infixes + 2)
    (fun x : Z * Z * Z =>
       let '(i, split_pos, zero_pos) := x in
       let v := nth (Z.to_nat i) infixes 0 in
       if (0 <=? i) && (Z.shiftr v s =? Z.shiftr separator s) then
         let mask := u64 (u64 (Z.shiftl (lowbit v) 1) - 1) in
         if Z.lor v mask =? Z.lor separator mask
         then Ok (inl (i - 1, i, n - lowbit_pos v - 1))
         else Ok (inl (i - 1, split_pos, zero_pos))
       else Ok (inr (split_pos, zero_pos)))
    (sep_l, split0, -1).

(** [{key.str + n, key.length < n ? 0 : key.length - n}] *)
Definition key_from (k : key) (n : Z) : key := skipn (Z.to_nat n) k.

(** diva.hpp:840-847 the truncated copy of the key *)
Definition edit_key (k : key) (zero_pos : Z) : key :=
  let b := Z.quot (zero_pos - 1) 8 in
  if negb (zero_pos =? -1) && (b <? klen k)
  then firstn (Z.to_nat b) k ++ [Z.ldiff (byte k b) (bitmask (7 - Z.rem (zero_pos - 1) 8))]
  else k.

(** diva.hpp:741-938 InsertSplit *)
Definition insert_split (c : cfg) (d : diva) (k : key) : res diva :=
  let s := d_size d in
  let* '(pk, st, nk) := locate (d_tree d) k in
  let* p := (if is_partial_key st then is_prefix_of pk k (get_invalid_bits st) else Ok false) in
  if p : bool then insert_simple c d k
  else
    let* '(shared, ignore, isz) := shared_ignore_implicit c pk nk in
    let n0 := shared + ignore + isz in
    let* extraction := extract_key c s k shared ignore isz in
    let* prev_extraction := extract c s pk shared ignore isz 0 in
    let* next_extraction := extract c s nk shared ignore isz 1 in
    let separator :=
      u64 (Z.lor extraction 1 - Z.land prev_extraction (u64 (Z.shiftl (bitmask isz) s))) in
    let* infixes := get_infix_list c s st in
    (* the array has infix_list_len + 1 entries and infix_list_len of them are
       used below *)
    if negb (Z.of_nat (length infixes) =? get_elem_count st) then UB else
    let* '(sep_l, sep_r) := sep_search infixes separator in
    let* '(split_pos, zero_pos) := sep_scan s (n0 + s) infixes separator sep_l sep_r in
    let ek := edit_key k zero_pos in
    let* extraction := (if zero_pos =? -1 then Ok extraction
                        else extract_key c s ek shared ignore isz) in
    let swb := (shared / 64) * 8 in
    let* '(sh_lt, ig_lt, is_lt) := shared_ignore_implicit c (key_from pk swb) (key_from ek swb) in
    let sh_lt := sh_lt + swb * 8 in
    let shamt_lt := sh_lt + ig_lt + is_lt - n0 in
    let* prev_extraction_lt := extract c s pk sh_lt ig_lt is_lt 0 in
    let* extraction_lt := extract c s ek sh_lt ig_lt is_lt 1 in
    let* b := bits_at c pk n0 shamt_lt in
    let left_start := u64 (Z.shiftl b s) in
    let* b := bits_at c ek n0 shamt_lt in
    let* h := shl64 c (u64 (Z.shiftr extraction s - Z.shiftr prev_extraction s)) (s + shamt_lt) in
    let left_end := Z.lor h (u64 (Z.shiftl b s)) in
    let total_lt := u32 (Z.shiftr extraction_lt s - Z.shiftr prev_extraction_lt s + 1) in
    let* '(sh_gt, ig_gt, is_gt) := shared_ignore_implicit c (key_from ek swb) (key_from nk swb) in
    let sh_gt := sh_gt + swb * 8 in
    let shamt_gt := sh_gt + ig_gt + is_gt - n0 in
    let* extraction_gt := extract c s ek sh_gt ig_gt is_gt 0 in
    let* next_extraction_gt := extract c s nk sh_gt ig_gt is_gt 1 in
    let* b := bits_at c ek n0 shamt_gt in
    let* h := shl64 c (u64 (Z.shiftr extraction s - Z.shiftr prev_extraction s)) (s + shamt_gt) in
    let right_start := Z.lor h (u64 (Z.shiftl b s)) in
    let* b := bits_at c nk n0 shamt_gt in
    let* h := shl64 c (u64 (Z.shiftr next_extraction s - Z.shiftr prev_extraction s)) (s + shamt_gt) in
    let right_end := Z.lor h (u64 (Z.shiftl b s)) in
    let total_gt := u32 (Z.shiftr next_extraction_gt s - Z.shiftr extraction_gt s + 1) in
    (* zero_pos is converted to uint32_t by the comparison *)
    if u32 zero_pos <=? Z.max sh_lt sh_gt then insert_simple c d k
    else
      let* left := split_half c s shamt_lt left_start left_end (firstn (Z.to_nat split_pos) infixes) in
      let* right := split_half c s shamt_gt right_start right_end (skipn (Z.to_nat split_pos) infixes) in
      let* store_lt := alloc_with_list c s left total_lt in
      let store_lt := set_partial_key (set_invalid_bits store_lt (get_invalid_bits st)) (is_partial_key st) in
      let* right' := (if zero_pos =? -1 then Ok right
                      else match right with [] => UB | _ :: t => Ok t end) in
      let* store_gt := alloc_with_list c s right' total_gt in
      let t1 := put (d_tree d) pk store_lt in
      let* _ := free_block st in
      if zero_pos =? -1 then Ok (with_tree d (put t1 k store_gt))
      else
        let* ke := extract c s k sh_gt ig_gt is_gt 0 in
        let* store_gt := insert_raw c s store_gt (Z.lor (Z.land ke (bitmask s)) 1) total_gt in
        let store_gt := set_partial_key (set_invalid_bits store_gt (7 - Z.rem (zero_pos - 1) 8)) true in
        Ok (with_tree d (put t1 ek store_gt)).

(** diva.hpp:442-449 Insert; [split] is the outcome of
    [rng_() % infix_store_target_size == 0]. *)
Definition insert (c : cfg) (d : diva) (k : key) (split : bool) : res diva :=
  if split then insert_split c d k else insert_simple c d k.

(** ** Deletion *)
(** diva.hpp:1645-1723 UpdateInfixListDelete, one element.  [x] is the element;
    both branches start with the same six lines. *)
Definition update_delete_one (c : cfg) (s : Z) (shared ignore isz : Z) (left_key : key)
  (o_shared o_ignore o_isz old_left : Z) (x : Z) : res Z :=
  let old_size := o_isz + s in
  let new_size := isz + s in
  let x := u64 (x + u64 (Z.shiftl old_left s)) in
  let* diff := shr64 c x (old_size - 1) in
  let* m := bitmask_rt c (old_size - 1) in
  let x := Z.land x m in
  let* x := (if old_size <? new_size then shl64 c x (new_size - old_size)
             else let* y := shr64 c x (old_size - new_size) in Ok (Z.lor y (Z.land x 1))) in
  (* ((1 << n) - (1 ^ diff)) & BITMASK(n) *)
  let fill (n : Z) : res Z :=
    let* a := shl64 c 1 n in
    let* m := bitmask_rt c n in
    Ok (Z.land (u64 (a - Z.lxor 1 diff)) m) in
  let finish (rec cnt : Z) : res Z :=
    if cnt <? new_size then
      let* y := shr64 c x (cnt - 1) in
      Ok (Z.lor (Z.lor rec y) (Z.b2z (lowbit_pos x <? cnt - 1)))
    else Ok (Z.lor rec 1) in
  if o_shared =? shared then
    let* rec := shl64 c diff (new_size - 1) in
    let bits := Z.min (u32 (o_ignore - ignore)) (u32 (new_size - 1)) in
    let cnt := 1 + bits in
    let* f := fill bits in
    let* f := shl64 c f (new_size - cnt) in
    finish (Z.lor rec f) cnt
  else
    let* rec := shl64 c (get_key_bit left_key shared) (new_size - 1) in
    let bits := Z.min (u32 (o_shared - shared - ignore - 1)) (u32 (new_size - 1)) in
    let cnt := 1 + bits in
    let* b := bits_at c left_key (shared + ignore + 1) bits in
    let* b := shl64 c b (new_size - cnt) in
    let rec := Z.lor rec b in
    let* '(rec, cnt) :=
      (if cnt <? new_size then
         let* d := shl64 c diff (new_size - cnt - 1) in
         let rec := Z.lor rec d in
         let bits := Z.min (o_ignore + 1) (new_size - cnt) in
         let cnt := cnt + bits in
         if 1 <? bits then
           let* f := fill (bits - 1) in
           let* f := shl64 c f (new_size - cnt) in
           Ok (Z.lor rec f, cnt)
         else Ok (rec, cnt)
       else Ok (rec, cnt)) in
    finish rec cnt.
Fixpoint map_res {A B : Type} (f : A -> res B) (l : list A) : res (list B) :=
  match l with
  | [] => Ok []
  | x :: rest => let* y := f x in let* t := map_res f rest in Ok (y :: t)
  end.
Definition update_delete (c : cfg) (s : Z) (shared ignore isz : Z) (left_key right_key : key)
  (l : list Z) : res (list Z) :=
  let swb := (shared / 64) * 8 in
  let* '(o_shared, o_ignore, o_isz) :=
    shared_ignore_implicit c (key_from left_key swb) (key_from right_key swb) in
  let o_shared := o_shared + swb * 8 in
  let* e := extract c s left_key o_shared o_ignore o_isz 0 in
  map_res (update_delete_one c s shared ignore isz left_key o_shared o_ignore o_isz (Z.shiftr e s)) l.

(** diva.hpp:1565-1643 DeleteMerge, called with an iterator at the key to remove *)
Definition delete_merge (c : cfg) (d : diva) (it : iter) : res diva :=
  let s := d_size d in
  let* '(mk, store_r) := peek it in
  let* '(rk, _) := peek (skip1 it) in
  let* '(lk, store_l) := peek (skip1_rev it) in
  let* '(shared, ignore, isz) := shared_ignore_implicit c lk rk in
  let* ll := get_infix_list c s store_l in
  let* lr := get_infix_list c s store_r in
  (* the array is cut by the two element counts *)
  if negb ((Z.of_nat (length ll) =? get_elem_count store_l)
           && (Z.of_nat (length lr) =? get_elem_count store_r)) then UB else
  let* ll := update_delete c s shared ignore isz lk mk ll in
  let* lr := update_delete c s shared ignore isz mk rk lr in
  let* e := extract c s lk shared ignore isz 0 in
  let infixes := map (fun x => u64 (x - u64 (Z.shiftl (Z.shiftr e s) s))) (ll ++ lr) in
  let* _ := free_block store_l in
  let* _ := free_block store_r in
  let* e' := extract c s rk shared ignore isz 1 in
  let total := u32 (Z.shiftr e' s - Z.shiftr e s + 1) in
  let* st := alloc_with_list c s infixes total in
  let st := set_invalid_bits (set_partial_key st (is_partial_key store_l)) (get_invalid_bits store_l) in
  Ok (with_tree d (put (del (d_tree d) mk) lk st)).

(** diva.hpp:1461-1562 Delete *)
Definition delete (c : cfg) (d : diva) (k : key) : res diva :=
  let s := d_size d in
  let it := seek (d_tree d) k in
  let* '(nk, st0) := peek it in
  let same := key_eq nk k in
  if same && negb (is_partial_key st0) then delete_merge c d it
  else
    let* '(pk, st, nk, it) :=
      (if same then let* '(nk', _) := peek (skip1 it) in Ok (nk, st0, nk', skip1_rev (skip1 it))
       else let* '(pk, st) := peek (skip1_rev it) in Ok (pk, st, nk, skip1_rev it)) in
    let* '(shared, ignore, isz, prev_implicit, total) := segment c s pk nk in
    let* e := extract_key c s k shared ignore isz in
    let deletee := infix_of s e prev_implicit in
    let* merge :=
      (if is_partial_key st then
         let* len := longest_match c s st deletee target_size in
         Ok ((len =? 0)
             || (u32 (shared + ignore + isz + len - 1) <? u32 (8 * klen pk - get_invalid_bits st)))
       else Ok false) in
    if merge : bool then delete_merge c d it
    else
      let* st' := delete_raw c s st deletee total in
      Ok (with_tree d (put (d_tree d) pk st')).

(** ** Bulk loading *)
(** [std::lower_bound(scaled_sizes_, scaled_sizes_ + size_scalar_count, n)] on the
    ascending table (diva.hpp:1810, 1894, 1989) *)
Definition lower_bound_grade (c : cfg) (n : Z) : res Z := alloc_grade c n.

(** The infixes of the keys between two boundary keys and the store that holds
    them (diva.hpp:1748-1767, 1791-1812 and the same lines of the other loaders). *)
Definition chunk_store (c : cfg) (s grade : Z) (left right : key) (mid : list key) : res store :=
  let* '(shared, ignore, isz, prev_implicit, total) := segment c s left right in
  let* infixes := map_res (fun k => let* e := extract_key c s k shared ignore isz in
                                    Ok (infix_of s e prev_implicit)) mid in
  load_list c s (new_store c (c_size c grade) s grade) infixes total false.
(** lines 1781-1819: the keys after the last full chunk.  [rest] are the keys
    after [left]; when there are none the code uses [left] as right boundary. *)
Definition load_tail (c : cfg) (d : diva) (left : key) (rest : list key) : res diva :=
  let mid := removelast rest in
  let right := last rest left in
  let* grade := lower_bound_grade c (Z.of_nat (length mid)) in
  let* st := chunk_store c (d_size d) grade left right mid in
  let d1 := with_tree d (put (d_tree d) left st) in
  Ok (match rest with [] => d1 | _ => add_tree_key c d1 right end).
(** lines 1739-1779: every 1024th key becomes a boundary key.  The two iterators
    become the list of keys after [left]; [fuel] bounds the number of chunks. *)
Fixpoint load_chunks (fuel : nat) (c : cfg) (d : diva) (left : key) (rest : list key) : res diva :=
  match fuel with
  | O => Fuel
  | S n =>
      if target_size <=? Z.of_nat (length rest) then
        let m := Z.to_nat (target_size - 1) in
        let right := nth m rest [] in
        let* st := chunk_store c (d_size d) grow_sep left right (firstn m rest) in
        load_chunks n c (with_tree d (put (d_tree d) left st)) right (skipn (S m) rest)
      else load_tail c d left rest
  end.
(** diva.hpp:1726-1824 BulkLoadFixedLength and 1827-1908 BulkLoad without its last
    three lines.  An empty input dereferences [begin]. *)
Definition load_keys (c : cfg) (d : diva) (keys : list key) : res diva :=
  match keys with
  | [] => UB
  | lk :: rest => load_chunks (S (length rest)) c d lk rest
  end.

(** diva.hpp:338-369: the constructor for keys of [len] bytes *)
Definition bulk_load_fixed (c : cfg) (s : Z) (len : nat) (keys : list key) : res diva :=
  let d := add_tree_key c (mkdiva s []) (repeat 0 len) in
  let d := add_tree_key c d (repeat 255 len) in
  load_keys c d keys.
(** diva.hpp:372-401 and 1905-1907: the constructor for strings *)
Definition max_len (keys : list key) : nat := fold_right (fun k m => Nat.max (length k) m) 0%nat keys.
Definition bulk_load_var (c : cfg) (s : Z) (keys : list key) : res diva :=
  let d := add_tree_key c (mkdiva s []) (repeat 0 8) in
  let* d := load_keys c d keys in
  Ok (add_tree_key c d (repeat 255 (max_len keys))).

(** Streaming: bulk_load_left_key_, the buffered keys (in order) and
    bulk_load_streaming_max_len_ (diva.hpp:241-242). *)
Record stream := mkstream { sm_left : option key; sm_buf : list key; sm_max : nat }.
(** diva.hpp:1924-1963 BulkLoadStreaming *)
Definition stream_add (c : cfg) (x : diva * stream) (k : key) : res (diva * stream) :=
  let '(d, sm) := x in
  match sm_left sm with
  | None => Ok (d, mkstream (Some k) (sm_buf sm) (length k))
  | Some lk =>
      let m := Nat.max (sm_max sm) (length k) in
      if Z.of_nat (length (sm_buf sm)) <? target_size - 1
      then Ok (d, mkstream (Some lk) (sm_buf sm ++ [k]) m)
      else
        let* st := chunk_store c (d_size d) grow_sep lk k (sm_buf sm) in
        Ok (with_tree d (put (d_tree d) lk st), mkstream (Some k) [] m)
  end.
(** diva.hpp:1966-2007 BulkLoadStreamingFinish.  Without any key the maximum
    length is uninitialised. *)
Definition stream_finish (c : cfg) (x : diva * stream) : res diva :=
  let '(d, sm) := x in
  match sm_left sm with
  | None => UB
  | Some lk =>
      let d := add_tree_key c d (repeat 0 (sm_max sm)) in
      let d := add_tree_key c d (repeat 255 (sm_max sm)) in
      match sm_buf sm with
      | [] => Ok d
      | buf => load_tail c d lk buf
      end
  end.
Fixpoint stream_all (c : cfg) (x : diva * stream) (keys : list key) : res (diva * stream) :=
  match keys with
  | [] => Ok x
  | k :: rest => let* y := stream_add c x k in stream_all c y rest
  end.
(** An empty filter (diva.hpp:315-335), a streamed key sequence and the finish
    call. *)
Definition bulk_load_stream (c : cfg) (s : Z) (keys : list key) : res diva :=
  let* x := stream_all c (mkdiva s [], mkstream None [] 0) keys in
  stream_finish c x.

(** ** Shrinking *)
(** diva.hpp:1055-1095 ShrinkInfixSize; on an empty tree the do-while loop peeks
    at an invalid iterator. *)
Definition shrink (c : cfg) (d : diva) (s' : Z) : res diva :=
  match d_tree d with
  | [] => UB
  | t =>
      let* t' := map_res (fun x : key * store =>
                            let* st := shrink_store c (d_size d) s' (snd x) in Ok (fst x, st)) t in
      Ok (mkdiva s' t')
  end.
