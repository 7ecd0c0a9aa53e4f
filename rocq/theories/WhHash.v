(** Model of the hash table inside the ordered index (wormhmap, wh.c:311-321 and
    730-1055; wh_int.c:758-1089 is the same text).  The index model in Wormhole.v
    uses a finite map in its place; WhHashProofs.v shows what the table is.

    What is simplified:
    - A bucket is a list of eight slots, each with its 16-bit tag (array wmap) and
      its pointer (array pmap, None is NULL).  The arrays of buckets are functions
      of the bucket number; every index is taken with the mask of the table.
    - A node (struct wormmeta) is its address, its prefix and its 32-bit hash;
      what else it stores does not concern the table.
    - Memory allocation never fails. *)
From Coq Require Import ZArith List Bool Arith.
From Verif Require Import Base Key.
Import ListNotations.
Open Scope Z_scope.

(** wh.c:39-45 struct wormmeta, as the table sees it: address, prefix, hash *)
Record node := mknode { n_at : Z; n_key : key; n_hash : Z }.

(** lib.c:241-258 crc32c_u8: one byte, bit by bit (the code uses the instruction) *)
Fixpoint crc_bits (n : nat) (c : Z) : Z :=
  match n with
  | O => c
  | S n' => crc_bits n' (if Z.odd c then Z.lxor (c / 2) 2197175160 else c / 2)
  end.
Definition crc32c_u8 (c v : Z) : Z := crc_bits 8 (Z.lxor c v).
(** kv.c:18-22 kv_crc32c, with KV_CRC32C_SEED = 0xDEADBEEF (kv.h:15); several bytes
    at a time (lib.c:280-311) give the same value as one after the other *)
Definition crc32c (k : key) : Z := fold_left crc32c_u8 k 3735928559.

(** wh.c:310-315 wormhole_pkey *)
Definition pkey (h : Z) : Z :=
  let p := Z.lxor (h mod 2 ^ 16) (Z.shiftr h 16 mod 2 ^ 16) in
  if p =? 0 then 1 else p.
(** wh.c:317-321 wormhole_bswap (__builtin_bswap32) *)
Definition bswap (h : Z) : Z :=
  (h mod 256) * 2 ^ 24 + (h / 2 ^ 8 mod 256) * 2 ^ 16 + (h / 2 ^ 16 mod 256) * 2 ^ 8 + h / 2 ^ 24 mod 256.

(** wh.c:67-70 struct wormslot, struct wormmbkt: tags and pointers of a bucket *)
Definition slot := (Z * option node)%type.
Definition bucket := list slot.
(** wh.c:73-84 struct wormhmap: mask, and the arrays wmap and pmap together *)
Record table := mktable { t_mask : Z; t_bkt : Z -> bucket }.
(** wh.c:27 WH_BKT_NR *)
Definition BKT : nat := 8.
Definition empty_slot : slot := (0, None).
Definition empty_bucket : bucket := repeat empty_slot BKT.
(** wh.c:653-673 wormhmap_init, with WH_HMAPINIT_SIZE = 2^12 (wh.c:15) *)
Definition hinit : table := mktable (2 ^ 12 - 1) (fun _ => empty_bucket).

(** the assignments to wmap[mid].t[i] and pmap[mid].e[i] *)
Fixpoint put_at (l : bucket) (i : nat) (s : slot) : bucket :=
  match l, i with
  | [], _ => []
  | _ :: l', O => s :: l'
  | x :: l', S i' => x :: put_at l' i' s
  end.
Definition hput (t : table) (mid : Z) (i : nat) (s : slot) : table :=
  mktable (t_mask t) (fun j => if j =? mid then put_at (t_bkt t mid) i s else t_bkt t j).
Definition hslot (t : table) (mid : Z) (i : nat) : slot := nth i (t_bkt t mid) empty_slot.
(** wh.c:836-841 wormhmap_slot_count: the number of slots before the first tag 0 *)
Fixpoint slot_count (b : bucket) : nat :=
  match b with
  | [] => O
  | (t, _) :: r => if t =? 0 then O else S (slot_count r)
  end.
(** hash & mask, bswap(hash) & mask *)
Definition midx (t : table) (h : Z) : Z := Z.land h (t_mask t).
Definition midy (t : table) (h : Z) : Z := Z.land (bswap h) (t_mask t).

(** wh.c:730-740 wormhmap_peek, 714-728 wormhmap_match_any *)
Definition peek (t : table) (h : Z) : bool :=
  existsb (fun s => fst s =? pkey h) (t_bkt t (midx t h)) || existsb (fun s => fst s =? pkey h) (t_bkt t (midy t h)).
(** wh.c:742-755 wormhmap_get_slot: the slots whose tag matches, from the first on
    (also 772-786 get_kref_slot and 803-817 get_kref1_slot, which are given the
    prefix in another form) *)
Fixpoint get_slot (b : bucket) (tag : Z) (k : key) : res (option node) :=
  match b with
  | [] => Ok None
  | (tg, p) :: r =>
      if tg =? tag
      then match p with
           | None => UB
           | Some m => if key_eq k (n_key m) then Ok (Some m) else get_slot r tag k
           end
      else get_slot r tag k
  end.
(** wh.c:757-769 wormhmap_get, 788-800 get_kref, 819-833 get_kref1 *)
Definition get (t : table) (k : key) (h : Z) : res (option node) :=
  let* r := get_slot (t_bkt t (midx t h)) (pkey h) k in
  match r with
  | Some m => Ok (Some m)
  | None => get_slot (t_bkt t (midy t h)) (pkey h) k
  end.

(** wh.c:843-874 wormhmap_squeeze, the inner loop: [n] is ei + 1, [ci] the number of
    used slots of bucket [si] *)
Fixpoint squeeze_bucket (n : nat) (t : table) (si : Z) (ci : nat) : res table :=
  match n with
  | O => Ok t
  | S ei =>
      match snd (hslot t si ei) with
      | None => UB
      | Some m =>
          let sj := midx t (n_hash m) in
          if sj =? si then squeeze_bucket ei t si ci
          else let ej := slot_count (t_bkt t sj) in
               if Nat.ltb ej BKT
               then let t1 := hput t sj ej (hslot t si ei) in
                    let ni := (ci - 1)%nat in
                    let t2 := if Nat.ltb ei ni then hput t1 si ei (hslot t1 si ni) else t1 in
                    squeeze_bucket ei (hput t2 si ni empty_slot) si (ci - 1)
               else squeeze_bucket ei t si ci
      end
  end.
(** wh.c:843-874, the outer loop *)
Definition squeeze (t : table) : res table :=
  forz (Z.to_nat (t_mask t + 1)) 0 (fun si t => let ci := slot_count (t_bkt t si) in squeeze_bucket ci t si ci) t.

(** wh.c:915-931 wormhmap_expand, the inner loop over the slots of the old bucket [s] *)
Fixpoint expand_bucket (mask0 s : Z) (b : bucket) (t1 : table) : res table :=
  match b with
  | (tg, Some m) :: r =>
      let idx1 := Z.land (if Z.land (n_hash m) mask0 =? s then n_hash m else bswap (n_hash m)) (t_mask t1) in
      let n := slot_count (t_bkt t1 idx1) in
      if Nat.ltb n BKT then expand_bucket mask0 s r (hput t1 idx1 n (tg, Some m)) else UB
  | _ => Ok t1
  end.
(** wh.c:876-938 wormhmap_expand.  A table with 2^32 buckets is not made larger:
    the code ends the process there (debug_die), which is [Fuel] here. *)
Definition expand (t : table) : res table :=
  let mask0 := t_mask t in
  if mask0 =? 2 ^ 32 - 1 then Fuel
  else let* t1 := forz (Z.to_nat (mask0 + 1)) 0 (fun s t1 => expand_bucket mask0 s (t_bkt t s) t1)
                       (mktable (mask0 + (mask0 + 1)) (fun _ => empty_bucket)) in
       squeeze t1.

(** wh.c:940-973 wormhmap_cuckoo: make room for [e0] in bucket [mid0] *)
Fixpoint cuckoo (fuel : nat) (t : table) (mid0 : Z) (e0 : node) (s0 : Z) (depth : nat) : res (table * bool) :=
  match fuel with
  | O => Fuel
  | S fuel' =>
      let ii := slot_count (t_bkt t mid0) in
      if Nat.ltb ii BKT then Ok (hput t mid0 ii (s0, Some e0), true)
      else match depth with
      | O => Ok (t, false)
      | S depth' =>
          (fix try (is : list nat) (t : table) {struct is} : res (table * bool) :=
             match is with
             | [] => Ok (t, false)
             | i :: is' =>
                 match hslot t mid0 i with
                 | (_, None) => UB
                 | (si, Some m) =>
                     let mx := midx t (n_hash m) in
                     let my := midy t (n_hash m) in
                     let midt := if negb (mx =? mid0) then mx else my in
                     if midt =? mid0 then try is' t
                     else match cuckoo fuel' t midt m si (if midt =? mx then S depth' else depth') with
                          | Ok (t', true) => Ok (hput t' mid0 i (s0, Some e0), true)
                          | Ok (t', false) => try is' t'
                          | UB => UB
                          | Fuel => Fuel
                          end
                 end
             end) (seq 0 BKT) t
      end
  end.
(** wh.c:975-994 wormhmap_set *)
Fixpoint set (fuel : nat) (t : table) (m : node) : res table :=
  match fuel with
  | O => Fuel
  | S fuel' =>
      let h := n_hash m in
      let* '(t1, b1) := cuckoo fuel' t (midx t h) m (pkey h) 1 in
      if b1 then Ok t1 else
      let* '(t2, b2) := cuckoo fuel' t1 (midy t h) m (pkey h) 1 in
      if b2 then Ok t2 else
      let* '(t3, b3) := cuckoo fuel' t2 (midx t h) m (pkey h) 2 in
      if b3 then Ok t3 else
      let* t4 := expand t3 in
      set fuel' t4 m
  end.

(** wh.c:1002-1013: pointers are compared by address; [is] are the slots to look at *)
Definition same_node (p : option node) (m : node) : bool := match p with Some q => n_at q =? n_at m | None => false end.
(** wh.c:996-1016 wormhmap_del_slot: the last slot in use takes the free place *)
Fixpoint del_slot (is : list nat) (t : table) (mid : Z) (m : node) (tag : Z) : table * bool :=
  match is with
  | [] => (t, false)
  | i :: is' =>
      let s := hslot t mid i in
      if (fst s =? tag) && same_node (snd s) m
      then let j := (slot_count (t_bkt t mid) - 1)%nat in
           (hput (hput t mid i (hslot t mid j)) mid j empty_slot, true)
      else del_slot is' t mid m tag
  end.
(** wh.c:1018-1027 wormhmap_del *)
Definition del (t : table) (m : node) : table * bool :=
  let h := n_hash m in
  let '(t1, b) := del_slot (seq 0 BKT) t (midx t h) m (pkey h) in
  if b then (t1, true) else del_slot (seq 0 BKT) t1 (midy t h) m (pkey h).
(** wh.c:1029-1044 wormhmap_replace_slot *)
Fixpoint replace_slot (is : list nat) (t : table) (mid : Z) (old : node) (tag : Z) (new : node) : table * bool :=
  match is with
  | [] => (t, false)
  | i :: is' =>
      let s := hslot t mid i in
      if (fst s =? tag) && same_node (snd s) old
      then (hput t mid i (fst s, Some new), true)
      else replace_slot is' t mid old tag new
  end.
(** wh.c:1046-1055 wormhmap_replace *)
Definition replace (t : table) (old new : node) : table * bool :=
  let h := n_hash old in
  let '(t1, b) := replace_slot (seq 0 BKT) t (midx t h) old (pkey h) new in
  if b then (t1, true) else replace_slot (seq 0 BKT) t1 (midy t h) old (pkey h) new.
