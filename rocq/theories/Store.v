(** Model of the InfixStore part of include/diva.hpp (struct InfixStore,
    lines 157-227, and the private store functions, lines 2010-2881) and of the
    bitmap helpers of include/util.hpp.

    A block of memory is one integer whose bit [i] is bit [i mod 64] of the
    64-bit word [i / 64] (the machine is little-endian, so a byte or unaligned
    8-byte access at byte address [a] is the bit window starting at [8 a]).
    All integers of the code are modelled by Z; the truncations to uint64_t /
    uint32_t that can matter are explicit ([u64], [u32]).  Positions and sizes
    never reach 2^31 under the table precondition ([Spec.tables_ok]), so
    the int32_t/uint32_t conversions between positions are identities. *)
From Coq Require Import ZArith List Bool.
From Verif Require Import Base Util.
Import ListNotations.
Open Scope Z_scope.

(** diva.hpp:89-95 constants *)
Definition target_size : Z := 1024.      (* infix_store_target_size *)
Definition base_implicit_size : Z := 10.
Definition scale_shift : Z := 15.
Definition scale_implicit_shift : Z := 15.
Definition size_scalar_count : Z := 500.
Definition grow_sep : Z := 55.           (* size_scalar_shrink_grow_sep *)

(** diva.hpp:238-239 the tables filled by SetupScaleFactors (diva.hpp:405-426,
    modelled in Tables.v) plus two parameters of the machine:
    [c_strict = true] is the letter of the C++ standard: no byte outside an
    allocation may be touched and no shift may be by 64 or more.
    [c_strict = false] is the x86-64 execution the authors rely on: the 8 bytes
    after an allocation can be read and written, and shift counts are taken
    modulo 64.
    [c_junk] is the content of fresh uninitialised memory (bit i of the block is
    bit i of [c_junk]), including the 8 bytes after it. *)
Record cfg := mkcfg {
  c_scal : Z -> Z;      (* size_scalars_ *)
  c_size : Z -> Z;      (* scaled_sizes_ *)
  c_exc : Z;            (* exception_scaled_size_ *)
  c_impl : Z -> Z;      (* implicit_scalars_ *)
  c_junk : Z;
  c_strict : bool
}.

(** diva.hpp:157-163 struct InfixStore: status word and the block [ptr] points
    to.  [wc] is the number of words allocated, [mem] the bits of the block
    followed by the 64 bits behind it.  [owned] tells whether [ptr] came from
    [new uint64_t[]] (false after deserialization, diva.hpp:1426). *)
Record store := mkstore {
  status : Z;
  wc : Z;
  mem : Z;
  owned : bool
}.

Definition with_mem (st : store) (m : Z) : store := mkstore (status st) (wc st) m (owned st).
Definition with_status (st : store) (x : Z) : store := mkstore x (wc st) (mem st) (owned st).

(** Status word accessors, diva.hpp:186-226.  The 64-bit masks of BITMASK are
    truncated to 32 bits on assignment. *)
Definition get_elem_count (st : store) : Z := Z.land (status st) (bitmask 20).
Definition set_elem_count (st : store) (n : Z) : store :=
  with_status st (u32 (Z.lor (Z.ldiff (status st) (bitmask 20)) n)).
Definition update_elem_count (st : store) (d : Z) : store :=
  with_status st (u32 (status st + d)).
Definition get_size_grade (st : store) : Z := Z.land (Z.shiftr (status st) 20) (bitmask 8).
Definition set_size_grade (st : store) (g : Z) : store :=
  with_status st (u32 (Z.lor (Z.ldiff (status st) (Z.shiftl (bitmask 8) 20)) (Z.shiftl g 20))).
Definition get_invalid_bits (st : store) : Z := Z.land (Z.shiftr (status st) 28) 7.
Definition set_invalid_bits (st : store) (n : Z) : store :=
  with_status st (u32 (Z.lor (Z.ldiff (status st) (Z.shiftl 7 28)) (Z.shiftl n 28))).
Definition is_partial_key (st : store) : bool := negb (Z.shiftr (status st) 31 =? 0).
Definition set_partial_key (st : store) (v : bool) : store :=
  with_status st (if v then Z.lor (status st) (Z.shiftl 1 31)
                  else Z.ldiff (status st) (Z.shiftl 1 31)).

(** diva.hpp:182-184 GetPtrWordCount *)
Definition ptr_word_count (slot_count slot_size : Z) : Z :=
  1 + (target_size + slot_count * (slot_size + 1) + 63) / 64.

(** Memory access.  [limit] is the first bit that must not be touched. *)
Definition limit (c : cfg) (st : store) : Z :=
  64 * wc st + (if c_strict c then 0 else 64).
(** read [n] bits at bit address [a] (memcpy or a word/half-word access) *)
Definition rd (c : cfg) (st : store) (a n : Z) : res Z :=
  if (0 <=? a) && (a + n <=? limit c st) then Ok (low n (Z.shiftr (mem st) a)) else UB.
Definition wr (c : cfg) (st : store) (a n v : Z) : res store :=
  if (0 <=? a) && (a + n <=? limit c st)
  then Ok (with_mem st (Z.lor (Z.ldiff (mem st) (Z.shiftl (Z.ones n) a)) (Z.shiftl (low n v) a)))
  else UB.
(** [ptr[i]] *)
Definition rdw (c : cfg) (st : store) (i : Z) : res Z := rd c st (64 * i) 64.
Definition wrw (c : cfg) (st : store) (i v : Z) : res store := wr c st (64 * i) 64 v.

(** Word offsets of the bitmaps: [occupieds = ptr + 1],
    [runends = ptr + 1 + infix_store_target_size / 64]. *)
Definition occ_base : Z := 1.
Definition re_base : Z := 1 + target_size / 64.

(** [popcnts[k]]: popcnts is ptr seen as an array of uint32_t. *)
Definition get_popcnt (c : cfg) (st : store) (k : Z) : res Z := rd c st (32 * k) 32.
Definition add_popcnt (c : cfg) (st : store) (k d : Z) : res store :=
  let* x := get_popcnt c st k in wr c st (32 * k) 32 (u32 (x + d)).

(** util.hpp:171-185 set_bitmap_bit, reset_bitmap_bit, get_bitmap_bit on the
    bitmap starting at word [base]. *)
Definition set_bit (c : cfg) (st : store) (base pos : Z) : res store :=
  let* w := rdw c st (base + pos / 64) in
  wrw c st (base + pos / 64) (Z.lor w (Z.shiftl 1 (pos mod 64))).
Definition reset_bit (c : cfg) (st : store) (base pos : Z) : res store :=
  let* w := rdw c st (base + pos / 64) in
  wrw c st (base + pos / 64) (Z.ldiff w (Z.shiftl 1 (pos mod 64))).
Definition get_bit (c : cfg) (st : store) (base pos : Z) : res Z :=
  let* w := rdw c st (base + pos / 64) in
  Ok (Z.land (Z.shiftr w (pos mod 64)) 1).

(** util.hpp:206-233 shift_bitmap_right(ptr + base, l, r, shamt).
    The two statements [ptr[d] &= ~m; ptr[d] |= p;] are fused into one write. *)
Definition shift_right_move (c : cfg) (base l shamt : Z) (s : store * Z)
  : res ((store * Z) + store) :=
  let '(st, rsrc) := s in
  if l <=? rsrc then
    let dst := rsrc + shamt in
    let so := rsrc mod 64 in
    let dof := dst mod 64 in
    let ma := Z.min (rsrc - l) (Z.min so dof) + 1 in
    let* w := rdw c st (base + rsrc / 64) in
    let payload := Z.land (Z.shiftr w (so - ma + 1)) (bitmask ma) in
    let* d := rdw c st (base + dst / 64) in
    let* st1 := wrw c st (base + dst / 64)
                  (Z.lor (Z.ldiff d (Z.shiftl (bitmask ma) (dof - ma + 1)))
                         (Z.shiftl payload (dof - ma + 1))) in
    Ok (inl (st1, rsrc - ma))
  else Ok (inr st).
Definition shift_right_erase (c : cfg) (base l : Z) (s : store * Z)
  : res ((store * Z) + store) :=
  let '(st, rsrc) := s in
  if l <=? rsrc then
    let off := rsrc mod 64 in
    let ea := Z.min (rsrc - l) off + 1 in
    let* w := rdw c st (base + rsrc / 64) in
    let* st1 := wrw c st (base + rsrc / 64)
                  (Z.ldiff w (Z.shiftl (bitmask ea) (off - ea + 1))) in
    Ok (inl (st1, rsrc - ea))
  else Ok (inr st).
Definition shift_bitmap_right (c : cfg) (st : store) (base l r shamt : Z) : res store :=
  let* st1 := loop (Z.to_nat (r - l + 2)) (shift_right_move c base l shamt) (st, r) in
  loop (Z.to_nat (shamt + 1)) (shift_right_erase c base l) (st1, l + shamt - 1).

(** util.hpp:237-264 shift_bitmap_left(ptr + base, l, r, shamt) *)
Definition shift_left_move (c : cfg) (base r shamt : Z) (s : store * Z)
  : res ((store * Z) + store) :=
  let '(st, lsrc) := s in
  if lsrc <=? r then
    let dst := lsrc - shamt in
    let so := lsrc mod 64 in
    let dof := dst mod 64 in
    let ma := Z.min (r - lsrc) (63 - Z.max so dof) + 1 in
    let* w := rdw c st (base + lsrc / 64) in
    let payload := Z.land (Z.shiftr w so) (bitmask ma) in
    let* d := rdw c st (base + dst / 64) in
    let* st1 := wrw c st (base + dst / 64)
                  (Z.lor (Z.ldiff d (Z.shiftl (bitmask ma) dof)) (Z.shiftl payload dof)) in
    Ok (inl (st1, lsrc + ma))
  else Ok (inr st).
Definition shift_left_erase (c : cfg) (base r : Z) (s : store * Z)
  : res ((store * Z) + store) :=
  let '(st, lsrc) := s in
  if lsrc <=? r then
    let off := lsrc mod 64 in
    let ea := Z.min (r - lsrc) (63 - off) + 1 in
    let* w := rdw c st (base + lsrc / 64) in
    let* st1 := wrw c st (base + lsrc / 64)
                  (Z.ldiff w (Z.shiftl (bitmask ea) off)) in
    Ok (inl (st1, lsrc + ea))
  else Ok (inr st).
Definition shift_bitmap_left (c : cfg) (st : store) (base l r shamt : Z) : res store :=
  let* st1 := loop (Z.to_nat (r - l + 2)) (shift_left_move c base r shamt) (st, l) in
  loop (Z.to_nat (shamt + 1)) (shift_left_erase c base r) (st1, r - shamt + 1).

(** [scaled_sizes_[store.GetSizeGrade()]] *)
Definition slots (c : cfg) (st : store) : Z := c_size c (get_size_grade st).

(** diva.hpp:2010-2020 RankOccupieds *)
Definition rank_occupieds (c : cfg) (st : store) (pos : Z) : res Z :=
  let cond := target_size / 2 <=? pos in
  let* r0 := (if cond then get_popcnt c st 0 else Ok 0) in
  let i0 := if cond then target_size / 128 else 0 in
  let* r := forz (Z.to_nat (pos / 64 - i0)) i0
              (fun i acc => let* w := rdw c st (occ_base + i) in Ok (acc + popcount w)) r0 in
  let* w := rdw c st (occ_base + pos / 64) in
  Ok (r + bit_rank w (pos mod 64)).

(** diva.hpp:2024-2040 SelectRunends.  State of the for loop:
    (i, old_total_set_bits, total_set_bits). *)
Definition select_runends (c : cfg) (st : store) (rank : Z) : res Z :=
  let total_words := (slots c st + 63) / 64 in
  let* p1 := get_popcnt c st 1 in
  let cond := p1 <=? rank in
  let t0 := if cond then p1 else 0 in
  let* '(i, old) :=
    loop (Z.to_nat (total_words + 1))
      (fun s : Z * Z * Z =>
         let '(i, old, tot) := s in
         if (tot <=? rank) && (i <? total_words) then
           let* w := rdw c st (re_base + i) in
           Ok (inl (i + 1, tot, tot + popcount w))
         else Ok (inr (i, old)))
      ((if cond then target_size / 128 else 0), t0, t0) in
  let i := i - 1 in
  let* w := rdw c st (re_base + i) in
  Ok (i * 64 + bit_select w (rank - old)).

(** diva.hpp:2043-2051 NextOccupied and 2072-2083 NextRunend: first set bit
    after [pos], scanning while the position is below [lim]. *)
Definition next_set (c : cfg) (st : store) (base lim pos : Z) : res Z :=
  loop (Z.to_nat (lim - pos + 2))
    (fun r =>
       let* w := rdw c st (base + r / 64) in
       let lb := lowbit_pos (Z.ldiff w (bitmask (r mod 64))) in
       let r' := r + (lb - r mod 64) in
       if (lb =? 64) && (r' <? lim) then Ok (inl r') else Ok (inr r'))
    (pos + 1).
Definition next_occupied (c : cfg) (st : store) (pos : Z) : res Z :=
  next_set c st occ_base target_size pos.
Definition next_runend (c : cfg) (st : store) (pos : Z) : res Z :=
  next_set c st re_base (slots c st) pos.

(** diva.hpp:2055-2068 PreviousOccupied and 2087-2100 PreviousRunend.  [/] and
    [%] act on an int32_t that can be -1, hence [Z.quot] and [Z.rem]. *)
Definition prev_set (c : cfg) (st : store) (base pos : Z) : res Z :=
  loop (Z.to_nat (pos + 2))
    (fun r =>
       let off := Z.rem r 64 in
       let* w := rdw c st (base + Z.quot r 64) in
       let hb := highbit_pos (Z.land w (bitmask (off + 1))) in
       let r' := r + (if hb =? -1 then - off - 1 else hb - off) in
       if (hb =? -1) && (0 <=? r') then Ok (inl r') else Ok (inr r'))
    (pos - 1).
Definition prev_occupied (c : cfg) (st : store) (pos : Z) : res Z := prev_set c st occ_base pos.
Definition prev_runend (c : cfg) (st : store) (pos : Z) : res Z := prev_set c st re_base pos.

(** diva.hpp:2104-2110 GetMappedPos.  The product is a uint64_t, the shifted
    value is stored in a uint32_t. *)
Definition mapped_pos (c : cfg) (implicit_part grade implicit_scalar : Z) : Z :=
  Z.min (c_size c grade - 1)
        (u32 (Z.shiftr (u64 (implicit_part * c_scal c grade * implicit_scalar))
                       (scale_shift + scale_implicit_shift))).

(** [implicit_scalars_[total_implicit - infix_store_target_size / 2]]; the array
    has infix_store_target_size / 2 + 1 entries and the index is a uint32_t. *)
Definition implicit_scalar (c : cfg) (total_implicit : Z) : res Z :=
  let i := total_implicit - target_size / 2 in
  if (0 <=? i) && (i <=? target_size / 2) then Ok (c_impl c i) else UB.

(** Bit address of slot [pos] when slots are [w] bits wide (diva.hpp:2118,
    2130, 2147): the slots follow the header word and the two bitmaps. *)
Definition slot_addr (c : cfg) (st : store) (w pos : Z) : Z :=
  64 + target_size + slots c st + pos * w.

(** diva.hpp:2114-2123 GetSlot *)
Definition get_slot (c : cfg) (s : Z) (st : store) (pos : Z) : res Z :=
  let b := slot_addr c st s pos in
  let* v := rd c st (8 * (b / 8)) 64 in
  Ok (Z.land (Z.shiftr v (b mod 8)) (bitmask s)).

(** diva.hpp:2126-2137 and 2140-2154 SetSlot; the first overload is the second
    one with width infix_size_. *)
Definition set_slot (c : cfg) (w : Z) (st : store) (pos value : Z) : res store :=
  let b := slot_addr c st w pos in
  let* v := rd c st (8 * (b / 8)) 64 in
  wr c st (8 * (b / 8)) 64
     (Z.lor (Z.ldiff v (Z.shiftl (bitmask w) (b mod 8))) (Z.shiftl value (b mod 8))).

(** diva.hpp:2157-2204 ShiftSlotsRight/Left, ShiftRunendsRight/Left (the branch
    without NAIVE_SLOT_SHIFT) *)
Definition shift_slots_right (c : cfg) (s : Z) (st : store) (l r shamt : Z) : res store :=
  shift_bitmap_right c st 0 (slot_addr c st s l) (slot_addr c st s r - 1) (shamt * s).
Definition shift_slots_left (c : cfg) (s : Z) (st : store) (l r shamt : Z) : res store :=
  shift_bitmap_left c st 0 (slot_addr c st s l) (slot_addr c st s r - 1) (shamt * s).
Definition shift_runends_right (c : cfg) (st : store) (l r shamt : Z) : res store :=
  shift_bitmap_right c st re_base l (r - 1) shamt.
Definition shift_runends_left (c : cfg) (st : store) (l r shamt : Z) : res store :=
  shift_bitmap_left c st re_base l (r - 1) shamt.

(** diva.hpp:2207-2215 FindEmptySlotAfter *)
Definition find_empty_after (c : cfg) (s : Z) (st : store) (runend_pos : Z) : res Z :=
  loop (Z.to_nat (slots c st - runend_pos + 1))
    (fun cur =>
       if cur <? slots c st then
         let* v := get_slot c s st (cur + 1) in
         if v =? 0 then Ok (inr (cur + 1))
         else let* n := next_runend c st cur in Ok (inl n)
       else Ok (inr (cur + 1)))
    runend_pos.

(** diva.hpp:2219-2241 FindEmptySlotBefore (the code after the first return is
    unreachable and not modelled).  The first loop yields
    (previous_pos, current_pos). *)
Definition find_empty_before (c : cfg) (s : Z) (st : store) (runend_pos : Z) : res Z :=
  let* '(prev, cur) :=
    loop (Z.to_nat (runend_pos + 2))
      (fun cur0 : Z =>
         let* cur1 := prev_runend c st cur0 in
         if 0 <=? cur1 then
           let* v := get_slot c s st (cur1 + 1) in
           if v =? 0 then Ok (inr (cur0, cur1)) else Ok (inl cur1)
         else Ok (inr (cur0, cur1)))
      runend_pos in
  loop (Z.to_nat (prev - cur + 1))
    (fun p : Z =>
       let p' := p - 1 in
       if cur <? p' then
         let* v := get_slot c s st p' in
         if v =? 0 then Ok (inr p') else Ok (inl p')
       else Ok (inr p'))
    prev.

(** diva.hpp:2831-2881 GetInfixList: the list written to [res].  Loop state:
    (implicit_part, elements written so far, last first). *)
Definition get_infix_list (c : cfg) (s : Z) (st : store) : res (list Z) :=
  let* w0 := rdw c st occ_base in
  let* ip0 := (if Z.land w0 1 =? 0 then next_occupied c st 0 else Ok 0) in
  let* '(_, acc) :=
    forz (Z.to_nat (slots c st)) 0
      (fun i (x : Z * list Z) =>
         let '(ip, acc) := x in
         let* e := get_slot c s st i in
         let acc' := if e =? 0 then acc else u64 (Z.lor (Z.shiftl ip s) e) :: acc in
         let* b := get_bit c st re_base i in
         if b =? 0 then Ok (ip, acc')
         else let* ip' := next_occupied c st ip in Ok (ip', acc'))
      (ip0, []) in
  Ok (rev acc).

(** diva.hpp:2744-2756, first pass of LoadListToInfixStore: the arrays l and r,
    one entry per run, last run first.  [acc] holds the runs so far (the head is
    entry [ind]) and [old] is old_implicit_part. *)
Fixpoint load_runs (c : cfg) (s grade scalar : Z) (old : Z) (acc : list (Z * Z))
  (l : list Z) : list (Z * Z) :=
  match l with
  | [] => acc
  | x :: rest =>
      let ip := Z.shiftr x s in
      let acc1 :=
        if ip =? old then acc
        else match acc with
             | (_, r0) :: _ => let p := Z.max r0 (mapped_pos c ip grade scalar) in (p, p) :: acc
             | [] => acc
             end in
      let acc2 := match acc1 with (a, b) :: t => (a, b + 1) :: t | [] => [] end in
      load_runs c s grade scalar ip acc2 rest
  end.

(** diva.hpp:2758-2764, second pass: runs (last first) are pulled left so that
    each ends where the next one ([next_l]) starts.  The result is first run
    first. *)
Fixpoint pull_runs (next_l : Z) (runs acc : list (Z * Z)) : list (Z * Z) :=
  match runs with
  | [] => acc
  | (a, b) :: t =>
      let diff := Z.min 0 (next_l - b) in
      pull_runs (a + diff) t ((a + diff, b + diff) :: acc)
  end.

(** diva.hpp:2766-2780, third pass: write the elements of one run. *)
Fixpoint write_run (c : cfg) (s : Z) (n : nat) (j : Z) (l : list Z) (st : store)
  : res (store * list Z) :=
  match n with
  | O => Ok (st, l)
  | S m =>
      match l with
      | [] => UB
      | x :: rest =>
          let* st1 := set_bit c st occ_base (Z.shiftr x s) in
          let* st2 := set_slot c s st1 j (Z.land x (bitmask s)) in
          write_run c s m (j + 1) rest st2
      end
  end.
Fixpoint write_runs (c : cfg) (s : Z) (runs : list (Z * Z)) (l : list Z) (st : store)
  : res store :=
  match runs with
  | [] => Ok st
  | (a, b) :: t =>
      let* '(st1, rest) := write_run c s (Z.to_nat (b - a)) a l st in
      let* st2 := set_bit c st1 re_base (b - 1) in
      write_runs c s t rest st2
  end.

(** diva.hpp:2793-2800, last pass: the two popcounts. *)
Definition load_popcnts (c : cfg) (st : store) : res store :=
  forz (Z.to_nat (target_size / 128)) 0
    (fun i st =>
       let* w := rdw c st (occ_base + i) in
       let* st1 := add_popcnt c st 0 (popcount w) in
       if 0 <? slots c st - i * 64 then
         let* v := rdw c st1 (re_base + i) in
         add_popcnt c st1 1 (popcount (Z.land v (bitmask (Z.min 64 (slots c st - i * 64)))))
       else Ok st1)
    st.

(** diva.hpp:178-180 Reset, as called at diva.hpp:2722 with the store's own slot
    count and infix_size_: memset of GetPtrWordCount words. *)
Definition reset_block (c : cfg) (s : Z) (st : store) : res store :=
  wr c st 0 (64 * ptr_word_count (slots c st) s) 0.

(** diva.hpp:2711-2815 LoadListToInfixStore *)
Definition load_list (c : cfg) (s : Z) (st : store) (l : list Z) (total_implicit : Z)
  (zero_out : bool) : res store :=
  let grade := get_size_grade st in
  let total := c_size c grade in
  let* scalar := implicit_scalar c total_implicit in
  let* st0 := (if zero_out then reset_block c s st else Ok st) in
  let st1 := set_elem_count st0 (Z.of_nat (length l)) in
  match l with
  | [] => Ok st1
  | x :: _ =>
      let ip := Z.shiftr x s in
      let p := mapped_pos c ip grade scalar in
      let runs := pull_runs total (load_runs c s grade scalar ip [(p, p)] l) [] in
      let* st2 := write_runs c s runs l st1 in
      load_popcnts c st2
  end.

(** diva.hpp:164-169 InfixStore(slot_count, slot_size, size_grade): allocate and
    clear. *)
Definition new_store (c : cfg) (slot_count slot_size grade : Z) : store :=
  let n := ptr_word_count slot_count slot_size in
  set_size_grade
    (mkstore 0 n (Z.shiftl (low 64 (Z.shiftr (c_junk c) (64 * n))) (64 * n)) true) grade.

(** diva.hpp:2818-2828 AllocateInfixStoreWithList.  The search for the grade
    scans scaled_sizes_ upwards. *)
Definition alloc_grade (c : cfg) (scaled_len : Z) : res Z :=
  loop (Z.to_nat (size_scalar_count + 1))
    (fun g => if (g <? size_scalar_count) && (c_size c g <? scaled_len)
              then Ok (inl (g + 1)) else Ok (inr g))
    0.
Definition alloc_with_list (c : cfg) (s : Z) (l : list Z) (total_implicit : Z) : res store :=
  let scaled_len :=
    u32 (Z.shiftr (u64 (c_scal c grow_sep * Z.of_nat (length l))) scale_shift) in
  let* g := alloc_grade c scaled_len in
  if g <? size_scalar_count then
    load_list c s (new_store c (c_size c g) s g) l total_implicit false
  else UB. (* scaled_sizes_[500] is out of bounds *)

(** [delete[] ptr] *)
Definition free_block (st : store) : res unit := if owned st then Ok tt else UB.

(** diva.hpp:2664-2681 ResizeInfixStore.  The VLA infix_list has elem_count
    entries; dumping more would overflow it and loading with fewer would read
    uninitialised entries. *)
Definition resize (c : cfg) (s : Z) (st : store) (expand : bool) (total_implicit : Z) : res store :=
  let* l := get_infix_list c s st in
  if Z.of_nat (length l) =? get_elem_count st then
    let* _ := free_block st in
    let g := get_size_grade st + (if expand then 1 else -1) in
    let st1 := set_size_grade st g in
    let n := ptr_word_count (c_size c g) s in
    let st2 := mkstore (status st1) n (low (64 * n + 64) (c_junk c)) true in
    load_list c s st2 l total_implicit true
  else UB.

(** diva.hpp:2684-2708 ShrinkInfixStoreInfixSize.  [new_store] is built with the
    default size grade, as in the code. *)
Definition shrink_store (c : cfg) (s s' : Z) (st : store) : res store :=
  let slot_count := slots c st in
  let ns := new_store c slot_count s' grow_sep in
  let total := 64 + target_size + slot_count in
  let nbytes := (total + 7) / 8 in
  let* bits := rd c st 0 (8 * nbytes) in
  let* ns1 := wr c ns 0 (8 * nbytes) bits in
  let* last := rd c ns1 (8 * (nbytes - 1)) 8 in
  let* ns2 := wr c ns1 (8 * (nbytes - 1)) 8 (Z.land last (bitmask (total mod 8))) in
  let* ns3 :=
    forz (Z.to_nat slot_count) 0
      (fun i ns =>
         let* old := get_slot c s st i in
         if old =? 0 then Ok ns
         else set_slot c s' ns i
                (Z.lor (Z.shiftr old (s - s'))
                       (if s' + lowbit_pos old <? s then 1 else 0)))
      ns2 in
  let* _ := free_block st in
  Ok (mkstore (status st) (wc ns3) (mem ns3) (owned ns3)).

(** Binary search for the first slot of a run whose value without its lowest set
    bit exceeds [bound] (diva.hpp:2286-2295; 2400-2409 and 2551-2560 with another
    bound).  Returns (l, r). *)
Definition run_search (c : cfg) (s : Z) (st : store) (bound l0 r0 : Z) : res (Z * Z) :=
  loop (Z.to_nat (r0 - l0 + 1))
    (fun x : Z * Z =>
       let '(l, r) := x in
       if 1 <? r - l then
         let mid := Z.quot (l + r) 2 in
         let* v := get_slot c s st mid in
         if u64 (v - lowbit v) <=? bound then Ok (inl (mid, r)) else Ok (inl (l, mid))
       else Ok (inr (l, r)))
    (l0, r0).

(** diva.hpp:2245-2370 InsertRawIntoInfixStore.  [b2z (x < 512)] is the value
    added to a popcount. *)
Definition insert_raw (c : cfg) (s : Z) (st0 : store) (key total_implicit : Z) : res store :=
  let grade0 := get_size_grade st0 in
  let threshold := if grade0 =? 0 then c_exc c else c_size c (grade0 - 1) in
  let grow := threshold <=? get_elem_count st0 in
  let* st := (if grow then resize c s st0 true total_implicit else Ok st0) in
  let grade := if grow then grade0 + 1 else grade0 in
  let ip := Z.shiftr key s in
  let ep := Z.land key (bitmask s) in
  let* scalar := implicit_scalar c total_implicit in
  let half := target_size / 2 in
  let mapped := mapped_pos c ip grade scalar in
  let* key_rank := rank_occupieds c st ip in
  let* occ := get_bit c st occ_base ip in
  let* v0 := get_slot c s st mapped in
  let* st3 :=
    (if (occ =? 0) && (v0 =? 0) then
       let* a := set_slot c s st mapped ep in
       let* a := set_bit c a re_base mapped in
       let* a := add_popcnt c a 0 (Z.b2z (ip <? half)) in
       add_popcnt c a 1 (Z.b2z (mapped <? half))
     else if negb (occ =? 0) then
       let* runend_pos := select_runends c st key_rank in
       let* next_empty := find_empty_after c s st mapped in
       let* previous_empty := find_empty_before c s st mapped in
       let* pre := prev_runend c st runend_pos in
       let* '(l, r) := run_search c s st (u64 (ep - 1)) (Z.max pre previous_empty) (runend_pos + 1) in
       if next_empty <? c_size c grade then
         let* a := shift_slots_right c s st r next_empty 1 in
         let* a := shift_runends_right c a runend_pos next_empty 1 in
         let* a := (if (runend_pos <? half) && (half <=? next_empty)
                    then let* b := get_bit c a re_base half in add_popcnt c a 1 (- b)
                    else Ok a) in
         set_slot c s a r ep
       else
         let* a := shift_slots_left c s st (previous_empty + 1) r 1 in
         let* a := (if (previous_empty + 1 <=? half) && (half <? Z.min runend_pos r)
                    then let* b := get_bit c a re_base half in add_popcnt c a 1 b
                    else Ok a) in
         let* a := shift_runends_left c a (previous_empty + 1) (Z.min runend_pos r) 1 in
         set_slot c s a (r - 1) ep
     else
       let* runend_pos := (if key_rank =? 0 then Ok (-1) else select_runends c st (key_rank - 1)) in
       let* next_empty := find_empty_after c s st mapped in
       let* a :=
         (if next_empty <? c_size c grade then
            let shift_start := Z.max (runend_pos + 1) mapped in
            let* a := shift_slots_right c s st shift_start next_empty 1 in
            let* a := shift_runends_right c a shift_start next_empty 1 in
            let* a := (if (shift_start <? half) && (half <=? next_empty)
                       then let* b := get_bit c a re_base half in add_popcnt c a 1 (- b)
                       else Ok a) in
            let* a := set_slot c s a shift_start ep in
            let* a := set_bit c a re_base shift_start in
            add_popcnt c a 1 (Z.b2z (shift_start <? half))
          else
            let* previous_empty := find_empty_before c s st mapped in
            let target_pos := Z.max runend_pos previous_empty in
            let* a := shift_slots_left c s st (previous_empty + 1) (target_pos + 1) 1 in
            let* a := (if (previous_empty + 1 <=? half) && (half <? target_pos + 1)
                       then let* b := get_bit c a re_base half in add_popcnt c a 1 b
                       else Ok a) in
            let* a := shift_runends_left c a (previous_empty + 1) (target_pos + 1) 1 in
            let* a := set_slot c s a target_pos ep in
            let* a := set_bit c a re_base target_pos in
            add_popcnt c a 1 (Z.b2z (target_pos <? half))) in
       add_popcnt c a 0 (Z.b2z (ip <? half))) in
  let* st4 := set_bit c st3 occ_base ip in
  Ok (update_elem_count st4 1).

(** Start of a run, diva.hpp:2396-2397 (also 2547-2548 and 2589-2590). *)
Definition run_start (c : cfg) (s : Z) (st : store) (rank runend_pos : Z) : res Z :=
  let* a := (if rank =? 0 then Ok (-1) else select_runends c st (rank - 1)) in
  let* b := find_empty_before c s st runend_pos in
  Ok (Z.max a b + 1).

(** diva.hpp:2410-2416 and 2561-2567: scan left from [p] to the run start for a
    slot whose prefix matches [ep]; [Some (position, value)] or [None]. *)
Definition run_match (c : cfg) (s : Z) (st : store) (ep start p : Z) : res (option (Z * Z)) :=
  loop (Z.to_nat (p - start + 2))
    (fun p =>
       if start <=? p then
         let* v := get_slot c s st p in
         let mask := u64 (u64 (Z.shiftl (lowbit v) 1) - 1) in
         if Z.lor v mask =? Z.lor ep mask then Ok (inr (Some (p, v))) else Ok (inl (p - 1))
       else Ok (inr None))
    p.

(** diva.hpp:2373-2531 DeleteRawFromInfixStore.  When no slot matches, match_pos
    is runstart_pos - 1, as in the code. *)
Definition delete_raw (c : cfg) (s : Z) (st0 : store) (key total_implicit : Z) : res store :=
  let grade0 := get_size_grade st0 in
  let threshold := if 1 <? grade0 then c_size c (grade0 - 2) else c_exc c in
  let shrink := (0 <? grade0) && (get_elem_count st0 <=? threshold) in
  let* st := (if shrink then resize c s st0 false total_implicit else Ok st0) in
  let grade := if shrink then grade0 - 1 else grade0 in
  let total := c_size c grade in
  let ip := Z.shiftr key s in
  let ep := Z.land key (bitmask s) in
  let* scalar := implicit_scalar c total_implicit in
  let half := target_size / 2 in
  let* key_rank := rank_occupieds c st ip in
  let* runend_pos := select_runends c st key_rank in
  let* runstart_pos := run_start c s st key_rank runend_pos in
  let run_destroyed := runstart_pos =? runend_pos in
  let* '(l, r) := run_search c s st (u64 (key - 1)) (runstart_pos - 1) (runend_pos + 1) in
  let* m := run_match c s st ep runstart_pos l in
  let match_pos := match m with Some (p, _) => p | None => runstart_pos - 1 end in
  (* loop state: (cur_runend, cur_occupied, prev_runend, shift_end);
     result: (found_empty_right, prev_runend, shift_end) *)
  let* '(found_empty_right, prev_re, shift_end0) :=
    loop (Z.to_nat (total + 2))
      (fun x : Z * Z * Z * Z =>
         let '(cur_re, cur_occ, prev_re, shift_end) := x in
         if cur_re <? total then
           let prev_re := cur_re in
           let* e := (if prev_re + 1 <? total
                      then let* v := get_slot c s st (prev_re + 1) in Ok (v =? 0)
                      else Ok false) in
           if e : bool then Ok (inr (true, prev_re, shift_end))
           else
             let* cur_re := next_runend c st cur_re in
             let* cur_occ := next_occupied c st cur_occ in
             let mp := mapped_pos c cur_occ grade scalar in
             Ok (inl (cur_re, cur_occ, prev_re,
                      if (shift_end =? -1) && (prev_re + 1 <=? mp) then prev_re else shift_end))
         else Ok (inr (false, prev_re, shift_end)))
      (runend_pos, ip, runend_pos, -1) in
  let shift_end := if shift_end0 =? -1 then prev_re else shift_end0 in
  let* shift_start :=
    (if found_empty_right : bool then Ok (-1)
     else
       let* cur0 := prev_runend c st runend_pos in
       (* loop state: (cur_runend, cur_occupied, prev_runend, shift_start);
          result: (cur_runend, cur_occupied, shift_start) *)
       let* '(cur_re, cur_occ, ss) :=
         loop (Z.to_nat (total + 2))
           (fun x : Z * Z * Z * Z =>
              let '(cur_re, cur_occ, prev_re, ss) := x in
              if 0 <=? cur_re then
                let* v := get_slot c s st (cur_re + 1) in
                let mp := mapped_pos c cur_occ grade scalar in
                if v =? 0 then
                  let* f := find_empty_before c s st prev_re in
                  Ok (inr (cur_re, cur_occ, if f + 1 <? mp then f + 1 else ss))
                else
                  let ss := if cur_re + 1 <? mp then cur_re + 1 else ss in
                  let* cur_re' := prev_runend c st cur_re in
                  let* cur_occ' := prev_occupied c st cur_occ in
                  Ok (inl (cur_re', cur_occ', cur_re, ss))
              else Ok (inr (cur_re, cur_occ, ss)))
           (cur0, ip, runend_pos, -1) in
       if cur_re <? 0 then
         let mp := mapped_pos c cur_occ grade scalar in
         let* f := find_empty_before c s st runend_pos in
         (* [first_empty_slot_before < mapped_pos] compares an int32_t with a
            uint32_t, so a negative value is converted to a large one *)
         Ok (if u32 f <? mp then f else ss)
       else Ok ss) in
  let* st3 :=
    (if shift_start =? -1 then
       let* a := (if (u32 match_pos <=? half) && (half <? shift_end + 1)
                  then let* b := get_bit c st re_base half in add_popcnt c st 1 b
                  else Ok st) in
       let* a := shift_slots_left c s a (match_pos + 1) (shift_end + 1) 1 in
       let* a := shift_runends_left c a (match_pos + 1) (shift_end + 1) 1 in
       let* a := (if match_pos =? shift_end
                  then let* a := set_slot c s a match_pos 0 in reset_bit c a re_base match_pos
                  else Ok a) in
       if run_destroyed
       then add_popcnt c a 1 (- Z.b2z (runend_pos <=? half))
       else set_bit c a re_base (runend_pos - 1)
     else
       let* a := shift_slots_right c s st shift_start match_pos 1 in
       let* a := shift_runends_right c a shift_start match_pos 1 in
       let* a := (if match_pos =? shift_start
                  then let* a := set_slot c s a match_pos 0 in
                       if run_destroyed then reset_bit c a re_base runend_pos else Ok a
                  else Ok a) in
       let* a := (if (shift_start <? half) && (half <=? match_pos)
                  then let* b := get_bit c a re_base half in add_popcnt c a 1 (- b)
                  else Ok a) in
       if run_destroyed
       then add_popcnt c a 1 (- Z.b2z (runend_pos <? half))
       else set_bit c a re_base runend_pos) in
  let* st4 :=
    (if run_destroyed
     then let* a := reset_bit c st3 occ_base ip in add_popcnt c a 0 (- Z.b2z (ip <? half))
     else Ok st3) in
  Ok (update_elem_count st4 (-1)).

(** diva.hpp:2534-2569 GetLongestMatchingInfixSize *)
Definition longest_match (c : cfg) (s : Z) (st : store) (key total_implicit : Z) : res Z :=
  let ip := Z.shiftr key s in
  let ep := Z.land key (bitmask s) in
  let* _ := implicit_scalar c total_implicit in
  let* b := get_bit c st occ_base ip in
  if b =? 0 then Ok 0
  else
    let* key_rank := rank_occupieds c st ip in
    let* runend_pos := select_runends c st key_rank in
    let* start := run_start c s st key_rank runend_pos in
    let* '(l, r) := run_search c s st (u64 (key - 1)) (start - 1) (runend_pos + 1) in
    let* m := run_match c s st ep start l in
    Ok (match m with Some (_, v) => s - lowbit_pos v | None => 0 end).

(** The backward scan of a run shared by diva.hpp:2598-2606, 2619-2630 and
    2649-2659: from the runend towards lower positions until [test] holds, the
    run ends, or position 0 has been looked at. *)
Definition run_scan (c : cfg) (s : Z) (st : store) (test : Z -> bool) (runend_pos : Z) : res bool :=
  let* v0 := get_slot c s st runend_pos in
  loop (Z.to_nat (runend_pos + 1))
    (fun x : Z * Z =>
       let '(pos, v) := x in
       if test v then Ok (inr true)
       else if pos =? 0 then Ok (inr false)
       else
         let* v' := get_slot c s st (pos - 1) in
         let* b := get_bit c st re_base (pos - 1) in
         if negb (v' =? 0) && (b =? 0) then Ok (inl (pos - 1, v')) else Ok (inr false))
    (runend_pos, v0).

(** diva.hpp:2572-2632 RangeQueryInfixStore.  The case l_implicit_part >
    r_implicit_part falls through to the second half, as in the code. *)
Definition range_query_store (c : cfg) (s : Z) (st : store) (l_key r_key : Z) : res bool :=
  let lip := Z.shiftr l_key s in
  let lep := Z.land l_key (bitmask s) in
  let rip := Z.shiftr r_key s in
  let rep := Z.land r_key (bitmask s) in
  if lip <? rip then
    let* n := next_occupied c st lip in
    if n <? rip then Ok true
    else
      let* rocc := get_bit c st occ_base rip in
      let* hit :=
        (if rocc =? 0 then Ok false
         else
           let* rank := rank_occupieds c st rip in
           let* re := select_runends c st rank in
           let* start := run_start c s st rank re in
           let* v := get_slot c s st start in
           Ok (u64 (v - lowbit v) <=? rep)) in
      if hit : bool then Ok true
      else
        let* locc := get_bit c st occ_base lip in
        if locc =? 0 then Ok false
        else
          let* rank := rank_occupieds c st lip in
          let* re := select_runends c st rank in
          run_scan c s st (fun v => lep <=? Z.lor v (u64 (v - 1))) re
  else
    let* occ := get_bit c st occ_base lip in
    if occ =? 0 then Ok false
    else
      let* rank := rank_occupieds c st lip in
      let* re := select_runends c st rank in
      run_scan c s st
        (fun v => (lep <=? Z.lor v (u64 (v - 1))) && (u64 (v - lowbit v) <=? rep)) re.

(** diva.hpp:2635-2661 PointQueryInfixStore *)
Definition point_query_store (c : cfg) (s : Z) (st : store) (key total_implicit : Z) : res bool :=
  let ip := Z.shiftr key s in
  let ep := Z.land key (bitmask s) in
  let* _ := implicit_scalar c total_implicit in
  let* occ := get_bit c st occ_base ip in
  if occ =? 0 then Ok false
  else
    let* rank := rank_occupieds c st ip in
    let* re := select_runends c st rank in
    run_scan c s st
      (fun v => let mask := u64 (u64 (Z.shiftl (lowbit v) 1) - 1) in
                Z.lor ep mask =? Z.lor v mask) re.
