(** Model of the allocator of the index for leaves and nodes (lib.c: slab, astk), called
    by one thread at a time.

    What is simplified: memory is a function from addresses to 8-byte words, read and
    written at addresses that are multiples of 8; the calls to the operating system for
    a block answer the elements of a list ([None] is NULL); a compare-and-swap of the one
    running thread succeeds; [|] of numbers with no common bit is [+]; the
    count of ready objects, nr_ready, is an integer that does not wrap around. *)
From Coq Require Import ZArith List Bool.
From Verif Require Import Base.
Import ListNotations.
Open Scope Z_scope.

(** lib.c:2358-2380 struct slab; with the memory and the answers of the operating system *)
Record slab := mkslab {
  s_mem : Z -> Z;
  s_os : list (option Z);
  s_magic : Z;
  s_active : Z;
  s_backup : Z;
  s_ready : Z;
  s_obj : Z;
  s_blk : Z;
  s_per : Z;
  s_off : Z }.
(** ->next = v *)
Definition poke (mem : Z -> Z) (a v : Z) : Z -> Z := fun x => if x =? a then v else mem x.
Definition with_mem (s : slab) (mem : Z -> Z) (magic : Z) : slab :=
  mkslab mem (s_os s) magic (s_active s) (s_backup s) (s_ready s) (s_obj s) (s_blk s) (s_per s) (s_off s).
Definition with_ready (s : slab) (n : Z) : slab :=
  mkslab (s_mem s) (s_os s) (s_magic s) (s_active s) (s_backup s) n (s_obj s) (s_blk s) (s_per s) (s_off s).

(** lib.c:2258-2262 astk_ptr *)
Definition astk_ptr (m : Z) : Z := Z.shiftr m 16.
(** lib.c:2264-2276 astk_m1 and astk_m1_unsafe *)
Definition astk_m1 (safe : bool) (m0 p : Z) : Z :=
  if safe then (m0 + 1) mod 2 ^ 16 + (p * 2 ^ 16) mod 2 ^ 64 else (p * 2 ^ 16) mod 2 ^ 64.
(** lib.c:2278-2302 astk_push_safe and astk_push_unsafe *)
Definition push (safe : bool) (s : slab) (first last : Z) : slab :=
  with_mem s (poke (s_mem s) last (astk_ptr (s_magic s))) (astk_m1 safe (s_magic s) first).
(** lib.c:2320-2346 astk_pop_safe and astk_pop_unsafe; 0 is NULL *)
Definition pop (safe : bool) (s : slab) : slab * Z :=
  let ret := astk_ptr (s_magic s) in
  if ret =? 0 then (s, 0)
  else (with_mem s (s_mem s) (astk_m1 safe (s_magic s) (s_mem s ret)), ret).

(** lib.c:2392-2396, the loop of slab_add from [i], [n] times: the memory and iter *)
Fixpoint link (n : nat) (i : Z) (mem : Z -> Z) (base size iter : Z) : (Z -> Z) * Z :=
  match n with
  | O => (mem, iter)
  | S n' => let next := base + i * size in
            link n' (i + 1) (poke mem iter next) base size next
  end.
(** lib.c:2383-2405 slab_add *)
Definition slab_add (safe : bool) (s : slab) (blk : Z) : slab :=
  let mem := poke (s_mem s) blk (s_active s) in
  let base := blk + s_off s in
  let '(mem2, iter) := link (Z.to_nat (s_per s - 1)) 1 mem base (s_obj s) base in
  let s1 := mkslab mem2 (s_os s) (s_magic s) blk (s_backup s) (s_ready s) (s_obj s) (s_blk s) (s_per s) (s_off s) in
  let s2 := push safe s1 base iter in
  if safe then s2 else with_ready s2 (s_ready s2 + s_per s2).
(** lib.c:2407-2425 slab_expand *)
Definition slab_expand (safe : bool) (s : slab) : slab * bool :=
  let old := s_backup s in
  if negb (old =? 0) then
    (slab_add safe (mkslab (s_mem s) (s_os s) (s_magic s) (s_active s) (s_mem s old) (s_ready s) (s_obj s) (s_blk s) (s_per s) (s_off s)) old, true)
  else
    let s1 := mkslab (s_mem s) (tl (s_os s)) (s_magic s) (s_active s) (s_backup s) (s_ready s) (s_obj s) (s_blk s) (s_per s) (s_off s) in
    match s_os s with
    | Some new :: _ => (slab_add safe s1 new, true)
    | _ => (s1, false)
    end.
(** lib.c:2427-2442 slab_check_sizes *)
Definition slab_check_sizes (obj blk : Z) : Z :=
  if (obj =? 0) || negb (obj mod 8 =? 0) || (blk <? 4096) || negb (Z.land blk (blk - 1) =? 0) then 0
  else
    let off := if negb (Z.land obj (obj - 1) =? 0) then 64 else obj in
    if (blk <=? off) || (blk - off <? obj) then 0 else off.
(** lib.c:2444-2469 slab_init_internal and slab_create *)
Definition slab_create (mem : Z -> Z) (os : list (option Z)) (obj blk : Z) : option slab :=
  let off := slab_check_sizes obj blk in
  if off =? 0 then None
  else Some (mkslab mem os 0 0 0 0 obj blk ((blk - off) / obj) off).
(** lib.c:2471-2479 slab_reserve_unsafe; [fuel] bounds the rounds of the loop *)
Fixpoint slab_reserve (fuel : nat) (s : slab) (nr : Z) : res (slab * bool) :=
  match fuel with
  | O => Fuel
  | S f =>
      if s_ready s <? nr then
        let '(s1, b) := slab_expand false s in
        if b then slab_reserve f s1 nr else Ok (s1, false)
      else Ok (s, true)
  end.
(** lib.c:2481-2493 slab_alloc_unsafe *)
Definition slab_alloc_unsafe (s : slab) : slab * Z :=
  let '(s1, ret) := pop false s in
  if ret =? 0 then
    let '(s2, b) := slab_expand false s1 in
    if b then let '(s3, ret3) := pop false s2 in (with_ready s3 (s_ready s3 - 1), ret3) else (s2, 0)
  else (with_ready s1 (s_ready s1 - 1), ret).
(** lib.c:2503-2509, the loop of slab_alloc_safe *)
Fixpoint alloc_loop (fuel : nat) (s : slab) : res (slab * Z) :=
  match fuel with
  | O => Fuel
  | S f =>
      let '(s1, ret) := pop true s in
      if negb (ret =? 0) then Ok (s1, ret)
      else let '(s2, b) := slab_expand true s1 in
           if b then alloc_loop f s2 else Ok (s2, 0)
  end.
(** lib.c:2495-2512 slab_alloc_safe *)
Definition slab_alloc_safe (fuel : nat) (s : slab) : res (slab * Z) :=
  let '(s1, ret) := pop true s in
  if negb (ret =? 0) then Ok (s1, ret) else alloc_loop fuel s1.
(** The two ways to get an object *)
Definition slab_alloc (safe : bool) (s : slab) : res (slab * Z) :=
  if safe then slab_alloc_safe 2 s else Ok (slab_alloc_unsafe s).
(** lib.c:2514-2526 slab_free_unsafe and slab_free_safe *)
Definition slab_free (safe : bool) (s : slab) (p : Z) : slab :=
  let s1 := push safe s p p in
  if safe then s1 else with_ready s1 (s_ready s1 + 1).
(** lib.c:2537-2538: while (iter->next) iter = iter->next *)
Fixpoint last_block (fuel : nat) (mem : Z -> Z) (iter : Z) : res Z :=
  match fuel with
  | O => Fuel
  | S f => if negb (mem iter =? 0) then last_block f mem (mem iter) else Ok iter
  end.
(** lib.c:2528-2544 slab_free_all *)
Definition slab_free_all (fuel : nat) (s : slab) : res slab :=
  if negb (s_active s =? 0) then
    let* iter := last_block fuel (s_mem s) (s_active s) in
    Ok (mkslab (poke (s_mem s) iter (s_backup s)) (s_os s) 0 0 (s_active s) 0 (s_obj s) (s_blk s) (s_per s) (s_off s))
  else Ok (mkslab (s_mem s) (s_os s) 0 (s_active s) (s_backup s) 0 (s_obj s) (s_blk s) (s_per s) (s_off s)).
(** lib.c:2546-2563 slab_get_nalloc: the length of a list in memory, then the difference *)
Fixpoint list_len (fuel : nat) (mem : Z -> Z) (iter : Z) : res Z :=
  match fuel with
  | O => Fuel
  | S f => if negb (iter =? 0) then let* n := list_len f mem (mem iter) in Ok (n + 1) else Ok 0
  end.
Definition slab_get_nalloc (fuel : nat) (s : slab) : res Z :=
  let* n := list_len fuel (s_mem s) (s_active s) in
  let* f := list_len fuel (s_mem s) (astk_ptr (s_magic s)) in
  Ok (n * s_per s - f).
