(** Model of Size, Serialize, the deserializing constructor and the destructor
    (include/diva.hpp:1098-1431).  A buffer is the list of its bytes. *)
From Coq Require Import ZArith List Bool.
From Verif Require Import Base Util Store Key Diva.
Import ListNotations.
Open Scope Z_scope.

(** The bytes of an integer in memory, least significant first (x86). *)
Fixpoint le_bytes (n : nat) (x : Z) : list Z :=
  match n with
  | O => []
  | S m => Z.land x 255 :: le_bytes m (Z.shiftr x 8)
  end.
Definition of_le (l : list Z) : Z := fold_right (fun b a => Z.lor b (Z.shiftl a 8)) 0 l.
Definition word32 (x : Z) : list Z := le_bytes 4 x.

(** The members that are written besides infix_size_ and the tree: the template
    argument int_optimized, rng_seed_ and the bit pattern of load_factor_
    (diva.hpp:229-238). *)
Record params := mkparams { p_int : bool; p_lf : Z; p_seed : Z }.
(** bit pattern of 0.95f, the value of load_factor_alt_ and the default of
    load_factor_ (diva.hpp:236-237) *)
Definition bits95 : Z := 1064514355.

(** diva.hpp:1217-1263 SerializeMetadata *)
Definition meta (p : params) (s : Z) : list Z :=
  [Z.b2z (p_int p)]
  ++ word32 target_size ++ word32 base_implicit_size ++ word32 scale_shift
  ++ word32 scale_implicit_shift ++ word32 size_scalar_count ++ word32 grow_sep
  ++ word32 (p_lf p) ++ word32 bits95 ++ word32 s ++ word32 (p_seed p)
  ++ word32 8 ++ word32 20.

(** diva.hpp:1171, 1194, 1201: [((len + 7) / 8) * 8] *)
Definition rounded (n : Z) : Z := (n + 7) / 8 * 8.

(** diva.hpp:1266-1272 SerializeInfixStore; copying more words than the block has
    is an access outside the allocation. *)
Definition ser_store (c : cfg) (s : Z) (st : store) : res (list Z) :=
  let n := ptr_word_count (slots c st) s in
  if n <=? wc st then Ok (word32 (status st) ++ le_bytes (Z.to_nat (8 * n)) (mem st)) else UB.
(** one round of the loops at diva.hpp:1178-1189 and 1196-1207 *)
Definition ser_entry (c : cfg) (s : Z) (e : key * store) : res (list Z) :=
  let '(k, st) := e in
  let* b := ser_store c s st in
  Ok (word32 (klen k) ++ k ++ repeat 0 (Z.to_nat (rounded (klen k) - klen k)) ++ b).
Fixpoint ser_tree (c : cfg) (s : Z) (t : tree) : res (list Z) :=
  match t with
  | [] => Ok []
  | e :: rest => let* a := ser_entry c s e in let* b := ser_tree c s rest in Ok (a ++ b)
  end.
(** diva.hpp:1162-1214 Serialize: the bytes written; the value returned is their
    number.  The offset is a uint32_t: an output of 4 GiB or more would overwrite
    itself, which the model counts as UB. *)
Definition terminator : Z := 2 ^ 32 - 1.
Definition serialize (c : cfg) (p : params) (d : diva) : res (list Z) :=
  let* t := ser_tree c (d_size d) (d_tree d) in
  let out := meta p (d_size d) ++ t ++ word32 terminator in
  if Z.of_nat (length out) <? 2 ^ 32 then Ok out else UB.

(** diva.hpp:1098-1159 Size.  The loop of the integer build adds the length of the
    key (1123), the other one the rounded length (1140). *)
Definition entry_size (c : cfg) (int_opt : bool) (s : Z) (e : key * store) : Z :=
  let '(k, st) := e in
  4 + (if int_opt then klen k else rounded (klen k)) + 4 + 8 * ptr_word_count (slots c st) s.
Definition size (c : cfg) (int_opt : bool) (d : diva) : Z :=
  u32 (fold_left (fun a e => a + entry_size c int_opt (d_size d) e) (d_tree d) (1 + 12 * 4) + 4).

(** [memcpy] of [n] bytes from [buf + ind] *)
Definition get_bytes (buf : list Z) (ind n : Z) : res (list Z) :=
  if (0 <=? ind) && (0 <=? n) && (ind + n <=? Z.of_nat (length buf))
  then Ok (firstn (Z.to_nat n) (skipn (Z.to_nat ind) buf)) else UB.
Definition get32 (buf : list Z) (ind : Z) : res Z :=
  let* l := get_bytes buf ind 4 in Ok (of_le l).
(** an assertion that a field has the expected value; a failed assert ends the
    program, which the model counts as UB *)
Definition expect (buf : list Z) (ind x : Z) : res unit :=
  let* y := get32 buf ind in if y =? x then Ok tt else UB.

(** diva.hpp:1359-1420 DeserializeMetadata: (infix_size_, rng_seed_); the offset
    behind the metadata is 49. *)
Definition meta_len : Z := 49.
Definition get_meta (int_opt : bool) (buf : list Z) : res (Z * Z) :=
  let* l := get_bytes buf 0 1 in
  if negb (Bool.eqb (negb (of_le l =? 0)) int_opt) then UB else
  let* _ := expect buf 1 target_size in
  let* _ := expect buf 5 base_implicit_size in
  let* _ := expect buf 9 scale_shift in
  let* _ := expect buf 13 scale_implicit_shift in
  let* _ := expect buf 17 size_scalar_count in
  let* _ := expect buf 21 grow_sep in
  let* _ := expect buf 25 bits95 in
  let* _ := expect buf 29 bits95 in
  let* s := get32 buf 33 in
  let* seed := get32 buf 37 in
  let* _ := expect buf 41 8 in
  let* _ := expect buf 45 20 in
  Ok (s, seed).

(** diva.hpp:1423-1431 DeserializeInfixStore: the block stays in the buffer and is
    not owned.  The eight bytes behind it are the next bytes of the buffer, or
    unknown ones behind its end.  Two blocks of a filter never share a byte; the
    bytes behind a block are only written back unchanged (see [set_slot]).  Blocks
    are not aligned to eight bytes, which is harmless on x86 and not modelled. *)
Definition deser_store (c : cfg) (s : Z) (buf : list Z) (ind : Z) : res (store * Z) :=
  let* u := get32 buf ind in
  let n := ptr_word_count (c_size c (Z.land (Z.shiftr u 20) (bitmask 8))) s in
  let* _ := get_bytes buf (ind + 4) (8 * n) in
  let m := of_le (firstn (Z.to_nat (8 * n + 8)) (skipn (Z.to_nat (ind + 4)) buf ++ le_bytes 8 (c_junk c))) in
  Ok (mkstore u n m false, ind + 4 + 8 * n).
(** diva.hpp:1291-1316, the loop of the constructor.  The key is copied to an
    array of 20000 bytes. *)
Definition max_key : Z := 20000.
Definition deser_loop (c : cfg) (s : Z) (buf : list Z) (fuel : nat) (ind : Z) : res tree :=
  loop fuel
    (fun x : Z * tree =>
       let '(ind, t) := x in
       let* len := get32 buf ind in
       if len =? terminator then Ok (inr t)
       else if max_key <? len then UB
       else
         let* k := get_bytes buf (ind + 4) len in
         let* '(st, ind') := deser_store c s buf (ind + 4 + rounded len) in
         Ok (inl (ind', put t k st)))
    (ind, []).
(** diva.hpp:1275-1317 Diva(char * ): the filter and the seed *)
Definition deserialize (c : cfg) (int_opt : bool) (buf : list Z) : res (diva * Z) :=
  let* '(s, seed) := get_meta int_opt buf in
  let* t := deser_loop c s buf (S (length buf)) meta_len in
  Ok (mkdiva s t, seed).

(** diva.hpp:1320-1356 ~Diva: every block is freed.  The result is the list of the
    freed blocks, in order. *)
Fixpoint free_all (t : tree) : res (list store) :=
  match t with
  | [] => Ok []
  | (_, st) :: rest => let* _ := free_block st in let* l := free_all rest in Ok (st :: l)
  end.
Definition destroy (d : diva) : res (list store) := free_all (d_tree d).
