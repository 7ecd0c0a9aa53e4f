(** Model of struct InfiniteByteString (diva.hpp:97-155) and of the functions
    that turn keys into infixes (diva.hpp:1021-1052 and 1434-1445).

    A key is its list of bytes, each in 0..255. *)
From Coq Require Import ZArith List Bool.
From Verif Require Import Base Util Store.
Import ListNotations.
Open Scope Z_scope.

Definition key := list Z.
Definition klen (k : key) : Z := Z.of_nat (length k).
(** byte [i] of the key, 0 behind its end *)
Definition byte (k : key) (i : Z) : Z := nth (Z.to_nat i) k 0.

(** Shifts of a uint64_t by a run-time count.  A count outside 0..63 is
    undefined; x86-64 uses the count modulo 64 (see [c_strict]). *)
Definition shr64 (c : cfg) (x n : Z) : res Z :=
  if (0 <=? n) && (n <? 64) then Ok (Z.shiftr x n)
  else if c_strict c then UB else Ok (Z.shiftr x (n mod 64)).
Definition shl64 (c : cfg) (x n : Z) : res Z :=
  if (0 <=? n) && (n <? 64) then Ok (u64 (Z.shiftl x n))
  else if c_strict c then UB else Ok (u64 (Z.shiftl x (n mod 64))).
(** util.hpp:7-9 BITMASK with a run-time argument *)
Definition bitmask_rt (c : cfg) (n : Z) : res Z :=
  if n =? 64 then Ok (Z.ones 64)
  else let* x := shl64 c 1 n in Ok (u64 (x - 1)).

(** diva.hpp:112-118 WordAt: eight bytes, most significant first, zero padded. *)
Definition word_at (k : key) (p : Z) : Z :=
  if klen k <=? p then 0
  else Z.shiftl (byte k p) 56 + Z.shiftl (byte k (p + 1)) 48
     + Z.shiftl (byte k (p + 2)) 40 + Z.shiftl (byte k (p + 3)) 32
     + Z.shiftl (byte k (p + 4)) 24 + Z.shiftl (byte k (p + 5)) 16
     + Z.shiftl (byte k (p + 6)) 8 + byte k (p + 7).

(** diva.hpp:121-128 BitsAt *)
Definition bits_at (c : cfg) (k : key) (pos width : Z) : res Z :=
  if klen k <=? pos / 8 then Ok 0
  else
    let* r := shr64 c (word_at k (pos / 8)) (64 - width - pos mod 8) in
    let* m := bitmask_rt c width in
    Ok (Z.land r m).

(** diva.hpp:131-133 GetBit *)
Definition get_key_bit (k : key) (pos : Z) : Z :=
  if pos / 8 <? klen k then Z.land (Z.shiftr (byte k (pos / 8)) (7 - pos mod 8)) 1 else 0.

(** memcmp(a, b, n) on the first n bytes: the sign of the result. *)
Fixpoint memcmp (n : nat) (a b : key) : comparison :=
  match n, a, b with
  | S m, x :: a', y :: b' => match x ?= y with Eq => memcmp m a' b' | o => o end
  | _, _, _ => Eq
  end.

(** diva.hpp:136-140 IsPrefixOf.  With an empty prefix the code reads str[-1]. *)
Definition is_prefix_of (k other : key) (ignore_bits : Z) : res bool :=
  if klen k =? 0 then UB
  else if (klen k <=? klen other) &&
          match memcmp (length k - 1) k other with Eq => true | _ => false end
  then Ok (Z.lor (byte k (klen k - 1)) (bitmask ignore_bits)
           =? Z.lor (byte other (klen k - 1)) (bitmask ignore_bits))
  else Ok false.

(** diva.hpp:142-154 operator<, operator<=, operator== *)
Definition key_lt (a b : key) : bool :=
  match memcmp (Nat.min (length a) (length b)) a b with
  | Lt => true | Eq => klen a <? klen b | Gt => false
  end.
Definition key_le (a b : key) : bool :=
  match memcmp (Nat.min (length a) (length b)) a b with
  | Lt => true | Eq => klen a <=? klen b | Gt => false
  end.
Definition key_eq (a b : key) : bool :=
  (klen a =? klen b) &&
  match memcmp (Nat.min (length a) (length b)) a b with Eq => true | _ => false end.

(** uint64_t keys: __builtin_bswap64 and the eight bytes of the result in memory
    order, most significant byte first (diva.hpp:429-433, 526-532, 643-647). *)
Definition key_of_int (x : Z) : key :=
  map (fun i => Z.land (Z.shiftr x (8 * (7 - i))) 255) [0; 1; 2; 3; 4; 5; 6; 7].

(** diva.hpp:1027-1034, first loop of GetSharedIgnoreImplicitLengths.  Result:
    (share, ind - 1).  The loop has no exit when the zero-padded keys are equal,
    hence the explicit fuel. *)
Definition shared_loop (fuel : nat) (k1 k2 : key) : res (Z * Z) :=
  loop fuel
    (fun x : Z * Z =>
       let '(share, ind) := x in
       let delta := lzcnt (Z.lxor (word_at k1 (ind * 8)) (word_at k2 (ind * 8))) in
       if delta =? 64 then Ok (inl (share + delta, ind + 1))
       else Ok (inr (share + delta, ind)))
    (0, 0).
(** diva.hpp:1036-1044, second loop.  Result: ignore. *)
Definition ignore_loop (fuel : nat) (k1 k2 : key) (share ind0 : Z) : res Z :=
  loop fuel
    (fun x : Z * Z =>
       let '(ignore, ind) := x in
       let offset := if share / 64 <? ind then 0 else share mod 64 + 1 in
       let delta := lzcnt (Z.land (Z.lor (u64 (Z.lnot (word_at k1 (ind * 8)))) (word_at k2 (ind * 8)))
                                  (bitmask (64 - offset))) in
       if delta =? 64 then Ok (inl (ignore + (delta - offset), ind + 1))
       else Ok (inr (ignore + (delta - offset))))
    (0, ind0).

(** diva.hpp:1021-1052 GetSharedIgnoreImplicitLengths *)
Definition shared_ignore_implicit_fuel (fuel : nat) (c : cfg) (k1 k2 : key) : res (Z * Z * Z) :=
  let* '(share, ind) := shared_loop fuel k1 k2 in
  let* ignore := ignore_loop fuel k1 k2 share ind in
  let* i1 := bits_at c k1 (share + ignore + 1) (base_implicit_size - 1) in
  let* b2 := bits_at c k2 (share + ignore + 1) (base_implicit_size - 1) in
  let i2 := Z.lor (Z.shiftl 1 (base_implicit_size - 1)) b2 in
  Ok (share, ignore,
      base_implicit_size
      + Z.b2z (u64 (2 * (i2 - i1 + 1)) <? Z.shiftl 1 base_implicit_size)).
(** Enough rounds for both loops to pass the ends of both keys. *)
Definition key_fuel (k1 k2 : key) : nat := length k1 + length k2 + 2.
Definition shared_ignore_implicit (c : cfg) (k1 k2 : key) : res (Z * Z * Z) :=
  shared_ignore_implicit_fuel (key_fuel k1 k2) c k1 k2.

(** diva.hpp:1434-1445 ExtractPartialKey *)
Definition extract (c : cfg) (s : Z) (k : key) (shared ignore implicit_size msb : Z) : res Z :=
  let real_diff_pos := shared + ignore in
  let* r := shr64 c (word_at k (real_diff_pos / 8))
              (63 - (implicit_size - 1) - s - real_diff_pos mod 8) in
  let* m := bitmask_rt c (implicit_size - 1 + s) in
  let* top := shl64 c msb (implicit_size - 1 + s) in
  Ok (Z.lor (Z.land r m) top).
