(** Preconditions used in theorem statements. *)
From Coq Require Import ZArith List Bool.
From Verif Require Import Base Util Store.
Open Scope Z_scope.

(** What the code needs of the tables filled by SetupScaleFactors: sizes grow,
    no product in GetMappedPos overflows, 2^20 elements fit before the size grade
    field (8 bits) is exhausted, the block of a bulk-loaded chunk holds 1023
    elements, and slot numbers fit 32 bits.  [Tables] gives the tables of the default
    load factor; TablesProofs.v shows that they satisfy this. *)
Record tables_ok (c : cfg) : Prop := {
  t_pos : 0 < c_size c 0;
  t_incr : forall g, 0 <= g < 255 -> c_size c g < c_size c (g + 1);
  t_exc : 0 < c_exc c <= c_size c 0;
  t_scal : forall g, 0 <= g < 256 -> 0 <= c_scal c g;
  t_impl : forall i, 0 <= i <= 512 -> 0 <= c_impl c i;
  t_prod : forall g i, 0 <= g < 256 -> 0 <= i <= 512 -> 1023 * c_scal c g * c_impl c i < 2 ^ 62;
  t_big : 2 ^ 20 <= c_size c 253;
  t_sep : 2 ^ 15 <= c_scal c grow_sep < 2 ^ 27;
  t_last : Z.shiftr (c_scal c grow_sep * 2 ^ 20) scale_shift <= c_size c 249;
  t_chunk : 1023 <= c_size c grow_sep;
  t_u32 : c_size c 255 < 2 ^ 32
}.

(** A block is crammed when its used slots are exactly its last ones and the first
    used slot is the home slot of the lowest implicit part in use, or when all its
    slots are in use and that home slot is not the first one.  A deletion from a
    crammed block breaks the layout of the block (see Findings.v). *)
Definition crammed (c : cfg) (s : Z) (st : store) (total : Z) : Prop :=
  exists i q scalar, 0 <= i < slots c st /\
    (forall j, 0 <= j < i -> get_slot c s st j = Ok 0) /\
    (forall j, i <= j < slots c st -> get_slot c s st j <> Ok 0) /\
    0 <= q < 1024 /\ get_bit c st occ_base q = Ok 1 /\ (forall q', 0 <= q' < q -> get_bit c st occ_base q' = Ok 0) /\
    implicit_scalar c total = Ok scalar /\
    let home := mapped_pos c q (get_size_grade st) scalar in
    (0 < i /\ home = i) \/ (i = 0 /\ 0 < home).
(** the block a deletion works on: a block with few elements is shrunk first *)
Definition delete_block (c : cfg) (s : Z) (st : store) (total : Z) : res store :=
  let few := if 1 <? get_size_grade st then c_size c (get_size_grade st - 2) else c_exc c in
  if (0 <? get_size_grade st) && (get_elem_count st <=? few) then resize c s st false total else Ok st.
