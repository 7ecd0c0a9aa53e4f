(** Vocabulary of the theorem statements about whole filters.  Nothing here is
    used by the model; the model's own comparison and bit extraction functions do
    not occur. *)
From Coq Require Import ZArith List Bool Sorting.Sorted.
From Verif Require Import Base Store Key Diva Spec.
Import ListNotations.
Open Scope Z_scope.

(** ** Keys *)
(** A key is a list of bytes. *)
Definition bytes (k : key) : Prop := Forall (fun b => 0 <= b < 256) k.

(** dictionary order: a proper prefix comes first *)
Fixpoint ltb (a b : key) : bool :=
  match a, b with
  | _, [] => false
  | [], _ :: _ => true
  | x :: a', y :: b' => (x <? y) || ((x =? y) && ltb a' b')
  end.
Definition lt (a b : key) : Prop := ltb a b = true.
Definition le (a b : key) : Prop := a = b \/ lt a b.
(** [a] is below [b] even when both are filled up with zero bytes *)
Definition padlt (a b : key) : Prop := lt (a ++ repeat 0 (length b)) (b ++ repeat 0 (length a)).

(** the number whose base-256 digits are the bytes of [k] *)
Definition number (k : key) : Z := fold_left (fun v b => 256 * v + b) k 0.
(** the number formed by the first [n] bits of [k], filled up with zeros *)
Definition top (n : nat) (k : key) : Z :=
  let m := ((n + 7) / 8)%nat in
  number (firstn m (k ++ repeat 0 m)) / 2 ^ Z.of_nat (8 * m - n).

(** ** Building a filter *)
(** the three ways to bulk load a filter from a sorted key sequence *)
Inductive loader := FixedLength (len : nat) | Strings | Streaming.
Definition load (c : cfg) (s : Z) (m : loader) (keys : list key) : res diva :=
  match m with
  | FixedLength len => bulk_load_fixed c s len keys
  | Strings => bulk_load_var c s keys
  | Streaming => bulk_load_stream c s keys
  end.
Definition longest (keys : list key) : nat := list_max (map (@length Z) keys).
(** the two artificial keys that enclose all keys *)
Definition low_end (m : loader) (keys : list key) : key :=
  match m with
  | FixedLength len => repeat 0 len
  | Strings => repeat 0 8
  | Streaming => repeat 0 (longest keys)
  end.
Definition high_end (m : loader) (keys : list key) : key :=
  match m with
  | FixedLength len => repeat 255 len
  | _ => repeat 255 (longest keys)
  end.

(** Key sequences that can be loaded: at least one key, byte strings in strictly
    ascending order, and the number of keys is not 1 modulo 1024 (the code loops
    forever or loses a key for those, see Findings.v).  Strings must differ as
    zero-padded strings and not lie below the lower artificial key; streamed keys
    must lie above it. *)
Record loadable (m : loader) (keys : list key) : Prop := {
  ld_bytes : Forall bytes keys;
  ld_some : keys <> [];
  ld_count : (length keys mod 1024 <> 1)%nat;
  ld_kind : match m with
            | FixedLength len => Forall (fun k => length k = len) keys /\ StronglySorted lt keys
            | Strings => StronglySorted padlt keys /\ (hd [] keys = repeat 0 8 \/ padlt (repeat 0 8) (hd [] keys))
            | Streaming => StronglySorted padlt keys /\ padlt (repeat 0 (longest keys)) (hd [] keys)
            end
}.

(** ** Histories *)
(** Insert every key of the list; [false] is the outcome of the random choice
    that does not split a block. *)
Fixpoint insert_all (c : cfg) (d : diva) (ks : list key) : res diva :=
  match ks with
  | [] => Ok d
  | k :: rest => let* d' := insert c d k false in insert_all c d' rest
  end.
Definition build (c : cfg) (s : Z) (m : loader) (keys ks : list key) : res diva :=
  let* d := load c s m keys in insert_all c d ks.

(** neighbouring boundary keys of a filter *)
Definition boundaries (d : diva) : list key := map fst (d_tree d).
Definition neighbours (d : diva) (a b : key) : Prop :=
  exists before after, boundaries d = before ++ a :: b :: after.
Definition count_between (a b : key) (ks : list key) : nat :=
  length (filter (fun k => negb (ltb k a) && ltb k b) ks).

(** Keys that may be inserted after loading [keys]: byte strings between the
    artificial keys, and no block receives so many that its 20-bit element
    counter overflows (a block holds at most 1023 loaded keys). *)
Record insertable (c : cfg) (s : Z) (m : loader) (keys ks : list key) : Prop := {
  in_bytes : Forall bytes ks;
  in_low : Forall (le (low_end m keys)) ks;
  in_high : Forall (fun k => lt k (high_end m keys)) ks;
  in_count : forall d a b, load c s m keys = Ok d -> neighbours d a b -> Z.of_nat (count_between a b ks) < 2 ^ 20 - 1024
}.

(** Range queries come in a generic and in an integer-optimised build
    ([int_opt]); the latter is meant for keys of at most eight bytes. *)
Definition suited (int_opt : bool) (m : loader) (l r : key) : Prop :=
  int_opt = true -> (exists len, m = FixedLength len /\ len <= 8)%nat /\ (length l <= 8)%nat /\ (length r <= 8)%nat.

(** stored in a block, that is not only as a boundary *)
Definition in_blocks (keys ks : list key) (d : diva) (k : key) : Prop := In k ks \/ In k keys /\ ~ In k (boundaries d).

(** ** Histories with splits *)
(** Insert every key of the list; the flag beside a key is the outcome of the
    random choice ([true]: the key is to become a boundary). *)
Fixpoint insert_seq (c : cfg) (d : diva) (ops : list (key * bool)) : res diva :=
  match ops with
  | [] => Ok d
  | (k, split) :: rest => let* d' := insert c d k split in insert_seq c d' rest
  end.
Definition grow (c : cfg) (s : Z) (len : nat) (keys : list key) (ops : list (key * bool)) : res diva :=
  let* d := load c s (FixedLength len) keys in insert_seq c d ops.

(** [k], and every number that [k] becomes when low bits are cleared and that is
    still above the boundary below [k], keeps a distance from the two boundaries
    around [k] that is not tiny: at least the width of the block divided by
    [2 ^ (53 - s)].  (Without this the shifts of a split overflow, see Findings.v.) *)
Definition apart (s : Z) (len : nat) (d : diva) (k : key) : Prop :=
  forall a b n, neighbours d a b -> le a k -> lt k b -> 0 <= n ->
  let lo := top (8 * len) a in
  let hi := top (8 * len) b in
  let x := top (8 * len) k / 2 ^ n * 2 ^ n in
  lo < x -> hi - lo <= (x - lo) * 2 ^ (53 - s) /\ hi - lo <= (hi - x) * 2 ^ (53 - s).
(** no block is about to overflow its 20-bit element counter *)
Definition counters_free (d : diva) : Prop := Forall (fun e => get_elem_count (snd e) + 1 < 2 ^ 20) (d_tree d).

(** An insertion sequence within the limits of the data structure, checked along
    the way: byte strings of the right length strictly below the upper artificial
    key, counters that do not overflow, and splits only at keys [apart] from the
    boundaries. *)
Fixpoint within_limits (c : cfg) (s : Z) (len : nat) (d : diva) (ops : list (key * bool)) : Prop :=
  match ops with
  | [] => True
  | (k, split) :: rest =>
      (bytes k /\ length k = len /\ lt k (repeat 255 len)) /\ counters_free d /\ (split = true -> apart s len d k) /\
      forall d', insert c d k split = Ok d' -> within_limits c s len d' rest
  end.
Definition grown (c : cfg) (s : Z) (len : nat) (keys : list key) (ops : list (key * bool)) (d : diva) : Prop :=
  loadable (FixedLength len) keys /\
  (forall d0, load c s (FixedLength len) keys = Ok d0 -> within_limits c s len d0 ops) /\
  grow c s len keys ops = Ok d.

(** ** Histories with deletions *)
Inductive op := Ins (k : key) | Del (k : key).
Definition run_op (c : cfg) (d : diva) (o : op) : res diva :=
  match o with Ins k => insert c d k false | Del k => delete c d k end.
Fixpoint run_ops (c : cfg) (d : diva) (ops : list op) : res diva :=
  match ops with [] => Ok d | o :: rest => let* d' := run_op c d o in run_ops c d' rest end.
Definition history (c : cfg) (s : Z) (m : loader) (keys : list key) (ops : list op) : res diva :=
  let* d := load c s m keys in run_ops c d ops.

Definition same_key (a b : key) : bool := if list_eq_dec Z.eq_dec a b then true else false.
(** the multiset of keys that is left of [ks] after [ops] *)
Fixpoint remove_one (k : key) (ks : list key) : list key :=
  match ks with [] => [] | x :: rest => if same_key x k then rest else x :: remove_one k rest end.
Fixpoint remaining (ks : list key) (ops : list op) : list key :=
  match ops with
  | [] => ks
  | Ins k :: rest => remaining (k :: ks) rest
  | Del k :: rest => remaining (remove_one k ks) rest
  end.

(** the keys among [held] that are stored in the blocks of [d]: a loaded key that
    is a boundary of [d] is stored as that boundary, all others are in the blocks *)
Definition in_blocks_of (d : diva) (keys held : list key) : list key :=
  fold_right remove_one held (filter (fun k => existsb (same_key k) (boundaries d)) keys).

(** The block that [k] belongs to may be deleted from (see Spec.crammed). *)
Definition uncrammed (c : cfg) (d : diva) (k : key) : Prop :=
  forall before a st b st' after shared ignore isz first total st1,
  d_tree d = before ++ (a, st) :: (b, st') :: after -> le a k -> lt k b ->
  segment c (d_size d) a b = Ok (shared, ignore, isz, first, total) ->
  delete_block c (d_size d) st total = Ok st1 -> ~ crammed c (d_size d) st1 total.
(** The boundary [k] may be deleted, which merges the two blocks beside it: it is
    not one of the two ends, the merged block does not overflow its 20-bit element
    counter, and the bit lengths of the keys around it are not near 2^31. *)
Definition mergeable (d : diva) (k : key) : Prop :=
  exists before a sta stk b stb after,
  d_tree d = before ++ (a, sta) :: (k, stk) :: (b, stb) :: after /\
  get_elem_count sta + get_elem_count stk < 2 ^ 20 /\
  Z.of_nat (length a) < 2 ^ 28 /\ Z.of_nat (length k) < 2 ^ 28 /\ Z.of_nat (length b) < 2 ^ 28.
(** A history that respects the limits of the data structure, checked along the
    way; [ks] are the keys that the filter holds.  Only keys that it holds are
    deleted, boundaries if they are [mergeable] and other keys if their block is
    not crammed. *)
Fixpoint lawful (c : cfg) (m : loader) (keys : list key) (d : diva) (ks : list key) (ops : list op) : Prop :=
  match ops with
  | [] => True
  | o :: rest =>
      match o with
      | Ins k => bytes k /\ le (low_end m keys) k /\ lt k (high_end m keys) /\ counters_free d
      | Del k => In k ks /\ (In k (boundaries d) -> mergeable d k) /\ (~ In k (boundaries d) -> uncrammed c d k)
      end /\
      forall d', run_op c d o = Ok d' -> lawful c m keys d' (remaining ks [o]) rest
  end.
Definition lawful_history (c : cfg) (s : Z) (m : loader) (keys : list key) (ops : list op) : Prop :=
  forall d, load c s m keys = Ok d -> lawful c m keys d keys ops.
(** the deleted and the inserted keys *)
Definition deleted (ops : list op) : list key := flat_map (fun o => match o with Del k => [k] | _ => [] end) ops.
Definition inserted (ops : list op) : list key := flat_map (fun o => match o with Ins k => [k] | _ => [] end) ops.

(** ** Shrinking *)
(** Every block is empty or has the number of slots that a block loaded with 1023
    keys gets (size grade 55).  (Other blocks are damaged, see Findings.v.) *)
Definition shrinkable (d : diva) : Prop := Forall (fun e => get_elem_count (snd e) = 0 \/ get_size_grade (snd e) = 55) (d_tree d).
