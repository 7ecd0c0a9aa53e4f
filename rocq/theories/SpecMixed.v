(** Vocabulary for histories that mix insertions, splits and deletions. *)
From Coq Require Import ZArith List.
From Verif Require Import Base Store Key Diva Spec SpecFilter SpecSplit.
Import ListNotations.
Open Scope Z_scope.

(** Put [k], with the outcome of the random choice ([true]: the key is to become a
    boundary), or take [k] out. *)
Inductive act := Put (k : key) (split : bool) | Drop (k : key).
Definition do_act (c : cfg) (d : diva) (a : act) : res diva :=
  match a with Put k split => insert c d k split | Drop k => delete c d k end.
Fixpoint do_acts (c : cfg) (d : diva) (acts : list act) : res diva :=
  match acts with [] => Ok d | a :: rest => let* d' := do_act c d a in do_acts c d' rest end.
(** the keys that are left, as a multiset *)
Fixpoint left_over (ks : list key) (acts : list act) : list key :=
  match acts with
  | [] => ks
  | Put k _ :: rest => left_over (k :: ks) rest
  | Drop k :: rest => left_over (remove_one k ks) rest
  end.

(** A history within the limits of the data structure, checked along the way; [ks]
    are the keys that the filter holds.  Insertions are limited as in
    [SpecFilter.within_limits].  Only keys that the filter holds are taken out, from
    blocks that are not crammed, and taking them out leaves the boundaries as they are
    (a deletion that merges two blocks is outside this vocabulary). *)
Fixpoint steady (c : cfg) (s : Z) (len : nat) (d : diva) (ks : list key) (acts : list act) : Prop :=
  match acts with
  | [] => True
  | Put k split :: rest =>
      (bytes k /\ length k = len /\ lt k (repeat 255 len)) /\ counters_free d /\ (split = true -> apart s len d k) /\
      forall d', insert c d k split = Ok d' -> steady c s len d' (k :: ks) rest
  | Drop k :: rest =>
      In k ks /\ uncrammed c d k /\
      forall d', delete c d k = Ok d' -> boundaries d' = boundaries d /\ steady c s len d' (remove_one k ks) rest
  end.
(** Load [keys] and carry out [acts]. *)
Definition mixed (c : cfg) (s : Z) (len : nat) (keys : list key) (acts : list act) (d : diva) : Prop :=
  Z.of_nat len < 2 ^ 29 /\ loadable (FixedLength len) keys /\
  (forall d0, load c s (FixedLength len) keys = Ok d0 -> steady c s len d0 keys acts) /\
  (let* d0 := load c s (FixedLength len) keys in do_acts c d0 acts) = Ok d.

(** The block of [k] begins at a boundary that is a whole key. *)
Definition whole_start (d : diva) (k : key) : Prop :=
  forall before a st b st' after, d_tree d = before ++ (a, st) :: (b, st') :: after -> le a k -> lt k b -> is_partial_key st = false.
(** A history whose every step is known beforehand to go well: splits are possible
    ([SpecSplit.splittable]) and the keys taken out are no boundaries and not behind a
    truncated one. *)
Fixpoint smooth (c : cfg) (s : Z) (len : nat) (d : diva) (ks : list key) (acts : list act) : Prop :=
  match acts with
  | [] => True
  | Put k split :: rest =>
      (bytes k /\ length k = len /\ lt k (repeat 255 len)) /\ counters_free d /\ (split = true -> apart s len d k /\ splittable len d k) /\
      forall d', insert c d k split = Ok d' -> smooth c s len d' (k :: ks) rest
  | Drop k :: rest =>
      In k ks /\ ~ In k (boundaries d) /\ whole_start d k /\ uncrammed c d k /\
      forall d', delete c d k = Ok d' -> smooth c s len d' (remove_one k ks) rest
  end.

(** the keys that a history puts in *)
Fixpoint put_in (acts : list act) : list key :=
  match acts with [] => [] | Put k _ :: rest => k :: put_in rest | Drop _ :: rest => put_in rest end.

(** A reason for a positive answer about the keys from [l] to [r] of a filter that was
    loaded as [d0] and was given the keys [ks]: a boundary of [d0] lies in the range, or,
    between two neighbouring boundaries of [d0], one of the keys [ks] agrees with some
    key of the range on the leading [n] bits.  [q] is the resolution between the two
    boundaries; the last seven bits of a key need not be looked at. *)
Definition reason (s : Z) (len : nat) (d0 : diva) (ks : list key) (l r : key) : Prop :=
  (exists b, In b (boundaries d0) /\ le l b /\ le b r) \/
  exists a b (q : nat) k, neighbours d0 a b /\ lt a l /\ lt r b /\ 512 <= top q b - top q a + 1 <= 1024 /\
    In k ks /\ le a k /\ lt k b /\
    let n := Nat.min (q + Z.to_nat s - 1) (8 * len - 7) in top n l <= top n k <= top n r.
