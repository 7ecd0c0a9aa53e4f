(** Model of sorting a leaf of the ordered index in place (wh.c:1587-1682), on the
    array ss of WhSlots.v.

    What is simplified: qsort_r of the C library is insertion sort (its result is
    determined, since the keys of a leaf differ). *)
From Coq Require Import ZArith List Bool Arith.
From Verif Require Import Base Key WhSlots.
Import ListNotations.

Section merging.
  (** [lt a b]: kv_compare of the pairs at the places [a] and [b] is negative *)
  Context {A : Type} (lt : A -> A -> bool).
  (** ss[i] = x *)
  Definition store (ss : list A) (i : nat) (x : A) : res (list A) :=
    if Nat.ltb i (length ss) then Ok (firstn i ss ++ x :: skipn (S i) ss) else UB.
  (** memcpy(&ss[o], &et[i], n) *)
  Definition copy (ss : list A) (o : nat) (et : list A) (i n : nat) : res (list A) :=
    if Nat.leb (o + n) (length ss) && Nat.leb (i + n) (length et)
    then Ok (firstn o ss ++ firstn n (skipn i et) ++ skipn (o + n) ss) else UB.

  (** wh.c:1603-1617, merge left: [o], [i2] are the indices of eo and e2 in ss, [i1] is
      the index of e1 in et *)
  Definition left_end (ss et : list A) (o i1 i2 : nat) : res (list A) :=
    if Nat.ltb o i2 then copy ss o et i1 (i2 - o) else Ok ss.
  Fixpoint m2_left (fuel : nat) (ss et : list A) (n1 n o i1 i2 : nat) : res (list A) :=
    match fuel with
    | O => Fuel
    | S f =>
        if Nat.ltb i1 n1 && Nat.ltb i2 n then
          match nth_error et i1, nth_error ss i2 with
          | Some x, Some y =>
              if lt x y then
                let* ss' := store ss o x in
                if Nat.eqb (S o) i2 then left_end ss' et (S o) (S i1) i2 else m2_left f ss' et n1 n (S o) (S i1) i2
              else if lt y x then
                let* ss' := store ss o y in
                if Nat.eqb (S o) (S i2) then left_end ss' et (S o) i1 (S i2) else m2_left f ss' et n1 n (S o) i1 (S i2)
              else UB
          | _, _ => UB
          end
        else left_end ss et o i1 i2
    end.
  (** wh.c:1619-1638, merge backwards: [o], [j1], [j2] are the indices of eo, e1 and e2
      plus one *)
  Definition right_end (ss et : list A) (o j1 : nat) : res (list A) :=
    if Nat.ltb j1 o then copy ss j1 et 0 (o - j1) else Ok ss.
  Fixpoint m2_right (fuel : nat) (ss et : list A) (o j1 j2 : nat) : res (list A) :=
    match fuel with
    | O => Fuel
    | S f =>
        match j1, j2 with
        | S i1, S i2 =>
            match nth_error ss i1, nth_error et i2 with
            | Some x, Some y =>
                if lt x y then
                  let* ss' := store ss (o - 1) y in
                  if Nat.eqb (o - 1) j1 then right_end ss' et (o - 1) j1 else m2_right f ss' et (o - 1) j1 i2
                else if lt y x then
                  let* ss' := store ss (o - 1) x in
                  if Nat.eqb (o - 1) i1 then right_end ss' et (o - 1) i1 else m2_right f ss' et (o - 1) i1 j2
                else UB
            | _, _ => UB
            end
        | _, _ => right_end ss et o j1
        end
    end.
  (** wh.c:1587-1639 wormleaf_sort_m2; et has WH_KPN / 2 bytes *)
  Definition m2 (ss : list A) (n1 n2 : nat) : res (list A) :=
    if Nat.eqb n1 0 || Nat.eqb n2 0 then Ok ss
    else if Nat.leb n1 n2 then
      if Nat.ltb (NS / 2) n1 then UB
      else m2_left (S (n1 + n2)) ss (firstn n1 ss) n1 (n1 + n2) 0 0 n1
    else
      if Nat.ltb (NS / 2) n2 then UB
      else m2_right (S (n1 + n2)) ss (firstn n2 (skipn n1 ss)) (n1 + n2) n1 n2.

  (** wh.c:1658-1667 wormleaf_sort_range *)
  Fixpoint put_in (x : A) (l : list A) : list A :=
    match l with
    | [] => [x]
    | y :: r => if lt x y then x :: l else y :: put_in x r
    end.
  Definition sort_from (ss : list A) (s : nat) : list A :=
    firstn s ss ++ fold_left (fun acc x => put_in x acc) (skipn s ss) [].
End merging.

Section slots.
  Context {V : Type}.
  (** kv_compare(wormleaf_kv_at_ih(leaf, a), wormleaf_kv_at_ih(leaf, b)) < 0 *)
  Definition slot_lt (hs : @hsarr V) (a b : nat) : bool :=
    match hs a, hs b with
    | Some x, Some y => key_lt (fst (snd x)) (fst (snd y))
    | _, _ => false
    end.
  (** wh.c:1669-1682 wormleaf_sync_sorted, with nr_sorted = [s] *)
  Definition sync (l : @sleaf V) (s : nat) : res sleaf :=
    let n := length (s_ss l) in
    if Nat.eqb s n then Ok l
    else let* ss := m2 (slot_lt (s_hs l)) (sort_from (slot_lt (s_hs l)) (s_ss l) s) s (n - s) in
         Ok (mksleaf (s_hs l) ss).
End slots.
