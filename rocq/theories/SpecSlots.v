(** Vocabulary for a leaf of the index: the calls on it and what they should answer.
    Nothing here mentions tags, slots or empty places, except [lrun], which makes the
    calls on the model of the arrays. *)
From Coq Require Import ZArith List Bool Arith Permutation.
From Verif Require Import Base Key Wormhole WhSlots.
Import ListNotations.
Open Scope Z_scope.

Section slots.
  Context {V : Type}.
  (** One call: store a pair (replacing a pair with the same key), look a key up, take a
      key out, list the pairs in another order ([ix] gives the old positions).  Each
      call answers the value that was stored for the key before it. *)
  Inductive lcall := LPut (k : key) (v : V) | LGet (k : key) | LDel (k : key) | LOrder (ix : list nat).

  (** What a finite map answers *)
  Definition fmap := key -> option V.
  Definition fset (f : fmap) (k : key) (x : option V) : fmap := fun q => if key_eq q k then x else f q.
  Fixpoint answers (f : fmap) (cs : list lcall) : list (option V) :=
    match cs with
    | [] => []
    | LPut k v :: cs' => f k :: answers (fset f k (Some v)) cs'
    | LGet k :: cs' => f k :: answers f cs'
    | LDel k :: cs' => f k :: answers (fset f k None) cs'
    | LOrder _ :: cs' => None :: answers f cs'
    end.

  (** At most 32 keys are stored at any time ([ks] are the keys stored before the
      calls), and the orders are orders of all pairs *)
  Definition without (k : key) (ks : list key) : list key := filter (fun q => negb (key_eq q k)) ks.
  Fixpoint fits (ks : list key) (cs : list lcall) : Prop :=
    match cs with
    | [] => True
    | LPut k _ :: cs' => (length (without k ks) < 32)%nat /\ fits (k :: without k ks) cs'
    | LGet _ :: cs' => fits ks cs'
    | LDel k :: cs' => fits (without k ks) cs'
    | LOrder ix :: cs' => Permutation ix (seq 0 (length ks)) /\ fits ks cs'
    end.

  (** The pairs of the leaf in the index model of Wormhole.v after the calls *)
  Definition pick {A} (l : list A) (ix : list nat) : list A :=
    flat_map (fun i => match nth_error l i with Some x => [x] | None => [] end) ix.
  Definition lstep (w : leaf V) (c : lcall) : leaf V :=
    match c with
    | LPut k v => match find_pos (l_kvs w) k with Some i => leaf_update w i k v | None => leaf_insert w k v end
    | LGet _ => w
    | LDel k => match find_pos (l_kvs w) k with Some i => leaf_remove w i | None => w end
    | LOrder ix => mkleaf (l_anchor w) (pick (l_kvs w) ix) (l_sorted w)
    end.

  (** The calls on the arrays, when the tag of a key is [T] of it.  Storing and taking
      out look the key up first, as in whunsafe_put and whunsafe_del
      (wh.c:2653-2684, 2920-2940). *)
  Definition value_at (l : sleaf) (i : nat) : option V := option_map (fun x : ent => snd (snd x)) (s_hs l i).
  Definition ldo (T : key -> Z) (l : sleaf) (c : lcall) : res (sleaf * option V) :=
    match c with
    | LPut k v =>
        match match_hs (s_hs l) (T k) k with
        | Some ih => let* l1 := update l ih (k, v) in Ok (l1, value_at l ih)
        | None => let* l1 := insert_e13 l (T k, (k, v)) in Ok (l1, None)
        end
    | LGet k => Ok (l, match match_hs (s_hs l) (T k) k with Some ih => value_at l ih | None => None end)
    | LDel k =>
        match match_hs (s_hs l) (T k) k with
        | Some ih => let* l1 := remove_ih l ih in Ok (l1, value_at l ih)
        | None => Ok (l, None)
        end
    | LOrder ix => Ok (mksleaf (s_hs l) (pick (s_ss l) ix), None)
    end.
  Fixpoint lrun (T : key -> Z) (l : sleaf) (cs : list lcall) : res (sleaf * list (option V)) :=
    match cs with
    | [] => Ok (l, [])
    | c :: cs' =>
        let* '(l1, a) := ldo T l c in
        let* '(l2, r) := lrun T l1 cs' in
        Ok (l2, a :: r)
    end.
  (** the pairs of the arrays, in the order of ss *)
  Definition pairs (l : sleaf) : list (key * V) :=
    flat_map (fun i => match s_hs l i with Some x => [snd x] | None => [] end) (s_ss l).
  (** storing pairs one by one *)
  Definition puts (xs : list (key * V)) : list lcall := map (fun x => LPut (fst x) (snd x)) xs.
  (** a tag is a 16-bit number other than 0 *)
  Definition tag_fun (T : key -> Z) : Prop := forall k, 1 <= T k < 2 ^ 16.
End slots.
