(** Vocabulary for the hash table inside the index: what a caller stores in it and
    which calls it makes.  Nothing here mentions buckets, tags or slots. *)
From Coq Require Import ZArith List Bool.
From Verif Require Import Base Key WhHash.
Import ListNotations.
Open Scope Z_scope.

(** The nodes that are stored, by their prefix *)
Definition tmap := key -> option node.
Definition no_nodes : tmap := fun _ => None.
Definition with_node (f : tmap) (k : key) (x : option node) : tmap := fun q => if key_eq q k then x else f q.

(** One call: store a node, take a node out, put another node of the same prefix in
    the place of a node *)
Inductive tcall := Add (m : node) | Drop (m : node) | Swap (old new : node).
(** no stored node, except the one of prefix [k], lies at the address of [m] *)
Definition fresh_but (f : tmap) (k : key) (m : node) : Prop := forall q x, f q = Some x -> q <> k -> n_at x <> n_at m.
(** What the index does with the table when the hash of a prefix is [H]: it adds
    nodes whose prefix is not there, and drops and replaces nodes that are there.
    [proper H f cs f'] says that the calls [cs] lead from the nodes [f] to [f']. *)
Inductive proper (H : key -> Z) : tmap -> list tcall -> tmap -> Prop :=
| proper_nil f : proper H f [] f
| proper_add f m cs f' : n_hash m = H (n_key m) -> f (n_key m) = None -> fresh_but f (n_key m) m ->
    proper H (with_node f (n_key m) (Some m)) cs f' -> proper H f (Add m :: cs) f'
| proper_drop f m cs f' : f (n_key m) = Some m ->
    proper H (with_node f (n_key m) None) cs f' -> proper H f (Drop m :: cs) f'
| proper_swap f m m' cs f' : f (n_key m) = Some m -> n_key m' = n_key m -> n_hash m' = H (n_key m) -> fresh_but f (n_key m) m' ->
    proper H (with_node f (n_key m) (Some m')) cs f' -> proper H f (Swap m m' :: cs) f'.
(** a hash function with 32-bit values *)
Definition hash_fun (H : key -> Z) : Prop := forall k, 0 <= H k < 2 ^ 32.

(** The table starts with 4096 buckets; a prefix can be in the bucket given by the low
    twelve bits of its hash, or of its hash with the bytes in reverse order.  Room for
    [k]: fewer than eight stored prefixes can be in the first bucket of [k]. *)
Definition uncrowded (H : key -> Z) (f : tmap) (k : key) : Prop :=
  forall ks, NoDup ks ->
    (forall q, In q ks -> f q <> None /\ (Z.land (H q) 4095 = Z.land (H k) 4095 \/ Z.land (bswap (H q)) 4095 = Z.land (H k) 4095)) ->
    (length ks < 8)%nat.
Fixpoint roomy (H : key -> Z) (f : tmap) (cs : list tcall) : Prop :=
  match cs with
  | [] => True
  | Add m :: cs' => uncrowded H f (n_key m) /\ roomy H (with_node f (n_key m) (Some m)) cs'
  | Drop m :: cs' => roomy H (with_node f (n_key m) None) cs'
  | Swap m m' :: cs' => roomy H (with_node f (n_key m) (Some m')) cs'
  end.

(** The calls, on the model.  [fuel] bounds the recursion of each call.  The answer
    of a call says whether it found the node (adding always says true). *)
Definition tdo (fuel : nat) (t : table) (c : tcall) : res (table * bool) :=
  match c with
  | Add m => let* t' := set fuel t m in Ok (t', true)
  | Drop m => Ok (del t m)
  | Swap m m' => Ok (replace t m m')
  end.
Fixpoint trun (fuel : nat) (t : table) (cs : list tcall) : res (table * list bool) :=
  match cs with
  | [] => Ok (t, [])
  | c :: cs' =>
      let* '(t1, b) := tdo fuel t c in
      let* '(t2, bs) := trun fuel t1 cs' in
      Ok (t2, b :: bs)
  end.
