(** Vocabulary for the ordered index under the filter: a finite map from byte
    strings to values, and what a sequence of calls on it must answer.  Nothing
    here mentions leaves, anchors, hashes or prefixes. *)
From Coq Require Import ZArith List Bool.
From Verif Require Import Base Key SpecFilter.
Import ListNotations.
Open Scope Z_scope.

Section Map.
Context {V : Type}.
(** One call, made when no iterator is open: bind a key, erase a key, or open an
    iterator at the first key that is not below [k], move it (true is forward,
    false is backward) and close it. *)
Inductive call := Bind (k : key) (v : V) | Erase (k : key) | Walk (k : key) (moves : list bool).
(** What it returns: whether the pair was stored; whether the key was there; the
    pair seen after the seek and after each move (None is an invalid iterator). *)
Inductive answer := Stored (b : bool) | Erased (b : bool) | Seen (ps : list (option (key * V))).

(** A map, and two changes of it *)
Definition kmap := key -> option V.
Definition nothing : kmap := fun _ => None.
Definition bound (m m' : kmap) (k : key) (v : V) : Prop := m' k = Some v /\ forall q, q <> k -> m' q = m q.
Definition erased (m m' : kmap) (k : key) : Prop := m' k = None /\ forall q, q <> k -> m' q = m q.

(** the pair with the lowest (highest) key of those that satisfy [P] *)
Definition lowest (m : kmap) (P : key -> Prop) (o : option (key * V)) : Prop :=
  match o with
  | Some (k, v) => m k = Some v /\ P k /\ forall q, P q -> m q <> None -> le k q
  | None => forall q, P q -> m q = None
  end.
Definition highest (m : kmap) (P : key -> Prop) (o : option (key * V)) : Prop :=
  match o with
  | Some (k, v) => m k = Some v /\ P k /\ forall q, P q -> m q <> None -> le q k
  | None => forall q, P q -> m q = None
  end.
(** what an iterator shows while it moves, starting at [o] *)
Inductive moved (m : kmap) : option (key * V) -> list bool -> list (option (key * V)) -> Prop :=
| moved_stop o : moved m o [] [o]
| moved_off b mv ps : moved m None mv ps -> moved m None (b :: mv) (None :: ps)
| moved_next k v o mv ps : lowest m (fun q => lt k q) o -> moved m o mv ps -> moved m (Some (k, v)) (true :: mv) (Some (k, v) :: ps)
| moved_prev k v o mv ps : highest m (fun q => lt q k) o -> moved m o mv ps -> moved m (Some (k, v)) (false :: mv) (Some (k, v) :: ps).
(** the answers to a sequence of calls on a map *)
Inductive serves : kmap -> list call -> list answer -> Prop :=
| serves_nil m : serves m [] []
| serves_bind m m' k v cs rs : bound m m' k v -> serves m' cs rs -> serves m (Bind k v :: cs) (Stored true :: rs)
| serves_erase m m' k b cs rs : erased m m' k -> (b = true <-> m k <> None) -> serves m' cs rs -> serves m (Erase k :: cs) (Erased b :: rs)
| serves_walk m k mv o ps cs rs : lowest m (fun q => le k q) o -> moved m o mv ps -> serves m cs rs -> serves m (Walk k mv :: cs) (Seen ps :: rs).

(** Keys that can be used: byte strings of at most 65520 bytes.  (Anchors can be as
    long as keys, and are copied into a buffer of 2^16 bytes with a header of 16.) *)
Definition usable (k : key) : Prop := bytes k /\ Z.of_nat (length k) <= 65520.
Definition call_ok (c : call) : Prop := match c with Bind k _ | Erase k | Walk k _ => usable k end.
End Map.
Arguments call : clear implicits.
Arguments answer : clear implicits.
Arguments kmap : clear implicits.
