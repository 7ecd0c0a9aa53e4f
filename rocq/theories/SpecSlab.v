(** Vocabulary for the allocator of the index: histories of calls, and what the operating
    system is trusted for. *)
From Coq Require Import ZArith List Bool Permutation.
From Verif Require Import Base Slab.
Import ListNotations.
Open Scope Z_scope.

(** The blocks of memory that the operating system gives: aligned, below 2^48, no two
    overlap *)
Definition blocks (os : list (option Z)) : list Z := flat_map (fun o => match o with Some b => [b] | None => [] end) os.
Definition good_os (blk : Z) (os : list (option Z)) : Prop :=
  NoDup (blocks os)
  /\ (forall b, In b (blocks os) -> 0 < b /\ b mod 8 = 0 /\ b + blk <= 2 ^ 48)
  /\ (forall b c, In b (blocks os) -> In c (blocks os) -> b <> c -> b + blk <= c \/ c + blk <= b).

(** One call; the lists are the objects in use before and after it.  An object that is
    given back is one that is in use. *)
Inductive step (safe : bool) : slab -> list Z -> slab -> list Z -> Prop :=
| step_alloc s U s' p : slab_alloc safe s = Ok (s', p) -> step safe s U s' (if p =? 0 then U else p :: U)
| step_free s U p U' : Permutation U (p :: U') -> step safe s U (slab_free safe s p) U'
| step_reserve s U fuel nr s' b : safe = false -> slab_reserve fuel s nr = Ok (s', b) -> step safe s U s' U
| step_free_all s U fuel s' : slab_free_all fuel s = Ok s' -> step safe s U s' [].

(** The owner of an object may write to it at any time *)
Definition owner_writes (s : slab) (p : Z) (f : Z -> Z) : slab :=
  with_mem s (fun a => if (p <=? a) && (a <? p + s_obj s) then f a else s_mem s a) (s_magic s).

Inductive history (safe : bool) (mem : Z -> Z) (os : list (option Z)) (obj blk : Z) : slab -> list Z -> Prop :=
| history_new s : slab_create mem os obj blk = Some s -> history safe mem os obj blk s []
| history_step s U s' U' : history safe mem os obj blk s U -> step safe s U s' U' -> history safe mem os obj blk s' U'
| history_write s U p f : history safe mem os obj blk s U -> In p U -> history safe mem os obj blk (owner_writes s p f) U.

(** [n] objects one after the other *)
Fixpoint allocs (safe : bool) (n : nat) (s : slab) : res (list Z) :=
  match n with
  | O => Ok []
  | S n' => let* '(s1, p) := slab_alloc safe s in
            let* r := allocs safe n' s1 in
            Ok (p :: r)
  end.
Definition no_more_blocks (s : slab) : slab :=
  mkslab (s_mem s) [] (s_magic s) (s_active s) (s_backup s) (s_ready s) (s_obj s) (s_blk s) (s_per s) (s_off s).
