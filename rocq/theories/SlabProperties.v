(** Theorems about the allocator of the index for its leaves and nodes: C43.  The
    vocabulary is in SpecSlab.v, the model in Slab.v. *)
From Coq Require Import ZArith List Bool Lia Permutation.
From Verif Require Import Base Slab SpecSlab SlabProofs.
Import ListNotations.
Open Scope Z_scope.

(** ** C43: the index never gets memory that is in use *)
(** After every history of calls by one thread, in either of the two ways to call the
    allocator, with owners that write what they like to their objects, and an operating
    system that refuses blocks whenever it likes: the objects in use do not overlap, each
    is aligned and inside a block of the operating system. *)
Theorem C43_objects_apart safe mem os obj blk s U : 0 <= obj -> good_os blk os -> history safe mem os obj blk s U ->
  (forall p, In p U -> p <> 0 /\ p mod 8 = 0 /\ exists b, In b (blocks os) /\ b <= p /\ p + obj <= b + blk)
  /\ NoDup U /\ (forall p q, In p U -> In q U -> p <> q -> p + obj <= q \/ q + obj <= p).
Proof. exact (fun O G => slab_apart safe mem os obj blk O G s U). Qed.
Print Assumptions C43_objects_apart.
(** No call changes an object that is in use before and after it. *)
Theorem C43_objects_kept safe mem os obj blk s U s' U' : 0 <= obj -> good_os blk os -> history safe mem os obj blk s U -> step safe s U s' U' ->
  forall q a, In q U -> In q U' -> q <= a < q + obj -> s_mem s' a = s_mem s a.
Proof. exact (fun O G => slab_kept safe mem os obj blk O G s U s' U'). Qed.
Print Assumptions C43_objects_kept.
(** Asking for an object returns, and fails only if the operating system refuses a
    block; and the operating system is asked only when all objects of all blocks that it
    has given are in use (a block of [blk] bytes has the room of the quotient for objects,
    from the offset of the first object). *)
Theorem C43_alloc_answers safe mem os obj blk s U : 0 <= obj -> good_os blk os -> history safe mem os obj blk s U ->
  exists s' p, slab_alloc safe s = Ok (s', p) /\ (p = 0 -> hd None (s_os s) = None)
  /\ (s_os s' <> s_os s -> Z.of_nat (length U) = (Z.of_nat (length (blocks os)) - Z.of_nat (length (blocks (s_os s)))) * ((blk - slab_check_sizes obj blk) / obj)).
Proof. exact (fun O G => slab_answers safe mem os obj blk O G s U). Qed.
Print Assumptions C43_alloc_answers.
(** Reserving returns after at most [nr] more blocks; and after [nr] objects are reserved, the next [nr] requests
    succeed even if the operating system gives nothing any more. *)
Theorem C43_reserve mem os obj blk s U nr : 0 <= obj -> good_os blk os -> history false mem os obj blk s U ->
  (forall fuel, (Z.to_nat nr < fuel)%nat -> exists s' b, slab_reserve fuel s nr = Ok (s', b))
  /\ forall fuel s', slab_reserve fuel s nr = Ok (s', true) ->
     exists r, allocs false (Z.to_nat nr) (no_more_blocks s') = Ok r /\ length r = Z.to_nat nr /\ Forall (fun p => p <> 0) r.
Proof. exact (fun O G => slab_reserved false mem os obj blk O G s U nr eq_refl). Qed.
Print Assumptions C43_reserve.
(** The count of objects in use is right, and giving everything back returns. *)
Theorem C43_counts safe mem os obj blk s U : 0 <= obj -> good_os blk os -> history safe mem os obj blk s U ->
  exists n, forall fuel, (n <= fuel)%nat -> slab_get_nalloc fuel s = Ok (Z.of_nat (length U)) /\ exists s', slab_free_all fuel s = Ok s'.
Proof. exact (fun O G => slab_counts safe mem os obj blk O G s U). Qed.
Print Assumptions C43_counts.

(** Two objects to a block of the operating system, which refuses once in between: four
    requests, of which one fails; the owner of the second object writes to it and gives
    it back, and it is given out again. *)
Inductive op := OAlloc | OFree (p : Z) | OWrite (p v : Z).
Fixpoint take (p : Z) (U : list Z) : option (list Z) :=
  match U with
  | [] => None
  | x :: r => if x =? p then Some r else option_map (cons x) (take p r)
  end.
Fixpoint play (safe : bool) (s : slab) (U : list Z) (os : list op) : option (slab * list Z) :=
  match os with
  | [] => Some (s, U)
  | OAlloc :: r => match slab_alloc safe s with Ok (s', p) => play safe s' (if p =? 0 then U else p :: U) r | _ => None end
  | OFree p :: r => match take p U with Some U' => play safe (slab_free safe s p) U' r | None => None end
  | OWrite p v :: r => match take p U with Some _ => play safe (owner_writes s p (fun _ => v)) U r | None => None end
  end.
Lemma take_perm p U U' : take p U = Some U' -> Permutation U (p :: U').
Proof.
  revert U'. induction U as [|x U IH]; intros U' E; [discriminate|]. cbn [take] in E. destruct (Z.eqb_spec x p) as [->|_].
  - injection E as <-. apply Permutation_refl.
  - destruct (take p U) as [r|]; [|discriminate]. injection E as <-. etransitivity; [apply perm_skip; apply IH; reflexivity|apply perm_swap].
Qed.
Lemma play_history safe mem os obj blk ops : forall s U s' U', history safe mem os obj blk s U -> play safe s U ops = Some (s', U') -> history safe mem os obj blk s' U'.
Proof.
  induction ops as [|[|p|p v] ops IH]; intros s U s' U' H E; cbn [play] in E.
  - injection E as <- <-. exact H.
  - destruct (slab_alloc safe s) as [[t q]| |] eqn:Q; [|discriminate|discriminate]. apply (IH _ _ _ _ (history_step _ _ _ _ _ _ _ _ _ H (step_alloc safe s U t q Q)) E).
  - destruct (take p U) as [r|] eqn:Q; [|discriminate]. apply (IH _ _ _ _ (history_step _ _ _ _ _ _ _ _ _ H (step_free safe s U p r (take_perm _ _ _ Q))) E).
  - destruct (take p U) as [r|] eqn:Q; [|discriminate]. refine (IH _ _ _ _ (history_write _ _ _ _ _ _ _ p _ H _) E).
    apply (Permutation_in _ (Permutation_sym (take_perm _ _ _ Q))). left. reflexivity.
Qed.
Definition C43_os : list (option Z) := [Some 4096; None; Some 16384].
Definition C43_ops : list op := [OAlloc; OAlloc; OAlloc; OWrite 5520 99; OAlloc; OFree 5520; OAlloc].
Example C43_example : good_os 4096 C43_os
  /\ forall safe, exists s, history safe (fun _ => 7) C43_os 1360 4096 s [5520; 16448; 4160].
Proof.
  split.
  - split; [|split].
    + cbn. constructor; [|constructor; [|constructor]]; cbn [In]; lia.
    + cbn [C43_os blocks flat_map app In]. intros b [<-|[<-|[]]]; (split; [lia|split; [reflexivity|lia]]).
    + cbn [C43_os blocks flat_map app In]. intros b c [<-|[<-|[]]] [<-|[<-|[]]]; lia.
  - intros safe. destruct (slab_create (fun _ => 7) C43_os 1360 4096) as [s0|] eqn:E0; [|discriminate].
    assert (K : match slab_create (fun _ => 7) C43_os 1360 4096 with Some s => match play safe s [] C43_ops with Some (_, U) => U | None => [] end | None => [] end = [5520; 16448; 4160])
      by (destruct safe; vm_compute; reflexivity).
    rewrite E0 in K. destruct (play safe s0 [] C43_ops) as [[s U]|] eqn:E; [|discriminate]. subst U.
    exists s. eapply play_history; [constructor; exact E0|exact E].
Qed.
