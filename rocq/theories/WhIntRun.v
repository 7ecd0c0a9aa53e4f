(** Sequences of calls on the model of wh_int.c. *)
From Coq Require Import ZArith List Bool.
From Verif Require Import Base Key SpecIndex Wormhole WhRun WhInt.
Import ListNotations.
Open Scope Z_scope.

Section Run.
Context {V : Type}.
(** look (wh_int_iter_valid, wh_int_iter_peek_ref), then move and go on *)
Fixpoint int_moves (w : wormhole V) (it : wh_iter) (moves : list bool) : res (wormhole V * list (option (key * V))) :=
  let* o := wh_look w it in
  match moves with
  | [] => Ok (w, [o])
  | b :: moves' =>
      let* '(w1, it1) := (if b then iter_skip1_int w it else iter_skip1_rev_int w it) in
      let* '(w2, os) := int_moves w1 it1 moves' in
      Ok (w2, o :: os)
  end.
(** One call.  [fp] are the false positives of wormhmap_peek during it; [again] is true
    for the code as it is, see [merge_int]. *)
Definition int_call (again : bool) (w : wormhole V) (fp : key -> bool) (c : call V) : res (wormhole V * answer V) :=
  match c with
  | Bind k v => let* '(w1, b) := put_int fp w k v in Ok (w1, Stored b)
  | Erase k => let* '(w1, b) := del_int again fp w k in Ok (w1, Erased b)
  | Walk k moves =>
      let* '(w1, it) := iter_seek_int fp w k in
      let* '(w2, os) := int_moves w1 it moves in
      Ok (w2, Seen os)
  end.
Fixpoint int_calls (again : bool) (w : wormhole V) (cs : list ((key -> bool) * call V)) : res (wormhole V * list (answer V)) :=
  match cs with
  | [] => Ok (w, [])
  | (fp, c) :: cs' =>
      let* '(w1, r) := int_call again w fp c in
      let* '(w2, rs) := int_calls again w1 cs' in
      Ok (w2, r :: rs)
  end.
End Run.
