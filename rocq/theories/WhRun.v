(** Sequences of calls on the model of wh.c, and the same sequences on the sorted
    list that the model of diva.hpp uses in place of the index. *)
From Coq Require Import ZArith List Bool.
From Verif Require Import Base Key Store Diva SpecFilter SpecIndex Wormhole.
Import ListNotations.
Open Scope Z_scope.

Section Run.
Context {V : Type}.
(** what a user of the iterator sees: wh_iter_valid, then wh_iter_peek_ref *)
Definition wh_look (w : wormhole V) (it : wh_iter) : res (option (key * V)) :=
  if wh_iter_valid it then let* x := wh_iter_peek_ref w it in Ok (Some x) else Ok None.
(** look, then move and go on *)
Fixpoint wh_moves (w : wormhole V) (it : wh_iter) (moves : list bool) : res (wormhole V * list (option (key * V))) :=
  let* o := wh_look w it in
  match moves with
  | [] => Ok (w, [o])
  | b :: moves' =>
      let* '(w1, it1) := (if b then wh_iter_skip1 w it else wh_iter_skip1_rev w it) in
      let* '(w2, os) := wh_moves w1 it1 moves' in
      Ok (w2, o :: os)
  end.
(** One call.  [fp] are the false positives of wormhmap_peek during it. *)
Definition wh_call (w : wormhole V) (fp : key -> bool) (c : call V) : res (wormhole V * answer V) :=
  match c with
  | Bind k v => let* '(w1, b) := wh_put fp w k v in Ok (w1, Stored b)
  | Erase k => let* '(w1, b) := wh_del fp w k in Ok (w1, Erased b)
  | Walk k moves =>
      let* '(w1, it) := wh_iter_seek fp w k in
      let* '(w2, os) := wh_moves w1 it moves in
      Ok (w2, Seen os)
  end.
Fixpoint wh_calls (w : wormhole V) (cs : list ((key -> bool) * call V)) : res (wormhole V * list (answer V)) :=
  match cs with
  | [] => Ok (w, [])
  | (fp, c) :: cs' =>
      let* '(w1, r) := wh_call w fp c in
      let* '(w2, rs) := wh_calls w1 cs' in
      Ok (w2, r :: rs)
  end.
End Run.

(** The same with Diva.v's tree: seek, peek, skip1, skip1_rev, put, del. *)
Definition tree_look (it : iter) : option (key * store) := match peek it with Ok x => Some x | _ => None end.
Fixpoint tree_moves (it : iter) (moves : list bool) : list (option (key * store)) :=
  tree_look it ::
  match moves with
  | [] => []
  | b :: moves' => tree_moves (if b then skip1 it else skip1_rev it) moves'
  end.
Fixpoint tree_calls (t : tree) (cs : list (call store)) : list (answer store) :=
  match cs with
  | [] => []
  | Bind k v :: cs' => Stored true :: tree_calls (put t k v) cs'
  | Erase k :: cs' => Erased (existsb (fun x => key_eq (fst x) k) t) :: tree_calls (del t k) cs'
  | Walk k moves :: cs' => Seen (tree_moves (seek t k) moves) :: tree_calls t cs'
  end.
