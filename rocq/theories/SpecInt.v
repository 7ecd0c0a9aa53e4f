(** Vocabulary for the integer index: which sequences of calls it is made for.
    Nothing here mentions leaves, sorted parts or anchors. *)
From Coq Require Import ZArith List Bool.
From Verif Require Import Base Key SpecFilter SpecIndex.
Import ListNotations.
Open Scope Z_scope.

Section Calls.
Context {V : Type}.
(** Keys are byte strings of at most eight bytes. *)
Definition call_short (c : call V) : Prop :=
  match c with Bind k _ | Erase k | Walk k _ => bytes k /\ (length k <= 8)%nat end.

(** The caller looks before it writes: a key that is already bound is bound again or
    erased only while it is in view.  [F] are the keys in view: an iterator brings into
    view the keys it shows, and erasing a key puts out of view that key and all above
    it.  [m] is the map before the calls. *)
Fixpoint orderly (m : kmap V) (F : key -> Prop) (cs : list (call V)) : Prop :=
  match cs with
  | [] => True
  | Bind k v :: cs' => (m k = None \/ F k) /\ forall m', bound m m' k v -> orderly m' F cs'
  | Erase k :: cs' => (m k = None \/ F k) /\ forall m', erased m m' k -> orderly m' (fun q => F q /\ lt q k) cs'
  | Walk k moves :: cs' =>
      forall o ps, lowest m (fun q => le k q) o -> moved m o moves ps ->
      orderly m (fun q => F q \/ exists v, In (Some (q, v)) ps) cs'
  end.
(** nothing is in view at first *)
Definition unseen : key -> Prop := fun _ => False.

(** [P] holds of the map before the calls and after each of them *)
Fixpoint always (P : kmap V -> Prop) (m : kmap V) (cs : list (call V)) : Prop :=
  P m /\
  match cs with
  | [] => True
  | Bind k v :: cs' => forall m', bound m m' k v -> always P m' cs'
  | Erase k :: cs' => forall m', erased m m' k -> always P m' cs'
  | Walk _ _ :: cs' => always P m cs'
  end.
(** at most [n] keys are bound *)
Definition few (n : nat) (m : kmap V) : Prop := exists ks, (length ks <= n)%nat /\ forall q, m q <> None -> In q ks.
(** no key is erased *)
Definition growing (cs : list (call V)) : Prop := forall k, ~ In (Erase k) cs.
End Calls.
