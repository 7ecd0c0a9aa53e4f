(** Outcome type, loops and 64-bit words.  Nothing here is specific to Diva. *)
From Coq Require Import ZArith List Bool.
Import ListNotations.
Open Scope Z_scope.

(** Outcome of a piece of C++ code.
    [Ok a]  : it returns (or leaves behind) [a].
    [UB]    : it performs an operation that is undefined behaviour: an access
              outside an allocation, a read of an uninitialised value, a free of
              memory that was not allocated, or (when [c_strict] is set, see
              Store.v) a shift by 64 or more.
    [Fuel]  : the loop bound given to the model was not enough. *)
Inductive res (A : Type) : Type :=
| Ok (a : A)
| UB
| Fuel.
Arguments Ok {A} a.
Arguments UB {A}.
Arguments Fuel {A}.

Definition bind {A B : Type} (m : res A) (f : A -> res B) : res B :=
  match m with
  | Ok a => f a
  | UB => UB
  | Fuel => Fuel
  end.

Notation "'let*' x ':=' e 'in' f" := (bind e (fun x => f))
  (at level 200, x name, e at level 100, f at level 200, right associativity).
Notation "'let*' ' p ':=' e 'in' f" := (bind e (fun p => f))
  (at level 200, p strict pattern, e at level 100, f at level 200, right associativity).

(** A C++ loop.  [body s] runs one iteration from state [s]: [inl s'] goes round
    again, [inr b] leaves the loop with result [b]. *)
Fixpoint loop {A B : Type} (fuel : nat) (body : A -> res (A + B)) (s : A) : res B :=
  match fuel with
  | O => Fuel
  | S n =>
      match body s with
      | Ok (inl s') => loop n body s'
      | Ok (inr b) => Ok b
      | UB => UB
      | Fuel => Fuel
      end
  end.

(** [for (i = a; i < a + n; i++) s = body(i, s)] *)
Fixpoint forz {A : Type} (n : nat) (a : Z) (body : Z -> A -> res A) (s : A) : res A :=
  match n with
  | O => Ok s
  | S m => let* s' := body a s in forz m (a + 1) body s'
  end.

(** Truncation to [n] bits: [low 64] is the conversion to uint64_t,
    [low 32] the conversion to uint32_t. *)
Definition low (n x : Z) : Z := Z.land x (Z.ones n).
Definition u64 (x : Z) : Z := low 64 x.
Definition u32 (x : Z) : Z := low 32 x.

(** [x & -x] on uint64_t. *)
Definition lowbit (x : Z) : Z := Z.land x (u64 (- x)).

(** Number of trailing zeros and of set bits of a positive. *)
Fixpoint pos_tz (p : positive) : Z :=
  match p with
  | xO q => 1 + pos_tz q
  | _ => 0
  end.
Fixpoint pos_pop (p : positive) : Z :=
  match p with
  | xH => 1
  | xO q => pos_pop q
  | xI q => 1 + pos_pop q
  end.

(** tzcnt: 64 on zero. *)
Definition tzcnt (x : Z) : Z :=
  match x with
  | Zpos p => pos_tz p
  | _ => 64
  end.
(** lzcnt of a 64-bit word: 64 on zero. *)
Definition lzcnt (x : Z) : Z := if x =? 0 then 64 else 63 - Z.log2 x.
(** __builtin_popcountll *)
Definition popcount (x : Z) : Z :=
  match x with
  | Zpos p => pos_pop p
  | _ => 0
  end.
