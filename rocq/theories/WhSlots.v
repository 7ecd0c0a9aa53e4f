(** Model of the array hs of a leaf of the ordered index, which finds the pairs of the
    leaf by their hash, and of the array ss, which lists the places of the pairs in hs
    (wh.c:1408-1537, 1684-1945, 2001-2046, 2109-2121; the integer index wh_int.c has no such array).  The index model in
    Wormhole.v keeps the pairs of a leaf in a list instead; WhSlotsProofs.v shows that
    the two agree.

    What is simplified:
    - An entry (struct entry13) is its 16-bit tag e1 and the pair its pointer e3 leads
      to; the empty entry (v64 = 0) is None, and its tag reads as 0.
    - The array hs is a function of the index; an access at or above WH_KPN is [UB].
    - Indices count downwards past 0 in the code and become 2^32 - 1, which the tests
      i < WH_KPN reject.  Where this happens the model keeps i + 1 instead of i.
    - ss is the list of its first nr_keys bytes. *)
From Coq Require Import ZArith List Bool Arith.
From Verif Require Import Base Key.
Import ListNotations.
Open Scope Z_scope.

(** wh.c:24-25 WH_KPN, WH_HDIV *)
Definition NS : nat := 32.
Definition HDIV : Z := 2048.

Section slots.
  Context {V : Type}.
  (** lib.h: struct entry13 *)
  Definition ent := (Z * (key * V))%type.
  Definition hsarr := nat -> option ent.
  (** wh.c:47-65 struct wormleaf: hs and ss *)
  Record sleaf := mksleaf { s_hs : hsarr; s_ss : list nat }.

  (** hs[i].e1 *)
  Definition e1 (hs : hsarr) (i : nat) : Z := match hs i with Some x => fst x | None => 0 end.
  (** pkey / WH_HDIV *)
  Definition home (p : Z) : nat := Z.to_nat (p / HDIV).
  (** hs[i] = x *)
  Definition put (hs : hsarr) (i : nat) (x : option ent) : hsarr := fun j => if Nat.eqb j i then x else hs j.
  (** wormhole_kref_kv_match(key, hs[i].e3) *)
  Definition is_key (hs : hsarr) (i : nat) (k : key) : bool :=
    match hs i with Some x => key_eq (fst (snd x)) k | None => false end.

  (** ** Looking up *)
  (** wh.c:1426-1437 search left; [n] is i + 1 *)
  Fixpoint match_left (hs : hsarr) (p : Z) (k : key) (n : nat) : option nat :=
    match n with
    | O => None
    | S i =>
        if e1 hs i =? p then (if is_key hs i k then Some i else match_left hs p k i)
        else if e1 hs i <? p then None
        else match_left hs p k i
    end.
  (** wh.c:1439-1449 search right; [r] is WH_KPN - i *)
  Fixpoint match_right (hs : hsarr) (p : Z) (k : key) (r : nat) : option nat :=
    match r with
    | O => None
    | S r' =>
        let i := (NS - r)%nat in
        if e1 hs i =? p then (if is_key hs i k then Some i else match_right hs p k r')
        else if (p <? e1 hs i) || (e1 hs i =? 0) then None
        else match_right hs p k r'
    end.
  (** wh.c:1409-1453 wormleaf_match_hs; None is WH_KPN *)
  Definition match_hs (hs : hsarr) (p : Z) (k : key) : option nat :=
    let i0 := home p in
    if (e1 hs i0 =? p) && is_key hs i0 k then Some i0
    else if e1 hs i0 =? 0 then None
    else match match_left hs p k i0 with
         | Some i => Some i
         | None => match_right hs p k (NS - S i0)
         end.
  (** wh.c:1499-1535 wormleaf_search_is: the first position in ss with the value [ih] *)
  Fixpoint search_is (ss : list nat) (ih : nat) : option nat :=
    match ss with
    | [] => None
    | x :: r => if Nat.eqb x ih then Some O else option_map S (search_is r ih)
    end.

  (** ** Shifting *)
  (** wh.c:1684-1723 wormleaf_shift_inc and 1725-1762 wormleaf_shift_dec: move [nr]
      entries of hs from [from] to [from + 1] or [from - 1], and change the values of ss
      that point at them.  The comparison of bytes that selects these values
      (INT8_MAX + 1 - from - nr + s > INT8_MAX - nr, signed) is the test
      from <= s < from + nr: lemma simd_range in WhSlotsProofs.v. *)
  Definition in_run (from nr s : nat) : bool := (Nat.leb from s) && (Nat.ltb s (from + nr)).
  Definition shift_inc (l : sleaf) (from nr : nat) : sleaf :=
    mksleaf (fun i => if in_run (S from) nr i then s_hs l (i - 1)%nat else s_hs l i)
            (map (fun s => if in_run from nr s then S s else s) (s_ss l)).
  Definition shift_dec (l : sleaf) (from nr : nat) : sleaf :=
    mksleaf (fun i => if in_run (from - 1) nr i then s_hs l (S i) else s_hs l i)
            (map (fun s => if in_run from nr s then (s - 1)%nat else s) (s_ss l)).

  (** ** Inserting *)
  (** wh.c:1779-1780: while (i && hs[i-1].e1 && hs[i-1].e1 >= pkey) i-- *)
  Fixpoint go_left (hs : hsarr) (p : Z) (i : nat) : nat :=
    match i with
    | O => O
    | S i' => if negb (e1 hs i' =? 0) && (p <=? e1 hs i') then go_left hs p i' else i
    end.
  (** the loops that count upwards while hs[i].e1 is not 0 and a test holds; [r] is
      WH_KPN - i *)
  Fixpoint go_right (hs : hsarr) (f : Z -> nat -> bool) (r : nat) : nat :=
    match r with
    | O => NS
    | S r' => let i := (NS - r)%nat in if negb (e1 hs i =? 0) && f (e1 hs i) i then go_right hs f r' else i
    end.
  (** wh.c:1788-1789: while (i < WH_KPN && hs[i].e1) i--; both [n] and the result are
      i + 1 *)
  Fixpoint empty_left (hs : hsarr) (n : nat) : nat :=
    match n with
    | O => O
    | S i => if e1 hs i =? 0 then n else empty_left hs i
    end.
  (** wh.c:1764-1821 wormleaf_insert_hs.  [il1] and [el1] are il + 1 and el + 1, so 0
      stands for 2^32 - 1. *)
  Definition insert_hs (l : sleaf) (e : ent) : res (sleaf * nat) :=
    let hs := s_hs l in
    let p := fst e in
    let i0 := home p in
    if Nat.leb NS i0 then UB
    else if e1 hs i0 =? 0 then Ok (mksleaf (put hs i0 (Some e)) (s_ss l), i0)
    else
      let il1 := go_right hs (fun a _ => a <? p) (NS - go_left hs p i0) in
      (* 1786-1787: if (i > (i0 - 1)) i = i0 - 1, unsigned *)
      let st := match i0, il1 with
                | O, _ => il1
                | _, O => i0
                | _, _ => Nat.min il1 i0
                end in
      let el1 := empty_left hs st in
      let ir := go_right hs (fun a _ => a =? p) (NS - il1) in
      let er := go_right hs (fun _ _ => true) (NS - (if Nat.ltb ir (S i0) then S i0 else ir)) in
      let dl := match el1 with O => Z.of_nat NS | _ => u32 (Z.of_nat il1 - Z.of_nat el1) end in
      let dr := if Nat.ltb er NS then u32 (Z.of_nat er - Z.of_nat ir) else Z.of_nat NS in
      if dl <=? dr then
        if Z.of_nat NS <=? dl then UB
        else match il1 with
             | O => UB
             | S il => let l1 := shift_dec l el1 (Z.to_nat dl) in
                       Ok (mksleaf (put (s_hs l1) il (Some e)) (s_ss l1), il)
             end
      else if Z.of_nat NS <=? dr then UB
      else let l1 := shift_inc l ir (Z.to_nat dr) in
           Ok (mksleaf (put (s_hs l1) ir (Some e)) (s_ss l1), ir).
  (** wh.c:1823-1833 wormleaf_insert_e13; ss has WH_KPN bytes *)
  Definition insert_e13 (l : sleaf) (e : ent) : res sleaf :=
    if Nat.leb NS (length (s_ss l)) then UB
    else let* '(l1, ih) := insert_hs l e in
         Ok (mksleaf (s_hs l1) (s_ss l1 ++ [ih])).

  (** ** Removing *)
  (** wh.c:1863-1865: while (i < WH_KPN && hs[i].e1 && hs[i].e1 / WH_HDIV > i) i--; both
      [n] and the result are i + 1 *)
  Fixpoint pull_left (hs : hsarr) (n : nat) : nat :=
    match n with
    | O => O
    | S i => if negb (e1 hs i =? 0) && Nat.ltb i (home (e1 hs i)) then pull_left hs i else n
    end.
  (** wh.c:1858-1883 wormleaf_pull_ih *)
  Definition pull_ih (l : sleaf) (ih : nat) : sleaf :=
    let hs := s_hs l in
    let n := pull_left hs ih in
    if Nat.ltb n ih then
      let l1 := shift_inc l n (ih - n) in mksleaf (put (s_hs l1) n None) (s_ss l1)
    else
      let m := (go_right hs (fun a i => Nat.ltb (home a) i) (NS - S ih) - 1)%nat in
      if Nat.ltb ih m then
        let l1 := shift_dec l (S ih) (m - ih) in mksleaf (put (s_hs l1) m None) (s_ss l1)
      else l.
  (** ss[i] = x *)
  Definition put_ss (ss : list nat) (i x : nat) : list nat := firstn i ss ++ x :: skipn (S i) ss.
  (** wh.c:1885-1902 wormleaf_remove *)
  Definition remove (l : sleaf) (ih is : nat) : res sleaf :=
    match nth_error (s_ss l) (length (s_ss l) - 1) with
    | None => UB
    | Some x =>
        Ok (pull_ih (mksleaf (put (s_hs l) ih None) (firstn (length (s_ss l) - 1) (put_ss (s_ss l) is x))) ih)
    end.
  (** wh.c:1904-1912 wormleaf_remove_ih; [UB] is debug_die of search_is *)
  Definition remove_ih (l : sleaf) (ih : nat) : res sleaf :=
    match search_is (s_ss l) ih with
    | None => UB
    | Some is => remove l ih is
    end.
  (** wh.c:1933-1944 wormleaf_update: another pair with the same tag *)
  Definition update (l : sleaf) (ih : nat) (kv : key * V) : res sleaf :=
    match s_hs l ih with
    | None => UB
    | Some x => Ok (mksleaf (put (s_hs l) ih (Some (fst x, kv))) (s_ss l))
    end.
  (** wh.c:420-444 wormleaf_alloc: an empty leaf; also memset of hs with nr_keys = 0
      (2040-2041) *)
  Definition no_slots : sleaf := mksleaf (fun _ => None) [].

  (** ** Splitting and merging *)
  (** hs[ss[i]] *)
  Definition ent_at (l : sleaf) (i : nat) : res ent :=
    match nth_error (s_ss l) i with
    | None => UB
    | Some ih => match s_hs l ih with None => UB | Some e => Ok e end
    end.
  (** for (u32 i = from; ...; i++), [n] times: wormleaf_insert_e13(dst, src->hs[src->ss[i]]) *)
  Fixpoint insert_from (src dst : sleaf) (from n : nat) : res sleaf :=
    match n with
    | O => Ok dst
    | S n' => let* e := ent_at src from in
              let* d := insert_e13 dst e in
              insert_from src d (S from) n'
    end.
  (** for (u32 i = from; ...; i++), [n] times: es[..] = leaf1->hs[leaf1->ss[i]] *)
  Fixpoint read_from (src : sleaf) (from n : nat) : res (list ent) :=
    match n with
    | O => Ok []
    | S n' => let* e := ent_at src from in
              let* r := read_from src (S from) n' in
              Ok (e :: r)
    end.
  (** wh.c:2042-2043: for (...) wormleaf_insert_e13(leaf1, es[i]) *)
  Fixpoint insert_all (dst : sleaf) (es : list ent) : res sleaf :=
    match es with
    | [] => Ok dst
    | e :: r => let* d := insert_e13 dst e in insert_all d r
    end.
  (** wh.c:2001-2046 wormhole_split_leaf_move1; leaf2 is new.  The array es has WH_KPN
      entries. *)
  Definition move1 (l1 : sleaf) (cut is1 : nat) (e1 : ent) : res (sleaf * sleaf) :=
    let nr := length (s_ss l1) in
    let* '(l2, es) :=
      if Nat.leb cut is1 then
        let* a := insert_from l1 no_slots cut (is1 - cut) in
        let* b := insert_e13 a e1 in
        let* l2 := insert_from l1 b is1 (nr - is1) in
        let* es := read_from l1 0 cut in
        Ok (l2, es)
      else
        let* l2 := insert_from l1 no_slots (cut - 1) (nr - (cut - 1)) in
        let* es1 := read_from l1 0 is1 in
        let* es2 := read_from l1 is1 (cut - S is1) in
        Ok (l2, es1 ++ e1 :: es2) in
    if Nat.ltb NS (length es) then UB
    else let* l1' := insert_all no_slots es in
         Ok (l1', l2).
  (** wh.c:2109-2121 wormleaf_merge *)
  Definition merge (l1 l2 : sleaf) : res sleaf := insert_from l2 l1 0 (length (s_ss l2)).
End slots.
