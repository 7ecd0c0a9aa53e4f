(** Model of SetupScaleFactors (diva.hpp:405-426): the tables size_scalars_,
    scaled_sizes_, exception_scaled_size_ and implicit_scalars_, computed with
    IEEE-754 binary64 arithmetic (Coq's axiom-free SpecFloat). *)
From Coq Require Import ZArith List Bool.
From Coq Require Import Floats.SpecFloat.
From Verif Require Import Base Util Store.
Import ListNotations.
Open Scope Z_scope.

Definition fmul := SFmul 53 1024.
Definition fdiv := SFdiv 53 1024.
Definition fadd := SFadd 53 1024.
(** exact conversion of an integer below 2^53 to double *)
Definition of_Z (n : Z) : spec_float := binary_normalize 53 1024 n 0 false.
(** static_cast<uint64_t>(double), for non-negative doubles *)
Definition to_u64 (x : spec_float) : Z :=
  match x with
  | S754_finite false m e => Z.shiftl (Zpos m) e
  | _ => 0
  end.
Definition one : spec_float := of_Z 1.
(** pw * (1ULL << scale_shift) *)
Definition scal_of (pw : spec_float) : Z := to_u64 (fmul pw (of_Z (2 ^ scale_shift))).

(** First loop, diva.hpp:408-412: indices 54 down to 0; the list is built in
    index order. *)
Fixpoint scal_down (n : nat) (alt pw : spec_float) (acc : list Z) : list Z :=
  match n with
  | O => acc
  | S m => scal_down m alt (fmul pw alt) (scal_of pw :: acc)
  end.
(** Second loop, diva.hpp:415-419: indices 55 up to 499. *)
Fixpoint scal_up (n : nat) (lf pw : spec_float) : list Z :=
  match n with
  | O => []
  | S m => scal_of pw :: scal_up m lf (fdiv pw lf)
  end.
Definition scal_list (lf alt : spec_float) : list Z :=
  scal_down 55 alt one [] ++ scal_up (Z.to_nat (size_scalar_count - grow_sep)) lf (fdiv one lf).
(** scaled_sizes_[i] = infix_store_target_size * size_scalars_[i] >> scale_shift *)
Definition size_of_scal (x : Z) : Z := Z.shiftr (u64 (target_size * x)) scale_shift.
(** Third loop, diva.hpp:420-425. *)
Definition impl_scal (i : Z) : Z :=
  if i =? target_size / 2 then 2 ^ scale_implicit_shift
  else to_u64 (fmul (fdiv (of_Z target_size)
                          (fadd (of_Z i) (fdiv (of_Z target_size) (of_Z 2))))
                    (of_Z (2 ^ scale_implicit_shift))).
Definition impl_list : list Z :=
  map (fun k => impl_scal (Z.of_nat k)) (seq 0 (Z.to_nat (target_size / 2 + 1))).
Definition exc_of (sz0 : Z) (alt : spec_float) : Z :=
  (* scaled_sizes_[0] * load_factor_alt_: uint64_t times float is a float
     product (binary32) *)
  to_u64 (SFmul 24 128 (binary_normalize 24 128 sz0 0 false) alt).

(** The float 0.95f = 15938355 / 2^24 (diva.hpp:236-237), exactly representable
    as a double too. *)
Definition lf95 : spec_float := S754_finite false 8556789158150144 (-53).

Definition tbl (l : list Z) (i : Z) : Z := nth (Z.to_nat i) l 0.
Definition setup (lf : spec_float) (junk : Z) (strict : bool) : cfg :=
  let sc := scal_list lf lf95 in
  let sz := map size_of_scal sc in
  mkcfg (tbl sc) (tbl sz) (exc_of (nth 0 sz 0) lf95) (tbl impl_list) junk strict.
