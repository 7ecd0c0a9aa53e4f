(** Model of the portable select of include/util.hpp (builds without BMI2). *)
From Coq Require Import ZArith List Bool.
From Verif Require Import Base Util.
Import ListNotations.
Open Scope Z_scope.

(** util.hpp:36-116 kSelectInByte, copied from the source *)
Definition select_in_byte : list Z :=
  [8; 0; 1; 0; 2; 0; 1; 0; 3; 0; 1; 0; 2; 0; 1; 0; 4; 0; 1; 0; 2; 0; 1; 0; 3; 0; 1; 0; 2; 0; 1; 0; 5; 0; 1; 0; 2; 0; 1; 0; 3; 0; 1; 0; 2; 0; 1; 0; 4; 0; 1; 0; 2; 0; 1; 0; 3; 0; 1; 0; 2; 0; 1; 0;
   6; 0; 1; 0; 2; 0; 1; 0; 3; 0; 1; 0; 2; 0; 1; 0; 4; 0; 1; 0; 2; 0; 1; 0; 3; 0; 1; 0; 2; 0; 1; 0; 5; 0; 1; 0; 2; 0; 1; 0; 3; 0; 1; 0; 2; 0; 1; 0; 4; 0; 1; 0; 2; 0; 1; 0; 3; 0; 1; 0; 2; 0; 1; 0;
   7; 0; 1; 0; 2; 0; 1; 0; 3; 0; 1; 0; 2; 0; 1; 0; 4; 0; 1; 0; 2; 0; 1; 0; 3; 0; 1; 0; 2; 0; 1; 0; 5; 0; 1; 0; 2; 0; 1; 0; 3; 0; 1; 0; 2; 0; 1; 0; 4; 0; 1; 0; 2; 0; 1; 0; 3; 0; 1; 0; 2; 0; 1; 0;
   6; 0; 1; 0; 2; 0; 1; 0; 3; 0; 1; 0; 2; 0; 1; 0; 4; 0; 1; 0; 2; 0; 1; 0; 3; 0; 1; 0; 2; 0; 1; 0; 5; 0; 1; 0; 2; 0; 1; 0; 3; 0; 1; 0; 2; 0; 1; 0; 4; 0; 1; 0; 2; 0; 1; 0; 3; 0; 1; 0; 2; 0; 1; 0;
   8; 8; 8; 1; 8; 2; 2; 1; 8; 3; 3; 1; 3; 2; 2; 1; 8; 4; 4; 1; 4; 2; 2; 1; 4; 3; 3; 1; 3; 2; 2; 1; 8; 5; 5; 1; 5; 2; 2; 1; 5; 3; 3; 1; 3; 2; 2; 1; 5; 4; 4; 1; 4; 2; 2; 1; 4; 3; 3; 1; 3; 2; 2; 1;
   8; 6; 6; 1; 6; 2; 2; 1; 6; 3; 3; 1; 3; 2; 2; 1; 6; 4; 4; 1; 4; 2; 2; 1; 4; 3; 3; 1; 3; 2; 2; 1; 6; 5; 5; 1; 5; 2; 2; 1; 5; 3; 3; 1; 3; 2; 2; 1; 5; 4; 4; 1; 4; 2; 2; 1; 4; 3; 3; 1; 3; 2; 2; 1;
   8; 7; 7; 1; 7; 2; 2; 1; 7; 3; 3; 1; 3; 2; 2; 1; 7; 4; 4; 1; 4; 2; 2; 1; 4; 3; 3; 1; 3; 2; 2; 1; 7; 5; 5; 1; 5; 2; 2; 1; 5; 3; 3; 1; 3; 2; 2; 1; 5; 4; 4; 1; 4; 2; 2; 1; 4; 3; 3; 1; 3; 2; 2; 1;
   7; 6; 6; 1; 6; 2; 2; 1; 6; 3; 3; 1; 3; 2; 2; 1; 6; 4; 4; 1; 4; 2; 2; 1; 4; 3; 3; 1; 3; 2; 2; 1; 6; 5; 5; 1; 5; 2; 2; 1; 5; 3; 3; 1; 3; 2; 2; 1; 5; 4; 4; 1; 4; 2; 2; 1; 4; 3; 3; 1; 3; 2; 2; 1;
   8; 8; 8; 8; 8; 8; 8; 2; 8; 8; 8; 3; 8; 3; 3; 2; 8; 8; 8; 4; 8; 4; 4; 2; 8; 4; 4; 3; 4; 3; 3; 2; 8; 8; 8; 5; 8; 5; 5; 2; 8; 5; 5; 3; 5; 3; 3; 2; 8; 5; 5; 4; 5; 4; 4; 2; 5; 4; 4; 3; 4; 3; 3; 2;
   8; 8; 8; 6; 8; 6; 6; 2; 8; 6; 6; 3; 6; 3; 3; 2; 8; 6; 6; 4; 6; 4; 4; 2; 6; 4; 4; 3; 4; 3; 3; 2; 8; 6; 6; 5; 6; 5; 5; 2; 6; 5; 5; 3; 5; 3; 3; 2; 6; 5; 5; 4; 5; 4; 4; 2; 5; 4; 4; 3; 4; 3; 3; 2;
   8; 8; 8; 7; 8; 7; 7; 2; 8; 7; 7; 3; 7; 3; 3; 2; 8; 7; 7; 4; 7; 4; 4; 2; 7; 4; 4; 3; 4; 3; 3; 2; 8; 7; 7; 5; 7; 5; 5; 2; 7; 5; 5; 3; 5; 3; 3; 2; 7; 5; 5; 4; 5; 4; 4; 2; 5; 4; 4; 3; 4; 3; 3; 2;
   8; 7; 7; 6; 7; 6; 6; 2; 7; 6; 6; 3; 6; 3; 3; 2; 7; 6; 6; 4; 6; 4; 4; 2; 6; 4; 4; 3; 4; 3; 3; 2; 7; 6; 6; 5; 6; 5; 5; 2; 6; 5; 5; 3; 5; 3; 3; 2; 6; 5; 5; 4; 5; 4; 4; 2; 5; 4; 4; 3; 4; 3; 3; 2;
   8; 8; 8; 8; 8; 8; 8; 8; 8; 8; 8; 8; 8; 8; 8; 3; 8; 8; 8; 8; 8; 8; 8; 4; 8; 8; 8; 4; 8; 4; 4; 3; 8; 8; 8; 8; 8; 8; 8; 5; 8; 8; 8; 5; 8; 5; 5; 3; 8; 8; 8; 5; 8; 5; 5; 4; 8; 5; 5; 4; 5; 4; 4; 3;
   8; 8; 8; 8; 8; 8; 8; 6; 8; 8; 8; 6; 8; 6; 6; 3; 8; 8; 8; 6; 8; 6; 6; 4; 8; 6; 6; 4; 6; 4; 4; 3; 8; 8; 8; 6; 8; 6; 6; 5; 8; 6; 6; 5; 6; 5; 5; 3; 8; 6; 6; 5; 6; 5; 5; 4; 6; 5; 5; 4; 5; 4; 4; 3;
   8; 8; 8; 8; 8; 8; 8; 7; 8; 8; 8; 7; 8; 7; 7; 3; 8; 8; 8; 7; 8; 7; 7; 4; 8; 7; 7; 4; 7; 4; 4; 3; 8; 8; 8; 7; 8; 7; 7; 5; 8; 7; 7; 5; 7; 5; 5; 3; 8; 7; 7; 5; 7; 5; 5; 4; 7; 5; 5; 4; 5; 4; 4; 3;
   8; 8; 8; 7; 8; 7; 7; 6; 8; 7; 7; 6; 7; 6; 6; 3; 8; 7; 7; 6; 7; 6; 6; 4; 7; 6; 6; 4; 6; 4; 4; 3; 8; 7; 7; 6; 7; 6; 6; 5; 7; 6; 6; 5; 6; 5; 5; 3; 7; 6; 6; 5; 6; 5; 5; 4; 6; 5; 5; 4; 5; 4; 4; 3;
   8; 8; 8; 8; 8; 8; 8; 8; 8; 8; 8; 8; 8; 8; 8; 8; 8; 8; 8; 8; 8; 8; 8; 8; 8; 8; 8; 8; 8; 8; 8; 4; 8; 8; 8; 8; 8; 8; 8; 8; 8; 8; 8; 8; 8; 8; 8; 5; 8; 8; 8; 8; 8; 8; 8; 5; 8; 8; 8; 5; 8; 5; 5; 4;
   8; 8; 8; 8; 8; 8; 8; 8; 8; 8; 8; 8; 8; 8; 8; 6; 8; 8; 8; 8; 8; 8; 8; 6; 8; 8; 8; 6; 8; 6; 6; 4; 8; 8; 8; 8; 8; 8; 8; 6; 8; 8; 8; 6; 8; 6; 6; 5; 8; 8; 8; 6; 8; 6; 6; 5; 8; 6; 6; 5; 6; 5; 5; 4;
   8; 8; 8; 8; 8; 8; 8; 8; 8; 8; 8; 8; 8; 8; 8; 7; 8; 8; 8; 8; 8; 8; 8; 7; 8; 8; 8; 7; 8; 7; 7; 4; 8; 8; 8; 8; 8; 8; 8; 7; 8; 8; 8; 7; 8; 7; 7; 5; 8; 8; 8; 7; 8; 7; 7; 5; 8; 7; 7; 5; 7; 5; 5; 4;
   8; 8; 8; 8; 8; 8; 8; 7; 8; 8; 8; 7; 8; 7; 7; 6; 8; 8; 8; 7; 8; 7; 7; 6; 8; 7; 7; 6; 7; 6; 6; 4; 8; 8; 8; 7; 8; 7; 7; 6; 8; 7; 7; 6; 7; 6; 6; 5; 8; 7; 7; 6; 7; 6; 6; 5; 7; 6; 6; 5; 6; 5; 5; 4;
   8; 8; 8; 8; 8; 8; 8; 8; 8; 8; 8; 8; 8; 8; 8; 8; 8; 8; 8; 8; 8; 8; 8; 8; 8; 8; 8; 8; 8; 8; 8; 8; 8; 8; 8; 8; 8; 8; 8; 8; 8; 8; 8; 8; 8; 8; 8; 8; 8; 8; 8; 8; 8; 8; 8; 8; 8; 8; 8; 8; 8; 8; 8; 5;
   8; 8; 8; 8; 8; 8; 8; 8; 8; 8; 8; 8; 8; 8; 8; 8; 8; 8; 8; 8; 8; 8; 8; 8; 8; 8; 8; 8; 8; 8; 8; 6; 8; 8; 8; 8; 8; 8; 8; 8; 8; 8; 8; 8; 8; 8; 8; 6; 8; 8; 8; 8; 8; 8; 8; 6; 8; 8; 8; 6; 8; 6; 6; 5;
   8; 8; 8; 8; 8; 8; 8; 8; 8; 8; 8; 8; 8; 8; 8; 8; 8; 8; 8; 8; 8; 8; 8; 8; 8; 8; 8; 8; 8; 8; 8; 7; 8; 8; 8; 8; 8; 8; 8; 8; 8; 8; 8; 8; 8; 8; 8; 7; 8; 8; 8; 8; 8; 8; 8; 7; 8; 8; 8; 7; 8; 7; 7; 5;
   8; 8; 8; 8; 8; 8; 8; 8; 8; 8; 8; 8; 8; 8; 8; 7; 8; 8; 8; 8; 8; 8; 8; 7; 8; 8; 8; 7; 8; 7; 7; 6; 8; 8; 8; 8; 8; 8; 8; 7; 8; 8; 8; 7; 8; 7; 7; 6; 8; 8; 8; 7; 8; 7; 7; 6; 8; 7; 7; 6; 7; 6; 6; 5;
   8; 8; 8; 8; 8; 8; 8; 8; 8; 8; 8; 8; 8; 8; 8; 8; 8; 8; 8; 8; 8; 8; 8; 8; 8; 8; 8; 8; 8; 8; 8; 8; 8; 8; 8; 8; 8; 8; 8; 8; 8; 8; 8; 8; 8; 8; 8; 8; 8; 8; 8; 8; 8; 8; 8; 8; 8; 8; 8; 8; 8; 8; 8; 8;
   8; 8; 8; 8; 8; 8; 8; 8; 8; 8; 8; 8; 8; 8; 8; 8; 8; 8; 8; 8; 8; 8; 8; 8; 8; 8; 8; 8; 8; 8; 8; 8; 8; 8; 8; 8; 8; 8; 8; 8; 8; 8; 8; 8; 8; 8; 8; 8; 8; 8; 8; 8; 8; 8; 8; 8; 8; 8; 8; 8; 8; 8; 8; 6;
   8; 8; 8; 8; 8; 8; 8; 8; 8; 8; 8; 8; 8; 8; 8; 8; 8; 8; 8; 8; 8; 8; 8; 8; 8; 8; 8; 8; 8; 8; 8; 8; 8; 8; 8; 8; 8; 8; 8; 8; 8; 8; 8; 8; 8; 8; 8; 8; 8; 8; 8; 8; 8; 8; 8; 8; 8; 8; 8; 8; 8; 8; 8; 7;
   8; 8; 8; 8; 8; 8; 8; 8; 8; 8; 8; 8; 8; 8; 8; 8; 8; 8; 8; 8; 8; 8; 8; 8; 8; 8; 8; 8; 8; 8; 8; 7; 8; 8; 8; 8; 8; 8; 8; 8; 8; 8; 8; 8; 8; 8; 8; 7; 8; 8; 8; 8; 8; 8; 8; 7; 8; 8; 8; 7; 8; 7; 7; 6;
   8; 8; 8; 8; 8; 8; 8; 8; 8; 8; 8; 8; 8; 8; 8; 8; 8; 8; 8; 8; 8; 8; 8; 8; 8; 8; 8; 8; 8; 8; 8; 8; 8; 8; 8; 8; 8; 8; 8; 8; 8; 8; 8; 8; 8; 8; 8; 8; 8; 8; 8; 8; 8; 8; 8; 8; 8; 8; 8; 8; 8; 8; 8; 8;
   8; 8; 8; 8; 8; 8; 8; 8; 8; 8; 8; 8; 8; 8; 8; 8; 8; 8; 8; 8; 8; 8; 8; 8; 8; 8; 8; 8; 8; 8; 8; 8; 8; 8; 8; 8; 8; 8; 8; 8; 8; 8; 8; 8; 8; 8; 8; 8; 8; 8; 8; 8; 8; 8; 8; 8; 8; 8; 8; 8; 8; 8; 8; 8;
   8; 8; 8; 8; 8; 8; 8; 8; 8; 8; 8; 8; 8; 8; 8; 8; 8; 8; 8; 8; 8; 8; 8; 8; 8; 8; 8; 8; 8; 8; 8; 8; 8; 8; 8; 8; 8; 8; 8; 8; 8; 8; 8; 8; 8; 8; 8; 8; 8; 8; 8; 8; 8; 8; 8; 8; 8; 8; 8; 8; 8; 8; 8; 8;
   8; 8; 8; 8; 8; 8; 8; 8; 8; 8; 8; 8; 8; 8; 8; 8; 8; 8; 8; 8; 8; 8; 8; 8; 8; 8; 8; 8; 8; 8; 8; 8; 8; 8; 8; 8; 8; 8; 8; 8; 8; 8; 8; 8; 8; 8; 8; 8; 8; 8; 8; 8; 8; 8; 8; 8; 8; 8; 8; 8; 8; 8; 8; 7].

(** util.hpp:122-124 the constants *)
Definition ones_step4 : Z := 0x1111111111111111.
Definition ones_step8 : Z := 0x0101010101010101.
Definition msbs_step8 : Z := u64 (0x80 * ones_step8).

(** util.hpp:118-137 _select64.  [k] is an int, here not negative.  An index
    outside the table is undefined. *)
Definition select64 (x k : Z) : res Z :=
  if popcount x <=? k then Ok 64
  else
    let s := x in
    let s := u64 (s - Z.shiftr (Z.land s (u64 (0xA * ones_step4))) 1) in
    let s := u64 (Z.land s (u64 (0x3 * ones_step4)) + Z.land (Z.shiftr s 2) (u64 (0x3 * ones_step4))) in
    let s := Z.land (u64 (s + Z.shiftr s 4)) (u64 (0xF * ones_step8)) in
    let byte_sums := u64 (s * ones_step8) in
    let k_step8 := u64 (k * ones_step8) in
    let geq := Z.land (u64 (Z.lor k_step8 msbs_step8 - byte_sums)) msbs_step8 in
    let place := popcount geq * 8 in
    if 64 <=? place then UB
    else
      let byte_rank := u64 (k - Z.land (Z.shiftr (u64 (Z.shiftl byte_sums 8)) place) 0xFF) in
      let i := Z.lor (Z.land (Z.shiftr x place) 0xFF) (u64 (Z.shiftl byte_rank 8)) in
      if i <? 2048 then Ok (u64 (place + nth (Z.to_nat i) select_in_byte 0)) else UB.
