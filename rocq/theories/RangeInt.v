(** The int_optimized branch of RangeQuery (diva.hpp:606-629) computes the same
    infixes as the general branch. *)
From Coq Require Import ZArith List Bool Lia.
From Coq Require Import ZifyBool ZifyNat.
From Verif Require Import Base Util Store Bits Cells Lowbit Key KeyBits KeyOrder Diva Tree StoreRep Spec Filter.
Import ListNotations.
Open Scope Z_scope.

(** the first bits of a key of at most eight bytes, from its 64-bit word *)
Lemma pre_short n k : klen k <= 8 -> 64 <= n -> pre n k = pre 64 k * 2 ^ (n - 64).
Proof.
  intros Hk Hn. replace n with (64 + (n - 64)) at 1 by lia. rewrite (pre_split 64 (n - 64)) by lia.
  rewrite (ones_run k 64 (n - 64) false) by (try lia; intros i Hi; apply kbit_out; lia). lia.
Qed.

Lemma gap_diff k1 k2 sh ig isz : gap k1 k2 sh ig isz -> sh < 8 * klen k2 /\ sh + ig <= Z.max sh (8 * klen k1 - 1).
Proof.
  intros [G1 G2 G3 G4 G5 G6 G7 G8]. split.
  - destruct (Z.lt_ge_cases sh (8 * klen k2)); auto. rewrite kbit_out in G6 by lia. discriminate.
  - destruct (Z.eq_dec ig 0) as [->|Hn]; [lia|].
    destruct (Z.le_gt_cases (sh + ig) (Z.max sh (8 * klen k1 - 1))) as [|Hg]; auto. exfalso.
    assert (E1 : pre (sh + ig + 1) k1 = pre sh k1 * 2 ^ (ig + 1) + sl k1 sh (ig + 1)) by (replace (sh + ig + 1) with (sh + (ig + 1)) by lia; apply pre_split; lia).
    assert (E2 : pre (sh + ig + 1) k2 = pre sh k2 * 2 ^ (ig + 1) + sl k2 sh (ig + 1)) by (replace (sh + ig + 1) with (sh + (ig + 1)) by lia; apply pre_split; lia).
    assert (S1 : sl k1 sh (1 + ig) = sl k1 sh 1 * 2 ^ ig + sl k1 (sh + 1) ig) by (apply sl_split; lia).
    assert (S2 : sl k2 sh (1 + ig) = sl k2 sh 1 * 2 ^ ig + sl k2 (sh + 1) ig) by (apply sl_split; lia).
    assert (O1 : sl k1 sh 1 = 0) by (change 1 with (0 + 1); rewrite sl_snoc, sl_0 by lia; rewrite Z.add_0_r, G5; reflexivity).
    assert (O2 : sl k2 sh 1 = 1) by (change 1 with (0 + 1) at 1; rewrite sl_snoc, sl_0 by lia; rewrite Z.add_0_r, G6; reflexivity).
    assert (S3 : sl k1 (sh + 1) ig = 2 * sl k1 (sh + 1) (ig - 1) + Z.b2z (kbit k1 (sh + 1 + (ig - 1)))).
    { replace ig with (ig - 1 + 1) at 1 by lia. apply sl_snoc. lia. }
    rewrite kbit_out in S3 by lia. cbn [Z.b2z] in S3.
    pose proof (sl_range k1 (sh + 1) ig ltac:(lia)). pose proof (sl_range k2 (sh + 1) ig ltac:(lia)).
    replace (ig + 1) with (1 + ig) in * by lia. rewrite O1 in S1. rewrite O2 in S2.
    assert (E3 : 2 ^ ig = 2 * 2 ^ (ig - 1)) by (rewrite <- Z.pow_succ_r by lia; f_equal; lia). lia.
Qed.

Lemma shl64_eq c x n : 0 <= n < 64 -> shl64 c x n = Ok (u64 (x * 2 ^ n)).
Proof.
  intros H. unfold shl64. destruct (Z.leb_spec 0 n); [|lia]. destruct (Z.ltb_spec n 64); [|lia]. cbn [andb].
  rewrite Z.shiftl_mul_pow2 by lia. reflexivity.
Qed.
Lemma shr64_eq c x n : 0 <= n < 64 -> shr64 c x n = Ok (x / 2 ^ n).
Proof.
  intros H. unfold shr64. destruct (Z.leb_spec 0 n); [|lia]. destruct (Z.ltb_spec n 64); [|lia]. cbn [andb].
  rewrite Z.shiftr_div_pow2 by lia. reflexivity.
Qed.
Lemma word0 k : kok k -> word_at k 0 = pre 64 k.
Proof. intros H. rewrite word_at_sl by (auto; lia). unfold pre. f_equal. Qed.
(** [(x << max(0, n - 64)) >> max(0, 64 - n)) & BITMASK(w)] *)
Lemma window c k n w : kok k -> klen k <= 8 -> 1 <= n -> n - 64 < 64 -> 0 <= w <= n -> w <= 64 ->
  (let* a := shl64 c (word_at k 0) (Z.max 0 (n - 64)) in
   let* a := shr64 c a (Z.max 0 (64 - n)) in
   let* m := bitmask_rt c w in Ok (Z.land a m)) = Ok (sl k (n - w) w).
Proof.
  intros Hk Hl H1 H2 H3 H4. rewrite shl64_eq by lia. cbn [bind]. rewrite shr64_eq by lia. cbn [bind].
  rewrite bitmask_rt_eq by lia. cbn [bind]. f_equal. rewrite Z.land_ones by lia.
  rewrite word0 by auto.
  pose proof (pre_range 64 k ltac:(lia)) as R.
  assert (Hm : pre n k mod 2 ^ w = sl k (n - w) w).
  { replace n with (n - w + w) at 1 by lia. rewrite pre_split by lia. pose proof (sl_range k (n - w) w ltac:(lia)).
    rewrite Z.add_comm, Z.mod_add by lia. apply Z.mod_small. lia. }
  rewrite <- Hm. destruct (Z.le_gt_cases n 64) as [Hn|Hn].
  - rewrite Z.max_l, Z.max_r by lia. change (2 ^ 0) with 1. rewrite Z.mul_1_r, u64_small by lia.
    replace 64 with (n + (64 - n)) at 1 by lia. rewrite pre_div by lia. reflexivity.
  - rewrite Z.max_r, Z.max_l by lia. change (2 ^ 0) with 1. rewrite Z.div_1_r, <- pre_short by lia.
    rewrite u64_mod.
    replace 64 with (w + (64 - w)) at 1 by lia. rewrite Z.pow_add_r by lia.
    rewrite Z.rem_mul_r by (try apply Z.pow_nonzero; try apply Z.pow_pos_nonneg; lia).
    rewrite Z.mul_comm, Z.mod_add by (apply Z.pow_nonzero; lia). apply Z.mod_mod. apply Z.pow_nonzero; lia.
Qed.

Lemma lor_add x y n : 0 <= n -> 0 <= y < 2 ^ n -> Z.lor (x * 2 ^ n) y = x * 2 ^ n + y.
Proof.
  intros Hn Hy. rewrite <- Z.shiftl_mul_pow2 by lia.
  assert (E : Z.land (Z.shiftl x n) y = 0).
  { apply Z.bits_inj'. intros j Hj. rewrite Z.land_spec, Z.bits_0. destruct (Z.lt_ge_cases j n).
    - rewrite Z.shiftl_spec_low by lia. reflexivity.
    - rewrite (testbit_lt_pow y n j) by lia. apply andb_false_r. }
  rewrite <- Z.lxor_lor by exact E. symmetry. apply Z.add_nocarry_lxor. exact E.
Qed.

Section F.
Variable c : cfg.
Variable s : Z.
Hypothesis Hs : 1 <= s <= 46.

Lemma infix_int k sh ig isz : kok k -> klen k <= 8 -> 0 <= sh <= 63 -> 0 <= ig -> sh + ig <= 63 -> 10 <= isz <= 11 ->
  (let* b := shr64 c (word_at k 0) (63 - sh) in
   let* top := shl64 c (Z.land b 1) (isz - 1 + s) in
   let* a := shl64 c (word_at k 0) (Z.max 0 (sh + ig + isz + s - 64)) in
   let* a := shr64 c a (Z.max 0 (64 - sh - ig - isz - s)) in
   let* m := bitmask_rt c (isz - 1 + s) in
   Ok (Z.lor top (Z.land a m))) = extract_key c s k sh ig isz.
Proof.
  intros Hk Hl H1 H2 H3 H4. pose proof (Z.mod_pos_bound (sh + ig) 8 ltac:(lia)) as Hm. unfold extract_key.
  rewrite get_key_bit_eq by lia. rewrite extract_eq by (auto; lia).
  assert (Hw := window c k (sh + ig + isz + s) (isz - 1 + s) Hk Hl ltac:(lia) ltac:(lia) ltac:(lia) ltac:(lia)).
  replace (64 - (sh + ig + isz + s)) with (64 - sh - ig - isz - s) in Hw by lia.
  rewrite shr64_eq by lia. cbn [bind]. rewrite shl64_eq by lia. cbn [bind].
  destruct (shl64 c (word_at k 0) (Z.max 0 (sh + ig + isz + s - 64))) as [a| |]; cbn [bind] in *; try discriminate.
  destruct (shr64 c a (Z.max 0 (64 - sh - ig - isz - s))) as [a'| |]; cbn [bind] in *; try discriminate.
  destruct (bitmask_rt c (isz - 1 + s)) as [m| |]; cbn [bind] in *; try discriminate. inversion Hw as [Hw']. rewrite Hw'. f_equal.
  replace (sh + ig + isz + s - (isz - 1 + s)) with (sh + ig + 1) by lia.
  assert (E : Z.land (word_at k 0 / 2 ^ (63 - sh)) 1 = Z.b2z (kbit k sh)).
  { rewrite <- Z.shiftr_div_pow2 by lia. rewrite land_1, Z.shiftr_spec by lia. f_equal.
    rewrite word_at_sl by (auto; lia). rewrite sl_testbit by lia. destruct (Z.ltb_spec (0 + (63 - sh)) 64); [|lia].
    cbn [andb]. f_equal. lia. }
  rewrite E. pose proof (Z.pow_lt_mono_r 2 (isz - 1 + s) 64 ltac:(lia) ltac:(lia) ltac:(lia)). pose proof (Z.pow_pos_nonneg 2 (isz - 1 + s) ltac:(lia) ltac:(lia)).
  rewrite u64_small by (destruct (kbit k sh); cbn [Z.b2z]; lia).
  apply lor_add; [lia|apply sl_range; lia].
Qed.

Theorem range_int_eq pk nk st l r : kok pk -> kok nk -> kok l -> kok r -> plt pk nk ->
  klen pk <= 8 -> klen nk <= 8 -> klen l <= 8 -> klen r <= 8 ->
  range_query_int c s pk nk st l r = range_query_generic c s pk nk st l r.
Proof.
  intros Kp Kn Kl Kr Hlt Lp Ln Ll Lr. unfold range_query_int, range_query_generic.
  destruct (seg_ex c pk nk Kp Kn Hlt) as (sh & ig & isz & HS). rewrite (segment_eq c s Hs _ _ _ _ _ HS Kp Kn). cbn [bind].
  pose proof HS as [HG E Hq]. rewrite E. cbn [bind]. destruct (gap_diff _ _ _ _ _ HG) as [D1 D2].
  pose proof (gp_sh _ _ _ _ _ HG). pose proof (gp_ig _ _ _ _ _ HG). pose proof (gp_is _ _ _ _ _ HG).
  cbv zeta. rewrite (infix_int l) by (auto; lia). rewrite (infix_int r) by (auto; lia).
  destruct (extract_key c s l sh ig isz) as [le| |]; cbn [bind]; try reflexivity.
  destruct (extract_key c s r sh ig isz) as [re| |]; cbn [bind]; try reflexivity.
  assert (W : forall k, kok k -> klen k <= 8 ->
    (let* a := shl64 c (word_at k 0) (Z.max 0 (sh + ig + isz - 64)) in
     let* a := shr64 c a (Z.max 0 (64 - sh - ig - isz)) in
     let* m := bitmask_rt c (isz - 1) in Ok (Z.land a m)) = Ok (sl k (sh + ig + 1) (isz - 1))).
  { intros k Hk Hl. pose proof (window c k (sh + ig + isz) (isz - 1) Hk Hl ltac:(lia) ltac:(lia) ltac:(lia) ltac:(lia)) as Hw.
    replace (64 - (sh + ig + isz)) with (64 - sh - ig - isz) in Hw by lia. replace (sh + ig + isz - (isz - 1)) with (sh + ig + 1) in Hw by lia. exact Hw. }
  rewrite (W pk) by auto. cbn [bind]. rewrite (W nk) by auto. cbn [bind]. rewrite shl64_eq by lia. cbn [bind].
  assert (E2 : pre (qof c pk nk) pk - pre (sh + ig + 1) pk * 2 ^ (isz - 1) = sl pk (sh + ig + 1) (isz - 1)).
  { rewrite Hq. replace (sh + ig + isz) with (sh + ig + 1 + (isz - 1)) by lia. rewrite (pre_split (sh + ig + 1) (isz - 1)) by lia. lia. }
  rewrite E2. reflexivity.
Qed.
End F.
