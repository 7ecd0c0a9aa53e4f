(** Slot values: the lowest set bit ends the value, the bits below it are free. *)
From Coq Require Import ZArith List Bool Lia.
From Coq Require Import ZifyBool ZifyNat.
From Verif Require Import Base Util Store Bits.
Open Scope Z_scope.

Lemma tz_decomp x : 0 < x -> exists k, 0 <= k /\ x = 2 ^ tzcnt x * (2 * k + 1).
Proof.
  intros Hx. destruct (tzcnt_spec x Hx) as (H0 & H1 & H2). set (t := tzcnt x) in *.
  exists (Z.shiftr x (t + 1)). split.
  - apply Z.shiftr_nonneg. lia.
  - apply Z.bits_inj'. intros i Hi. rewrite Z.mul_comm, <- Z.shiftl_mul_pow2 by lia.
    rewrite Z.shiftl_spec by lia. destruct (Z.ltb_spec i t).
    + rewrite H2 by lia. symmetry. apply Z.testbit_neg_r. lia.
    + destruct (Z.eq_dec i t) as [->|].
      * rewrite H1. replace (t - t) with 0 by lia. symmetry. apply Z.testbit_odd_0.
      * replace (i - t) with (Z.succ (i - t - 1)) by lia. rewrite Z.testbit_odd_succ by lia.
        rewrite Z.shiftr_spec by lia. f_equal. lia.
Qed.
Lemma neg_bits k j : 0 <= j -> Z.testbit (- (2 * k + 1)) j = if j =? 0 then true else negb (Z.testbit k (j - 1)).
Proof.
  intros Hj. replace (- (2 * k + 1)) with (2 * (Z.lnot k) + 1) by (unfold Z.lnot; lia).
  destruct (Z.eqb_spec j 0) as [->|].
  - apply Z.testbit_odd_0.
  - replace j with (Z.succ (j - 1)) by lia. rewrite Z.testbit_odd_succ by lia.
    rewrite Z.lnot_spec by lia. do 2 f_equal. lia.
Qed.
Lemma lowbit_pow x : 0 < x < 2 ^ 64 -> lowbit x = 2 ^ tzcnt x.
Proof.
  intros Hx. destruct (tz_decomp x ltac:(lia)) as (k & Hk & E).
  pose proof (tzcnt_lt x Hx) as Ht. set (t := tzcnt x) in *. unfold lowbit, u64.
  rewrite <- (Z.mul_1_l (2 ^ t)), <- Z.shiftl_mul_pow2 by lia.
  apply Z.bits_inj'. intros i Hi. rewrite Z.land_spec, low_testbit, shiftl1_testbit by lia.
  rewrite E. replace (- (2 ^ t * (2 * k + 1))) with (- (2 * k + 1) * 2 ^ t) by lia.
  rewrite (Z.mul_comm (2 ^ t)). rewrite <- !Z.shiftl_mul_pow2 by lia. rewrite !Z.shiftl_spec by lia.
  destruct (Z.ltb_spec i t).
  - rewrite !(Z.testbit_neg_r _ (i - t)) by lia. simpl. symmetry. lia.
  - rewrite neg_bits by lia. destruct (Z.eqb_spec (i - t) 0).
    + replace (i - t) with 0 by lia. rewrite Z.testbit_odd_0. destruct (Z.ltb_spec i 64); simpl; lia.
    + replace (i - t) with (Z.succ (i - t - 1)) at 1 by lia. rewrite Z.testbit_odd_succ by lia.
      destruct (Z.testbit k (i - t - 1)); simpl; rewrite ?andb_false_r; symmetry; lia.
Qed.
Lemma lowbit_facts x : 0 < x < 2 ^ 64 ->
  0 < lowbit x <= x /\ exists k, 0 <= k /\ x = lowbit x * (2 * k + 1).
Proof.
  intros Hx. rewrite lowbit_pow by auto. destruct (tz_decomp x ltac:(lia)) as (k & Hk & E).
  pose proof (tzcnt_lt x Hx). assert (0 < 2 ^ tzcnt x) by (apply Z.pow_pos_nonneg; lia).
  split; [nia|]. exists k. auto.
Qed.
Lemma lowbit_odd x : 0 < x < 2 ^ 64 -> Z.odd x = true -> lowbit x = 1.
Proof.
  intros Hx Ho. rewrite lowbit_pow by auto. destruct (Z.eq_dec (tzcnt x) 0) as [->|]; [reflexivity|].
  destruct (tzcnt_spec x ltac:(lia)) as (H0 & H1 & H2). specialize (H2 0 ltac:(lia)).
  rewrite Z.bit0_odd in H2. congruence.
Qed.
Lemma lowbit_unique x t : 0 <= t -> 0 < x < 2 ^ 64 -> (exists k, x = 2 ^ t * (2 * k + 1)) -> lowbit x = 2 ^ t.
Proof.
  intros Ht Hx (k & E). rewrite lowbit_pow by auto. f_equal. apply tzcnt_unique; try lia.
  - rewrite E, Z.mul_comm, <- Z.shiftl_mul_pow2, Z.shiftl_spec, Z.sub_diag by lia. apply Z.testbit_odd_0.
  - intros i Hi. rewrite E, Z.mul_comm, <- Z.shiftl_mul_pow2, Z.shiftl_spec by lia.
    apply Z.testbit_neg_r. lia.
Qed.
Lemma pow2_le_mono a b : 0 <= a <= b -> 2 ^ a <= 2 ^ b.
Proof. intros. apply Z.pow_le_mono_r; lia. Qed.

(** a value below 2^s and a run number: same lowest bit *)
Lemma lowbit_add s p x : 0 <= s -> 0 <= p -> 0 < x < 2 ^ s -> p * 2 ^ s + x < 2 ^ 64 -> lowbit (p * 2 ^ s + x) = lowbit x.
Proof.
  intros Hs Hp Hx Hlt. assert (0 <= p * 2 ^ s) by nia.
  assert (Hx64 : 0 < x < 2 ^ 64) by lia.
  rewrite (lowbit_pow x) by auto. set (t := tzcnt x).
  destruct (tz_decomp x ltac:(lia)) as (k & Hk & E). fold t in E.
  pose proof (tzcnt_lt x Hx64) as Ht. fold t in Ht.
  assert (t < s). { apply (Z.pow_lt_mono_r_iff 2); [lia|lia|]. assert (0 < 2 ^ t) by (apply Z.pow_pos_nonneg; lia). nia. }
  apply lowbit_unique; [lia|lia|]. exists (p * 2 ^ (s - t - 1) + k).
  assert (2 ^ s = 2 ^ t * (2 * 2 ^ (s - t - 1))) as ->.
  { replace (2 * 2 ^ (s - t - 1)) with (2 ^ (1 + (s - t - 1))) by (rewrite Z.pow_add_r by lia; reflexivity).
    rewrite <- Z.pow_add_r by lia. f_equal. lia. }
  rewrite E at 1. lia.
Qed.

(** [x | (x - 1)] is the last value of the interval *)
Lemma lor_pred x : 0 < x < 2 ^ 64 -> Z.lor x (u64 (x - 1)) = x + lowbit x - 1.
Proof.
  intros Hx. rewrite u64_small by lia. rewrite lowbit_pow by auto.
  destruct (tz_decomp x ltac:(lia)) as (k & Hk & E). pose proof (tzcnt_lt x Hx) as Ht. set (t := tzcnt x) in *.
  assert (E1 : x - 1 = Z.shiftl (2 * k) t + Z.ones t).
  { rewrite Z.shiftl_mul_pow2, Z.ones_equiv by lia. lia. }
  assert (E2 : x + 2 ^ t - 1 = Z.shiftl (2 * k + 1) t + Z.ones t).
  { rewrite Z.shiftl_mul_pow2, Z.ones_equiv by lia. lia. }
  assert (Hd : forall y, Z.shiftl y t + Z.ones t = Z.lor (Z.shiftl y t) (Z.ones t)).
  { intros y. symmetry. apply Z.bits_inj'. intros i Hi.
    rewrite <- Z.lxor_lor, <- Z.add_nocarry_lxor; auto;
    apply Z.bits_inj'; intros j Hj; rewrite Z.land_spec, Z.shiftl_spec, ones_testbit, Z.testbit_0_l by lia;
    (destruct (Z.ltb_spec j t); [rewrite Z.testbit_neg_r by lia; reflexivity|apply andb_false_r]). }
  rewrite E1, E2, !Hd. rewrite E, Z.mul_comm, <- Z.shiftl_mul_pow2 by lia.
  apply Z.bits_inj'. intros i Hi. rewrite !Z.lor_spec, !Z.shiftl_spec by lia.
  destruct (Z.ltb_spec i t).
  - rewrite !(Z.testbit_neg_r _ (i - t)) by lia. reflexivity.
  - destruct (Z.eq_dec i t) as [->|].
    + rewrite Z.sub_diag, Z.testbit_odd_0. reflexivity.
    + replace (i - t) with (Z.succ (i - t - 1)) by lia. rewrite Z.testbit_odd_succ, Z.testbit_even_succ by lia.
      destruct (Z.testbit k (i - t - 1)); reflexivity.
Qed.

(** equality up to the bits covered by the mask = membership in the interval *)
Lemma lor_ones_eq a b n : 0 <= n -> 0 <= a -> 0 <= b -> (Z.lor a (Z.ones n) =? Z.lor b (Z.ones n)) = (a / 2 ^ n =? b / 2 ^ n).
Proof.
  intros Hn Ha Hb. apply eq_true_iff_eq. rewrite !Z.eqb_eq, <- !Z.shiftr_div_pow2 by lia. split; intros H.
  - apply Z.bits_inj'. intros i Hi. rewrite !Z.shiftr_spec by lia.
    assert (Z.testbit (Z.lor a (Z.ones n)) (i + n) = Z.testbit (Z.lor b (Z.ones n)) (i + n)) by congruence.
    rewrite !Z.lor_spec, ones_testbit in H0 by lia. destruct (Z.ltb_spec (i + n) n); [lia|].
    rewrite !orb_false_r in H0. exact H0.
  - apply Z.bits_inj'. intros i Hi. rewrite !Z.lor_spec, ones_testbit by lia. destruct (Z.ltb_spec i n).
    + rewrite !orb_true_r. reflexivity.
    + rewrite !orb_false_r. assert (Z.testbit (Z.shiftr a n) (i - n) = Z.testbit (Z.shiftr b n) (i - n)) by congruence.
      rewrite !Z.shiftr_spec in H1 by lia. replace (i - n + n) with i in H1 by lia. exact H1.
Qed.
Lemma match_interval ep v : 0 <= ep -> 0 < v < 2 ^ 63 ->
  (Z.lor ep (u64 (u64 (Z.shiftl (lowbit v) 1) - 1)) =? Z.lor v (u64 (u64 (Z.shiftl (lowbit v) 1) - 1)))
  = (v - lowbit v <=? ep) && (ep <=? v + lowbit v - 1).
Proof.
  intros He Hv. assert (Hv64 : 0 < v < 2 ^ 64) by lia.
  pose proof (lowbit_facts v Hv64) as (Hl & k & Hk & E).
  rewrite Z.shiftl_mul_pow2, Z.pow_1_r by lia. rewrite (u64_small (lowbit v * 2)), u64_small by lia.
  pose proof (tzcnt_lt v Hv64).
  assert (E2 : lowbit v * 2 - 1 = Z.ones (tzcnt v + 1)).
  { rewrite lowbit_pow by auto. rewrite Z.ones_equiv, Z.pow_add_r by lia. lia. }
  rewrite E2, lor_ones_eq by lia.
  assert (E3 : 2 ^ (tzcnt v + 1) = 2 * lowbit v).
  { rewrite lowbit_pow by auto. rewrite Z.pow_add_r by lia. lia. }
  rewrite E3. set (b := lowbit v) in *.
  assert (v / (2 * b) = k) as ->. { symmetry. apply (Z.div_unique_pos v (2 * b) k b); nia. }
  apply eq_true_iff_eq. rewrite andb_true_iff, Z.eqb_eq, !Z.leb_le.
  pose proof (Z.div_mod ep (2 * b) ltac:(lia)). pose proof (Z.mod_pos_bound ep (2 * b) ltac:(lia)).
  split; intros.
  - rewrite H2 in H0. nia.
  - symmetry. apply (Z.div_unique_pos ep (2 * b) k (ep - 2 * b * k)); nia.
Qed.
