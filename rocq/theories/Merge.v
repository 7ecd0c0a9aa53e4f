(** Deleting a boundary merges two blocks (diva.hpp:1565-1723); nothing else is lost. *)
From Coq Require Import ZArith List Bool Lia Sorting.Sorted Permutation.
From Coq Require Import ZifyBool ZifyNat.
From Verif Require Import Base Util Store Bits View Cells Lowbit Key KeyBits KeyOrder RangeInt Diva Tree StoreRep Spec Filter SplitList SplitKeys Split Contents.
Import ListNotations.
Open Scope Z_scope.

(** ** dropping the last [d] bits of an element; its end mark is kept *)
Definition trunc (d v : Z) : Z := Z.lor (v / 2 ^ d) (Z.b2z (negb (v mod 2 ^ d =? 0))).
Lemma trunc_0 v : trunc 0 v = v.
Proof. unfold trunc. rewrite Z.pow_0_r, Z.div_1_r, Z.mod_1_r. apply Z.lor_0_r. Qed.
Lemma lor_bit y (b : bool) : Z.lor y (Z.b2z b) = if b then 2 * (y / 2) + 1 else y.
Proof.
  destruct b; [|apply Z.lor_0_r]. change (Z.b2z true) with 1. pose proof (Z.div_mod y 2 ltac:(lia)) as D. pose proof (Z.mod_pos_bound y 2 ltac:(lia)).
  pose proof (lor_low (y / 2) 1 1 ltac:(lia) ltac:(lia)) as L. change (2 ^ 1) with 2 in L.
  rewrite D at 1. assert (E : y mod 2 = 0 \/ y mod 2 = 1) by lia. destruct E as [E|E]; rewrite E.
  - rewrite Z.add_0_r, (Z.mul_comm 2). exact L.
  - rewrite (Z.mul_comm 2). rewrite <- L, <- Z.lor_assoc. reflexivity.
Qed.
Lemma p2 n : 0 <= n -> 0 < 2 ^ n. Proof. intros. apply Z.pow_pos_nonneg; lia. Qed.
Lemma p2add n m : 0 <= n -> 0 <= m -> 2 ^ (n + m) = 2 ^ n * 2 ^ m. Proof. intros. apply Z.pow_add_r; lia. Qed.
Lemma div_high h n d v : 0 <= d <= n -> (h * 2 ^ n + v) / 2 ^ d = h * 2 ^ (n - d) + v / 2 ^ d /\ (h * 2 ^ n + v) mod 2 ^ d = v mod 2 ^ d.
Proof.
  intros Hd. pose proof (p2 d ltac:(lia)). assert (E : 2 ^ n = 2 ^ (n - d) * 2 ^ d) by (rewrite <- p2add by lia; f_equal; lia).
  rewrite E, Z.mul_assoc, (Z.add_comm _ v), Z.div_add, Z.mod_add by lia. lia.
Qed.
Lemma trunc_high d v n h : 0 <= d < n -> trunc d (h * 2 ^ n + v) = h * 2 ^ (n - d) + trunc d v.
Proof.
  intros Hd. unfold trunc. destruct (div_high h n d v ltac:(lia)) as [-> ->]. rewrite !lor_bit. destruct (negb _); [|reflexivity].
  replace (n - d) with (n - d - 1 + 1) by lia. rewrite p2add by lia. change (2 ^ 1) with 2.
  replace (h * (2 ^ (n - d - 1) * 2) + v / 2 ^ d) with (v / 2 ^ d + h * 2 ^ (n - d - 1) * 2) by lia. rewrite Z.div_add by lia. lia.
Qed.
Lemma trunc_whole d v n h : 0 <= n <= d -> 0 < v < 2 ^ n -> trunc d (h * 2 ^ n + v) = Z.lor (h / 2 ^ (d - n)) 1.
Proof.
  intros Hd Hv. unfold trunc. pose proof (p2 n ltac:(lia)). pose proof (p2 (d - n) ltac:(lia)).
  assert (E : 2 ^ d = 2 ^ n * 2 ^ (d - n)) by (rewrite <- p2add by lia; f_equal; lia).
  assert (Hm : ((h * 2 ^ n + v) mod 2 ^ d) mod 2 ^ n = v).
  { rewrite E, Z.rem_mul_r by lia. rewrite (Z.mul_comm (2 ^ n)), Z.mod_add, Z.mod_mod by lia. rewrite Z.add_comm, Z.mod_add by lia. apply Z.mod_small. lia. }
  replace ((h * 2 ^ n + v) mod 2 ^ d =? 0) with false. 2:{ symmetry. apply Z.eqb_neq. intros E0. rewrite E0, Z.mod_0_l in Hm; lia. }
  cbn [negb Z.b2z]. f_equal. rewrite E, <- Z.div_div by lia. f_equal. rewrite Z.add_comm, Z.div_add by lia. rewrite Z.div_small by lia. lia.
Qed.
Lemma lowbit_lt x e : 0 < x < 2 ^ 64 -> 0 <= e -> (lowbit_pos x <? e) = negb (x mod 2 ^ e =? 0).
Proof.
  intros Hx He. unfold lowbit_pos. destruct (lowbit_form x Hx) as (t & k & Ht & Hk & -> & _ & E & _). pose proof (p2 t ltac:(lia)). pose proof (p2 e He).
  destruct (Z.ltb_spec t e) as [H1|H1].
  - symmetry. apply negb_true_iff, Z.eqb_neq. intros E0. apply Z.mod_divide in E0; [|lia]. destruct E0 as (j & E0). rewrite E in E0.
    replace e with (e - t - 1 + 1 + t) in E0 by lia. rewrite !p2add in E0 by lia. change (2 ^ 1) with 2 in E0.
    rewrite Z.mul_comm, !Z.mul_assoc in E0. apply Z.mul_cancel_r in E0; [|lia]. lia.
  - symmetry. apply negb_false_iff, Z.eqb_eq. rewrite E. replace t with (t - e + e) by lia. rewrite p2add by lia.
    replace (2 ^ (t - e) * 2 ^ e * (2 * k + 1)) with (2 ^ (t - e) * (2 * k + 1) * 2 ^ e) by lia. apply Z.mod_mul. lia.
Qed.
Lemma trunc_range d v n : 0 <= d <= n -> 0 < v < 2 ^ n -> 0 < trunc d v < 2 ^ (n - d) \/ (trunc d v = 1 /\ d = n).
Proof.
  intros Hd Hv. pose proof (p2 d ltac:(lia)). pose proof (p2 (n - d) ltac:(lia)). assert (E : 2 ^ n = 2 ^ d * 2 ^ (n - d)) by (rewrite <- p2add by lia; f_equal; lia).
  unfold trunc. rewrite lor_bit. pose proof (Z.div_pos v (2 ^ d) ltac:(lia) ltac:(lia)). pose proof (Z.div_lt_upper_bound v (2 ^ d) (2 ^ (n - d)) ltac:(lia) ltac:(lia)).
  pose proof (Z.div_mod v (2 ^ d) ltac:(lia)). destruct (Z.eqb_spec (v mod 2 ^ d) 0) as [E0|E0]; cbn [negb].
  - left. nia.
  - destruct (Z.eq_dec d n) as [->|Hn]; [right; replace (n - n) with 0 in * by lia; change (2 ^ 0) with 1 in *; assert (v / 2 ^ n = 0) by lia; rewrite H4; split; reflexivity|].
    left. replace (n - d) with (n - d - 1 + 1) in * by lia. rewrite p2add in * by lia. change (2 ^ 1) with 2 in *.
    pose proof (Z.div_lt_upper_bound (v / 2 ^ d) 2 (2 ^ (n - d - 1)) ltac:(lia) ltac:(lia)). pose proof (Z.div_pos (v / 2 ^ d) 2 ltac:(lia) ltac:(lia)). lia.
Qed.
(** the first step of the code moves the element to the new number of implicit bits *)
Definition resized (z z' x : Z) : Z := if z <? z' then x * 2 ^ (z' - z) else Z.lor (x / 2 ^ (z - z')) (Z.land x 1).
Lemma resized_trunc z z' x e : 10 <= z <= 11 -> 10 <= z' <= 11 -> 0 < x -> 0 <= e -> 0 <= e + z - z' -> x < 2 ^ 62 ->
  0 < resized z z' x < 2 ^ 63 /\ Z.lor (resized z z' x / 2 ^ e) (Z.b2z (negb (resized z z' x mod 2 ^ e =? 0))) = trunc (e + z - z') x.
Proof.
  intros Hz Hz' Hx He Hd Hx2. fold (trunc e (resized z z' x)). unfold resized. destruct (Z.ltb_spec z z').
  - assert (z' - z = 1) as -> by lia. change (2 ^ 1) with 2. split; [lia|]. replace e with (e - 1 + 1) by lia. replace (e - 1 + 1 + z - z') with (e - 1) by lia.
    unfold trunc. rewrite p2add by lia. change (2 ^ 1) with 2. pose proof (p2 (e - 1) ltac:(lia)). rewrite Z.div_mul_cancel_r by lia. rewrite Z.mul_mod_distr_r by lia.
    do 3 f_equal. destruct (Z.eqb_spec (x mod 2 ^ (e - 1)) 0); destruct (Z.eqb_spec (x mod 2 ^ (e - 1) * 2) 0); lia.
  - assert (Hc : z - z' = 0 \/ z - z' = 1) by lia. destruct Hc as [Hc|Hc]; rewrite Hc.
    + change (2 ^ 0) with 1. rewrite Z.div_1_r. assert (E : Z.lor x (Z.land x 1) = x). { rewrite Z.lor_comm. apply Z.bits_inj'. intros j Hj. rewrite Z.lor_spec, Z.land_spec. destruct (Z.testbit x j), (Z.testbit 1 j); reflexivity. }
      rewrite E. split; [lia|]. f_equal. lia.
    + change (2 ^ 1) with 2. replace (e + z - z') with (e + 1) by lia. rewrite land_1, lor_bit. rewrite Z.bit0_odd, Zodd_mod.
      pose proof (Z.div_mod x 2 ltac:(lia)) as D. pose proof (Z.mod_pos_bound x 2 ltac:(lia)) as M.
      assert (E1 : 2 ^ (e + 1) = 2 * 2 ^ e) by (rewrite p2add by lia; change (2 ^ 1) with 2; lia). pose proof (p2 e He) as P. pose proof (Z.div_pos x 2 ltac:(lia) ltac:(lia)).
      pose proof (Z.div_pos (x / 2) 2 ltac:(lia) ltac:(lia)).
      pose proof (Z.div_lt_upper_bound x 2 (2 ^ 61) ltac:(lia) ltac:(lia)).
      set (h := x / 2) in *. destruct (Z.eq_dec (x mod 2) 1) as [E|E]; [rewrite E in *; change (Zeq_bool 1 1) with true|replace (x mod 2) with 0 in * by lia; change (Zeq_bool 0 1) with false]; cbv iota.
      * split; [lia|]. unfold trunc. rewrite !lor_bit. rewrite E1. rewrite (Z.rem_mul_r x 2 (2 ^ e)) by lia. fold h. rewrite E.
        pose proof (Z.mod_pos_bound h (2 ^ e) P). replace (1 + 2 * (h mod 2 ^ e) =? 0) with false by lia. cbn [negb]. rewrite <- Z.div_div by lia. fold h.
        destruct (Z.eq_dec e 0) as [->|Hn].
        -- change (2 ^ 0) with 1. rewrite !Z.div_1_r, Z.mod_1_r. cbn [Z.eqb negb]. reflexivity.
        -- replace e with (1 + (e - 1)) in * by lia. rewrite p2add in * by lia. change (2 ^ 1) with 2 in *.
           pose proof (p2 (e - 1) ltac:(lia)). rewrite (Z.rem_mul_r (2 * (h / 2) + 1) 2) by lia.
           replace ((2 * (h / 2) + 1) mod 2) with 1 by (replace (2 * (h / 2) + 1) with (1 + h / 2 * 2) by lia; rewrite Z.mod_add by lia; reflexivity).
           rewrite <- !(Z.div_div _ 2 (2 ^ (e - 1))) by lia. replace ((2 * (h / 2) + 1) / 2) with (h / 2) by (replace (2 * (h / 2) + 1) with (1 + h / 2 * 2) by lia; rewrite Z.div_add by lia; reflexivity).
           pose proof (Z.mod_pos_bound (h / 2) (2 ^ (e - 1)) ltac:(lia)). replace (1 + 2 * ((h / 2) mod 2 ^ (e - 1)) =? 0) with false by lia. reflexivity.
      * split; [lia|]. unfold trunc. rewrite !lor_bit. rewrite E1, <- Z.div_div by lia. fold h. rewrite (Z.rem_mul_r x 2 (2 ^ e)) by lia. fold h. replace (x mod 2) with 0 by (pose proof (Z.div_mod x 2 ltac:(lia)); fold h in H2; lia).
        replace (0 + 2 * (h mod 2 ^ e) =? 0) with (h mod 2 ^ e =? 0) by (destruct (Z.eqb_spec (h mod 2 ^ e) 0), (Z.eqb_spec (0 + 2 * (h mod 2 ^ e)) 0); lia). reflexivity.
Qed.

Lemma min_pow_div F e m : 0 <= m <= e -> 0 <= F < 2 ^ e -> 0 <= F / 2 ^ (e - m) < 2 ^ m.
Proof.
  intros Hm HF. pose proof (p2 (e - m) ltac:(lia)). split; [apply Z.div_pos; lia|]. apply Z.div_lt_upper_bound; [lia|]. rewrite <- p2add by lia. replace (e - m + m) with e by lia. lia.
Qed.
Lemma ones_div e m : 0 <= m <= e -> (2 ^ e - 1) / 2 ^ (e - m) = 2 ^ m - 1.
Proof.
  intros H. pose proof (p2 (e - m) ltac:(lia)). assert (E : 2 ^ e = 2 ^ (e - m) * 2 ^ m) by (rewrite <- p2add by lia; f_equal; lia).
  symmetry. apply (Z.div_unique_pos _ _ _ (2 ^ (e - m) - 1)); lia.
Qed.
(** the bits between two boundaries that the code fills in *)
Definition fillz (d n : Z) : Z := if d =? 0 then 2 ^ n - 1 else 0.

Lemma fill_eq c d n : 0 <= d <= 1 -> 0 <= n < 64 ->
  (let* a := shl64 c 1 n in let* m := bitmask_rt c n in Ok (Z.land (u64 (a - Z.lxor 1 d)) m)) = Ok (fillz d n).
Proof.
  intros Hd Hn. rewrite shl64_eq, bitmask_rt_eq by lia. cbn [bind]. f_equal. pose proof (p2 n ltac:(lia)). pose proof (Z.pow_lt_mono_r 2 n 64 ltac:(lia) ltac:(lia) ltac:(lia)).
  rewrite Z.mul_1_l, (u64_small (2 ^ n)), Z.land_ones by lia. unfold fillz. assert (E : d = 0 \/ d = 1) by lia. destruct E as [-> | ->]; [change (0 =? 0) with true|change (1 =? 0) with false]; cbv iota.
  - change (Z.lxor 1 0) with 1. rewrite u64_small by lia. apply Z.mod_small. lia.
  - change (Z.lxor 1 1) with 0. rewrite Z.sub_0_r, u64_small by lia. apply Z.mod_same. lia.
Qed.
Lemma bits_at_0 c k pos : c_strict c = false -> 0 <= pos -> kok k -> bits_at c k pos 0 = Ok 0.
Proof.
  intros Hc Hp Hk. unfold bits_at. destruct (Z.leb_spec (klen k) (pos / 8)); [reflexivity|]. pose proof (Z.mod_pos_bound pos 8 ltac:(lia)).
  rewrite bitmask_rt_eq by lia. unfold shr64. rewrite Hc. destruct (_ && _); cbn [bind]; rewrite Z.land_0_r; reflexivity.
Qed.
Lemma bits_at_any c k pos w : c_strict c = false -> 0 <= pos -> kok k -> 0 <= w -> w + pos mod 8 <= 64 -> bits_at c k pos w = Ok (sl k pos w).
Proof. intros. destruct (Z.eq_dec w 0) as [->|]; [rewrite bits_at_0, sl_0 by assumption; reflexivity|apply bits_at_eq; auto; lia]. Qed.
Lemma div_small_add h n v : 0 <= n -> 0 <= v < 2 ^ n -> (h * 2 ^ n + v) / 2 ^ n = h /\ (h * 2 ^ n + v) mod 2 ^ n = v.
Proof. intros Hn Hv. rewrite Z.add_comm, Z.div_add, Z.mod_add by lia. rewrite Z.div_small, Z.mod_small by lia. lia. Qed.
Lemma fill_range d n : 0 <= n -> 0 <= fillz d n < 2 ^ n.
Proof. intros Hn. pose proof (p2 n Hn). unfold fillz. destruct (d =? 0); lia. Qed.
Lemma fill_div d n m : 0 <= m <= n -> fillz d n / 2 ^ (n - m) = fillz d m.
Proof. intros H. unfold fillz. destruct (d =? 0); [apply ones_div; lia|apply Z.div_0_l]. pose proof (p2 (n - m) ltac:(lia)). lia. Qed.
Lemma lor_shl h n v w : 0 <= n -> 0 <= w -> 0 <= v < 2 ^ w -> w <= n -> Z.lor (h * 2 ^ n) (v * 2 ^ (n - w)) = h * 2 ^ n + v * 2 ^ (n - w).
Proof.
  intros Hn Hw Hv Hwn. apply lor_low; [lia|]. pose proof (p2 (n - w) ltac:(lia)). assert (E : 2 ^ n = 2 ^ w * 2 ^ (n - w)) by (rewrite <- p2add by lia; f_equal; lia). nia.
Qed.
Lemma shl_small c x w n : 0 <= w -> 0 <= n -> w + n < 64 -> 0 <= x < 2 ^ w -> shl64 c x n = Ok (x * 2 ^ n).
Proof.
  intros Hw Hn Hwn Hx. rewrite shl64_eq by lia. f_equal. apply u64_small. pose proof (p2 n Hn). assert (E : 2 ^ (w + n) = 2 ^ w * 2 ^ n) by (apply p2add; lia).
  pose proof (Z.pow_le_mono_r 2 (w + n) 64 ltac:(lia) ltac:(lia)). nia.
Qed.

Section Gaps.
Context {a b a' b' : key} {sh ig z sh' ig' z' : Z}.
Hypothesis G : gap a b sh ig z.
Hypothesis G' : gap a' b' sh' ig' z'.
Hypothesis Ha : ple a' a.
Hypothesis Hb : ple b b'.
Let p := sh + ig + 1.
Let p' := sh' + ig' + 1.
Let e := p - p'.

Lemma gap_ab : ple a b.
Proof.
  apply plt_ple. exists p. destruct G. subst p. split; lia.
Qed.
Lemma gaps_shrink : 0 <= e /\ sh' + ig' + z' <= sh + ig + z.
Proof.
  destruct (gap_mono a' b' sh' ig' z' a b sh ig z G' G) as [H1 H2].
  - intros n Hn. specialize (Ha n Hn). specialize (Hb n Hn). unfold dist. lia.
  - subst e p p'. split; lia.
Qed.
Lemma gap_ones : pre p a = pre sh a * 2 ^ (ig + 1) + (2 ^ ig - 1) /\ sl a (sh + 1) ig = 2 ^ ig - 1.
Proof.
  destruct G as [G1 G2 G3 G4 G5 G6 G7 _ _ _]. subst p. replace (sh + ig + 1) with (sh + 1 + ig) in * by lia.
  rewrite !(pre_split (sh + 1) ig), !pre_snoc in * by lia. rewrite G5, G6 in *. cbn [Z.b2z] in *. rewrite <- G4 in *. pose proof (sl_range a (sh + 1) ig G2). pose proof (sl_range b (sh + 1) ig G2).
  rewrite (Z.add_comm ig 1), p2add by lia. change (2 ^ 1) with 2. pose proof (p2 ig G2). nia.
Qed.
Lemma gaps_share : sh' <= sh /\ pre sh' a = pre sh' b /\ (sh' <> sh -> p' <= sh) /\ pre p' a = pre p' a' + Z.b2z (kbit a sh').
Proof.
  pose proof G as [G1 G2 G3 G4 G5 G6 G7 _ _ _]. pose proof G' as [F1 F2 F3 F4 F5 F6 F7 _ _ _].
  assert (E1 : pre sh' a = pre sh' b). { pose proof (Ha sh' F1). pose proof (Hb sh' F1). pose proof (gap_ab sh' F1). lia. }
  assert (H1 : sh' <= sh). { destruct (Z.le_gt_cases sh' sh) as [|H]; [assumption|exfalso]. pose proof (sl_inj a b 0 0 sh' F1 E1 sh ltac:(lia)) as E. rewrite !Z.add_0_l in E. rewrite G5, G6 in E. discriminate. }
  assert (Hp : 0 <= p') by (subst p'; lia).
  pose proof (Ha p' Hp) as A1. pose proof (Hb p' Hp) as B1. pose proof (gap_ab p' Hp) as AB. subst p'.
  assert (Ea : pre (sh' + ig' + 1) a = pre (sh' + ig' + 1) a' + Z.b2z (kbit a sh')) by (apply (gap_bit G'); lia).
  assert (Eb : pre (sh' + ig' + 1) b = pre (sh' + ig' + 1) a' + Z.b2z (kbit b sh')) by (apply (gap_bit G'); lia).
  repeat split; auto. intros Hn. destruct (Z.le_gt_cases (sh' + ig' + 1) sh) as [|H]; [assumption|exfalso].
  assert (Es : kbit a sh' = kbit b sh') by (apply (sl_inj a b 0 0 sh G1 G4 sh'); lia).
  rewrite Es in Ea. assert (E : pre (sh' + ig' + 1) a = pre (sh' + ig' + 1) b) by lia.
  pose proof (sl_inj a b 0 0 (sh' + ig' + 1) Hp E sh ltac:(lia)) as E2. rewrite !Z.add_0_l in E2. rewrite G5, G6 in E2. discriminate.
Qed.
(** where an element of the old gap lies, seen from the new one *)
Lemma gaps_same d : sh = sh' -> 0 <= d <= 1 -> pre p a + d = (pre p' a' + d) * 2 ^ e + fillz d e.
Proof.
  intros Es Hd. destruct gap_ones as [O1 O2]. destruct gaps_shrink as [S1 _]. destruct gaps_share as (_ & _ & _ & S4).
  pose proof G as [G1 G2 G3 G4 G5 G6 G7 _ _ _]. pose proof G' as [F1 F2 F3 F4 F5 F6 F7 _ _ _].
  rewrite <- Es, G5 in S4. cbn [Z.b2z] in S4. rewrite Z.add_0_r in S4. rewrite <- S4.
  assert (E : pre p a = pre p' a * 2 ^ e + sl a p' e) by (rewrite <- pre_split by (subst p' e p; lia); f_equal; subst p' e p; lia).
  assert (E2 : sl a p' e = 2 ^ e - 1).
  { assert (E3 : sl a (sh + 1) ig = sl a (sh + 1) ig' * 2 ^ e + sl a p' e).
    { replace p' with (sh + 1 + ig') by (subst p'; lia). rewrite <- sl_split by lia. f_equal. subst e p p'. lia. }
    rewrite O2 in E3. pose proof (sl_range a p' e S1). pose proof (p2 e S1). assert (E4 : 2 ^ ig = 2 ^ ig' * 2 ^ e) by (rewrite <- p2add by lia; f_equal; subst e p p'; lia).
    pose proof (sl_range a (sh + 1) ig' F2) as Hq. set (f := 2 ^ ig' - sl a (sh + 1) ig'). assert (Hf : 1 <= f) by (unfold f; lia). assert (E5 : sl a p' e + 1 = f * 2 ^ e) by (unfold f; lia). nia. }
  rewrite E, E2. unfold fillz. pose proof (p2 e S1). destruct (Z.eqb_spec d 0); nia.
Qed.
Lemma gaps_apart d : sh <> sh' -> 0 <= d <= 1 -> p' <= sh /\ e = sh - p' + (1 + ig) /\
  pre p a + d = (pre p' a' + Z.b2z (kbit a sh')) * 2 ^ e + (sl a p' (sh - p') * 2 ^ (1 + ig) + (d * 2 ^ ig + fillz d ig)).
Proof.
  intros Es Hd. destruct gap_ones as [O1 O2]. destruct gaps_shrink as [S1 _]. destruct gaps_share as (S2 & _ & S3 & S4). specialize (S3 ltac:(lia)).
  pose proof G as [G1 G2 G3 G4 G5 G6 G7 _ _ _]. pose proof G' as [F1 F2 F3 F4 F5 F6 F7 _ _ _].
  split; [exact S3|]. split; [subst e p p'; lia|]. rewrite <- S4, O1.
  assert (E : pre sh a = pre p' a * 2 ^ (sh - p') + sl a p' (sh - p')) by (rewrite <- pre_split by (subst p'; lia); f_equal; lia).
  rewrite E. replace e with (sh - p' + (1 + ig)) by (subst e p p'; lia). rewrite !(p2add (sh - p')) by lia. rewrite (Z.add_comm ig 1). rewrite p2add by lia. change (2 ^ 1) with 2.
  unfold fillz. destruct (Z.eqb_spec d 0); nia.
Qed.

Variable c : cfg.
Variable s : Z.
Hypothesis Hs : 1 <= s <= 46.
Hypothesis Hc : c_strict c = false.
Hypothesis Ka : kok a.
Let N := z' + s.


(** the last step: the bits of the element that still fit, with the end mark *)
Lemma finish_eq x D F rec : 0 < x < 2 ^ (z - 1 + s) -> x mod 2 ^ s <> 0 -> 0 <= D <= 1 -> 0 <= F < 2 ^ e ->
  let m := Z.min e (N - 1) in
  rec = D * 2 ^ (N - 1) + F / 2 ^ (e - m) * 2 ^ (N - 1 - m) ->
  (if 1 + m <? N then let* y := shr64 c (resized z z' x) (1 + m - 1) in
     Ok (Z.lor (Z.lor rec y) (Z.b2z (lowbit_pos (resized z z' x) <? 1 + m - 1))) else Ok (Z.lor rec 1)) =
  Ok (trunc (sh + ig + z - (sh' + ig' + z')) ((D * 2 ^ e + F) * 2 ^ (z - 1 + s) + x)).
Proof.
  intros Hx Hxs HD HF m Er. destruct gaps_shrink as [S1 S2]. pose proof (gp_is _ _ _ _ _ G) as Hz. pose proof (gp_is _ _ _ _ _ G') as Hz'.
  assert (EN : N = z' + s) by reflexivity. assert (Ee : sh + ig + z - (sh' + ig' + z') = e + z - z') by (subst e p p'; lia). rewrite Ee.
  pose proof (Z.pow_le_mono_r 2 (z - 1 + s) 62 ltac:(lia) ltac:(lia)) as P62.
  destruct (resized_trunc z z' x e Hz Hz' ltac:(lia) S1 ltac:(lia) ltac:(lia)) as [R1 R2].
  destruct (Z.ltb_spec (1 + m) N) as [Hm|Hm].
  - assert (m = e) by (subst m; lia). assert (He : e < N - 1) by lia. replace (1 + m - 1) with e by lia. rewrite shr64_eq by lia. cbn [bind]. f_equal.
    rewrite lowbit_lt by lia. rewrite <- Z.lor_assoc, R2. rewrite trunc_high by lia. replace (z - 1 + s - (e + z - z')) with (N - 1 - e) by lia.
    rewrite H, Z.sub_diag in Er. change (2 ^ 0) with 1 in Er. rewrite Z.div_1_r in Er.
    assert (Er2 : rec = (D * 2 ^ e + F) * 2 ^ (N - 1 - e)). { rewrite Er. replace (N - 1) with (e + (N - 1 - e)) at 1 by lia. rewrite p2add by lia. lia. }
    rewrite Er2. apply lor_low; [lia|]. destruct (trunc_range (e + z - z') x (z - 1 + s) ltac:(lia) Hx) as [T|[_ T]]; [|lia].
    replace (N - 1 - e) with (z - 1 + s - (e + z - z')) by lia. lia.
  - assert (Hm2 : m = N - 1) by (subst m; lia). assert (N - 1 <= e) by lia. f_equal. rewrite trunc_whole by lia. f_equal.
    rewrite Er, Hm2, Z.sub_diag. change (2 ^ 0) with 1. rewrite Z.mul_1_r. replace (e + z - z' - (z - 1 + s)) with (e - (N - 1)) by lia.
    destruct (div_high D e (e - (N - 1)) F ltac:(lia)) as [-> _]. f_equal. f_equal. f_equal. lia.
Qed.



Theorem one_eq x ol : sh + ig < 2 ^ 31 -> 0 <= ol < 2 ^ z -> 0 <= x -> x + ol * 2 ^ s < 2 ^ (z + s) -> (x + ol * 2 ^ s) mod 2 ^ s <> 0 ->
  update_delete_one c s sh' ig' z' a sh ig z ol x =
  Ok (trunc (sh + ig + z - (sh' + ig' + z')) (x + ol * 2 ^ s + pre p a * 2 ^ (z - 1 + s)) - pre p' a' * 2 ^ (z' - 1 + s)).
Proof.
  intros Hlen Hol Hx HE Hne. destruct gaps_shrink as [S1 S2]. pose proof (gp_is _ _ _ _ _ G) as Hz. pose proof (gp_is _ _ _ _ _ G') as Hz'.
  assert (EN : N = z' + s) by reflexivity. pose proof (p2 s ltac:(lia)) as Ps. pose proof (p2 (z - 1 + s) ltac:(lia)) as Pn.
  pose proof (Z.pow_le_mono_r 2 (z + s) 57 ltac:(lia) ltac:(lia)) as P57.
  assert (Ez : 2 ^ (z + s) = 2 * 2 ^ (z - 1 + s)) by (replace (z + s) with (1 + (z - 1 + s)) by lia; rewrite p2add by lia; reflexivity).
  assert (Hold : 0 <= ol * 2 ^ s < 2 ^ 57) by nia.
  set (v := x + ol * 2 ^ s) in *. unfold update_delete_one.
  replace (u64 (x + u64 (Z.shiftl ol s))) with v. 2:{ rewrite Z.shiftl_mul_pow2 by lia. rewrite (u64_small (ol * 2 ^ s)) by lia. rewrite u64_small; [reflexivity|unfold v in *; lia]. }
  set (d := v / 2 ^ (z - 1 + s)). set (X := v mod 2 ^ (z - 1 + s)).
  assert (Hd : 0 <= d <= 1). { unfold d. split; [apply Z.div_pos; lia|]. apply Z.lt_succ_r. apply Z.div_lt_upper_bound; lia. }
  assert (Ev : v = d * 2 ^ (z - 1 + s) + X) by (unfold d, X; rewrite Z.mul_comm; apply Z.div_mod; lia).
  assert (HX : 0 <= X < 2 ^ (z - 1 + s)) by (apply Z.mod_pos_bound; lia).
  assert (HXs : X mod 2 ^ s <> 0).
  { intros E0. apply Hne. rewrite Ev. destruct (div_high d (z - 1 + s) s X ltac:(lia)) as [_ ->]. exact E0. }
  assert (HX0 : 0 < X) by (destruct (Z.eq_dec X 0) as [E0|]; [rewrite E0, Z.mod_0_l in HXs; lia|lia]).
  replace (z + s - 1) with (z - 1 + s) by lia. rewrite shr64_eq, bitmask_rt_eq by lia. cbn [bind]. rewrite Z.land_ones by lia. fold d X.
  assert (Er : (if z + s <? z' + s then shl64 c X (z' + s - (z + s)) else let* y := shr64 c X (z + s - (z' + s)) in Ok (Z.lor y (Z.land X 1))) = Ok (resized z z' X)).
  { unfold resized. destruct (Z.ltb_spec (z + s) (z' + s)), (Z.ltb_spec z z'); try lia.
    - rewrite (shl_small c X (z - 1 + s)) by lia. do 3 f_equal. lia.
    - rewrite shr64_eq by lia. cbn [bind]. do 4 f_equal. lia. }
  rewrite Er. cbn [bind]. clear Er.
  assert (Goal1 : forall D F, 0 <= D <= 1 -> 0 <= F < 2 ^ e -> pre p a + d = (pre p' a' + D) * 2 ^ e + F ->
    trunc (sh + ig + z - (sh' + ig' + z')) ((D * 2 ^ e + F) * 2 ^ (z - 1 + s) + X) =
    trunc (sh + ig + z - (sh' + ig' + z')) (v + pre p a * 2 ^ (z - 1 + s)) - pre p' a' * 2 ^ (z' - 1 + s)).
  { intros D F HD HF E. assert (Eq : v + pre p a * 2 ^ (z - 1 + s) = pre p' a' * 2 ^ (e + (z - 1 + s)) + ((D * 2 ^ e + F) * 2 ^ (z - 1 + s) + X)).
    { rewrite Ev. rewrite (p2add e (z - 1 + s)) by lia. replace (d * 2 ^ (z - 1 + s) + X + pre p a * 2 ^ (z - 1 + s)) with ((pre p a + d) * 2 ^ (z - 1 + s) + X) by lia. rewrite E. lia. }
    rewrite Eq. rewrite (trunc_high _ _ (e + (z - 1 + s)) (pre p' a')) by (clear - S1 S2 Hz Hz' Hs; subst e p p'; lia). replace (e + (z - 1 + s) - (sh + ig + z - (sh' + ig' + z'))) with (z' - 1 + s) by (subst e p p'; lia). lia. }
  assert (He31 : e < 2 ^ 31). { pose proof (gp_sh _ _ _ _ _ G'). pose proof (gp_ig _ _ _ _ _ G'). clear - H H0 Hlen. subst e p p'. lia. }
  assert (Hm : 0 <= Z.min e (N - 1) <= 56) by lia.
  destruct (Z.eqb_spec sh sh') as [Es|Es].
  - pose proof (gaps_same d Es Hd) as Ef. rewrite <- (Goal1 d (fillz d e) Hd (fill_range d e S1) Ef). clear Goal1.
    rewrite (shl_small c d 1) by lia. cbn [bind].
    assert (Ei : ig - ig' = e) by (subst e p p'; lia). rewrite Ei.
    rewrite (u32_small e), (u32_small (z' + s - 1)) by lia. change (z' + s - 1) with (N - 1). set (m := Z.min e (N - 1)) in *.
    rewrite fill_eq by lia. cbn [bind].
    rewrite (shl_small c (fillz d m) m) by (try lia; apply fill_range; lia). cbn [bind].
    apply (finish_eq X d (fillz d e)); auto; [lia|apply fill_range; lia|].
    fold m. rewrite fill_div by lia. replace (z' + s - (1 + m)) with (N - 1 - m) by lia. apply lor_shl; [lia..|apply fill_range; lia|lia].
  - destruct (gaps_apart d Es Hd) as (P1 & P2 & P3). set (r := sh - p') in *. set (F := sl a p' r * 2 ^ (1 + ig) + (d * 2 ^ ig + fillz d ig)) in *.
    pose proof (gp_ig _ _ _ _ _ G) as Hig. pose proof (gp_sh _ _ _ _ _ G') as Hsh'. pose proof (gp_ig _ _ _ _ _ G') as Hig'.
    assert (Hr : 0 <= r) by (unfold r; lia). assert (Hp' : 0 <= p') by (subst p'; lia).
    pose proof (fill_range d ig Hig) as Fr. pose proof (p2 ig Hig) as Pig. pose proof (sl_range a p' r Hr) as Sr. assert (E1 : 2 ^ (1 + ig) = 2 * 2 ^ ig) by (rewrite p2add by lia; reflexivity).
    assert (Fl : 0 <= d * 2 ^ ig + fillz d ig < 2 ^ (1 + ig)) by (clear - Hd Fr Pig E1; nia).
    assert (HF : 0 <= F < 2 ^ e). { unfold F. rewrite P2, (p2add r (1 + ig)) by lia. clear - Fl Sr Pig E1. nia. }
    set (D := Z.b2z (kbit a sh')) in *. assert (HD : 0 <= D <= 1) by (unfold D; clear; destruct (kbit a sh'); cbn; lia).
    rewrite <- (Goal1 D F HD HF P3). clear Goal1. rewrite get_key_bit_eq by lia. fold D.
    assert (Hfin : forall m rec, m = Z.min e (N - 1) -> rec = D * 2 ^ (N - 1) + F / 2 ^ (e - m) * 2 ^ (N - 1 - m) ->
        (if 1 + m <? N then let* y := shr64 c (resized z z' X) (1 + m - 1) in
           Ok (Z.lor (Z.lor rec y) (Z.b2z (lowbit_pos (resized z z' X) <? 1 + m - 1))) else Ok (Z.lor rec 1)) =
        Ok (trunc (sh + ig + z - (sh' + ig' + z')) ((D * 2 ^ e + F) * 2 ^ (z - 1 + s) + X))).
    { intros m rec -> Erec. apply (finish_eq X D F); auto. clear - HX HX0. lia. }
    assert (HN : 11 <= N <= 57) by lia. assert (Hpm : 0 <= p' mod 8 < 8) by (apply Z.mod_pos_bound; lia).
    replace (sh - sh' - ig' - 1) with r by (clear; subst r p'; lia). fold p'. change (z' + s) with N. assert (Hr31 : r < 2 ^ 31) by (clear - P2 He31 Hig; lia).
    clearbody d X D r N e. clear - Hfin HN Hpm Hr Hr31 Hd HD Hp' Hig P2 HF Fl Fr Sr E1 Pig Ka Hc.
    rewrite (shl_small c D 1) by lia. cbn [bind]. rewrite (u32_small r), (u32_small (N - 1)) by lia.
    set (m1 := Z.min r (N - 1)). assert (Hm1 : 0 <= m1 <= r /\ m1 <= N - 1 /\ (m1 = r \/ m1 = N - 1)) by lia. clearbody m1. rewrite bits_at_any by (auto; lia). cbn [bind].
    pose proof (sl_range a p' m1 ltac:(lia)) as S1r.
    replace (N - (1 + m1)) with (N - 1 - m1) by lia.
    rewrite (shl_small c (sl a p' m1) m1) by lia. cbn [bind].
    rewrite (lor_shl D (N - 1) (sl a p' m1) m1) by lia.
    destruct (Z.ltb_spec (1 + m1) N) as [Hlt|Hge].
    + assert (Em1 : m1 = r) by lia. clear Hm1. subst m1. set (bits := Z.min (ig + 1) (N - 1 - r)). assert (Hbits : 1 <= bits <= ig + 1 /\ bits <= N - 1 - r /\ r + bits = Z.min e (N - 1)) by lia. clearbody bits.
      specialize (Hfin (r + bits)). replace (1 + (r + bits)) with (1 + r + bits) in Hfin by lia.
      rewrite (shl_small c d 1) by lia. cbn [bind].
      assert (Hrec : D * 2 ^ (N - 1) + sl a p' r * 2 ^ (N - 1 - r) = (D * 2 ^ r + sl a p' r) * 2 ^ (N - 1 - r)).
      { replace (N - 1) with (r + (N - 1 - r)) at 1 by lia. rewrite (p2add r) by lia. lia. }
      rewrite Hrec. clear Hrec. rewrite (lor_shl _ (N - 1 - r) d 1) by lia.
      assert (Hdiv : F / 2 ^ (e - (r + bits)) = sl a p' r * 2 ^ bits + (d * 2 ^ (bits - 1) + fillz d (bits - 1))).
      { unfold F. replace (e - (r + bits)) with (1 + ig - bits) by lia. destruct (div_high (sl a p' r) (1 + ig) (1 + ig - bits) (d * 2 ^ ig + fillz d ig) ltac:(lia)) as [-> _].
        replace (1 + ig - (1 + ig - bits)) with bits by lia. f_equal. destruct (div_high d ig (1 + ig - bits) (fillz d ig) ltac:(lia)) as [-> _].
        replace (ig - (1 + ig - bits)) with (bits - 1) by lia. f_equal. replace (1 + ig - bits) with (ig - (bits - 1)) by lia. apply fill_div. lia. }
      clearbody F. clear HF Fl Fr E1 Pig.
      assert (Esum : D * 2 ^ (N - 1) + F / 2 ^ (e - (r + bits)) * 2 ^ (N - 1 - (r + bits)) = ((D * 2 ^ r + sl a p' r) * 2 + d) * 2 ^ (N - 1 - r - 1) + fillz d (bits - 1) * 2 ^ (N - 1 - r - 1 - (bits - 1))).
      { rewrite Hdiv. replace (N - 1) with (r + 1 + (bits - 1) + (N - 1 - (r + bits))) at 1 by lia. replace (N - 1 - r - 1 - (bits - 1)) with (N - 1 - (r + bits)) by lia.
        replace (N - 1 - r - 1) with (bits - 1 + (N - 1 - (r + bits))) by lia.
        assert (Eb : 2 ^ bits = 2 * 2 ^ (bits - 1)) by (replace bits with (1 + (bits - 1)) at 1 by lia; rewrite p2add by lia; reflexivity). rewrite Eb.
        rewrite (p2add (r + 1 + (bits - 1))), (p2add (r + 1)), (p2add r), (p2add (bits - 1)) by lia. change (2 ^ 1) with 2. clear. generalize (2 ^ r) (2 ^ (bits - 1)) (2 ^ (N - 1 - (r + bits))). intros. ring. }
      assert (Eone : (D * 2 ^ r + sl a p' r) * 2 ^ (N - 1 - r) + d * 2 ^ (N - 1 - r - 1) = ((D * 2 ^ r + sl a p' r) * 2 + d) * 2 ^ (N - 1 - r - 1)).
      { replace (N - 1 - r) with (1 + (N - 1 - r - 1)) at 1 by lia. rewrite p2add by lia. change (2 ^ 1) with 2. clear. ring. }
      rewrite Eone. clear Eone. destruct (Z.ltb_spec 1 bits) as [Hb1|Hb1].
      * rewrite fill_eq by lia. cbn [bind]. pose proof (fill_range d (bits - 1) ltac:(lia)) as Fb. rewrite (shl_small c (fillz d (bits - 1)) (bits - 1)) by lia. cbn [bind].
        apply Hfin; [lia|]. rewrite Esum. replace (N - (1 + r + bits)) with (N - 1 - r - 1 - (bits - 1)) by lia. apply lor_shl; lia.
      * cbn [bind]. apply Hfin; [lia|]. rewrite Esum. replace (bits - 1) with 0 by lia. unfold fillz. change (2 ^ 0 - 1) with 0. destruct (d =? 0); lia.
    + assert (Em1 : m1 = N - 1) by lia. cbn [bind]. apply Hfin; [lia|]. f_equal. f_equal.
      unfold F. replace (e - m1) with (1 + ig + (r - m1)) by lia. rewrite (p2add (1 + ig) (r - m1)) by lia. pose proof (p2 (1 + ig) ltac:(lia)). pose proof (p2 (r - m1) ltac:(lia)). rewrite <- Z.div_div by lia.
      destruct (div_small_add (sl a p' r) (1 + ig) (d * 2 ^ ig + fillz d ig) ltac:(lia) Fl) as [-> _].
      replace r with (m1 + (r - m1)) at 1 by lia. rewrite sl_split by lia. pose proof (sl_range a (p' + m1) (r - m1) ltac:(lia)). destruct (div_small_add (sl a p' m1) (r - m1) (sl a (p' + m1) (r - m1)) ltac:(lia) ltac:(lia)) as [-> _]. reflexivity.
Qed.
End Gaps.
