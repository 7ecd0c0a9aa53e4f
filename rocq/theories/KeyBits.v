(** Keys as infinite bit strings (zero padded), and what the key functions of
    Key.v compute in terms of their bits. *)
From Coq Require Import ZArith List Bool Lia.
From Coq Require Import ZifyBool ZifyNat.
From Verif Require Import Base Util Store Bits Key.
Import ListNotations.
Open Scope Z_scope.

Definition kok (k : key) : Prop := Forall (fun b => 0 <= b < 256) k.
(** bit [i] of the zero-padded key, most significant bit of the first byte first *)
Definition kbit (k : key) (i : Z) : bool := Z.testbit (byte k (i / 8)) (7 - i mod 8).

(** bits [a, a+w) as a number *)
Fixpoint slN (k : key) (a : Z) (w : nat) : Z :=
  match w with
  | O => 0
  | S w' => 2 * slN k a w' + Z.b2z (kbit k (a + Z.of_nat w'))
  end.
Definition sl (k : key) (a w : Z) : Z := slN k a (Z.to_nat w).
(** the first [n] bits as a number *)
Definition pre (n : Z) (k : key) : Z := sl k 0 n.

Lemma slN_range k a w : 0 <= slN k a w < 2 ^ Z.of_nat w.
Proof.
  induction w as [|w IH]; [simpl; lia|]. cbn [slN]. replace (Z.of_nat (S w)) with (Z.of_nat w + 1) by lia.
  rewrite Z.pow_add_r by lia. destruct (kbit k (a + Z.of_nat w)); simpl Z.b2z; lia.
Qed.
Lemma sl_range k a w : 0 <= w -> 0 <= sl k a w < 2 ^ w.
Proof. intros. unfold sl. pose proof (slN_range k a (Z.to_nat w)). rewrite Z2Nat.id in *; auto. Qed.
Lemma sl_0 k a : sl k a 0 = 0.
Proof. reflexivity. Qed.
Lemma sl_snoc k a w : 0 <= w -> sl k a (w + 1) = 2 * sl k a w + Z.b2z (kbit k (a + w)).
Proof.
  intros. unfold sl. replace (Z.to_nat (w + 1)) with (S (Z.to_nat w)) by lia. cbn [slN]. rewrite Z2Nat.id by lia. reflexivity.
Qed.
Lemma sl_split k a w1 w2 : 0 <= w1 -> 0 <= w2 -> sl k a (w1 + w2) = sl k a w1 * 2 ^ w2 + sl k (a + w1) w2.
Proof.
  intros H1 H2. pattern w2. apply natlike_ind; [| |exact H2].
  - rewrite Z.add_0_r, sl_0. lia.
  - intros x Hx IH. replace (w1 + Z.succ x) with (w1 + x + 1) by lia. rewrite sl_snoc, IH by lia.
    replace (Z.succ x) with (x + 1) by lia. rewrite sl_snoc, Z.pow_add_r by lia.
    replace (a + (w1 + x)) with (a + w1 + x) by lia. ring.
Qed.
Lemma sl_testbit k a w j : 0 <= w -> 0 <= j -> Z.testbit (sl k a w) j = (j <? w) && kbit k (a + w - 1 - j).
Proof.
  intros Hw. revert j. pattern w. apply natlike_ind; [| |exact Hw].
  - intros j Hj. rewrite sl_0, Z.bits_0. destruct (Z.ltb_spec j 0); [lia|reflexivity].
  - intros x Hx IH j Hj. replace (Z.succ x) with (x + 1) by lia. rewrite sl_snoc by lia.
    destruct (Z.eq_dec j 0) as [->|Hn].
    + rewrite Z.add_b2z_double_bit0 || (rewrite Z.add_comm, Z.add_b2z_double_bit0).
      destruct (Z.ltb_spec 0 (x + 1)); [|lia]. simpl. f_equal. lia.
    + replace j with (Z.succ (j - 1)) at 1 by lia.
      rewrite Z.add_comm. replace (Z.b2z (kbit k (a + x)) + 2 * sl k a x) with (2 * sl k a x + Z.b2z (kbit k (a + x))) by lia.
      rewrite Z.testbit_succ_r by lia. rewrite IH by lia.
      replace (a + (x + 1) - 1 - j) with (a + x - 1 - (j - 1)) by lia.
      destruct (Z.ltb_spec (j - 1) x), (Z.ltb_spec j (x + 1)); try reflexivity; exfalso; lia.
Qed.
Lemma sl_ext k k' a a' w : 0 <= w -> (forall i, 0 <= i < w -> kbit k (a + i) = kbit k' (a' + i)) -> sl k a w = sl k' a' w.
Proof.
  intros Hw H. apply Z.bits_inj'. intros j Hj. rewrite !sl_testbit by lia. destruct (Z.ltb_spec j w); [|reflexivity]. simpl.
  specialize (H (w - 1 - j) ltac:(lia)). replace (a + w - 1 - j) with (a + (w - 1 - j)) by lia. rewrite H. f_equal. lia.
Qed.
Lemma sl_inj k k' a a' w : 0 <= w -> sl k a w = sl k' a' w -> forall i, 0 <= i < w -> kbit k (a + i) = kbit k' (a' + i).
Proof.
  intros Hw H i Hi. assert (E : Z.testbit (sl k a w) (w - 1 - i) = Z.testbit (sl k' a' w) (w - 1 - i)) by (rewrite H; reflexivity).
  rewrite !sl_testbit in E by lia. destruct (Z.ltb_spec (w - 1 - i) w); [|lia]. simpl in E.
  replace (a + w - 1 - (w - 1 - i)) with (a + i) in E by lia. replace (a' + w - 1 - (w - 1 - i)) with (a' + i) in E by lia. exact E.
Qed.

(** *** prefixes *)
Lemma pre_range n k : 0 <= n -> 0 <= pre n k < 2 ^ n.
Proof. apply sl_range. Qed.
Lemma pre_split n m k : 0 <= n -> 0 <= m -> pre (n + m) k = pre n k * 2 ^ m + sl k n m.
Proof. intros. unfold pre. rewrite sl_split by lia. f_equal. Qed.
Lemma pre_snoc n k : 0 <= n -> pre (n + 1) k = 2 * pre n k + Z.b2z (kbit k n).
Proof. intros. unfold pre. apply sl_snoc. auto. Qed.
Lemma pre_lt_mono n m a b : 0 <= n <= m -> pre n a < pre n b -> pre m a < pre m b.
Proof.
  intros H Hl. replace m with (n + (m - n)) by lia. rewrite !pre_split by lia.
  pose proof (sl_range a n (m - n) ltac:(lia)). pose proof (sl_range b n (m - n) ltac:(lia)). nia.
Qed.
Lemma pre_le_mono n m a b : 0 <= n <= m -> pre m a <= pre m b -> pre n a <= pre n b.
Proof. intros H Hl. destruct (Z.le_gt_cases (pre n a) (pre n b)); auto. pose proof (pre_lt_mono n m b a H ltac:(lia)). lia. Qed.
Lemma pre_eq_mono n m a b : 0 <= n <= m -> pre m a = pre m b -> pre n a = pre n b.
Proof. intros H E. pose proof (pre_le_mono n m a b H ltac:(lia)). pose proof (pre_le_mono n m b a H ltac:(lia)). lia. Qed.
Lemma pre_div n m k : 0 <= n -> 0 <= m -> pre (n + m) k / 2 ^ m = pre n k.
Proof.
  intros. rewrite pre_split by lia. pose proof (sl_range k n m ltac:(lia)). rewrite Z.add_comm, Z.div_add by lia. rewrite Z.div_small by lia. lia.
Qed.

(** *** padded order *)
Definition ple (a b : key) : Prop := forall n, 0 <= n -> pre n a <= pre n b.
Definition plt (a b : key) : Prop := exists n, 0 <= n /\ pre n a < pre n b.
Lemma plt_ple a b : plt a b -> ple a b.
Proof.
  intros (n & Hn & H) m Hm. destruct (Z.le_gt_cases n m).
  - pose proof (pre_lt_mono n m a b ltac:(lia) H). lia.
  - apply (pre_le_mono m n); lia.
Qed.
Lemma ple_refl a : ple a a. Proof. intros n Hn. lia. Qed.
Lemma ple_trans a b d : ple a b -> ple b d -> ple a d.
Proof. intros H1 H2 n Hn. specialize (H1 n Hn). specialize (H2 n Hn). lia. Qed.
Lemma plt_ple_trans a b d : plt a b -> ple b d -> plt a d.
Proof. intros (n & Hn & H1) H2. exists n. specialize (H2 n Hn). split; lia. Qed.
Lemma ple_plt_trans a b d : ple a b -> plt b d -> plt a d.
Proof. intros H2 (n & Hn & H1). exists n. specialize (H2 n Hn). split; lia. Qed.
Lemma plt_not_ple a b : plt a b -> ~ ple b a.
Proof. intros (n & Hn & H) H2. specialize (H2 n Hn). lia. Qed.

(** *** bytes *)
Lemma byte_range k i : kok k -> 0 <= byte k i < 256.
Proof.
  intros H. unfold byte. destruct (Nat.lt_ge_cases (Z.to_nat i) (length k)) as [Hl|Hl].
  - unfold kok in H. rewrite Forall_forall in H. apply H. apply nth_In. exact Hl.
  - rewrite nth_overflow by exact Hl. lia.
Qed.
Lemma byte_out k i : klen k <= i -> byte k i = 0.
Proof. intros H. unfold byte, klen in *. apply nth_overflow. lia. Qed.
Lemma kbit_out k i : 8 * klen k <= i -> kbit k i = false.
Proof. intros H. unfold kbit. rewrite byte_out; [apply Z.bits_0|]. apply Z.div_le_lower_bound; lia. Qed.
Lemma sl_byte k p : kok k -> 0 <= p -> sl k (8 * p) 8 = byte k p.
Proof.
  intros Hk Hp. apply Z.bits_inj'. intros j Hj. rewrite sl_testbit by lia. destruct (Z.ltb_spec j 8); simpl.
  - unfold kbit. replace ((8 * p + 8 - 1 - j) / 8) with p by (apply (Z.div_unique_pos _ _ p (7 - j)); lia).
    replace ((8 * p + 8 - 1 - j) mod 8) with (7 - j) by (apply (Z.mod_unique_pos _ _ p (7 - j)); lia). f_equal. lia.
  - symmetry. apply (testbit_lt_pow _ 8); [|lia]. pose proof (byte_range k p Hk). change (2 ^ 8) with 256. lia.
Qed.
Lemma sl_bytes k p n : kok k -> 0 <= p -> 0 <= n -> sl k (8 * p) (n + 8) = sl k (8 * p) n * 256 + sl k (8 * p + n) 8.
Proof. intros. rewrite sl_split by lia. reflexivity. Qed.
Lemma word_at_sl k p : kok k -> 0 <= p -> word_at k p = sl k (8 * p) 64.
Proof.
  intros Hk Hp. unfold word_at. destruct (Z.leb_spec (klen k) p).
  - symmetry. apply Z.bits_inj'. intros j Hj. rewrite sl_testbit, Z.bits_0 by lia.
    destruct (Z.ltb_spec j 64); [|reflexivity]. simpl. apply kbit_out. lia.
  - rewrite !Z.shiftl_mul_pow2 by lia.
    change 64 with (8 + 8 + 8 + 8 + 8 + 8 + 8 + 8). rewrite !sl_bytes by (auto; lia).
    replace (8 * p + (8 + 8 + 8 + 8 + 8 + 8 + 8)) with (8 * (p + 7)) by lia.
    replace (8 * p + (8 + 8 + 8 + 8 + 8 + 8)) with (8 * (p + 6)) by lia.
    replace (8 * p + (8 + 8 + 8 + 8 + 8)) with (8 * (p + 5)) by lia.
    replace (8 * p + (8 + 8 + 8 + 8)) with (8 * (p + 4)) by lia.
    replace (8 * p + (8 + 8 + 8)) with (8 * (p + 3)) by lia.
    replace (8 * p + (8 + 8)) with (8 * (p + 2)) by lia.
    replace (8 * p + 8) with (8 * (p + 1)) by lia.
    rewrite !sl_byte by (auto; lia). lia.
Qed.
Lemma sl_word k p a w : 0 <= p -> 8 * p <= a -> 0 <= w -> a + w <= 8 * p + 64 ->
  Z.land (Z.shiftr (sl k (8 * p) 64) (8 * p + 64 - w - a)) (Z.ones w) = sl k a w.
Proof.
  intros Hp Ha Hw He. apply Z.bits_inj'. intros j Hj. rewrite Z.land_spec, Z.shiftr_spec, ones_testbit, !sl_testbit by lia.
  destruct (Z.ltb_spec j w); [|rewrite andb_false_r; reflexivity]. rewrite andb_true_r.
  destruct (Z.ltb_spec (j + (8 * p + 64 - w - a)) 64); [|exfalso; lia]. simpl. f_equal. lia.
Qed.
Lemma bitmask_rt_eq c n : 0 <= n <= 64 -> bitmask_rt c n = Ok (Z.ones n).
Proof.
  intros Hn. unfold bitmask_rt. destruct (Z.eqb_spec n 64) as [->|]; [reflexivity|]. unfold shl64.
  destruct (Z.leb_spec 0 n); [|lia]. destruct (Z.ltb_spec n 64); [|lia]. simpl. rewrite Z.shiftl_1_l.
  pose proof (Z.pow_pos_nonneg 2 n ltac:(lia) ltac:(lia)). pose proof (Z.pow_lt_mono_r 2 n 64 ltac:(lia) ltac:(lia) ltac:(lia)).
  rewrite (u64_small (2 ^ n)) by lia. rewrite u64_small by lia. rewrite Z.ones_equiv. f_equal; lia.
Qed.
Lemma bits_at_eq c k pos w : kok k -> 0 <= pos -> 1 <= w -> w + pos mod 8 <= 64 -> bits_at c k pos w = Ok (sl k pos w).
Proof.
  intros Hk Hp Hw He. unfold bits_at. pose proof (Z.mod_pos_bound pos 8 ltac:(lia)). pose proof (Z.div_mod pos 8 ltac:(lia)).
  destruct (Z.leb_spec (klen k) (pos / 8)).
  - f_equal. symmetry. apply Z.bits_inj'. intros j Hj. rewrite sl_testbit, Z.bits_0 by lia.
    destruct (Z.ltb_spec j w); [|reflexivity]. simpl. apply kbit_out. lia.
  - unfold shr64. destruct (Z.leb_spec 0 (64 - w - pos mod 8)); [|lia]. destruct (Z.ltb_spec (64 - w - pos mod 8) 64); [|lia].
    cbn [andb bind]. rewrite bitmask_rt_eq by lia. cbn [bind]. f_equal.
    assert (0 <= pos / 8) by (apply Z.div_pos; lia). rewrite word_at_sl by auto.
    rewrite <- (sl_word k (pos / 8) pos w) by lia. f_equal. f_equal. lia.
Qed.
Lemma get_key_bit_eq k pos : 0 <= pos -> get_key_bit k pos = Z.b2z (kbit k pos).
Proof.
  intros Hp. unfold get_key_bit. pose proof (Z.mod_pos_bound pos 8 ltac:(lia)). pose proof (Z.div_mod pos 8 ltac:(lia)).
  destruct (Z.ltb_spec (pos / 8) (klen k)).
  - rewrite land_1, Z.shiftr_spec by lia. reflexivity.
  - rewrite kbit_out by lia. reflexivity.
Qed.
Lemma extract_eq c s k shared ignore isz (b : bool) : kok k -> 0 <= shared + ignore -> 1 <= isz -> 1 <= s ->
  isz + s + (shared + ignore) mod 8 <= 64 ->
  extract c s k shared ignore isz (Z.b2z b) = Ok (Z.b2z b * 2 ^ (isz - 1 + s) + sl k (shared + ignore + 1) (isz - 1 + s)).
Proof.
  intros Hk HD Hi Hs He. unfold extract. set (D := shared + ignore) in *. set (m := isz - 1 + s) in *.
  pose proof (Z.mod_pos_bound D 8 ltac:(lia)) as Hm. pose proof (Z.div_mod D 8 ltac:(lia)) as Hd.
  assert (0 <= D / 8) by (apply Z.div_pos; lia).
  replace (63 - (isz - 1) - s - D mod 8) with (63 - m - D mod 8) by lia.
  unfold shr64. destruct (Z.leb_spec 0 (63 - m - D mod 8)); [|lia]. destruct (Z.ltb_spec (63 - m - D mod 8) 64); [|lia].
  cbn [andb bind]. rewrite bitmask_rt_eq by lia. cbn [bind]. unfold shl64.
  destruct (Z.leb_spec 0 m); [|lia]. destruct (Z.ltb_spec m 64); [|lia]. cbn [andb bind]. f_equal.
  rewrite word_at_sl by auto.
  replace (63 - m - D mod 8) with (8 * (D / 8) + 64 - m - (D + 1)) by lia. rewrite sl_word by lia.
  pose proof (sl_range k (D + 1) m ltac:(lia)) as Hr. pose proof (Z.pow_lt_mono_r 2 m 64 ltac:(lia) ltac:(lia) ltac:(lia)).
  rewrite Z.shiftl_mul_pow2 by lia. destruct b; simpl Z.b2z.
  - rewrite u64_small by lia. rewrite Z.lor_comm. rewrite <- (Z.shiftl_mul_pow2 1) by lia.
    rewrite <- Z.lxor_lor.
    + rewrite <- Z.add_nocarry_lxor; [reflexivity|]. apply Z.bits_inj'. intros j Hj. rewrite Z.land_spec, shiftl1_testbit, Z.bits_0 by lia.
      destruct (Z.eqb_spec j m); [|reflexivity]. subst j. simpl. apply (testbit_lt_pow _ m); lia.
    + apply Z.bits_inj'. intros j Hj. rewrite Z.land_spec, shiftl1_testbit, Z.bits_0 by lia.
      destruct (Z.eqb_spec j m); [|reflexivity]. subst j. simpl. apply (testbit_lt_pow _ m); lia.
  - rewrite Z.mul_0_l. change (u64 0) with 0. rewrite Z.lor_0_r. lia.
Qed.

(** ** leading zeros *)
Lemma lzcnt_spec x (f : Z -> bool) : 0 <= x < 2 ^ 64 -> (forall j, 0 <= j < 64 -> Z.testbit x (63 - j) = f j) ->
  0 <= lzcnt x <= 64 /\ (forall j, 0 <= j < lzcnt x -> f j = false) /\ (lzcnt x < 64 -> f (lzcnt x) = true).
Proof.
  intros Hx Hf. unfold lzcnt. destruct (Z.eqb_spec x 0) as [->|Hn].
  - split; [lia|]. split; [|lia]. intros j Hj. rewrite <- Hf by lia. apply Z.bits_0.
  - pose proof (Z.log2_nonneg x). assert (Z.log2 x < 64) by (apply Z.log2_lt_pow2; lia).
    split; [lia|]. split.
    + intros j Hj. rewrite <- Hf by lia. apply Z.bits_above_log2; lia.
    + intros _. rewrite <- Hf by lia. replace (63 - (63 - Z.log2 x)) with (Z.log2 x) by lia. apply Z.bit_log2. lia.
Qed.

(** ** the split of the key space between two boundary keys *)
Record gap (k1 k2 : key) (shared ignore isz : Z) : Prop := {
  gp_sh : 0 <= shared; gp_ig : 0 <= ignore; gp_is : 10 <= isz <= 11;
  gp_eq : pre shared k1 = pre shared k2;
  gp_b1 : kbit k1 shared = false; gp_b2 : kbit k2 shared = true;
  gp_one : pre (shared + ignore + 1) k2 = pre (shared + ignore + 1) k1 + 1;
  gp_tot : 512 <= pre (shared + ignore + isz) k2 - pre (shared + ignore + isz) k1 + 1 <= 1024;
  gp_two : pre (shared + ignore + 2) k1 + 2 <= pre (shared + ignore + 2) k2;
  gp_half : isz = 11 -> pre (shared + ignore + 10) k2 - pre (shared + ignore + 10) k1 + 1 < 512
}.

Lemma word_xor k1 k2 i j : kok k1 -> kok k2 -> 0 <= i -> 0 <= j < 64 ->
  Z.testbit (Z.lxor (word_at k1 (i * 8)) (word_at k2 (i * 8))) (63 - j) = xorb (kbit k1 (64 * i + j)) (kbit k2 (64 * i + j)).
Proof.
  intros H1 H2 Hi Hj. rewrite !word_at_sl by (auto; lia). rewrite Z.lxor_spec, !sl_testbit by lia.
  destruct (Z.ltb_spec (63 - j) 64); [|lia]. simpl. replace (8 * (i * 8) + 64 - 1 - (63 - j)) with (64 * i + j) by lia. reflexivity.
Qed.

Lemma diff_bound k1 k2 n : plt k1 k2 -> pre n k1 = pre n k2 -> 0 <= n -> n < 8 * (klen k1 + klen k2).
Proof.
  intros (m & Hm & Hl) E Hn. destruct (Z.lt_ge_cases n (8 * (klen k1 + klen k2))); auto. exfalso.
  assert (pre (n + m) k1 = pre (n + m) k2).
  { rewrite !pre_split, E by lia. f_equal. apply sl_ext; auto. intros i Hi. unfold klen in *. rewrite !kbit_out; auto; unfold klen; lia. }
  pose proof (pre_eq_mono m (n + m) k1 k2 ltac:(lia) H0). lia.
Qed.

Lemma shared_loop_wp k1 k2 (Q : Z * Z -> Prop) : kok k1 -> kok k2 -> plt k1 k2 ->
  (forall sh, 0 <= sh -> pre sh k1 = pre sh k2 -> kbit k1 sh = false -> kbit k2 sh = true -> Q (sh, sh / 64)) ->
  wp (shared_loop (key_fuel k1 k2) k1 k2) Q.
Proof.
  intros H1 H2 Hl HQ. unfold shared_loop.
  apply (wp_loop (fun x : Z * Z => 0 <= snd x /\ fst x = 64 * snd x /\ pre (fst x) k1 = pre (fst x) k2)
                 (fun x => Z.of_nat (length k1 + length k2 + 1) - snd x)).
  - intros [sh i] (Hi & Hs & He). simpl fst in *. simpl snd in *.
    set (x := Z.lxor _ _).
    assert (Hx : 0 <= x < 2 ^ 64).
    { apply bits_lt_pow; [lia|]. intros j Hj. unfold x. rewrite !word_at_sl by (auto; lia). rewrite Z.lxor_spec, !sl_testbit by lia.
      destruct (Z.ltb_spec j 64); [lia|reflexivity]. }
    destruct (lzcnt_spec x (fun j => xorb (kbit k1 (64 * i + j)) (kbit k2 (64 * i + j))) Hx) as (L1 & L2 & L3).
    { intros j Hj. apply word_xor; auto. }
    assert (Hpre : pre (sh + lzcnt x) k1 = pre (sh + lzcnt x) k2).
    { rewrite !pre_split, He by lia. f_equal. apply sl_ext; [lia|]. intros j Hj. specialize (L2 j Hj). rewrite Hs. simpl in L2.
      destruct (kbit k1 (64 * i + j)), (kbit k2 (64 * i + j)); simpl in L2; congruence. }
    destruct (Z.eqb_spec (lzcnt x) 64) as [E64|E64]; cbn [wp fst snd].
    + rewrite E64 in *. split; [split; [lia|split; [lia|exact Hpre]]|].
      pose proof (diff_bound k1 k2 (sh + 64) Hl Hpre ltac:(lia)). unfold klen in *. lia.
    + specialize (L3 ltac:(lia)). simpl in L3. rewrite <- Hs in L3. set (d := lzcnt x) in *.
      assert (Hb : kbit k1 (sh + d) = false /\ kbit k2 (sh + d) = true).
      { destruct Hl as (n & Hn & Hl). destruct (Z.le_gt_cases n (sh + d)).
        - pose proof (pre_eq_mono n (sh + d) k1 k2 ltac:(lia) Hpre). lia.
        - pose proof (pre_le_mono (sh + d + 1) n k1 k2 ltac:(lia) ltac:(lia)) as Hle. rewrite !pre_snoc in Hle by lia. rewrite Hpre in Hle.
          destruct (kbit k1 (sh + d)), (kbit k2 (sh + d)); simpl in *; try discriminate; auto. exfalso; lia. }
      replace (sh + d, i) with (sh + d, (sh + d) / 64).
      * apply HQ; [lia|exact Hpre|apply Hb|apply Hb].
      * f_equal. symmetry. apply (Z.div_unique_pos _ _ i d); lia.
  - simpl. split; [lia|]. split; reflexivity.
  - unfold key_fuel. cbn [snd]. lia.
Qed.

Lemma word_ign k1 k2 i j o : kok k1 -> kok k2 -> 0 <= i -> 0 <= j < 64 -> 0 <= o <= 64 ->
  Z.testbit (Z.land (Z.lor (u64 (Z.lnot (word_at k1 (i * 8)))) (word_at k2 (i * 8))) (bitmask (64 - o))) (63 - j) =
  (negb (kbit k1 (64 * i + j)) || kbit k2 (64 * i + j)) && (o <=? j).
Proof.
  intros H1 H2 Hi Hj Ho. rewrite !word_at_sl by (auto; lia). unfold bitmask, u64.
  rewrite Z.land_spec, Z.lor_spec, low_testbit, Z.lnot_spec, !sl_testbit, ones_testbit by lia.
  destruct (Z.ltb_spec (63 - j) 64); [|lia]. cbn [andb]. replace (8 * (i * 8) + 64 - 1 - (63 - j)) with (64 * i + j) by lia.
  f_equal. destruct (Z.ltb_spec (63 - j) (64 - o)), (Z.leb_spec o j); auto; exfalso; lia.
Qed.

Lemma ignore_loop_wp k1 k2 sh (Q : Z -> Prop) : kok k1 -> kok k2 -> 0 <= sh -> sh < 8 * klen k1 + 8 * klen k2 ->
  (forall ig, 0 <= ig -> (forall i, sh < i <= sh + ig -> kbit k1 i = true /\ kbit k2 i = false) ->
     (kbit k1 (sh + ig + 1) = false \/ kbit k2 (sh + ig + 1) = true) -> Q ig) ->
  wp (ignore_loop (key_fuel k1 k2) k1 k2 sh (sh / 64)) Q.
Proof.
  intros H1 H2 Hsh Hlim HQ. unfold ignore_loop. pose proof (Z.div_mod sh 64 ltac:(lia)) as Hd. pose proof (Z.mod_pos_bound sh 64 ltac:(lia)) as Hm.
  assert (Hd0 : 0 <= sh / 64) by (apply Z.div_pos; lia).
  set (off := fun i => if sh / 64 <? i then 0 else sh mod 64 + 1).
  apply (wp_loop (fun x : Z * Z => sh / 64 <= snd x /\ sh + 1 + fst x = 64 * snd x + off (snd x) /\ 0 <= fst x /\
                    (forall i, sh < i <= sh + fst x -> kbit k1 i = true /\ kbit k2 i = false))
                 (fun x => Z.of_nat (length k1 + length k2 + 1) - snd x)).
  - intros [ig i] (Hi & He & Hg & Hall). cbn [fst snd] in *.
    fold (off i). set (x := Z.land _ _).
    assert (Ho : 0 <= off i <= 64) by (unfold off; destruct (sh / 64 <? i); lia).
    assert (Hx : 0 <= x < 2 ^ 64).
    { apply bits_lt_pow; [lia|]. intros j Hj. unfold x, u64, bitmask. rewrite !word_at_sl by (auto; lia).
      rewrite Z.land_spec, ones_testbit by lia. destruct (Z.ltb_spec j (64 - off i)); [lia|apply andb_false_r]. }
    destruct (lzcnt_spec x (fun j => (negb (kbit k1 (64 * i + j)) || kbit k2 (64 * i + j)) && (off i <=? j)) Hx) as (L1 & L2 & L3).
    { intros j Hj. apply word_ign; auto; lia. }
    assert (Hge : off i <= lzcnt x).
    { destruct (Z.lt_ge_cases (lzcnt x) (off i)); auto. specialize (L3 ltac:(lia)). cbv beta in L3.
      destruct (Z.leb_spec (off i) (lzcnt x)); [lia|]. rewrite andb_false_r in L3. discriminate. }
    assert (Hall' : forall j, sh < j <= sh + (ig + (lzcnt x - off i)) -> kbit k1 j = true /\ kbit k2 j = false).
    { intros j Hj. destruct (Z.le_gt_cases j (sh + ig)); [apply Hall; lia|].
      specialize (L2 (j - 64 * i) ltac:(lia)). cbv beta in L2. replace (64 * i + (j - 64 * i)) with j in L2 by lia.
      destruct (Z.leb_spec (off i) (j - 64 * i)); [|exfalso; lia]. rewrite andb_true_r in L2.
      destruct (kbit k1 j), (kbit k2 j); simpl in L2; try discriminate; auto. }
    destruct (Z.eqb_spec (lzcnt x) 64) as [E64|E64]; cbn [wp fst snd].
    + rewrite E64 in *. split.
      * split; [lia|]. assert (Eo : off (i + 1) = 0) by (unfold off; destruct (Z.ltb_spec (sh / 64) (i + 1)); [reflexivity|lia]).
        rewrite Eo. split; [lia|]. split; [lia|exact Hall'].
      * (* k1 has bits below *)
        unfold klen in *. destruct (Z.eq_dec (off i) 64) as [Eo|Eo].
        -- assert (i = sh / 64) by (unfold off in Eo; destruct (Z.ltb_spec (sh / 64) i); lia). lia.
        -- destruct (Hall' (64 * i + 63) ltac:(lia)) as [Hb _].
           destruct (Z.lt_ge_cases (64 * i + 63) (8 * klen k1)) as [Hlt|Hge2]; [unfold klen in *; lia|].
           rewrite kbit_out in Hb by lia. discriminate.
    + apply HQ; [lia|exact Hall'|]. specialize (L3 ltac:(lia)). cbv beta in L3.
      destruct (Z.leb_spec (off i) (lzcnt x)); [|lia]. rewrite andb_true_r in L3.
      replace (64 * i + lzcnt x) with (sh + (ig + (lzcnt x - off i)) + 1) in L3 by lia.
      destruct (kbit k1 _); [right|left; reflexivity]. exact L3.
  - cbn [fst snd]. split; [lia|]. split; [|split; [lia|intros; exfalso; lia]].
    unfold off. destruct (Z.ltb_spec (sh / 64) (sh / 64)); lia.
  - unfold key_fuel, klen in *. cbn [snd]. lia.
Qed.

Lemma ones_run k a w (b : bool) : 0 <= w -> (forall i, a <= i < a + w -> kbit k i = b) -> sl k a w = if b then 2 ^ w - 1 else 0.
Proof.
  intros Hw. pattern w. apply natlike_ind; [| |exact Hw].
  - intros _. rewrite sl_0. destruct b; reflexivity.
  - intros x Hx IH H. replace (Z.succ x) with (x + 1) in * by lia. rewrite sl_snoc, IH by (try lia; intros; apply H; lia).
    rewrite (H (a + x)) by lia. destruct b; simpl Z.b2z; [rewrite Z.pow_add_r by lia; lia|lia].
Qed.

Lemma gap_wp c k1 k2 (Q : Z * Z * Z -> Prop) : kok k1 -> kok k2 -> plt k1 k2 ->
  (forall sh ig isz, gap k1 k2 sh ig isz -> Q (sh, ig, isz)) ->
  wp (shared_ignore_implicit c k1 k2) Q.
Proof.
  intros H1 H2 Hl HQ. unfold shared_ignore_implicit, shared_ignore_implicit_fuel.
  apply wp_bind. apply shared_loop_wp; auto. intros sh Hsh Hpre Hb1 Hb2.
  pose proof (diff_bound k1 k2 sh Hl Hpre Hsh) as Hlim.
  apply wp_bind. apply ignore_loop_wp; auto; [lia|]. intros ig Hig Hall Hend.
  change (base_implicit_size - 1) with 9. change base_implicit_size with 10.
  set (D := sh + ig) in *. pose proof (Z.mod_pos_bound (D + 1) 8 ltac:(lia)).
  rewrite !bits_at_eq by (auto; lia). cbn [bind].
  assert (Hone : pre (D + 1) k2 = pre (D + 1) k1 + 1).
  { replace (D + 1) with (sh + (1 + ig)) by lia. rewrite !pre_split, Hpre by lia. rewrite !(sl_split _ _ 1 ig) by lia.
    rewrite (ones_run k1 sh 1 false), (ones_run k2 sh 1 true), (ones_run k1 (sh + 1) ig true), (ones_run k2 (sh + 1) ig false); try lia;
      intros i Hi; try (apply Hall; lia); replace i with sh by lia; auto. }
  assert (Hdiff : forall w, 0 <= w -> pre (D + 1 + w) k2 - pre (D + 1 + w) k1 = 2 ^ w + sl k2 (D + 1) w - sl k1 (D + 1) w).
  { intros w Hw. rewrite (pre_split (D + 1) w k1), (pre_split (D + 1) w k2), Hone by lia. lia. }
  set (a := sl k1 (D + 1) 9) in *. set (b := sl k2 (D + 1) 9) in *.
  assert (Ha : 0 <= a < 512) by (apply (sl_range k1 (D + 1) 9); lia).
  assert (Hb : 0 <= b < 512) by (apply (sl_range k2 (D + 1) 9); lia).
  assert (Hab : a - b < 256).
  { unfold a, b. change 9 with (1 + 8). rewrite !(sl_split _ _ 1 8) by lia.
    pose proof (sl_range k1 (D + 1 + 1) 8 ltac:(lia)). pose proof (sl_range k2 (D + 1 + 1) 8 ltac:(lia)).
    assert (S1 : forall k, sl k (D + 1) 1 = Z.b2z (kbit k (D + 1))).
    { intros k. change 1 with (0 + 1) at 2. rewrite sl_snoc, sl_0, Z.add_0_r by lia. lia. }
    rewrite !S1.
    destruct Hend as [E|E]; rewrite E; [destruct (kbit k2 (D + 1))|destruct (kbit k1 (D + 1))]; simpl Z.b2z; change (2 ^ 8) with 256 in *; lia. }
  assert (Hor : Z.lor (Z.shiftl 1 9) b = 512 + b).
  { change (Z.shiftl 1 9) with 512. rewrite <- Z.lxor_lor, <- Z.add_nocarry_lxor; auto;
    (apply Z.bits_inj'; intros j Hj; rewrite Z.land_spec, Z.bits_0; change 512 with (Z.shiftl 1 9); rewrite shiftl1_testbit by lia;
     destruct (Z.eqb_spec j 9); [|reflexivity]; subst j; simpl; apply (testbit_lt_pow _ 9); change (2 ^ 9) with 512; lia). }
  rewrite Hor. rewrite u64_small by lia. change (Z.shiftl 1 10) with 1024.
  apply HQ. pose proof (Hdiff 9 ltac:(lia)) as D9. fold a b in D9. change (2 ^ 9) with 512 in D9.
  replace (D + 1 + 9) with (D + 10) in D9 by lia.
  assert (Htwo : pre (D + 2) k1 + 2 <= pre (D + 2) k2).
  { replace (D + 2) with (D + 1 + 1) by lia. rewrite !(pre_snoc (D + 1)), Hone by lia.
    destruct Hend as [E|E]; rewrite E; [destruct (kbit k2 (D + 1))|destruct (kbit k1 (D + 1))]; simpl Z.b2z; lia. }
  destruct (Z.ltb_spec (2 * (512 + b - a + 1)) 1024) as [Hc|Hc]; cbn [Z.b2z];
    constructor; auto; try lia; fold D.
  - pose proof (pre_snoc (D + 10) k1 ltac:(lia)) as P1. pose proof (pre_snoc (D + 10) k2 ltac:(lia)) as P2.
    replace (D + (10 + 1)) with (D + 10 + 1) by lia. rewrite P1, P2.
    destruct (kbit k1 (D + 10)), (kbit k2 (D + 10)); simpl Z.b2z; lia.
  - intros _. rewrite D9. lia.
  - replace (D + (10 + 0)) with (D + 10) by lia. lia.
Qed.
Lemma gap_run c k1 k2 : kok k1 -> kok k2 -> plt k1 k2 ->
  exists sh ig isz, shared_ignore_implicit c k1 k2 = Ok (sh, ig, isz) /\ gap k1 k2 sh ig isz.
Proof.
  intros H1 H2 Hl. assert (H : wp (shared_ignore_implicit c k1 k2) (fun x => gap k1 k2 (fst (fst x)) (snd (fst x)) (snd x))).
  { apply gap_wp; auto. }
  apply wp_exists in H as ([[sh ig] isz] & E & G). eauto.
Qed.

(** ** extraction of a key between the boundary keys *)
Section Gap.
Context {k1 k2 : key} {sh ig isz : Z}.
Hypothesis HG : gap k1 k2 sh ig isz.
(** first bit of the explicit part *)
Definition qpos : Z := sh + ig + isz.

Lemma gap_bit k : pre (sh + ig + 1) k = pre (sh + ig + 1) k1 \/ pre (sh + ig + 1) k = pre (sh + ig + 1) k2 ->
  pre (sh + ig + 1) k = pre (sh + ig + 1) k1 + Z.b2z (kbit k sh).
Proof.
  destruct HG as [G1 G2 G3 G4 G5 G6 G7 G8].
  assert (Hb : forall k', pre (sh + ig + 1) k = pre (sh + ig + 1) k' -> kbit k sh = kbit k' sh).
  { intros k' E. apply (sl_inj k k' 0 0 (sh + ig + 1)); auto; lia. }
  intros [E|E]; rewrite (Hb _ E), E; [rewrite G5|rewrite G6, G7]; simpl Z.b2z; lia.
Qed.

Lemma extract_gap c s k (msb : bool) : kok k -> 1 <= s <= 46 ->
  pre (sh + ig + 1) k = pre (sh + ig + 1) k1 + Z.b2z msb ->
  extract c s k sh ig isz (Z.b2z msb) = Ok (pre (qpos + s) k - pre (sh + ig + 1) k1 * 2 ^ (isz - 1 + s)).
Proof.
  intros Hk Hs Hm. destruct HG as [G1 G2 G3 G4 G5 G6 G7 G8]. pose proof (Z.mod_pos_bound (sh + ig) 8 ltac:(lia)).
  rewrite extract_eq by (auto; lia). f_equal. unfold qpos.
  replace (sh + ig + isz + s) with (sh + ig + 1 + (isz - 1 + s)) by lia. rewrite (pre_split (sh + ig + 1) (isz - 1 + s)) by lia. rewrite Hm. lia.
Qed.

Lemma extract_key_gap c s k : kok k -> 1 <= s <= 46 ->
  pre (sh + ig + 1) k1 <= pre (sh + ig + 1) k <= pre (sh + ig + 1) k2 ->
  extract c s k sh ig isz (get_key_bit k sh) = Ok (pre (qpos + s) k - pre (sh + ig + 1) k1 * 2 ^ (isz - 1 + s)).
Proof.
  intros Hk Hs Hm. pose proof (gp_sh _ _ _ _ _ HG). rewrite get_key_bit_eq by lia. apply extract_gap; auto.
  apply gap_bit. pose proof (gp_one _ _ _ _ _ HG). lia.
Qed.
Lemma extract_left c s : kok k1 -> 1 <= s <= 46 ->
  extract c s k1 sh ig isz 0 = Ok (pre (qpos + s) k1 - pre (sh + ig + 1) k1 * 2 ^ (isz - 1 + s)).
Proof. intros. change 0 with (Z.b2z false). apply extract_gap; auto. simpl. lia. Qed.
Lemma extract_right c s : kok k2 -> 1 <= s <= 46 ->
  extract c s k2 sh ig isz 1 = Ok (pre (qpos + s) k2 - pre (sh + ig + 1) k1 * 2 ^ (isz - 1 + s)).
Proof. intros. change 1 with (Z.b2z true). apply extract_gap; auto. rewrite (gp_one _ _ _ _ _ HG). reflexivity. Qed.

Lemma gap_shift s k : 1 <= s -> Z.shiftr (pre (qpos + s) k - pre (sh + ig + 1) k1 * 2 ^ (isz - 1 + s)) s =
  pre qpos k - pre (sh + ig + 1) k1 * 2 ^ (isz - 1).
Proof.
  intros Hs. destruct HG as [G1 G2 G3 G4 G5 G6 G7 G8]. rewrite Z.shiftr_div_pow2 by lia.
  rewrite Z.pow_add_r, Z.mul_assoc by lia. rewrite (pre_split qpos s) by (unfold qpos; lia).
  pose proof (sl_range k qpos s ltac:(lia)). symmetry. apply (Z.div_unique_pos _ _ _ (sl k qpos s)); lia.
Qed.
Lemma gap_base k : pre (sh + ig + 1) k1 <= pre (sh + ig + 1) k <= pre (sh + ig + 1) k2 ->
  0 <= pre qpos k - pre (sh + ig + 1) k1 * 2 ^ (isz - 1) < 2 * 2 ^ (isz - 1).
Proof.
  intros Hk. destruct HG as [G1 G2 G3 G4 G5 G6 G7 G8]. unfold qpos. replace (sh + ig + isz) with (sh + ig + 1 + (isz - 1)) by lia.
  rewrite (pre_split (sh + ig + 1) (isz - 1)) by lia. pose proof (sl_range k (sh + ig + 1) (isz - 1) ltac:(lia)). nia.
Qed.
End Gap.
