(** Proofs of the statements of Properties.v about words, keys and tables. *)
From Coq Require Import ZArith List Bool Lia Sorting.Sorted.
From Coq Require Import ZifyBool ZifyNat.
From Verif Require Import Base Util Store Tables Key Bits Shift View Cells Lowbit Spec StoreRep TablesProofs KeyBits KeyOrder Diva Filter SpecFilter SpecBlock Hist Claims.
Import ListNotations.
Open Scope Z_scope.

(** ** integer keys *)
Lemma number_acc k : forall v, fold_left (fun v b => 256 * v + b) k v = v * 256 ^ Z.of_nat (length k) + number k.
Proof.
  unfold number. induction k as [|b k IH]; intros v; cbn [fold_left length]; [rewrite Z.mul_1_r; lia|].
  rewrite IH, (IH (256 * 0 + b)). rewrite Nat2Z.inj_succ, Z.pow_succ_r by lia. ring.
Qed.
Lemma number_cons b k : number (b :: k) = b * 256 ^ Z.of_nat (length k) + number k.
Proof. unfold number at 1. cbn [fold_left]. rewrite number_acc. f_equal. Qed.
Lemma number_range k : bytes k -> 0 <= number k < 256 ^ Z.of_nat (length k).
Proof.
  induction 1 as [|b k Hb Hk IH]; [cbn; lia|]. rewrite number_cons. cbn [length]. rewrite Nat2Z.inj_succ, Z.pow_succ_r by lia. nia.
Qed.
Lemma number_lt a : forall b, bytes a -> bytes b -> length a = length b -> ltb a b = (number a <? number b).
Proof.
  induction a as [|x a IH]; intros [|y b] Ha Hb Hl; try discriminate; [reflexivity|].
  inversion Ha as [|? ? A1 A2]; inversion Hb as [|? ? B1 B2]; subst. injection Hl as Hl. cbn [ltb]. rewrite !number_cons, (IH b A2 B2 Hl), Hl.
  pose proof (number_range a A2) as R1. pose proof (number_range b B2) as R2. rewrite Hl in R1. set (M := 256 ^ Z.of_nat (length b)) in *.
  destruct (Z.ltb_spec x y) as [L|L]; cbn [orb].
  - symmetry. apply Z.ltb_lt. nia.
  - destruct (Z.eqb_spec x y) as [->|N]; cbn [andb].
    + destruct (Z.ltb_spec (number a) (number b)); symmetry; [apply Z.ltb_lt|apply Z.ltb_ge]; lia.
    + symmetry. apply Z.ltb_ge. nia.
Qed.
Lemma key_of_int_bytes x : bytes (key_of_int x).
Proof.
  unfold key_of_int. apply Forall_forall. intros b Hb. apply in_map_iff in Hb as (i & <- & _). change 255 with (Z.ones 8). rewrite Z.land_ones by lia.
  apply Z.mod_pos_bound. lia.
Qed.
Lemma byte_step x n : 0 <= n -> 0 <= x -> 256 * (x / 2 ^ (n + 8)) + Z.land (Z.shiftr x n) 255 = x / 2 ^ n.
Proof.
  intros Hn Hx. change 255 with (Z.ones 8). rewrite Z.land_ones, Z.shiftr_div_pow2 by lia. rewrite Z.pow_add_r, <- Z.div_div by (try lia; apply Z.pow_nonzero; lia).
  pose proof (Z.div_mod (x / 2 ^ n) (2 ^ 8) ltac:(lia)). change (2 ^ 8) with 256 in *. lia.
Qed.
Lemma number_of_int x : 0 <= x < 2 ^ 64 -> number (key_of_int x) = x.
Proof.
  intros Hx. unfold number, key_of_int. cbn [map fold_left].
  assert (E : forall n v, 0 <= n -> v = x / 2 ^ (n + 8) -> 256 * v + Z.land (Z.shiftr x n) 255 = x / 2 ^ n) by (intros n v Hn ->; apply byte_step; lia).
  etransitivity; [|apply (Z.div_1_r x)]. apply (E 0); [lia|]. apply (E 8); [lia|]. apply (E 16); [lia|]. apply (E 24); [lia|].
  apply (E 32); [lia|]. apply (E 40); [lia|]. apply (E 48); [lia|]. apply (E 56); [lia|]. symmetry. apply Z.div_small. exact Hx.
Qed.
Theorem int_order x y : 0 <= x < 2 ^ 64 -> 0 <= y < 2 ^ 64 ->
  bytes (key_of_int x) /\ length (key_of_int x) = 8%nat /\ number (key_of_int x) = x /\ (lt (key_of_int x) (key_of_int y) <-> x < y) /\
  key_lt (key_of_int x) (key_of_int y) = (x <? y).
Proof.
  intros Hx Hy. split; [apply key_of_int_bytes|]. split; [reflexivity|]. split; [apply number_of_int; exact Hx|].
  assert (E : ltb (key_of_int x) (key_of_int y) = (x <? y)).
  { rewrite number_lt by (try apply key_of_int_bytes; reflexivity). rewrite !number_of_int by assumption. reflexivity. }
  split; [unfold lt; rewrite E; apply Z.ltb_lt|]. rewrite <- ltb_key_lt. exact E.
Qed.

(** ** rank and select *)
Lemma ones_below_count x n : ones_below x n = count (Z.testbit x) 0 (Z.of_nat n).
Proof.
  induction n as [|n IH]; [reflexivity|]. cbn [ones_below]. rewrite IH, Nat2Z.inj_succ. unfold Z.succ. rewrite count_snoc by lia. destruct (Z.testbit x (Z.of_nat n)); reflexivity.
Qed.
Theorem rank_spec x i : 0 <= x < 2 ^ 64 -> (i <= 64)%nat -> bit_rank x (Z.of_nat i) = ones_below x i.
Proof. intros Hx Hi. rewrite bit_rank_count by lia. symmetry. apply ones_below_count. Qed.
Theorem select_spec x k e : (e < 64)%nat -> Z.testbit x (Z.of_nat e) = true -> ones_below x e = k -> bit_select x k = Z.of_nat e.
Proof. intros He Hb Hc. rewrite ones_below_count in Hc. apply bit_select_spec; try lia; auto. rewrite <- Hc. apply count_range. lia. Qed.

(** ** bitmap shifts *)
Theorem shift_right_spec c st base l r d : 0 <= base -> 0 <= l -> l - 1 <= r -> 0 < d -> 64 * (base + (r + d) / 64) + 64 <= limit c st ->
  exists st', shift_bitmap_right c st base l r d = Ok st' /\ status st' = status st /\ wc st' = wc st /\ owned st' = owned st /\
    forall i, - (64 * base) <= i -> bitmap st' base i =
      if (l <=? i) && (i <? l + d) then false else if (l + d <=? i) && (i <=? r + d) then bitmap st base (i - d) else bitmap st base i.
Proof.
  intros Hb Hl Hr Hd Hlim.
  assert (H : wp (shift_bitmap_right c st base l r d) (fun st' => status st' = status st /\ wc st' = wc st /\ owned st' = owned st /\
    forall i, - (64 * base) <= i -> bitmap st' base i =
      if (l <=? i) && (i <? l + d) then false else if (l + d <=? i) && (i <=? r + d) then bitmap st base (i - d) else bitmap st base i)).
  { apply shift_bitmap_right_wp; auto. intros st' (S1 & S2 & S3) Hbits. split; [auto|]. split; [auto|]. split; [auto|].
    intros i Hi. unfold bitmap. fold (tb st' (64 * base + i)). rewrite Hbits by lia. unfold tb.
    replace (64 * base + l <=? 64 * base + i) with (l <=? i) by lia. replace (64 * base + i <? 64 * base + l + d) with (i <? l + d) by lia.
    replace (64 * base + l + d <=? 64 * base + i) with (l + d <=? i) by lia. replace (64 * base + i <=? 64 * base + r + d) with (i <=? r + d) by lia.
    replace (64 * base + i - d) with (64 * base + (i - d)) by lia. reflexivity. }
  apply wp_exists in H as (st' & E & H). exists st'. auto.
Qed.
Theorem shift_left_spec c st base l r d : 0 <= base -> 0 < d -> d <= l -> l - 1 <= r -> 64 * (base + r / 64) + 64 <= limit c st ->
  exists st', shift_bitmap_left c st base l r d = Ok st' /\ status st' = status st /\ wc st' = wc st /\ owned st' = owned st /\
    forall i, - (64 * base) <= i -> bitmap st' base i =
      if (r - d <? i) && (i <=? r) then false else if (l - d <=? i) && (i <=? r - d) then bitmap st base (i + d) else bitmap st base i.
Proof.
  intros Hb Hd Hl Hr Hlim.
  assert (H : wp (shift_bitmap_left c st base l r d) (fun st' => status st' = status st /\ wc st' = wc st /\ owned st' = owned st /\
    forall i, - (64 * base) <= i -> bitmap st' base i =
      if (r - d <? i) && (i <=? r) then false else if (l - d <=? i) && (i <=? r - d) then bitmap st base (i + d) else bitmap st base i)).
  { apply shift_bitmap_left_wp; auto. intros st' (S1 & S2 & S3) Hbits. split; [auto|]. split; [auto|]. split; [auto|].
    intros i Hi. unfold bitmap. fold (tb st' (64 * base + i)). rewrite Hbits by lia. unfold tb.
    replace (64 * base + r - d <? 64 * base + i) with (r - d <? i) by lia. replace (64 * base + i <=? 64 * base + r) with (i <=? r) by lia.
    replace (64 * base + l - d <=? 64 * base + i) with (l - d <=? i) by lia. replace (64 * base + i <=? 64 * base + r - d) with (i <=? r - d) by lia.
    replace (64 * base + i + d) with (64 * base + (i + d)) by lia. reflexivity. }
  apply wp_exists in H as (st' & E & H). exists st'. auto.
Qed.

(** ** status word *)
Lemma partial_bit u : 0 <= u < 2 ^ 32 -> negb (Z.shiftr u 31 =? 0) = Z.testbit u 31.
Proof.
  intros Hu. rewrite Z.shiftr_div_pow2 by lia. assert (H : Z.testbit u 31 = Z.odd (u / 2 ^ 31)) by (rewrite <- Z.shiftr_div_pow2, <- Z.bit0_odd, Z.shiftr_spec by lia; reflexivity).
  rewrite H. assert (0 <= u / 2 ^ 31 < 2) by (split; [apply Z.div_pos; lia|apply Z.div_lt_upper_bound; lia]).
  assert (u / 2 ^ 31 = 0 \/ u / 2 ^ 31 = 1) as [->| ->] by lia; reflexivity.
Qed.
Lemma get_field u a w b v n : 0 <= a -> 0 <= w -> 0 <= b -> 0 <= n -> (b + n <= a \/ a + w <= b) -> a + w <= 32 -> 0 <= v < 2 ^ n ->
  Z.land (Z.shiftr (u32 (Z.lor (Z.ldiff u (Z.shiftl (Z.ones n) b)) (Z.shiftl v b))) a) (Z.ones w) = Z.land (Z.shiftr u a) (Z.ones w).
Proof.
  intros Ha Hw Hb Hn Hd Hlim Hv. unfold u32, low. apply Z.bits_inj'. intros i Hi. rewrite !Z.land_spec, !Z.shiftr_spec, !ones_testbit by lia.
  destruct (Z.ltb_spec i w); [|rewrite !andb_false_r; reflexivity]. rewrite !andb_true_r, Z.land_spec, ones_testbit, Z.lor_spec, Z.ldiff_spec, !Z.shiftl_spec by lia.
  replace (i + a <? 32) with true by lia. rewrite andb_true_r.
  destruct Hd as [Hd|Hd].
  - rewrite (testbit_lt_pow v n) by lia. rewrite ones_testbit by lia. replace (i + a - b <? n) with false by lia. cbn [negb]. rewrite andb_true_r, orb_false_r. reflexivity.
  - rewrite !(Z.testbit_neg_r _ (i + a - b)) by lia. cbn [negb]. rewrite andb_true_r, orb_false_r. reflexivity.
Qed.
Lemma got_field u b v n : 0 <= b -> 0 <= n -> b + n <= 32 -> 0 <= v < 2 ^ n ->
  Z.land (Z.shiftr (u32 (Z.lor (Z.ldiff u (Z.shiftl (Z.ones n) b)) (Z.shiftl v b))) b) (Z.ones n) = v.
Proof.
  intros Hb Hn Hlim Hv. unfold u32, low. apply Z.bits_inj'. intros i Hi. rewrite !Z.land_spec, !Z.shiftr_spec, !ones_testbit by lia.
  destruct (Z.ltb_spec i n); [|rewrite andb_false_r; symmetry; apply (testbit_lt_pow v n); lia]. rewrite andb_true_r, Z.land_spec, ones_testbit, Z.lor_spec, Z.ldiff_spec, !Z.shiftl_spec by lia.
  replace (i + b <? 32) with true by lia. rewrite andb_true_r. replace (i + b - b) with i by lia. rewrite ones_testbit by lia.
  replace (i <? n) with true by lia. cbn [negb]. rewrite andb_false_r. reflexivity.
Qed.
Lemma high_field u b v n : 0 <= b -> 0 <= n -> b + n <= 31 -> 0 <= v < 2 ^ n -> 0 <= u < 2 ^ 32 ->
  negb (Z.shiftr (u32 (Z.lor (Z.ldiff u (Z.shiftl (Z.ones n) b)) (Z.shiftl v b))) 31 =? 0) = negb (Z.shiftr u 31 =? 0).
Proof.
  intros Hb Hn Hlim Hv Hu. assert (Hr : forall x, 0 <= u32 x < 2 ^ 32) by (intros; apply low_range; lia).
  rewrite !partial_bit by auto. unfold u32, low. rewrite Z.land_spec, ones_testbit, Z.lor_spec, Z.ldiff_spec, !Z.shiftl_spec by lia.
  rewrite ones_testbit by lia. replace (31 - b <? n) with false by lia. rewrite (testbit_lt_pow v n) by lia. cbn [negb]. rewrite !andb_true_r, orb_false_r. reflexivity.
Qed.
Theorem fields_apart st : 0 <= status st < 2 ^ 32 ->
  (forall n, 0 <= n < 2 ^ 20 -> fields (set_elem_count st n) = (n, get_size_grade st, get_invalid_bits st, is_partial_key st)) /\
  (forall g, 0 <= g < 2 ^ 8 -> fields (set_size_grade st g) = (get_elem_count st, g, get_invalid_bits st, is_partial_key st)) /\
  (forall b, 0 <= b < 2 ^ 3 -> fields (set_invalid_bits st b) = (get_elem_count st, get_size_grade st, b, is_partial_key st)) /\
  (forall p, fields (set_partial_key st p) = (get_elem_count st, get_size_grade st, get_invalid_bits st, p)).
Proof.
  intros Hu. unfold fields, get_elem_count, get_size_grade, get_invalid_bits, is_partial_key, set_elem_count, set_size_grade, set_invalid_bits, set_partial_key, with_status, bitmask. cbn [status].
  set (u := status st) in *. change 7 with (Z.ones 3).
  assert (Hz : forall x, Z.land x (Z.ones 20) = Z.land (Z.shiftr x 0) (Z.ones 20)) by (intros; rewrite Z.shiftr_0_r; reflexivity).
  split; [|split; [|split]].
  - intros n Hn. assert (E : Z.lor (Z.ldiff u (Z.ones 20)) n = Z.lor (Z.ldiff u (Z.shiftl (Z.ones 20) 0)) (Z.shiftl n 0)) by (rewrite !Z.shiftl_0_r; reflexivity).
    rewrite E, (Hz (u32 _)), got_field, !get_field, high_field by lia. reflexivity.
  - intros g Hg. rewrite (Hz (u32 _)), (Hz u), got_field, !get_field, high_field by lia. reflexivity.
  - intros b Hb. rewrite (Hz (u32 _)), (Hz u), got_field, !get_field, high_field by lia. reflexivity.
  - intros p. 
    assert (H31 : forall a w, 0 <= a -> 0 <= w -> a + w <= 31 -> Z.land (Z.shiftr (if p then Z.lor u (Z.shiftl 1 31) else Z.ldiff u (Z.shiftl 1 31)) a) (Z.ones w) = Z.land (Z.shiftr u a) (Z.ones w)).
    { intros a w Ha Hw Hlim. apply Z.bits_inj'. intros i Hi. rewrite !Z.land_spec, !Z.shiftr_spec, !ones_testbit by lia.
      destruct (Z.ltb_spec i w); [|rewrite !andb_false_r; reflexivity]. rewrite !andb_true_r.
      destruct p; [rewrite Z.lor_spec, shiftl1_testbit by lia; replace (i + a =? 31) with false by lia; apply orb_false_r|].
      rewrite Z.ldiff_spec, shiftl1_testbit by lia. replace (i + a =? 31) with false by lia. apply andb_true_r. }
    rewrite (Hz (if p then _ else _)), (Hz u), !H31 by lia. f_equal. assert (Hr : 0 <= (if p then Z.lor u (Z.shiftl 1 31) else Z.ldiff u (Z.shiftl 1 31)) < 2 ^ 32).
    { apply bits_lt_pow; [lia|]. intros i Hi. destruct p; [rewrite Z.lor_spec|rewrite Z.ldiff_spec]; rewrite shiftl1_testbit by lia; rewrite (testbit_lt_pow u 32 i) by lia; [|reflexivity]. replace (i =? 31) with false by lia. reflexivity. }
    rewrite partial_bit by exact Hr. destruct p; [rewrite Z.lor_spec|rewrite Z.ldiff_spec]; rewrite shiftl1_testbit by lia; cbn; [apply orb_true_r|apply andb_false_r].
Qed.

(** ** intervals of keys *)
Theorem interval_size c a b : bytes a -> bytes b -> padlt a b ->
  exists sh ig isz, shared_ignore_implicit c a b = Ok (sh, ig, isz) /\ 0 <= sh /\ 0 <= ig /\ 10 <= isz <= 11 /\
    512 <= top (Z.to_nat (sh + ig + isz)) b - top (Z.to_nat (sh + ig + isz)) a + 1 <= 1024.
Proof.
  intros Ha Hb Hl. apply padlt_plt in Hl; auto. destruct (gap_run c a b Ha Hb Hl) as (sh & ig & isz & E & [G1 G2 G3 G4 G5 G6 G7 G8]).
  exists sh, ig, isz. rewrite !top_pre, Z2Nat.id by (auto; lia). auto 8.
Qed.
Theorem interval_monotone c s a b : bytes a -> bytes b -> padlt a b -> 1 <= s <= 46 ->
  exists sh ig isz ea eb, shared_ignore_implicit c a b = Ok (sh, ig, isz) /\
    extract c s a sh ig isz 0 = Ok ea /\ extract c s b sh ig isz 1 = Ok eb /\ 511 <= eb / 2 ^ s - ea / 2 ^ s < 1024 /\
    forall k1 k2, bytes k1 -> bytes k2 -> le a k1 -> le k1 k2 -> le k2 b ->
      exists e1 e2, extract c s k1 sh ig isz (get_key_bit k1 sh) = Ok e1 /\ extract c s k2 sh ig isz (get_key_bit k2 sh) = Ok e2 /\ ea <= e1 <= e2 /\ e2 <= eb.
Proof.
  intros Ha Hb Hl Hs. apply padlt_plt in Hl; auto. destruct (gap_run c a b Ha Hb Hl) as (sh & ig & isz & E & G).
  pose proof G as [G1 G2 G3 G4 G5 G6 G7 G8].
  exists sh, ig, isz, (pre (sh + ig + isz + s) a - pre (sh + ig + 1) a * 2 ^ (isz - 1 + s)), (pre (sh + ig + isz + s) b - pre (sh + ig + 1) a * 2 ^ (isz - 1 + s)).
  split; [exact E|]. split; [apply (extract_left G c s Ha Hs)|]. split; [apply (extract_right G c s Hb Hs)|]. split.
  - pose proof (gap_shift G s a ltac:(lia)) as S1. pose proof (gap_shift G s b ltac:(lia)) as S2. unfold qpos in S1, S2. rewrite Z.shiftr_div_pow2 in S1, S2 by lia. rewrite S1, S2. lia.
  - intros k1 k2 B1 B2 L1 L2 L3. apply le_iff in L1, L2, L3. apply nlt_ple in L1, L2, L3; auto.
    pose proof (L1 (sh + ig + 1) ltac:(lia)). pose proof (L2 (sh + ig + 1) ltac:(lia)). pose proof (L3 (sh + ig + 1) ltac:(lia)).
    pose proof (L1 (sh + ig + isz + s) ltac:(lia)). pose proof (L2 (sh + ig + isz + s) ltac:(lia)). pose proof (L3 (sh + ig + isz + s) ltac:(lia)).
    do 2 eexists. split; [apply (extract_key_gap G c s k1 B1 Hs); lia|]. split; [apply (extract_key_gap G c s k2 B2 Hs); lia|]. unfold qpos. lia.
Qed.

(** ** tables *)
Theorem slot_tables junk : let c := machine junk in
  (forall g, 0 <= g < 255 -> 0 < c_size c g < c_size c (g + 1)) /\ 2 ^ 20 <= c_size c 253 /\ 0 < c_exc c <= c_size c 0 /\
  (forall g i p, 0 <= g < 256 -> 0 <= i <= 512 -> 0 <= p < 1024 -> 0 <= p * c_scal c g * c_impl c i < 2 ^ 64) /\
  (forall total g p q, 512 <= total <= 1024 -> 0 <= g < 256 -> 0 <= p <= q -> q < 1024 -> exists sc, implicit_scalar c total = Ok sc /\
     0 <= mapped_pos c p g sc <= mapped_pos c q g sc /\ mapped_pos c q g sc < c_size c g).
Proof.
  intros c. pose proof (machine_ok junk) as T. fold c in T. split; [|split; [|split; [|split]]].
  - intros g Hg. split; [apply size_pos; [exact T|lia]|apply t_incr; [exact T|exact Hg]].
  - apply t_big. exact T.
  - apply t_exc. exact T.
  - intros g i p Hg Hi Hp. pose proof (t_prod _ T g i Hg Hi). pose proof (t_scal _ T g Hg). pose proof (t_impl _ T i Hi).
    assert (0 <= c_scal c g * c_impl c i) by nia. rewrite <- Z.mul_assoc in *. nia.
  - intros total g p q Ht Hg Hp Hq. destruct (implicit_some c total Ht) as (sc & E). exists sc. split; [exact E|].
    pose proof (mapped_mono c T total sc g p q E Hg Hp Hq). pose proof (mapped_range c T total sc g p E Hg ltac:(lia)). pose proof (mapped_range c T total sc g q E Hg ltac:(lia)). lia.
Qed.
