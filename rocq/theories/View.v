(** The operations on a block seen through its parts: the two bitmaps, the slots
    and the two popcounts. *)
From Coq Require Import ZArith List Bool Lia.
From Coq Require Import ZifyBool ZifyNat.
From Verif Require Import Base Util Store Bits Shift.
Open Scope Z_scope.

Section View.
Variables (c : cfg) (s : Z).

(** Bit address of slot [i] in a block of [S] slots *)
Definition addr (S i : Z) : Z := 1088 + S + i * s.

(** [V S u w o r v a0 a1 st]: block [st] has [S] slots, status word [u], ownership
    [w], occupieds [o], runends [r], slots [v] and popcounts [a0], [a1]. *)
Record V (S u : Z) (w : bool) (o r : Z -> bool) (v : Z -> Z) (a0 a1 : Z) (st : store) : Prop := {
  V_s : 1 <= s <= 57;
  V_S : 0 < S;
  V_slots : slots c st = S;
  V_status : status st = u;
  V_owned : owned st = w;
  V_wc : wc st = ptr_word_count S s;
  V_fits : 8 * (addr S S / 8) + 64 <= limit c st;
  V_occ : forall p, 0 <= p < 1024 -> tb st (64 + p) = o p;
  V_re : forall i, 0 <= i < S -> tb st (1088 + i) = r i;
  V_sl : forall i, 0 <= i < S -> low s (Z.shiftr (mem st) (addr S i)) = v i;
  V_p0 : low 32 (mem st) = a0;
  V_p1 : low 32 (Z.shiftr (mem st) 32) = a1
}.

Lemma V_ext S u w o r v a0 a1 o' r' v' a0' a1' st :
  V S u w o r v a0 a1 st ->
  (forall p, 0 <= p < 1024 -> o p = o' p) ->
  (forall i, 0 <= i < S -> r i = r' i) ->
  (forall i, 0 <= i < S -> v i = v' i) -> a0 = a0' -> a1 = a1' ->
  V S u w o' r' v' a0' a1' st.
Proof.
  intros [] Ho Hr Hv <- <-. constructor; auto; intros.
  - rewrite <- Ho; auto.
  - rewrite <- Hr; auto.
  - rewrite <- Hv; auto.
Qed.

Lemma V_words S u w o r v a0 a1 st i : V S u w o r v a0 a1 st ->
  0 <= i <= S -> 64 * (17 + i / 64) + 64 <= limit c st.
Proof.
  intros [] Hi. unfold limit. rewrite V_wc0. unfold ptr_word_count, target_size.
  assert (64 <= (if c_strict c then 0 else 64) + 64) by (destruct (c_strict c); lia).
  assert (S * (s + 1) >= 2 * S) by nia.
  pose proof (Z.div_le_mono (1024 + 2 * S + 63) (1024 + S * (s + 1) + 63) 64 ltac:(lia) ltac:(lia)).
  pose proof (Z.div_le_mono i S 64 ltac:(lia) ltac:(lia)).
  assert (16 + S / 64 + 1 <= (1024 + 2 * S + 63) / 64).
  { pose proof (div_mod_64 S). destruct (Z.ltb_spec S 64).
    - replace (S / 64) with 0 by (symmetry; apply Z.div_small; lia).
      apply Z.div_le_lower_bound; lia.
    - apply Z.div_le_lower_bound; lia. }
  destruct (c_strict c); lia.
Qed.
Lemma V_owords S u w o r v a0 a1 st i : V S u w o r v a0 a1 st ->
  0 <= i <= 1024 -> 64 * (1 + i / 64) + 64 <= limit c st.
Proof.
  intros H Hi. pose proof (V_words _ _ _ _ _ _ _ _ _ 0 H ltac:(pose proof (V_S _ _ _ _ _ _ _ _ _ H); lia)).
  rewrite Z.div_0_l in H0 by lia.
  pose proof (Z.div_le_mono i 1024 64 ltac:(lia) ltac:(lia)). change (1024 / 64) with 16 in *. lia.
Qed.
Lemma V_limit S u w o r v a0 a1 st : V S u w o r v a0 a1 st -> 64 + 64 <= limit c st.
Proof.
  intros H. pose proof (V_owords _ _ _ _ _ _ _ _ _ 0 H ltac:(lia)). rewrite Z.div_0_l in H0 by lia. lia.
Qed.
Lemma V_end S u w o r v a0 a1 st : V S u w o r v a0 a1 st -> addr S S <= 64 * wc st.
Proof.
  intros []. rewrite V_wc0. unfold addr, ptr_word_count, target_size.
  pose proof (div_mod_64 (1024 + S * (s + 1) + 63)). lia.
Qed.

Lemma div64 i : 64 * i / 64 = i.
Proof. rewrite Z.mul_comm. apply Z.div_mul. lia. Qed.

(** ** Reading *)
Lemma get_slot_wp S u w o r v a0 a1 st pos (Q : Z -> Prop) :
  V S u w o r v a0 a1 st -> 0 <= pos <= S ->
  (forall x, 0 <= x < 2 ^ s -> (pos < S -> x = v pos) -> Q x) ->
  wp (get_slot c s st pos) Q.
Proof.
  intros HV Hp HQ. pose proof HV as []. unfold get_slot.
  assert (slot_addr c st s pos = addr S pos) as ->.
  { unfold slot_addr, addr, target_size. rewrite V_slots0. lia. }
  set (b := addr S pos). assert (0 <= b) by (unfold b, addr; nia).
  assert (b <= addr S S) by (unfold b, addr; nia).
  assert (b / 8 <= addr S S / 8) by (apply Z.div_le_mono; lia).
  assert (0 <= b / 8) by (apply Z.div_pos; lia).
  apply wp_bind, rd_wp; [lia|lia|]. simpl.
  assert (Hb : b = 8 * (b / 8) + b mod 8) by (apply Z.div_mod; lia).
  assert (Hm : 0 <= b mod 8 < 8) by (apply Z.mod_pos_bound; lia).
  assert (Z.land (Z.shiftr (low 64 (Z.shiftr (mem st) (8 * (b / 8)))) (b mod 8)) (bitmask s)
          = low s (Z.shiftr (mem st) b)) as ->.
  { unfold bitmask. change (Z.land ?x (Z.ones s)) with (low s x).
    apply Z.bits_inj'. intros i Hi. rewrite !low_testbit by lia.
    destruct (Z.ltb_spec i s); [|reflexivity]. simpl.
    rewrite Z.shiftr_spec, low_testbit, !Z.shiftr_spec by lia.
    destruct (Z.ltb_spec (i + b mod 8) 64); [|exfalso; lia]. simpl. f_equal. lia. }
  apply HQ; [apply low_range; lia|]. intros Hlt. apply V_sl0. lia.
Qed.

Lemma get_slot_at S u w o r v a0 a1 st pos (Q : Z -> Prop) :
  V S u w o r v a0 a1 st -> 0 <= pos < S -> Q (v pos) -> wp (get_slot c s st pos) Q.
Proof.
  intros HV Hp HQ. apply (get_slot_wp _ _ _ _ _ _ _ _ _ _ _ HV); [lia|].
  intros x _ Hx. rewrite Hx by lia. exact HQ.
Qed.

Lemma get_occ_wp S u w o r v a0 a1 st p (Q : Z -> Prop) :
  V S u w o r v a0 a1 st -> 0 <= p < 1024 -> Q (Z.b2z (o p)) -> wp (get_bit c st occ_base p) Q.
Proof.
  intros HV Hp HQ. apply get_bit_wp; unfold occ_base; try lia.
  - apply (V_owords _ _ _ _ _ _ _ _ _ _ HV). lia.
  - replace (64 * 1 + p) with (64 + p) by lia. rewrite (V_occ _ _ _ _ _ _ _ _ _ HV) by lia. exact HQ.
Qed.
Lemma re_base_17 : re_base = 17. Proof. reflexivity. Qed.
Lemma get_re_wp S u w o r v a0 a1 st i (Q : Z -> Prop) :
  V S u w o r v a0 a1 st -> 0 <= i < S -> Q (Z.b2z (r i)) -> wp (get_bit c st re_base i) Q.
Proof.
  intros HV Hp HQ. rewrite re_base_17. apply get_bit_wp; try lia.
  - apply (V_words _ _ _ _ _ _ _ _ _ _ HV). lia.
  - replace (64 * 17 + i) with (1088 + i) by lia. rewrite (V_re _ _ _ _ _ _ _ _ _ HV) by lia. exact HQ.
Qed.
(** a bit of the runends bitmap that may lie outside it: some bit *)
Lemma get_re_any S u w o r v a0 a1 st i (Q : Z -> Prop) :
  V S u w o r v a0 a1 st -> 0 <= i <= S ->
  (forall b, (i < S -> b = r i) -> Q (Z.b2z b)) -> wp (get_bit c st re_base i) Q.
Proof.
  intros HV Hp HQ. rewrite re_base_17. apply get_bit_wp; try lia.
  - apply (V_words _ _ _ _ _ _ _ _ _ _ HV). lia.
  - apply HQ. intros. replace (64 * 17 + i) with (1088 + i) by lia.
    apply (V_re _ _ _ _ _ _ _ _ _ HV). lia.
Qed.

Lemma get_popcnt0_wp S u w o r v a0 a1 st (Q : Z -> Prop) :
  V S u w o r v a0 a1 st -> Q a0 -> wp (get_popcnt c st 0) Q.
Proof.
  intros HV HQ. pose proof (V_limit _ _ _ _ _ _ _ _ _ HV). apply rd_wp; [lia|lia|].
  rewrite Z.shiftr_0_r. rewrite (V_p0 _ _ _ _ _ _ _ _ _ HV). exact HQ.
Qed.
Lemma get_popcnt1_wp S u w o r v a0 a1 st (Q : Z -> Prop) :
  V S u w o r v a0 a1 st -> Q a1 -> wp (get_popcnt c st 1) Q.
Proof.
  intros HV HQ. pose proof (V_limit _ _ _ _ _ _ _ _ _ HV). apply rd_wp; [lia|lia|].
  change (32 * 1) with 32. rewrite (V_p1 _ _ _ _ _ _ _ _ _ HV). exact HQ.
Qed.

(** ** Scanning bitmaps *)
Lemma next_set_wp st base lim pos (Q : Z -> Prop) :
  0 <= base -> 0 <= pos + 1 <= lim -> 64 * (base + lim / 64) + 64 <= limit c st ->
  (forall e, pos < e -> e <= lim + 64 ->
     (forall i, pos < i < e -> i < lim -> tb st (64 * base + i) = false) ->
     (e < lim -> tb st (64 * base + e) = true) -> Q e) ->
  wp (next_set c st base lim pos) Q.
Proof.
  intros Hb Hp Hl HQ. unfold next_set.
  apply (wp_loop
    (fun x => pos + 1 <= x <= lim /\ forall i, pos < i < x -> tb st (64 * base + i) = false)
    (fun x => lim - x)).
  - intros x (Hx & Hz).
    pose proof (div_mod_64 x) as [Ex Rx]. assert (0 <= x / 64) by (apply Z.div_pos; lia).
    apply wp_bind, rdw_wp; [lia| |].
    { pose proof (Z.div_le_mono x lim 64 ltac:(lia) ltac:(lia)). lia. }
    fold (word st (base + x / 64)).
    set (y := Z.ldiff (word st (base + x / 64)) (bitmask (x mod 64))).
    assert (Hy : forall k, 0 <= k -> Z.testbit y k =
              (x mod 64 <=? k) && ((k <? 64) && tb st (64 * base + (64 * (x / 64) + k)))).
    { intros k Hk. unfold y, bitmask. rewrite Z.ldiff_spec, word_testbit, ones_testbit by lia.
      replace (64 * (base + x / 64) + k) with (64 * base + (64 * (x / 64) + k)) by lia.
      destruct (Z.ltb_spec k (x mod 64)), (Z.leb_spec (x mod 64) k); try (exfalso; lia); simpl.
      - rewrite andb_false_r; reflexivity. - rewrite andb_true_r; reflexivity. }
    assert (Hyr : 0 <= y < 2 ^ 64).
    { apply bits_lt_pow; [lia|]. intros i Hi. rewrite Hy by lia.
      destruct (Z.ltb_spec i 64); [exfalso; lia|]. rewrite andb_false_r. reflexivity. }
    unfold lowbit_pos. simpl.
    destruct (Z.eqb_spec (tzcnt y) 64) as [E|E].
    + assert (y = 0). { destruct (Z.eq_dec y 0); auto. pose proof (tzcnt_lt y). lia. }
      assert (Hz' : forall i, pos < i < 64 * (x / 64) + 64 -> tb st (64 * base + i) = false).
      { intros i Hi. destruct (Z.ltb_spec i x); [apply Hz; lia|].
        specialize (Hy (i - 64 * (x / 64)) ltac:(lia)). rewrite H0, Z.testbit_0_l in Hy.
        destruct (Z.leb_spec (x mod 64) (i - 64 * (x / 64))); [|exfalso; lia].
        destruct (Z.ltb_spec (i - 64 * (x / 64)) 64); [|exfalso; lia]. simpl in Hy.
        rewrite Hy. f_equal. lia. }
      rewrite E. replace (x + (64 - x mod 64)) with (64 * (x / 64) + 64) by lia.
      destruct (Z.ltb_spec (64 * (x / 64) + 64) lim); simpl.
      * split; [|lia]. split; [lia|]. intros i Hi. apply Hz'. lia.
      * apply HQ; try lia. intros i Hi _. apply Hz'. lia.
    + simpl. assert (0 < y). { destruct (Z.eq_dec y 0) as [Hy0|]; [rewrite Hy0 in E; simpl in E; lia|lia]. }
      destruct (tzcnt_spec y) as (T0 & T1 & T2); [lia|]. set (k := tzcnt y) in *.
      rewrite Hy in T1 by lia. apply andb_prop in T1 as [T1a T1]. apply andb_prop in T1 as [T1b T1].
      assert (x mod 64 <= k < 64) by lia.
      apply HQ; try lia.
      * intros i Hi _. destruct (Z.ltb_spec i x); [apply Hz; lia|].
        specialize (T2 (i - 64 * (x / 64)) ltac:(lia)). rewrite Hy in T2 by lia.
        destruct (Z.leb_spec (x mod 64) (i - 64 * (x / 64))); [|exfalso; lia].
        destruct (Z.ltb_spec (i - 64 * (x / 64)) 64); [|exfalso; lia]. simpl in T2.
        rewrite <- T2. f_equal. lia.
      * intros _. rewrite <- T1. f_equal. lia.
  - split; [lia|]. intros; lia.
  - lia.
Qed.

Lemma prev_set_wp st base pos (Q : Z -> Prop) :
  0 <= base -> 0 <= pos -> 64 * (base + Z.max 0 (pos - 1) / 64) + 64 <= limit c st ->
  (forall e, -1 <= e < pos ->
     (forall i, e < i < pos -> tb st (64 * base + i) = false) ->
     (0 <= e -> tb st (64 * base + e) = true) -> Q e) ->
  wp (prev_set c st base pos) Q.
Proof.
  intros Hb Hp Hl HQ. unfold prev_set.
  apply (wp_loop
    (fun x => -1 <= x < pos /\ (x = -1 -> pos = 0) /\ forall i, x < i < pos -> tb st (64 * base + i) = false)
    (fun x => x + 1)).
  - intros x (Hx & Hx0 & Hz).
    destruct (Z.eq_dec x (-1)) as [->|Hne].
    + change (Z.quot (-1) 64) with 0. change (Z.rem (-1) 64) with (-1).
      rewrite Z.add_0_r. rewrite Hx0 in Hl by lia. change (Z.max 0 (0 - 1) / 64) with 0 in Hl.
      apply wp_bind, rdw_wp; [lia|lia|]. change (bitmask (-1 + 1)) with 0. rewrite Z.land_0_r.
      rewrite highbit_pos_0. simpl. apply HQ; try lia; exact Hz.
    + assert (0 <= x) by lia. rewrite Z.rem_mod_nonneg, Z.quot_div_nonneg by lia.
      pose proof (div_mod_64 x) as [Ex Rx]. assert (0 <= x / 64) by (apply Z.div_pos; lia).
      apply wp_bind, rdw_wp; [lia| |].
      { pose proof (Z.div_le_mono x (Z.max 0 (pos - 1)) 64 ltac:(lia) ltac:(lia)). lia. }
      fold (word st (base + x / 64)).
      set (y := Z.land (word st (base + x / 64)) (bitmask (x mod 64 + 1))).
      assert (Hy : forall k, 0 <= k -> Z.testbit y k =
                (k <=? x mod 64) && tb st (64 * base + (64 * (x / 64) + k))).
      { intros k Hk. unfold y, bitmask. rewrite Z.land_spec, word_testbit, ones_testbit by lia.
        replace (64 * (base + x / 64) + k) with (64 * base + (64 * (x / 64) + k)) by lia.
        destruct (Z.ltb_spec k 64), (Z.ltb_spec k (x mod 64 + 1)), (Z.leb_spec k (x mod 64)); try (exfalso; lia); simpl;
          rewrite ?andb_false_r, ?andb_true_r; reflexivity. }
      assert (Hyr : 0 <= y < 2 ^ 64).
      { apply bits_lt_pow; [lia|]. intros i Hi. rewrite Hy by lia.
        destruct (Z.leb_spec i (x mod 64)); [exfalso; lia|]. reflexivity. }
      simpl. destruct (Z.eq_dec y 0) as [Ey|Ey].
      * rewrite Ey, highbit_pos_0. simpl.
        assert (Hz' : forall i, 64 * (x / 64) <= i < pos -> tb st (64 * base + i) = false).
        { intros i Hi. destruct (Z.ltb_spec x i); [apply Hz; lia|].
          specialize (Hy (i - 64 * (x / 64)) ltac:(lia)). rewrite Ey, Z.testbit_0_l in Hy.
          destruct (Z.leb_spec (i - 64 * (x / 64)) (x mod 64)); [|exfalso; lia]. simpl in Hy.
          rewrite Hy. f_equal. lia. }
        change (-1 =? -1) with true. cbv iota.
        replace (x + (- (x mod 64) - 1)) with (64 * (x / 64) - 1) by lia. simpl.
        destruct (Z.leb_spec 0 (64 * (x / 64) - 1)); simpl.
        -- split; [|lia]. split; [lia|]. split; [lia|]. intros i Hi. apply Hz'. lia.
        -- apply HQ; try lia. intros i Hi. apply Hz'. lia.
      * destruct (highbit_pos_spec y) as (T0 & T1 & T2); [lia|]. set (k := highbit_pos y) in *.
        destruct (Z.eqb_spec k (-1)); [exfalso; lia|]. simpl.
        rewrite Hy in T1 by lia. apply andb_prop in T1 as [T1a T1].
        apply HQ; try lia.
        -- intros i Hi. destruct (Z.ltb_spec x i); [apply Hz; lia|].
           specialize (T2 (i - 64 * (x / 64)) ltac:(lia)). rewrite Hy in T2 by lia.
           destruct (Z.leb_spec (i - 64 * (x / 64)) (x mod 64)); [|exfalso; lia]. simpl in T2.
           rewrite <- T2. f_equal. lia.
        -- intros _. rewrite <- T1. f_equal. lia.
  - split; [lia|]. split; [lia|]. intros; lia.
  - lia.
Qed.

Lemma next_occupied_wp S u w o r v a0 a1 st pos (Q : Z -> Prop) :
  V S u w o r v a0 a1 st -> -1 <= pos < 1024 ->
  (forall e, pos < e -> e <= 1088 -> (forall i, pos < i < e -> i < 1024 -> o i = false) ->
     (e < 1024 -> o e = true) -> Q e) ->
  wp (next_occupied c st pos) Q.
Proof.
  intros HV Hp HQ. apply next_set_wp; unfold occ_base, target_size; try lia.
  - apply (V_owords _ _ _ _ _ _ _ _ _ _ HV). lia.
  - intros e He He2 Hz Ht. apply HQ; try lia.
    + intros i Hi Hi2. rewrite <- (V_occ _ _ _ _ _ _ _ _ _ HV) by lia.
      rewrite <- (Hz i) by lia. f_equal; lia.
    + intros Hlt. rewrite <- (V_occ _ _ _ _ _ _ _ _ _ HV) by lia. rewrite <- Ht by lia. f_equal; lia.
Qed.
Lemma next_runend_wp S u w o r v a0 a1 st pos (Q : Z -> Prop) :
  V S u w o r v a0 a1 st -> -1 <= pos < S ->
  (forall e, pos < e -> e <= S + 64 -> (forall i, pos < i < e -> i < S -> r i = false) ->
     (e < S -> r e = true) -> Q e) ->
  wp (next_runend c st pos) Q.
Proof.
  intros HV Hp HQ. unfold next_runend. rewrite (V_slots _ _ _ _ _ _ _ _ _ HV), re_base_17.
  apply next_set_wp; try lia.
  - apply (V_words _ _ _ _ _ _ _ _ _ _ HV). lia.
  - intros e He He2 Hz Ht. apply HQ; try lia.
    + intros i Hi Hi2. rewrite <- (V_re _ _ _ _ _ _ _ _ _ HV) by lia.
      rewrite <- (Hz i) by lia. f_equal; lia.
    + intros Hlt. rewrite <- (V_re _ _ _ _ _ _ _ _ _ HV) by lia. rewrite <- Ht by lia. f_equal; lia.
Qed.
Lemma prev_runend_wp S u w o r v a0 a1 st pos (Q : Z -> Prop) :
  V S u w o r v a0 a1 st -> 0 <= pos <= S ->
  (forall e, -1 <= e < pos -> (forall i, e < i < pos -> r i = false) ->
     (0 <= e -> r e = true) -> Q e) ->
  wp (prev_runend c st pos) Q.
Proof.
  intros HV Hp HQ. unfold prev_runend. rewrite re_base_17. pose proof (V_S _ _ _ _ _ _ _ _ _ HV).
  apply prev_set_wp; try lia.
  - apply (V_words _ _ _ _ _ _ _ _ _ _ HV). lia.
  - intros e He Hz Ht. apply HQ; try lia.
    + intros i Hi. rewrite <- (V_re _ _ _ _ _ _ _ _ _ HV) by lia.
      rewrite <- (Hz i) by lia. f_equal; lia.
    + intros Hlt. rewrite <- (V_re _ _ _ _ _ _ _ _ _ HV) by lia. rewrite <- Ht by lia. f_equal; lia.
Qed.
Lemma prev_occupied_wp S u w o r v a0 a1 st pos (Q : Z -> Prop) :
  V S u w o r v a0 a1 st -> 0 <= pos <= 1024 ->
  (forall e, -1 <= e < pos -> (forall i, e < i < pos -> o i = false) ->
     (0 <= e -> o e = true) -> Q e) ->
  wp (prev_occupied c st pos) Q.
Proof.
  intros HV Hp HQ. unfold prev_occupied, occ_base.
  apply prev_set_wp; try lia.
  - apply (V_owords _ _ _ _ _ _ _ _ _ _ HV). lia.
  - intros e He Hz Ht. apply HQ; try lia.
    + intros i Hi. rewrite <- (V_occ _ _ _ _ _ _ _ _ _ HV) by lia.
      rewrite <- (Hz i) by lia. f_equal; lia.
    + intros Hlt. rewrite <- (V_occ _ _ _ _ _ _ _ _ _ HV) by lia. rewrite <- Ht by lia. f_equal; lia.
Qed.

(** ** Rank and select *)
Lemma word_pop st i : 0 <= i -> popcount (word st i) = count (tb st) (64 * i) (64 * i + 64).
Proof.
  intros. rewrite (popcount_count _ 64) by (try apply word_range; lia).
  rewrite (count_ext _ (fun k => tb st (k + 64 * i))).
  - rewrite count_shift. f_equal; lia.
  - intros k Hk. rewrite word_testbit by lia. destruct (Z.ltb_spec k 64); [|exfalso; lia].
    simpl. f_equal. lia.
Qed.
Lemma word_rank st i k : 0 <= i -> 0 <= k <= 64 ->
  bit_rank (word st i) k = count (tb st) (64 * i) (64 * i + k).
Proof.
  intros. rewrite bit_rank_count by (try apply word_range; lia).
  rewrite (count_ext _ (fun k => tb st (k + 64 * i))).
  - rewrite count_shift. f_equal; lia.
  - intros j Hj. rewrite word_testbit by lia. destruct (Z.ltb_spec j 64); [|exfalso; lia].
    simpl. f_equal. lia.
Qed.

Lemma count_occ S u w o r v a0 a1 st a b : V S u w o r v a0 a1 st -> 0 <= a -> b <= 1024 ->
  count (tb st) (64 + a) (64 + b) = count o a b.
Proof.
  intros HV Ha Hb. rewrite <- (count_ext (fun i => tb st (i + 64)) o).
  - rewrite count_shift. f_equal; lia.
  - intros i Hi. rewrite <- (V_occ _ _ _ _ _ _ _ _ _ HV) by lia. f_equal; lia.
Qed.
Lemma count_re S u w o r v a0 a1 st a b : V S u w o r v a0 a1 st -> 0 <= a -> b <= S ->
  count (tb st) (1088 + a) (1088 + b) = count r a b.
Proof.
  intros HV Ha Hb. rewrite <- (count_ext (fun i => tb st (i + 1088)) r).
  - rewrite count_shift. f_equal; lia.
  - intros i Hi. rewrite <- (V_re _ _ _ _ _ _ _ _ _ HV) by lia. f_equal; lia.
Qed.

Lemma rank_occupieds_wp S u w o r v a0 a1 st pos (Q : Z -> Prop) :
  V S u w o r v a0 a1 st -> 0 <= pos < 1024 -> a0 = count o 0 512 ->
  Q (count o 0 pos) -> wp (rank_occupieds c st pos) Q.
Proof.
  intros HV Hp Ha HQ. unfold rank_occupieds, occ_base. change (target_size / 2) with 512. change (target_size / 128) with 8.
  pose proof (div_mod_64 pos) as [Ep Rp].
  set (i0 := if 512 <=? pos then 8 else 0).
  apply wp_bind.
  apply (wp_mono _ (fun r0 => r0 = count o 0 (64 * i0))).
  { unfold i0. destruct (512 <=? pos).
    - apply (get_popcnt0_wp _ _ _ _ _ _ _ _ _ _ HV). rewrite Ha. reflexivity.
    - simpl. reflexivity. }
  intros r0 ->. apply wp_bind.
  apply (wp_forz (fun i acc => acc = count o 0 (64 * i))).
  - reflexivity.
  - intros i acc Hi ->.
    assert (0 <= i0) by (unfold i0; destruct (512 <=? pos); lia).
    assert (i0 <= pos / 64) by (unfold i0; destruct (Z.leb_spec 512 pos); lia).
    apply wp_bind, rdw_wp; [lia| |].
    { pose proof (V_owords _ _ _ _ _ _ _ _ _ (64 * i) HV ltac:(lia)). rewrite div64 in H1. lia. }
    fold (word st (1 + i)). simpl. rewrite word_pop by lia.
    replace (64 * (1 + i)) with (64 + 64 * i) by lia.
    replace (64 + 64 * i + 64) with (64 + (64 * i + 64)) by lia.
    rewrite (count_occ _ _ _ _ _ _ _ _ _ _ _ HV) by lia.
    replace (64 * (i + 1)) with (64 * i + 64) by lia.
    rewrite (count_split o 0 (64 * i) (64 * i + 64)) by lia. reflexivity.
  - intros acc ->.
    assert (i0 <= pos / 64) by (unfold i0; destruct (Z.leb_spec 512 pos); lia).
    assert (0 <= i0) by (unfold i0; destruct (512 <=? pos); lia).
    replace (64 * (i0 + Z.of_nat (Z.to_nat (pos / 64 - i0)))) with (64 * (pos / 64)) by lia.
    apply wp_bind, rdw_wp; [lia| |].
    { apply (V_owords _ _ _ _ _ _ _ _ _ _ HV). lia. }
    fold (word st (1 + pos / 64)). simpl. rewrite word_rank by lia.
    replace (64 * (1 + pos / 64)) with (64 + 64 * (pos / 64)) by lia.
    replace (64 + 64 * (pos / 64) + pos mod 64) with (64 + pos) by lia.
    rewrite (count_occ _ _ _ _ _ _ _ _ _ _ _ HV) by lia.
    rewrite <- (count_split o 0 (64 * (pos / 64)) pos) by lia. exact HQ.
Qed.

Lemma select_runends_wp S u w o r v a0 a1 st rank e (Q : Z -> Prop) :
  V S u w o r v a0 a1 st -> a1 = count r 0 (Z.min 512 S) ->
  0 <= e < S -> r e = true -> count r 0 e = rank ->
  Q e -> wp (select_runends c st rank) Q.
Proof.
  intros HV Ha He Hre Hc HQ. unfold select_runends. rewrite (V_slots _ _ _ _ _ _ _ _ _ HV), re_base_17.
  change (target_size / 128) with 8. apply wp_bind. apply (get_popcnt1_wp _ _ _ _ _ _ _ _ _ _ HV).
  set (R := fun i => tb st (1088 + i)).
  assert (HR : forall i, 0 <= i < S -> R i = r i) by (intros; apply (V_re _ _ _ _ _ _ _ _ _ HV); auto).
  assert (HRc : forall j, 0 <= j <= S -> count R 0 j = count r 0 j).
  { intros j Hj. apply count_ext. intros i Hi. apply HR. lia. }
  assert (Hgt : forall j, e < j -> rank < count R 0 j).
  { intros j Hj. rewrite (count_split R 0 (e + 1) j), count_snoc by lia.
    rewrite HRc, HR by lia. rewrite Hre, Hc. pose proof (count_range R (e + 1) j). simpl. lia. }
  set (i0 := if a1 <=? rank then 8 else 0).
  assert (Hi0 : 64 * i0 <= e /\ (if a1 <=? rank then a1 else 0) = count R 0 (64 * i0) /\ 0 <= i0).
  { unfold i0. destruct (Z.leb_spec a1 rank); [|split; [lia|]; split; [reflexivity|lia]].
    assert (512 <= e).
    { destruct (Z.leb_spec 512 e); auto. specialize (Hgt (Z.min 512 S) ltac:(lia)).
      rewrite HRc in Hgt by lia. lia. }
    split; [lia|]. split; [|lia]. change (64 * 8) with 512. rewrite HRc by lia. rewrite Ha. f_equal. lia. }
  destruct Hi0 as (Hi0 & Ht0 & Hi00).
  assert (0 <= rank). { rewrite <- Hc. apply count_range. lia. }
  set (tw := (S + 63) / 64). assert (Htw : S <= 64 * tw < S + 64).
  { unfold tw. pose proof (div_mod_64 (S + 63)). lia. }
  apply wp_bind.
  apply (wp_loop
    (fun x : Z * Z * Z => let '(i, old, tot) := x in
       i0 <= i <= tw /\ tot = count R 0 (64 * i) /\
       (i = i0 \/ i0 < i /\ old = count R 0 (64 * (i - 1)) /\ 64 * (i - 1) <= e))
    (fun x => let '(i, _, _) := x in tw - i)).
  - intros [[i old] tot] (Hi & Htot & Hold).
    destruct (Z.leb_spec tot rank) as [Hle|Hlt]; simpl.
    + assert (64 * i <= e).
      { destruct (Z.leb_spec (64 * i) e); auto. specialize (Hgt (64 * i) ltac:(lia)). lia. }
      destruct (Z.ltb_spec i tw); [|exfalso; lia].
      apply wp_bind, rdw_wp; [lia| |].
      { pose proof (V_words _ _ _ _ _ _ _ _ _ (64 * i) HV ltac:(lia)). rewrite div64 in H2. lia. }
      fold (word st (17 + i)). simpl. split; [|lia]. split; [lia|]. split; [|right; repeat split; try lia].
      * rewrite Htot, word_pop by lia.
        replace (64 * (17 + i)) with (64 * i + 1088) by lia.
        replace (64 * i + 1088 + 64) with (64 * i + 64 + 1088) by lia.
        rewrite <- (count_shift (tb st)).
        replace (64 * (i + 1)) with (64 * i + 64) by lia.
        rewrite (count_split R 0 (64 * i) (64 * i + 64)) by lia. f_equal.
        apply count_ext. intros. unfold R. f_equal. lia.
      * rewrite Htot. f_equal. lia.
    + assert (e < 64 * i).
      { destruct (Z.ltb_spec e (64 * i)); auto.
        assert (count R 0 (64 * i) <= count R 0 e) by (apply count_mono; lia). rewrite (HRc e) in * by lia. lia. }
      destruct Hold as [->|(Hii & -> & Hold)]; [exfalso; lia|].
      apply wp_bind, rdw_wp; [lia| |].
      { pose proof (V_words _ _ _ _ _ _ _ _ _ (64 * (i - 1)) HV ltac:(lia)). rewrite div64 in H1. lia. }
      fold (word st (17 + (i - 1))). simpl.
      assert (rank - count R 0 (64 * (i - 1)) = count R (64 * (i - 1)) e) as ->.
      { rewrite <- Hc, <- (HRc e) by lia. rewrite (count_split R 0 (64 * (i - 1)) e) by lia. lia. }
      rewrite (bit_select_spec _ _ (e - 64 * (i - 1))).
      * replace ((i - 1) * 64 + (e - 64 * (i - 1))) with e by lia. exact HQ.
      * apply count_range. lia.
      * lia.
      * rewrite word_testbit by lia. destruct (Z.ltb_spec (e - 64 * (i - 1)) 64); [|exfalso; lia]. simpl.
        rewrite <- Hre, <- (HR e) by lia. unfold R. f_equal. lia.
      * rewrite (count_ext _ (fun k => R (k + 64 * (i - 1)))).
        -- rewrite count_shift. f_equal; lia.
        -- intros k Hk. rewrite word_testbit by lia. destruct (Z.ltb_spec k 64); [|exfalso; lia]. simpl.
           unfold R. f_equal. lia.
  - split; [lia|]. split; [exact Ht0|]. left. reflexivity.
  - lia.
Qed.

(** ** Writing *)
Definition updb (f : Z -> bool) (k : Z) (x : bool) : Z -> bool := fun i => if i =? k then x else f i.
Definition updz (f : Z -> Z) (k : Z) (x : Z) : Z -> Z := fun i => if i =? k then x else f i.
(** places l..r-1 move to l+1..r, place l becomes [z] *)
Definition shr {A} (f : Z -> A) (l r : Z) (z : A) : Z -> A :=
  fun i => if i =? l then z else if (l <? i) && (i <=? r) then f (i - 1) else f i.
(** places l..r-1 move to l-1..r-2, place r-1 becomes [z] *)
Definition shl {A} (f : Z -> A) (l r : Z) (z : A) : Z -> A :=
  fun i => if i =? r - 1 then z else if (l - 1 <=? i) && (i <? r - 1) then f (i + 1) else f i.

Lemma low_shiftr_ext n m m' a a' : 0 <= a -> 0 <= a' -> 0 <= n ->
  (forall t, 0 <= t < n -> Z.testbit m (a + t) = Z.testbit m' (a' + t)) ->
  low n (Z.shiftr m a) = low n (Z.shiftr m' a').
Proof.
  intros Ha Ha' Hn H. apply Z.bits_inj'. intros i Hi. rewrite !low_testbit, !Z.shiftr_spec by lia.
  destruct (Z.ltb_spec i n); [|reflexivity]. simpl. rewrite !(Z.add_comm i). apply H. lia.
Qed.

(** frame: a change confined to the bitmaps/slots given by new bit functions *)
Lemma V_change S u w o r v a0 a1 st o' r' v' a0' a1' st' :
  V S u w o r v a0 a1 st -> same st st' ->
  (forall p, 0 <= p < 1024 -> tb st' (64 + p) = o' p) ->
  (forall i, 0 <= i < S -> tb st' (1088 + i) = r' i) ->
  (forall i, 0 <= i < S -> low s (Z.shiftr (mem st') (addr S i)) = v' i) ->
  low 32 (mem st') = a0' -> low 32 (Z.shiftr (mem st') 32) = a1' ->
  V S u w o' r' v' a0' a1' st'.
Proof.
  intros [] Hs Ho Hr Hv H0 H1. constructor; auto.
  - rewrite (same_slots c st st'); auto.
  - destruct Hs; congruence.
  - destruct Hs as (_ & _ & ->); auto.
  - destruct Hs as (_ & -> & _); auto.
  - rewrite (same_limit c st st'); auto.
Qed.

Lemma p0_frame S u w o r v a0 a1 st st' : V S u w o r v a0 a1 st ->
  (forall j, 0 <= j < 32 -> tb st' j = tb st j) -> low 32 (mem st') = a0.
Proof.
  intros [] H. rewrite <- V_p2. rewrite <- (Z.shiftr_0_r (mem st')), <- (Z.shiftr_0_r (mem st)).
  apply low_shiftr_ext; try lia. intros t Ht. apply (H t). lia.
Qed.
Lemma p1_frame S u w o r v a0 a1 st st' : V S u w o r v a0 a1 st ->
  (forall j, 32 <= j < 64 -> tb st' j = tb st j) -> low 32 (Z.shiftr (mem st') 32) = a1.
Proof.
  intros [] H. rewrite <- V_p3.
  apply low_shiftr_ext; try lia. intros t Ht. apply (H (32 + t)). lia.
Qed.
Lemma sl_frame S u w o r v a0 a1 st st' i k : V S u w o r v a0 a1 st -> 0 <= k < S -> 0 <= i ->
  (forall t, 0 <= t < s -> tb st' (addr S i + t) = tb st (addr S k + t)) ->
  low s (Z.shiftr (mem st') (addr S i)) = v k.
Proof.
  intros [] Hk Hi H. rewrite <- V_sl0 by lia.
  apply low_shiftr_ext; try (unfold addr; nia). exact H.
Qed.
Lemma sl_frame0 S u w o r v a0 a1 st st' i : V S u w o r v a0 a1 st -> 0 <= i ->
  (forall t, 0 <= t < s -> tb st' (addr S i + t) = false) ->
  low s (Z.shiftr (mem st') (addr S i)) = 0.
Proof.
  intros [] Hi H. apply Z.bits_inj'. intros j Hj. rewrite low_testbit, Z.shiftr_spec, Z.testbit_0_l by lia.
  destruct (Z.ltb_spec j s); [|reflexivity]. simpl. rewrite Z.add_comm. apply (H j). lia.
Qed.

Lemma set_occ_wp S u w o r v a0 a1 st p (Q : store -> Prop) :
  V S u w o r v a0 a1 st -> 0 <= p < 1024 ->
  (forall st', V S u w (updb o p true) r v a0 a1 st' -> Q st') -> wp (set_bit c st occ_base p) Q.
Proof.
  intros HV Hp HQ. pose proof (V_S _ _ _ _ _ _ _ _ _ HV). pose proof (V_s _ _ _ _ _ _ _ _ _ HV).
  apply set_bit_wp; unfold occ_base; try lia.
  - apply (V_owords _ _ _ _ _ _ _ _ _ _ HV). lia.
  - intros st' Hs Hb. apply HQ. apply (V_change _ _ _ _ _ _ _ _ _ _ _ _ _ _ _ HV Hs).
    + intros q Hq. rewrite Hb by lia. unfold updb. rewrite (V_occ _ _ _ _ _ _ _ _ _ HV) by lia.
      replace (64 + q =? 64 * 1 + p) with (q =? p) by lia. destruct (q =? p); reflexivity.
    + intros i Hi. rewrite Hb by lia. destruct (Z.eqb_spec (1088 + i) (64 * 1 + p)); [exfalso; lia|].
      apply (V_re _ _ _ _ _ _ _ _ _ HV). lia.
    + intros i Hi. apply (sl_frame _ _ _ _ _ _ _ _ _ _ _ _ HV); try lia. intros t Ht.
      rewrite Hb by (unfold addr; nia). destruct (Z.eqb_spec (addr S i + t) (64 * 1 + p)); [exfalso; unfold addr in *; nia|]. reflexivity.
    + apply (p0_frame _ _ _ _ _ _ _ _ _ _ HV). intros j Hj. rewrite Hb by lia.
      destruct (Z.eqb_spec j (64 * 1 + p)); [exfalso; lia|reflexivity].
    + apply (p1_frame _ _ _ _ _ _ _ _ _ _ HV). intros j Hj. rewrite Hb by lia.
      destruct (Z.eqb_spec j (64 * 1 + p)); [exfalso; lia|reflexivity].
Qed.
Lemma reset_occ_wp S u w o r v a0 a1 st p (Q : store -> Prop) :
  V S u w o r v a0 a1 st -> 0 <= p < 1024 ->
  (forall st', V S u w (updb o p false) r v a0 a1 st' -> Q st') -> wp (reset_bit c st occ_base p) Q.
Proof.
  intros HV Hp HQ. pose proof (V_S _ _ _ _ _ _ _ _ _ HV). pose proof (V_s _ _ _ _ _ _ _ _ _ HV).
  apply reset_bit_wp; unfold occ_base; try lia.
  - apply (V_owords _ _ _ _ _ _ _ _ _ _ HV). lia.
  - intros st' Hs Hb. apply HQ. apply (V_change _ _ _ _ _ _ _ _ _ _ _ _ _ _ _ HV Hs).
    + intros q Hq. rewrite Hb by lia. unfold updb. rewrite (V_occ _ _ _ _ _ _ _ _ _ HV) by lia.
      replace (64 + q =? 64 * 1 + p) with (q =? p) by lia. destruct (q =? p); reflexivity.
    + intros i Hi. rewrite Hb by lia. destruct (Z.eqb_spec (1088 + i) (64 * 1 + p)); [exfalso; lia|].
      apply (V_re _ _ _ _ _ _ _ _ _ HV). lia.
    + intros i Hi. apply (sl_frame _ _ _ _ _ _ _ _ _ _ _ _ HV); try lia. intros t Ht.
      rewrite Hb by (unfold addr; nia). destruct (Z.eqb_spec (addr S i + t) (64 * 1 + p)); [exfalso; unfold addr in *; nia|]. reflexivity.
    + apply (p0_frame _ _ _ _ _ _ _ _ _ _ HV). intros j Hj. rewrite Hb by lia.
      destruct (Z.eqb_spec j (64 * 1 + p)); [exfalso; lia|reflexivity].
    + apply (p1_frame _ _ _ _ _ _ _ _ _ _ HV). intros j Hj. rewrite Hb by lia.
      destruct (Z.eqb_spec j (64 * 1 + p)); [exfalso; lia|reflexivity].
Qed.

Lemma set_re_wp S u w o r v a0 a1 st p (Q : store -> Prop) :
  V S u w o r v a0 a1 st -> 0 <= p < S ->
  (forall st', V S u w o (updb r p true) v a0 a1 st' -> Q st') -> wp (set_bit c st re_base p) Q.
Proof.
  intros HV Hp HQ. pose proof (V_S _ _ _ _ _ _ _ _ _ HV). pose proof (V_s _ _ _ _ _ _ _ _ _ HV).
  rewrite re_base_17. apply set_bit_wp; try lia.
  - apply (V_words _ _ _ _ _ _ _ _ _ _ HV). lia.
  - intros st' Hs Hb. apply HQ. apply (V_change _ _ _ _ _ _ _ _ _ _ _ _ _ _ _ HV Hs).
    + intros i Hi. rewrite Hb by lia. destruct (Z.eqb_spec (64 + i) (64 * 17 + p)); [exfalso; lia|].
      apply (V_occ _ _ _ _ _ _ _ _ _ HV). lia.
    + intros q Hq. rewrite Hb by lia. unfold updb. rewrite (V_re _ _ _ _ _ _ _ _ _ HV) by lia.
      replace (1088 + q =? 64 * 17 + p) with (q =? p) by lia. destruct (q =? p); reflexivity.
    + intros i Hi. apply (sl_frame _ _ _ _ _ _ _ _ _ _ _ _ HV); try lia. intros t Ht.
      rewrite Hb by (unfold addr; nia). destruct (Z.eqb_spec (addr S i + t) (64 * 17 + p)); [exfalso; unfold addr in *; nia|]. reflexivity.
    + apply (p0_frame _ _ _ _ _ _ _ _ _ _ HV). intros j Hj. rewrite Hb by lia.
      destruct (Z.eqb_spec j (64 * 17 + p)); [exfalso; lia|reflexivity].
    + apply (p1_frame _ _ _ _ _ _ _ _ _ _ HV). intros j Hj. rewrite Hb by lia.
      destruct (Z.eqb_spec j (64 * 17 + p)); [exfalso; lia|reflexivity].
Qed.
Lemma reset_re_wp S u w o r v a0 a1 st p (Q : store -> Prop) :
  V S u w o r v a0 a1 st -> 0 <= p < S ->
  (forall st', V S u w o (updb r p false) v a0 a1 st' -> Q st') -> wp (reset_bit c st re_base p) Q.
Proof.
  intros HV Hp HQ. pose proof (V_S _ _ _ _ _ _ _ _ _ HV). pose proof (V_s _ _ _ _ _ _ _ _ _ HV).
  rewrite re_base_17. apply reset_bit_wp; try lia.
  - apply (V_words _ _ _ _ _ _ _ _ _ _ HV). lia.
  - intros st' Hs Hb. apply HQ. apply (V_change _ _ _ _ _ _ _ _ _ _ _ _ _ _ _ HV Hs).
    + intros i Hi. rewrite Hb by lia. destruct (Z.eqb_spec (64 + i) (64 * 17 + p)); [exfalso; lia|].
      apply (V_occ _ _ _ _ _ _ _ _ _ HV). lia.
    + intros q Hq. rewrite Hb by lia. unfold updb. rewrite (V_re _ _ _ _ _ _ _ _ _ HV) by lia.
      replace (1088 + q =? 64 * 17 + p) with (q =? p) by lia. destruct (q =? p); reflexivity.
    + intros i Hi. apply (sl_frame _ _ _ _ _ _ _ _ _ _ _ _ HV); try lia. intros t Ht.
      rewrite Hb by (unfold addr; nia). destruct (Z.eqb_spec (addr S i + t) (64 * 17 + p)); [exfalso; unfold addr in *; nia|]. reflexivity.
    + apply (p0_frame _ _ _ _ _ _ _ _ _ _ HV). intros j Hj. rewrite Hb by lia.
      destruct (Z.eqb_spec j (64 * 17 + p)); [exfalso; lia|reflexivity].
    + apply (p1_frame _ _ _ _ _ _ _ _ _ _ HV). intros j Hj. rewrite Hb by lia.
      destruct (Z.eqb_spec j (64 * 17 + p)); [exfalso; lia|reflexivity].
Qed.

Lemma slot_disjoint i k t : 0 < s -> i <> k -> 0 <= t < s ->
  forall S, addr S i + t < addr S k \/ addr S k + s <= addr S i + t.
Proof. intros. unfold addr. assert (i < k \/ k < i) as [Hlt|Hlt] by lia; [left|right]; nia. Qed.

Lemma set_slot_wp S u w o r v a0 a1 st pos x (Q : store -> Prop) :
  V S u w o r v a0 a1 st -> 0 <= pos < S -> 0 <= x < 2 ^ s ->
  (forall st', V S u w o r (updz v pos x) a0 a1 st' -> Q st') -> wp (set_slot c s st pos x) Q.
Proof.
  intros HV Hp Hx HQ. pose proof HV as []. unfold set_slot.
  assert (slot_addr c st s pos = addr S pos) as ->.
  { unfold slot_addr, addr, target_size. rewrite V_slots0. lia. }
  set (b := addr S pos). assert (0 <= b) by (unfold b, addr; nia).
  assert (b <= addr S S) by (unfold b, addr; nia).
  assert (b / 8 <= addr S S / 8) by (apply Z.div_le_mono; lia).
  assert (0 <= b / 8) by (apply Z.div_pos; lia).
  apply wp_bind, rd_wp; [lia|lia|].
  assert (Hb : b = 8 * (b / 8) + b mod 8) by (apply Z.div_mod; lia).
  assert (Hm : 0 <= b mod 8 < 8) by (apply Z.mod_pos_bound; lia).
  apply wr_wp; [lia|lia|lia|]. intros st' Hs Hj.
  assert (Hbits : forall j, 0 <= j -> tb st' j = if (b <=? j) && (j <? b + s) then Z.testbit x (j - b) else tb st j).
  { intros j Hj0. rewrite Hj by lia. set (B := 8 * (b / 8)) in *.
    destruct (Z.leb_spec B j), (Z.ltb_spec j (B + 64)); simpl.
    - unfold bitmask. rewrite <- (low_small s x) at 1 by lia. rewrite wr_testbit by lia.
      rewrite low_testbit, Z.shiftr_spec by lia.
      replace (b mod 8 <=? j - B) with (b <=? j) by lia.
      replace (j - B <? b mod 8 + s) with (j <? b + s) by lia.
      replace (j - B - b mod 8) with (j - b) by lia.
      destruct ((b <=? j) && (j <? b + s)); [reflexivity|].
      destruct (Z.ltb_spec (j - B) 64); [|exfalso; lia]. simpl. unfold tb. f_equal. lia.
    - destruct (Z.ltb_spec j (b + s)); [exfalso; lia|]. rewrite andb_false_r. reflexivity.
    - destruct (Z.leb_spec b j); [exfalso; lia|]. reflexivity.
    - exfalso; lia. }
  apply HQ. apply (V_change _ _ _ _ _ _ _ _ _ _ _ _ _ _ _ HV Hs).
  - intros p Hp'. rewrite Hbits by lia. destruct (Z.leb_spec b (64 + p)); [exfalso; unfold b, addr in *; nia|].
    simpl. auto.
  - intros i Hi. rewrite Hbits by lia. destruct (Z.leb_spec b (1088 + i)); [exfalso; unfold b, addr in *; nia|].
    simpl. auto.
  - intros i Hi. unfold updz. destruct (Z.eqb_spec i pos) as [->|Hne].
    + apply Z.bits_inj'. intros j Hj0. rewrite low_testbit, Z.shiftr_spec by lia. fold b. fold (tb st' (j + b)).
      rewrite Hbits by lia. destruct (Z.ltb_spec j s).
      * destruct (Z.leb_spec b (j + b)); [|exfalso; lia]. destruct (Z.ltb_spec (j + b) (b + s)); [|exfalso; lia].
        simpl. f_equal. lia.
      * simpl. symmetry. apply (testbit_lt_pow x s); lia.
    + apply (sl_frame _ _ _ _ _ _ _ _ _ _ _ _ HV); try lia. intros t Ht.
      rewrite Hbits by (unfold addr; nia).
      pose proof (slot_disjoint i pos t ltac:(lia) Hne Ht S) as [Hd|Hd]; fold b in Hd.
      * destruct (Z.leb_spec b (addr S i + t)); [exfalso; lia|]. reflexivity.
      * destruct (Z.ltb_spec (addr S i + t) (b + s)); [exfalso; lia|]. rewrite andb_false_r. reflexivity.
  - apply (p0_frame _ _ _ _ _ _ _ _ _ _ HV). intros j Hj0. rewrite Hbits by lia.
    destruct (Z.leb_spec b j); [exfalso; unfold b, addr in *; nia|reflexivity].
  - apply (p1_frame _ _ _ _ _ _ _ _ _ _ HV). intros j Hj0. rewrite Hbits by lia.
    destruct (Z.leb_spec b j); [exfalso; unfold b, addr in *; nia|reflexivity].
Qed.

Lemma add_popcnt0_wp S u w o r v a0 a1 st d (Q : store -> Prop) :
  V S u w o r v a0 a1 st ->
  (forall st', V S u w o r v (u32 (a0 + d)) a1 st' -> Q st') -> wp (add_popcnt c st 0 d) Q.
Proof.
  intros HV HQ. pose proof HV as []. pose proof (V_limit _ _ _ _ _ _ _ _ _ HV). unfold add_popcnt.
  apply wp_bind. apply (get_popcnt0_wp _ _ _ _ _ _ _ _ _ _ HV).
  apply wr_wp; [lia|lia|lia|]. intros st' Hs Hj. apply HQ.
  assert (Hj' : forall j, 32 <= j -> tb st' j = tb st j).
  { intros j Hj0. rewrite Hj by lia. destruct (Z.ltb_spec j (32 * 0 + 32)); [exfalso; lia|]. rewrite andb_false_r. reflexivity. }
  apply (V_change _ _ _ _ _ _ _ _ _ _ _ _ _ _ _ HV Hs).
  - intros. rewrite Hj' by lia. auto.
  - intros. rewrite Hj' by lia. auto.
  - intros i Hi. apply (sl_frame _ _ _ _ _ _ _ _ _ _ _ _ HV); try lia. intros t Ht. apply Hj'. unfold addr. nia.
  - apply Z.bits_inj'. intros j Hj0. rewrite low_testbit by lia. unfold tb in Hj. rewrite Hj by lia.
    destruct (Z.ltb_spec j 32).
    + destruct (Z.leb_spec (32 * 0) j); [|exfalso; lia]. destruct (Z.ltb_spec j (32 * 0 + 32)); [|exfalso; lia].
      simpl. f_equal. lia.
    + simpl. symmetry. apply (testbit_lt_pow _ 32); [apply low_range|]; lia.
  - apply (p1_frame _ _ _ _ _ _ _ _ _ _ HV). intros. apply Hj'. lia.
Qed.
Lemma add_popcnt1_wp S u w o r v a0 a1 st d (Q : store -> Prop) :
  V S u w o r v a0 a1 st ->
  (forall st', V S u w o r v a0 (u32 (a1 + d)) st' -> Q st') -> wp (add_popcnt c st 1 d) Q.
Proof.
  intros HV HQ. pose proof HV as []. pose proof (V_limit _ _ _ _ _ _ _ _ _ HV). unfold add_popcnt.
  apply wp_bind. apply (get_popcnt1_wp _ _ _ _ _ _ _ _ _ _ HV).
  apply wr_wp; [lia|lia|lia|]. intros st' Hs Hj. apply HQ.
  assert (Hj' : forall j, 64 <= j \/ 0 <= j < 32 -> tb st' j = tb st j).
  { intros j Hj0. rewrite Hj by lia. destruct (Z.leb_spec (32 * 1) j), (Z.ltb_spec j (32 * 1 + 32)); simpl; auto; exfalso; lia. }
  apply (V_change _ _ _ _ _ _ _ _ _ _ _ _ _ _ _ HV Hs).
  - intros. rewrite Hj' by lia. auto.
  - intros. rewrite Hj' by lia. auto.
  - intros i Hi. apply (sl_frame _ _ _ _ _ _ _ _ _ _ _ _ HV); try lia. intros t Ht. apply Hj'. unfold addr. nia.
  - apply (p0_frame _ _ _ _ _ _ _ _ _ _ HV). intros. apply Hj'. lia.
  - apply Z.bits_inj'. intros j Hj0. rewrite low_testbit, Z.shiftr_spec by lia. unfold tb in Hj. rewrite Hj by lia.
    destruct (Z.ltb_spec j 32).
    + destruct (Z.leb_spec (32 * 1) (j + 32)); [|exfalso; lia]. destruct (Z.ltb_spec (j + 32) (32 * 1 + 32)); [|exfalso; lia].
      simpl. f_equal. lia.
    + simpl. symmetry. apply (testbit_lt_pow _ 32); [apply low_range|]; lia.
Qed.

(** ** Shifting *)
Lemma shift_slots_right_wp S u w o r v a0 a1 st l e (Q : store -> Prop) :
  V S u w o r v a0 a1 st -> 0 <= l <= e -> e < S ->
  (forall st', V S u w o r (shr v l e 0) a0 a1 st' -> Q st') ->
  wp (shift_slots_right c s st l e 1) Q.
Proof.
  intros HV Hl He HQ. pose proof HV as []. unfold shift_slots_right.
  assert (Ha : forall i, slot_addr c st s i = addr S i).
  { intros. unfold slot_addr, addr, target_size. rewrite V_slots0. lia. }
  rewrite !Ha. pose proof (V_end _ _ _ _ _ _ _ _ _ HV).
  assert (addr S l <= addr S e) by (unfold addr; nia).
  assert (addr S e + s <= addr S S) by (unfold addr; nia).
  assert (0 <= addr S l) by (unfold addr; nia).
  apply shift_bitmap_right_wp; [lia|lia|lia|lia| |].
  - replace (addr S e - 1 + 1 * s) with (addr S e + s - 1) by lia.
    assert ((addr S e + s - 1) / 64 < wc st) by (apply Z.div_lt_upper_bound; lia).
    unfold limit. destruct (c_strict c); lia.
  - rewrite !Z.mul_0_r, !Z.add_0_l, Z.mul_1_l. intros st' Hs Hj. apply HQ.
    assert (Hlow : forall j, 0 <= j < addr S l -> tb st' j = tb st j).
    { intros j Hj0. rewrite Hj by lia. destruct (Z.leb_spec (addr S l) j); [exfalso; lia|].
      destruct (Z.leb_spec (addr S l + s) j); [exfalso; lia|]. reflexivity. }
    apply (V_change _ _ _ _ _ _ _ _ _ _ _ _ _ _ _ HV Hs).
    + intros. rewrite Hlow by (unfold addr; nia). auto.
    + intros. rewrite Hlow by (unfold addr; nia). auto.
    + intros i Hi. unfold shr. destruct (Z.eqb_spec i l) as [->|Hne].
      * apply (sl_frame0 _ _ _ _ _ _ _ _ _ _ _ HV); [lia|]. intros t Ht.
        rewrite Hj by lia. destruct (Z.leb_spec (addr S l) (addr S l + t)); [|exfalso; lia].
        destruct (Z.ltb_spec (addr S l + t) (addr S l + s)); [reflexivity|exfalso; lia].
      * destruct (Z.ltb_spec l i); simpl.
        -- destruct (Z.leb_spec i e).
           ++ apply (sl_frame _ _ _ _ _ _ _ _ _ _ _ _ HV); try lia. intros t Ht.
              assert (addr S l + s <= addr S i) by (unfold addr; nia).
              assert (addr S i <= addr S e) by (unfold addr; nia).
              rewrite Hj by lia.
              destruct (Z.ltb_spec (addr S i + t) (addr S l + s)); [exfalso; lia|]. rewrite andb_false_r.
              destruct (Z.leb_spec (addr S l + s) (addr S i + t)); [|exfalso; lia].
              destruct (Z.leb_spec (addr S i + t) (addr S e - 1 + s)); [|exfalso; lia]. simpl.
              f_equal. unfold addr. lia.
           ++ apply (sl_frame _ _ _ _ _ _ _ _ _ _ _ _ HV); try lia. intros t Ht.
              assert (addr S e + s <= addr S i) by (unfold addr; nia).
              rewrite Hj by lia.
              destruct (Z.ltb_spec (addr S i + t) (addr S l + s)); [exfalso; lia|]. rewrite andb_false_r.
              destruct (Z.leb_spec (addr S i + t) (addr S e - 1 + s)); [exfalso; lia|]. rewrite andb_false_r. reflexivity.
        -- apply (sl_frame _ _ _ _ _ _ _ _ _ _ _ _ HV); try lia. intros t Ht.
           apply Hlow. assert (addr S i + s <= addr S l) by (unfold addr; nia). unfold addr in *; nia.
    + apply (p0_frame _ _ _ _ _ _ _ _ _ _ HV). intros. apply Hlow. unfold addr; nia.
    + apply (p1_frame _ _ _ _ _ _ _ _ _ _ HV). intros. apply Hlow. unfold addr; nia.
Qed.

Lemma shift_slots_left_wp S u w o r v a0 a1 st l e (Q : store -> Prop) :
  V S u w o r v a0 a1 st -> 1 <= l <= e -> e <= S ->
  (forall st', V S u w o r (shl v l e 0) a0 a1 st' -> Q st') ->
  wp (shift_slots_left c s st l e 1) Q.
Proof.
  intros HV Hl He HQ. pose proof HV as []. unfold shift_slots_left.
  assert (Ha : forall i, slot_addr c st s i = addr S i).
  { intros. unfold slot_addr, addr, target_size. rewrite V_slots0. lia. }
  rewrite !Ha. pose proof (V_end _ _ _ _ _ _ _ _ _ HV).
  assert (addr S l <= addr S e) by (unfold addr; nia).
  assert (addr S e <= addr S S) by (unfold addr; nia).
  assert (1088 + S <= addr S l - s) by (unfold addr; nia).
  assert (addr S (e - 1) = addr S e - s) by (unfold addr; lia).
  assert (addr S (l - 1) = addr S l - s) by (unfold addr; lia).
  apply shift_bitmap_left_wp; [lia|lia|lia|lia| |].
  - assert ((addr S e - 1) / 64 < wc st) by (apply Z.div_lt_upper_bound; lia).
    unfold limit. destruct (c_strict c); lia.
  - rewrite !Z.mul_0_r, !Z.add_0_l, Z.mul_1_l. intros st' Hs Hj. apply HQ.
    assert (Hlow : forall j, 0 <= j < addr S l - s -> tb st' j = tb st j).
    { intros j Hj0. rewrite Hj by lia. destruct (Z.ltb_spec (addr S e - 1 - s) j); [exfalso; lia|].
      destruct (Z.leb_spec (addr S l - s) j); [exfalso; lia|]. reflexivity. }
    apply (V_change _ _ _ _ _ _ _ _ _ _ _ _ _ _ _ HV Hs).
    + intros. rewrite Hlow by lia. auto.
    + intros. rewrite Hlow by lia. auto.
    + intros i Hi. unfold shl. destruct (Z.eqb_spec i (e - 1)) as [->|Hne].
      * apply (sl_frame0 _ _ _ _ _ _ _ _ _ _ _ HV); [lia|]. intros t Ht.
        rewrite Hj by (unfold addr; nia). destruct (Z.ltb_spec (addr S e - 1 - s) (addr S (e - 1) + t)); [|exfalso; lia].
        destruct (Z.leb_spec (addr S (e - 1) + t) (addr S e - 1)); [reflexivity|exfalso; lia].
      * destruct (Z.leb_spec (l - 1) i); simpl.
        -- destruct (Z.ltb_spec i (e - 1)).
           ++ apply (sl_frame _ _ _ _ _ _ _ _ _ _ _ _ HV); try lia. intros t Ht.
              assert (addr S l - s <= addr S i) by (unfold addr; nia).
              assert (addr S i + s <= addr S e - s) by (unfold addr; nia).
              rewrite Hj by lia.
              destruct (Z.ltb_spec (addr S e - 1 - s) (addr S i + t)); [exfalso; lia|].
              destruct (Z.leb_spec (addr S l - s) (addr S i + t)); [|exfalso; lia].
              destruct (Z.leb_spec (addr S i + t) (addr S e - 1 - s)); [|exfalso; lia]. simpl.
              f_equal. unfold addr. lia.
           ++ apply (sl_frame _ _ _ _ _ _ _ _ _ _ _ _ HV); try lia. intros t Ht.
              assert (addr S e <= addr S i) by (unfold addr; nia).
              rewrite Hj by lia.
              destruct (Z.leb_spec (addr S i + t) (addr S e - 1)); [exfalso; lia|]. rewrite andb_false_r.
              destruct (Z.leb_spec (addr S i + t) (addr S e - 1 - s)); [exfalso; lia|]. rewrite andb_false_r. reflexivity.
        -- apply (sl_frame _ _ _ _ _ _ _ _ _ _ _ _ HV); try lia. intros t Ht.
           apply Hlow. assert (addr S i + s <= addr S l - s) by (unfold addr; nia). unfold addr in *; nia.
    + apply (p0_frame _ _ _ _ _ _ _ _ _ _ HV). intros. apply Hlow. lia.
    + apply (p1_frame _ _ _ _ _ _ _ _ _ _ HV). intros. apply Hlow. lia.
Qed.

Lemma shift_runends_right_wp S u w o r v a0 a1 st l e (Q : store -> Prop) :
  V S u w o r v a0 a1 st -> 0 <= l <= e -> e < S ->
  (forall st', V S u w o (shr r l e false) v a0 a1 st' -> Q st') ->
  wp (shift_runends_right c st l e 1) Q.
Proof.
  intros HV Hl He HQ. pose proof HV as []. unfold shift_runends_right. rewrite re_base_17.
  apply shift_bitmap_right_wp; try lia.
  - replace (e - 1 + 1) with e by lia. apply (V_words _ _ _ _ _ _ _ _ _ _ HV). lia.
  - intros st' Hs Hj. apply HQ.
    assert (Hlow : forall j, 0 <= j < 1088 + l -> tb st' j = tb st j).
    { intros j Hj0. rewrite Hj by lia. destruct (Z.leb_spec (64 * 17 + l) j); [exfalso; lia|].
      destruct (Z.leb_spec (64 * 17 + l + 1) j); [exfalso; lia|]. reflexivity. }
    assert (Hhi : forall j, 1088 + e < j -> tb st' j = tb st j).
    { intros j Hj0. rewrite Hj by lia. destruct (Z.ltb_spec j (64 * 17 + l + 1)); [exfalso; lia|].
      rewrite andb_false_r. destruct (Z.leb_spec j (64 * 17 + (e - 1) + 1)); [exfalso; lia|]. rewrite andb_false_r. reflexivity. }
    apply (V_change _ _ _ _ _ _ _ _ _ _ _ _ _ _ _ HV Hs).
    + intros. rewrite Hlow by lia. auto.
    + intros i Hi. unfold shr. destruct (Z.eqb_spec i l) as [->|Hne].
      * rewrite Hj by lia. destruct (Z.leb_spec (64 * 17 + l) (1088 + l)); [|exfalso; lia].
        destruct (Z.ltb_spec (1088 + l) (64 * 17 + l + 1)); [reflexivity|exfalso; lia].
      * destruct (Z.ltb_spec l i); simpl.
        -- destruct (Z.leb_spec i e).
           ++ rewrite Hj by lia. destruct (Z.ltb_spec (1088 + i) (64 * 17 + l + 1)); [exfalso; lia|].
              rewrite andb_false_r. destruct (Z.leb_spec (64 * 17 + l + 1) (1088 + i)); [|exfalso; lia].
              destruct (Z.leb_spec (1088 + i) (64 * 17 + (e - 1) + 1)); [|exfalso; lia]. simpl.
              rewrite <- V_re0 by lia. f_equal. lia.
           ++ rewrite Hhi by lia. auto.
        -- rewrite Hlow by lia. auto.
    + intros i Hi. apply (sl_frame _ _ _ _ _ _ _ _ _ _ _ _ HV); try lia. intros t Ht. apply Hhi. unfold addr; nia.
    + apply (p0_frame _ _ _ _ _ _ _ _ _ _ HV). intros. apply Hlow. lia.
    + apply (p1_frame _ _ _ _ _ _ _ _ _ _ HV). intros. apply Hlow. lia.
Qed.
Lemma shift_runends_left_wp S u w o r v a0 a1 st l e (Q : store -> Prop) :
  V S u w o r v a0 a1 st -> 1 <= l <= e -> e <= S ->
  (forall st', V S u w o (shl r l e false) v a0 a1 st' -> Q st') ->
  wp (shift_runends_left c st l e 1) Q.
Proof.
  intros HV Hl He HQ. pose proof HV as []. unfold shift_runends_left. rewrite re_base_17.
  apply shift_bitmap_left_wp; try lia.
  - apply (V_words _ _ _ _ _ _ _ _ _ _ HV). lia.
  - intros st' Hs Hj. apply HQ.
    assert (Hlow : forall j, 0 <= j < 1088 + l - 1 -> tb st' j = tb st j).
    { intros j Hj0. rewrite Hj by lia. destruct (Z.ltb_spec (64 * 17 + (e - 1) - 1) j); [exfalso; lia|].
      destruct (Z.leb_spec (64 * 17 + l - 1) j); [exfalso; lia|]. reflexivity. }
    assert (Hhi : forall j, 1088 + e <= j -> tb st' j = tb st j).
    { intros j Hj0. rewrite Hj by lia. destruct (Z.leb_spec j (64 * 17 + (e - 1))); [exfalso; lia|].
      rewrite andb_false_r. destruct (Z.leb_spec j (64 * 17 + (e - 1) - 1)); [exfalso; lia|]. rewrite andb_false_r. reflexivity. }
    apply (V_change _ _ _ _ _ _ _ _ _ _ _ _ _ _ _ HV Hs).
    + intros. rewrite Hlow by lia. auto.
    + intros i Hi. unfold shl. destruct (Z.eqb_spec i (e - 1)) as [->|Hne].
      * rewrite Hj by lia. destruct (Z.ltb_spec (64 * 17 + (e - 1) - 1) (1088 + (e - 1))); [|exfalso; lia].
        destruct (Z.leb_spec (1088 + (e - 1)) (64 * 17 + (e - 1))); [reflexivity|exfalso; lia].
      * destruct (Z.leb_spec (l - 1) i); simpl.
        -- destruct (Z.ltb_spec i (e - 1)).
           ++ rewrite Hj by lia. destruct (Z.ltb_spec (64 * 17 + (e - 1) - 1) (1088 + i)); [exfalso; lia|].
              destruct (Z.leb_spec (64 * 17 + l - 1) (1088 + i)); [|exfalso; lia].
              destruct (Z.leb_spec (1088 + i) (64 * 17 + (e - 1) - 1)); [|exfalso; lia]. simpl.
              rewrite <- V_re0 by lia. f_equal. lia.
           ++ rewrite Hhi by lia. auto.
        -- rewrite Hlow by lia. auto.
    + intros i Hi. apply (sl_frame _ _ _ _ _ _ _ _ _ _ _ _ HV); try lia. intros t Ht. apply Hhi. unfold addr; nia.
    + apply (p0_frame _ _ _ _ _ _ _ _ _ _ HV). intros. apply Hlow. lia.
    + apply (p1_frame _ _ _ _ _ _ _ _ _ _ HV). intros. apply Hlow. lia.
Qed.
End View.
