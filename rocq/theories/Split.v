(** Insertion that splits a block (diva.hpp:741-938) keeps every stored key. *)
From Coq Require Import ZArith List Bool Lia Sorting.Sorted Permutation.
From Coq Require Import ZifyBool ZifyNat.
From Verif Require Import Base Util Store Tables Bits View Cells Lowbit StoreFind StoreInsert Key KeyBits KeyOrder Diva Tree StoreRep Spec SpecBlock Filter Match Held SplitList SplitKeys Words.
Import ListNotations.
Open Scope Z_scope.

(** ** the flags of a block *)
Lemma rep_flags c s ti w st L b p : rep c s ti w st L -> 0 <= b <= 7 ->
  rep c s ti w (set_partial_key (set_invalid_bits st b) p) L /\
  is_partial_key (set_partial_key (set_invalid_bits st b) p) = p /\ get_invalid_bits (set_partial_key (set_invalid_bits st b) p) = b.
Proof.
  intros (u & o & r & v & a0 & a1 & cl & sc & els & H1 & H2 & H3 & H4 & H5 & H6) Hb.
  assert (Eu : status st = u) by apply (V_status _ _ _ _ _ _ _ _ _ _ _ (g_V _ _ _ _ _ _ _ _ _ _ _ _ _ H3)).
  set (st1 := set_invalid_bits st b). set (st2 := set_partial_key st1 p).
  assert (Hu1 : 0 <= status st1 < 2 ^ 32) by (unfold st1, set_invalid_bits, with_status; cbn [status]; apply low_range; lia).
  destruct (fields_apart st ltac:(lia)) as (_ & _ & F1 & _). specialize (F1 b ltac:(lia)). destruct (fields_apart st1 Hu1) as (_ & _ & _ & F2). specialize (F2 p).
  fold st1 in F1. fold st2 in F2. unfold fields in F1, F2. inversion F1 as [[A1 A2 A3 A4]]. inversion F2 as [[B1 B2 B3 B4]].
  split; [|split; [reflexivity|congruence]].
  assert (Hu2 : 0 <= status st2 < 2 ^ 32).
  { unfold st2, set_partial_key, with_status; cbn [status]. apply bits_lt_pow; [lia|]. intros i Hi.
    destruct p; [rewrite Z.lor_spec|rewrite Z.ldiff_spec]; rewrite (testbit_lt_pow (status st1) 32) by lia; [|reflexivity]. rewrite shiftl1_testbit by lia. lia. }
  assert (Eg : st_grade (status st2) = st_grade u). { rewrite <- Eu. unfold get_size_grade in *. unfold st_grade. congruence. }
  assert (Ec : st_count (status st2) = st_count u). { rewrite <- Eu. unfold get_elem_count in *. unfold st_count. congruence. }
  assert (E2 : st2 = with_status st (status st2)) by reflexivity.
  exists (status st2), o, r, v, a0, a1, cl, sc, els. rewrite Eg, Ec.
  split; [exact H1|]. split; [exact Hu2|]. split; [|auto]. destruct H3 as [G1 G2 G3 G4 G5 G6]. constructor; auto.
  rewrite E2. apply (V_with_status _ _ _ _ _ _ _ _ _ _ _ _ G1). exact Eg.
Qed.

Lemma bits_at_ok c k pos w b : kok k -> 0 <= pos -> 0 <= w -> w + pos mod 8 <= 64 -> bits_at c k pos w = Ok b -> b = sl k pos w.
Proof.
  intros Hk Hp Hw He H. destruct (Z.eq_dec w 0) as [->|Hn].
  - rewrite sl_0. unfold bits_at in H. destruct (klen k <=? pos / 8); [inversion H; reflexivity|]. apply bind_ok in H as (r & _ & H).
    rewrite bitmask_rt_eq in H by lia. cbn [bind] in H. inversion H. apply Z.land_0_r.
  - rewrite bits_at_eq in H by (auto; lia). inversion H. reflexivity.
Qed.
Lemma lor_low a b n : 0 <= n -> 0 <= b < 2 ^ n -> Z.lor (a * 2 ^ n) b = a * 2 ^ n + b.
Proof.
  intros Hn Hb. rewrite <- Z.lxor_lor, <- Z.add_nocarry_lxor; [reflexivity| |];
    (apply Z.bits_inj'; intros i Hi; rewrite Z.land_spec, Z.bits_0; destruct (Z.lt_ge_cases i n);
     [rewrite Z.mul_pow2_bits_low by lia; reflexivity|rewrite (testbit_lt_pow b n) by lia; apply andb_false_r]).
Qed.

Lemma p2pos n : 0 <= n -> 0 < 2 ^ n.
Proof. intros. apply Z.pow_pos_nonneg; lia. Qed.

Section S.
Variable c : cfg.
Variable s : Z.
Hypothesis Hs : 1 <= s <= 46.
Hypothesis T : tables_ok c.
Hypothesis Hf : fits c s.

Notation qof := (qof c).
Notation tot := (tot c).
Notation inf := (inf c s).
Notation gapok := (gapok c s).
Notation gcov := (gcov c s).

(** ** one half *)
Section Sub.
Variables pk nk a e : key.
Hypothesis Kpk : kok pk. Hypothesis Knk : kok nk. Hypothesis Ka : kok a. Hypothesis Ke : kok e.
Hypothesis H0 : plt pk nk. Hypothesis H1 : ple pk a. Hypothesis H2 : plt a e. Hypothesis H3 : ple e nk.
Let q0 := qof pk nk.
Let q1 := qof a e.
Let w := q1 - q0.
Hypothesis Hroom : 512 <= dist (q0 + 54 - s) a e.

Lemma sub_q : 10 <= q0 /\ 0 <= w /\ w + s + 10 <= 64 /\ q1 = q0 + w.
Proof.
  destruct (seg_ex c pk nk Kpk Knk H0) as (sh & ig & z & [G E Hq]). destruct (seg_ex c a e Ka Ke H2) as (sh' & ig' & z' & [G' E' Hq']).
  assert (10 <= q0) by (unfold q0; rewrite Hq; destruct G; lia).
  assert (q0 <= q1).
  { unfold q0, q1. rewrite Hq, Hq'. apply (gap_mono _ _ _ _ _ _ _ _ _ _ G G'). intros n Hn. unfold dist. specialize (H1 n Hn). specialize (H3 n Hn). lia. }
  assert (q1 <= q0 + 54 - s) by (unfold q1; rewrite Hq'; apply (gap_limit G'); [lia|exact Hroom]). unfold w. lia.
Qed.
Let P := pre q0 pk * 2 ^ w.
Let o := pre q1 a - P.
Let h := pre q1 e - P.
(** position of a key in the finer numbering *)
Definition fine (k' : key) : Z := pre (q1 + s) k' - P * 2 ^ s.
Lemma fine_div k' : fine k' / 2 ^ s = pre q1 k' - P.
Proof.
  destruct sub_q as (Q0 & W0 & W1 & E). unfold fine. pose proof (ps_pos s Hs) as Hp. pose proof (sl_range k' q1 s ltac:(lia)) as R.
  rewrite pre_split by lia. symmetry. apply (Z.div_unique_pos _ _ _ (sl k' q1 s)); [lia|]. ring.
Qed.
Lemma fine_inf0 k' : fine k' / 2 ^ w = inf pk nk k'.
Proof.
  destruct sub_q as (Q0 & W0 & W1 & E). unfold fine, inf, P. fold q0. rewrite E. replace (q0 + w + s) with (q0 + s + w) by lia. pose proof (p2pos w W0) as Hp. pose proof (sl_range k' (q0 + s) w ltac:(lia)) as R.
  rewrite (pre_split (q0 + s) w) by lia. symmetry. apply (Z.div_unique_pos _ _ _ (sl k' (q0 + s) w)); [lia|]. ring.
Qed.
Lemma fine_inf1 k' : fine k' = inf a e k' + o * 2 ^ s.
Proof. unfold fine, inf, o. fold q1. ring. Qed.
Lemma sub_bounds : 0 <= o <= h /\ h * 2 ^ s + 2 ^ s <= 2 ^ 64 /\ h - o + 1 = tot a e /\ 512 <= tot a e <= 1024.
Proof.
  destruct sub_q as (Q0 & W0 & W1 & E). destruct (seg_ex c a e Ka Ke H2) as (sh' & ig' & z' & HS). destruct (seg_tot _ _ _ _ _ _ HS) as [Ht _].
  destruct (seg_ex c pk nk Kpk Knk H0) as (sh & ig & z & HS0). destruct (seg_tot _ _ _ _ _ _ HS0) as [Ht0 _]. unfold tot in *. fold q0 in Ht0. fold q1 in Ht.
  assert (B : forall x, ple pk x -> ple x nk -> 0 <= pre q1 x - P <= 1024 * 2 ^ w - 1).
  { intros x Hx1 Hx2. unfold P. rewrite E, pre_split by lia. pose proof (sl_range x q0 w ltac:(lia)) as R. pose proof (Hx1 q0 ltac:(lia)) as A1. pose proof (Hx2 q0 ltac:(lia)) as A2.
    pose proof (p2pos w W0) as Hp. assert (pre q0 x * 2 ^ w <= (pre q0 pk + 1023) * 2 ^ w) by (apply Z.mul_le_mono_nonneg_r; lia).
    assert (pre q0 pk * 2 ^ w <= pre q0 x * 2 ^ w) by (apply Z.mul_le_mono_nonneg_r; lia). lia. }
  pose proof (B a H1 (ple_trans _ _ _ (plt_ple _ _ H2) H3)) as Ba. pose proof (B e (ple_trans _ _ _ H1 (plt_ple _ _ H2)) H3) as Be.
  fold o in Ba. fold h in Be. split; [|split; [|split; [unfold h, o; unfold tot; fold q1; lia|unfold tot; fold q1; lia]]].
  - split; [lia|]. unfold o, h. pose proof (plt_ple _ _ H2 q1 ltac:(lia)). lia.
  - pose proof (ps_pos s Hs) as Hp. assert ((h + 1) * 2 ^ s <= (1024 * 2 ^ w) * 2 ^ s) by (apply Z.mul_le_mono_nonneg_r; lia).
    assert (1024 * 2 ^ w * 2 ^ s <= 2 ^ 64). { change 1024 with (2 ^ 10). rewrite <- !Z.pow_add_r by lia. apply pow2_le_mono. lia. } lia.
Qed.
(** the bounds the code computes for the new numbering *)
Lemma edge x b hh : kok x -> ple pk x -> ple x nk -> bits_at c x q0 w = Ok b -> shl64 c (u64 (pre q0 x - pre q0 pk)) (s + w) = Ok hh ->
  Z.lor hh (u64 (Z.shiftl b s)) = (pre q1 x - P) * 2 ^ s.
Proof.
  intros Kx Hx1 Hx2 Eb Eh. destruct sub_q as (Q0 & W0 & W1 & E). destruct (seg_ex c pk nk Kpk Knk H0) as (sh & ig & z & HS0). destruct (seg_tot _ _ _ _ _ _ HS0) as [Ht0 _]. unfold tot in Ht0. fold q0 in Ht0.
  pose proof (Z.mod_pos_bound q0 8 ltac:(lia)) as R8. apply bits_at_ok in Eb; [|assumption|lia|lia|lia]. subst b.
  pose proof (Hx1 q0 ltac:(lia)) as A1. pose proof (Hx2 q0 ltac:(lia)) as A2. rewrite u64_small in Eh by lia. unfold shl64 in Eh.
  destruct (Z.leb_spec 0 (s + w)); [|lia]. destruct (Z.ltb_spec (s + w) 64); [|lia]. cbn [andb] in Eh. inversion Eh as [Eh']. clear Eh.
  rewrite !Z.shiftl_mul_pow2 by lia. pose proof (sl_range x q0 w ltac:(lia)) as R. pose proof (ps_pos s Hs) as Hp. pose proof (p2pos w W0) as Hpw.
  set (d := pre q0 x - pre q0 pk) in *. assert (Hd : 0 <= d <= 1023) by lia.
  assert (Esw : 2 ^ (s + w) = 2 ^ s * 2 ^ w) by (apply Z.pow_add_r; lia).
  assert (Hlim : 1024 * 2 ^ (s + w) <= 2 ^ 64). { change 1024 with (2 ^ 10). rewrite <- !Z.pow_add_r by lia. apply pow2_le_mono. lia. }
  assert (Hpsw : 0 < 2 ^ (s + w)) by (rewrite Esw; apply Z.mul_pos_pos; assumption).
  assert (Hd2 : 0 <= d * 2 ^ (s + w) <= 1023 * 2 ^ (s + w)) by (split; [apply Z.mul_nonneg_nonneg; lia|apply Z.mul_le_mono_nonneg_r; lia]).
  assert (Hb : 0 <= sl x q0 w * 2 ^ s < 2 ^ (s + w)).
  { split; [apply Z.mul_nonneg_nonneg; lia|]. rewrite Esw, (Z.mul_comm (2 ^ s)). apply Z.mul_lt_mono_pos_r; lia. }
  rewrite !u64_small by lia. rewrite lor_low by lia. unfold P, d. rewrite E, pre_split, Esw by lia. ring.
Qed.
Lemma edge_left b : a = pk -> bits_at c pk q0 w = Ok b -> u64 (Z.shiftl b s) = o * 2 ^ s.
Proof.
  intros Ea Eb. destruct sub_q as (Q0 & W0 & W1 & E). pose proof (Z.mod_pos_bound q0 8 ltac:(lia)) as R8. apply bits_at_ok in Eb; [|assumption|lia|lia|lia]. subst b.
  pose proof (sl_range pk q0 w ltac:(lia)) as R. pose proof (ps_pos s Hs) as Hp. rewrite Z.shiftl_mul_pow2 by lia.
  assert (Esw : 2 ^ (s + w) = 2 ^ s * 2 ^ w) by (apply Z.pow_add_r; lia).
  assert (Hb : 0 <= sl pk q0 w * 2 ^ s < 2 ^ (s + w)).
  { split; [apply Z.mul_nonneg_nonneg; lia|]. rewrite Esw, (Z.mul_comm (2 ^ s)). apply Z.mul_lt_mono_pos_r; lia. }
  pose proof (pow2_le_mono (s + w) 64 ltac:(lia)). rewrite u64_small by lia. f_equal. unfold o, P. rewrite Ea, E, (pre_split q0 w) by lia. ring.
Qed.
Lemma hit_fine k' x : elem s x -> (hit (inf pk nk k') (inf pk nk k') x <-> lbase (x * 2 ^ w) <= fine k' <= up (x * 2 ^ w)).
Proof.
  intros Hx. destruct sub_q as (Q0 & W0 & W1 & E). destruct (shifted s w Hs W0 W1 x Hx) as (S1 & S2 & S3 & S4). rewrite S2, S3. unfold hit. fold (up x).
  pose proof (p2pos w W0) as Hp. pose proof (Z.div_mod (fine k') (2 ^ w) ltac:(lia)) as D. pose proof (Z.mod_pos_bound (fine k') (2 ^ w) Hp) as R. rewrite fine_inf0 in D.
  set (i := inf pk nk k') in *. split.
  - intros [A1 A2]. assert (lbase x * 2 ^ w <= i * 2 ^ w) by (apply Z.mul_le_mono_nonneg_r; lia). assert (i * 2 ^ w <= up x * 2 ^ w) by (apply Z.mul_le_mono_nonneg_r; lia). lia.
  - intros [A1 A2]. split.
    + destruct (Z.le_gt_cases (lbase x) i); auto. assert ((i + 1) * 2 ^ w <= lbase x * 2 ^ w) by (apply Z.mul_le_mono_nonneg_r; lia). lia.
    + destruct (Z.le_gt_cases i (up x)); auto. assert ((up x + 1) * 2 ^ w <= i * 2 ^ w) by (apply Z.mul_le_mono_nonneg_r; lia). lia.
Qed.
Theorem sub_half hi l r : Z.shiftr hi s = h -> Forall (elem s) l -> Forall (meets (inf pk nk a) (inf pk nk e)) l -> StronglySorted lex l ->
  split_half c s w (o * 2 ^ s) hi l = Ok r ->
  Z.of_nat (length r) < 2 ^ 20 /\ infs s r /\ StronglySorted lex r /\ Forall (meets (inf a e a) (inf a e e)) r /\
  (forall K, (forall k', In k' K -> ple a k' /\ ple k' e) -> matched (fun k' => hit (inf pk nk k') (inf pk nk k')) K l -> matched (fun k' => hit (inf a e k') (inf a e k')) K r) /\
  (forall v l', l = v :: l' -> fine a <= lbase (v * 2 ^ w) -> exists y t, r = y :: t /\ forall k', hit (inf a e k') (inf a e k') y -> hit (inf pk nk k') (inf pk nk k') v).
Proof.
  intros Hhi Hl Hm Hsort Hr. destruct sub_q as (Q0 & W0 & W1 & E). destruct sub_bounds as (B1 & B2 & B3 & B4).
  assert (Hm' : Forall (fun x => meets (fine a) (fine e) (x * 2 ^ w)) l).
  { rewrite Forall_forall in *. intros x Hx. destruct (Hm x Hx) as [M1 M2]. destruct (shifted s w Hs W0 W1 x (Hl x Hx)) as (S1 & S2 & S3 & S4). unfold meets. rewrite S2, S3.
    pose proof (p2pos w W0) as Hp. pose proof (Z.div_mod (fine a) (2 ^ w) ltac:(lia)) as D. pose proof (Z.mod_pos_bound (fine a) (2 ^ w) Hp) as R. rewrite fine_inf0 in D.
    pose proof (Z.div_mod (fine e) (2 ^ w) ltac:(lia)) as D'. pose proof (Z.mod_pos_bound (fine e) (2 ^ w) Hp) as R'. rewrite fine_inf0 in D'.
    assert (lbase x * 2 ^ w <= inf pk nk e * 2 ^ w) by (apply Z.mul_le_mono_nonneg_r; lia). assert (inf pk nk a * 2 ^ w <= up x * 2 ^ w) by (apply Z.mul_le_mono_nonneg_r; lia). lia. }
  destruct (half_ok c s w o h Hs W0 W1 B1 B2 (fine a) (fine e) (fine_div a) (fine_div e) ltac:(lia) hi l r Hhi Hl Hm' Hsort Hr) as (R1 & R2 & R3 & R4 & R5 & R6).
  rewrite Forall_forall in Hl.
  split; [exact R1|]. split; [exact R2|]. split; [exact R3|]. split.
  { rewrite Forall_forall in *. intros y Hy. specialize (R4 y Hy). rewrite !fine_inf1 in R4. replace (inf a e a + o * 2 ^ s - o * 2 ^ s) with (inf a e a) in R4 by ring.
    replace (inf a e e + o * 2 ^ s - o * 2 ^ s) with (inf a e e) in R4 by ring. exact R4. }
  split.
  - intros K HK HM. assert (HM2 : matched (fun k' y => hit (fine k' - o * 2 ^ s) (fine k' - o * 2 ^ s) y) K r).
    + apply (R5 fine K); [|apply (matched_impl _ _ K l) with (2 := HM); intros k' x _ Hx; apply (hit_fine k' x (Hl x Hx))]. intros k' Hk'. destruct (HK k' Hk') as [Hk1 Hk2].
      pose proof (ps_pos s Hs) as Hp. pose proof (Z.div_mod (fine k') (2 ^ s) ltac:(lia)) as D. pose proof (Z.mod_pos_bound (fine k') (2 ^ s) Hp) as R. rewrite fine_div in D.
      pose proof (Hk1 q1 ltac:(lia)) as A1. pose proof (Hk2 q1 ltac:(lia)) as A2.
      assert (o * 2 ^ s <= (pre q1 k' - P) * 2 ^ s) by (apply Z.mul_le_mono_nonneg_r; unfold o; lia). assert ((pre q1 k' - P) * 2 ^ s <= h * 2 ^ s) by (apply Z.mul_le_mono_nonneg_r; unfold h; lia). lia.
    + apply (matched_impl _ _ K r) with (2 := HM2). intros k' y _ _. rewrite fine_inf1. replace (inf a e k' + o * 2 ^ s - o * 2 ^ s) with (inf a e k') by ring. auto.
  - intros v l' -> Hv. destruct (R6 v l' eq_refl Hv) as (y & t & -> & Y1 & Y2). exists y, t. split; [reflexivity|]. intros k' [K1 K2]. fold (up y) in K2.
    apply (hit_fine k' v); [apply Hl; left; reflexivity|]. rewrite fine_inf1. lia.
Qed.
Theorem sub_back hi l r y k' : Z.shiftr hi s = h -> Forall (elem s) l -> Forall (meets (inf pk nk a) (inf pk nk e)) l ->
  split_half c s w (o * 2 ^ s) hi l = Ok r -> In y r -> hit (inf a e k') (inf a e k') y -> exists x, In x l /\ hit (inf pk nk k') (inf pk nk k') x.
Proof.
  intros Hhi Hl Hm Hr Hy Hh. destruct sub_q as (Q0 & W0 & W1 & E). destruct sub_bounds as (B1 & B2 & B3 & B4).
  assert (Hm' : Forall (fun x => meets (fine a) (fine e) (x * 2 ^ w)) l).
  { rewrite Forall_forall in *. intros x Hx. destruct (Hm x Hx) as [M1 M2]. destruct (shifted s w Hs W0 W1 x (Hl x Hx)) as (S1 & S2 & S3 & S4). unfold meets. rewrite S2, S3.
    pose proof (p2pos w W0) as Hp. pose proof (Z.div_mod (fine a) (2 ^ w) ltac:(lia)) as D. pose proof (Z.mod_pos_bound (fine a) (2 ^ w) Hp) as R. rewrite fine_inf0 in D.
    pose proof (Z.div_mod (fine e) (2 ^ w) ltac:(lia)) as D'. pose proof (Z.mod_pos_bound (fine e) (2 ^ w) Hp) as R'. rewrite fine_inf0 in D'.
    assert (lbase x * 2 ^ w <= inf pk nk e * 2 ^ w) by (apply Z.mul_le_mono_nonneg_r; lia). assert (inf pk nk a * 2 ^ w <= up x * 2 ^ w) by (apply Z.mul_le_mono_nonneg_r; lia). lia. }
  destruct (half_back c s w o h Hs W0 W1 B1 B2 (fine a) (fine e) (fine_div a) hi l r y (inf a e k') Hhi Hl Hm' Hr Hy Hh) as (x & Hx & Hx2).
  exists x. split; [exact Hx|]. rewrite Forall_forall in Hl. apply (hit_fine k' x (Hl x Hx)). rewrite fine_inf1. exact Hx2.
Qed.
End Sub.

(** ** the element that covers the separator *)
Section Cut.
Variables pk nk k : key.
Variables v zp : Z.
Hypothesis Kk : kok k.
Let q0 := qof pk nk.
Hypothesis Hq0 : 10 <= q0.
Hypothesis Hv : elem s v.
Hypothesis Hv2 : v mod 2 ^ s <> 0.
Hypothesis Hcov : covers1 v (inf pk nk k).
Hypothesis Hzp : zp = q0 + s - lowbit_pos v - 1.

Lemma cut_form : exists t m, 0 <= t /\ t + 1 <= s /\ zp = q0 + s - (t + 1) /\ lbase v = m * 2 ^ (t + 1) /\ up v = m * 2 ^ (t + 1) + (2 ^ (t + 1) - 1).
Proof.
  destruct (lowbit_form v) as (t & m & Ht & Hm & Et & E1 & E2 & E3 & E4).
  { destruct Hv as [V1 V2]. split; [exact V1|]. assert (1024 * 2 ^ s <= 2 ^ 64) by (change 1024 with (2 ^ 10); rewrite <- Z.pow_add_r by lia; apply pow2_le_mono; lia). lia. }
  exists t, m. assert (Hts : t < s).
  { destruct (Z.lt_ge_cases t s) as [|Hge]; [assumption|exfalso]. apply Hv2. rewrite E2. replace t with (s + (t - s)) by lia. rewrite Z.pow_add_r, <- Z.mul_assoc, Z.mul_comm by lia. apply Z.mod_mul.
    pose proof (ps_pos s Hs). lia. }
  unfold lowbit_pos in Hzp. rewrite Et in Hzp. rewrite E3, E4. rewrite Z.pow_add_r by lia. change (2 ^ 1) with 2. split; [lia|]. split; [lia|]. split; [lia|]. split; ring.
Qed.
Lemma cut_zp : q0 <= zp < q0 + s.
Proof. destruct cut_form as (t & m & H1 & H2 & H3 & _). lia. Qed.
Lemma cut_div n t k' : 0 <= t -> t <= s -> n = q0 + s - t -> inf pk nk k' / 2 ^ t = pre n k' - pre q0 pk * 2 ^ (s - t).
Proof.
  intros H1 H2 ->. unfold inf. fold q0. replace (q0 + s) with (q0 + s - t + t) at 1 by lia. rewrite (pre_split (q0 + s - t) t) by lia.
  pose proof (sl_range k' (q0 + s - t) t ltac:(lia)) as R. symmetry. apply (Z.div_unique_pos _ _ _ (sl k' (q0 + s - t) t)); [lia|].
  replace (2 ^ s) with (2 ^ (s - t) * 2 ^ t) by (rewrite <- Z.pow_add_r by lia; f_equal; lia). ring.
Qed.
Lemma cut_hit k' : hit (inf pk nk k') (inf pk nk k') v <-> pre zp k' = pre zp k.
Proof.
  destruct cut_form as (t & m & T1 & T2 & T3 & T4 & T5). pose proof (cut_div zp (t + 1) k' ltac:(lia) T2 T3) as D. pose proof (cut_div zp (t + 1) k ltac:(lia) T2 T3) as D0.
  assert (Hp : 0 < 2 ^ (t + 1)) by (apply p2pos; lia). set (p := 2 ^ (t + 1)) in *.
  assert (Eq : forall i, (lbase v <= i <= up v) <-> i / p = m).
  { intros i. rewrite T4, T5. pose proof (Z.div_mod i p ltac:(lia)) as Hd. pose proof (Z.mod_pos_bound i p Hp) as Hr. split.
    - intros H. symmetry. apply (Z.div_unique_pos _ _ _ (i - m * p)); lia.
    - intros <-. lia. }
  pose proof (proj1 (Eq _) Hcov) as E0. unfold hit. fold (up v). rewrite (Eq (inf pk nk k')). lia.
Qed.
Let ek := edit_key k zp.
Lemma cut_fine n : zp <= n -> pre n ek = pre zp k * 2 ^ (n - zp).
Proof. intros H. pose proof cut_zp. apply edit_pre_high; first [assumption|lia]. Qed.
Lemma cut_base : inf pk nk ek = lbase v.
Proof.
  destruct cut_form as (t & m & T1 & T2 & T3 & T4 & T5).
  assert (Hp : 0 < 2 ^ (t + 1)) by (apply p2pos; lia). pose proof (cut_div zp (t + 1) k ltac:(lia) T2 T3) as D0.
  assert (E0 : inf pk nk k / 2 ^ (t + 1) = m). { destruct Hcov as [C1 C2]. symmetry. apply (Z.div_unique_pos _ _ _ (inf pk nk k - m * 2 ^ (t + 1))); lia. }
  unfold inf. fold q0. rewrite cut_fine by (pose proof cut_zp; lia). rewrite T4, <- E0, D0. replace (q0 + s - zp) with (t + 1) by lia.
  replace (2 ^ s) with (2 ^ (s - (t + 1)) * 2 ^ (t + 1)) by (rewrite <- Z.pow_add_r by lia; f_equal; lia). ring.
Qed.
End Cut.

(** ** both halves *)
Definition ordered (pk : key) (st : store) (nk : key) : Prop :=
  forall L, get_infix_list c s st = Ok L -> StronglySorted lex L /\ Forall (meets (inf pk nk pk) (inf pk nk nk)) L.

Lemma infs_elem L : infs s L -> Forall (fun x => elem s x /\ x mod 2 ^ s <> 0) L.
Proof.
  intros [_ H]. rewrite Forall_forall in *. intros x Hx. destruct (H x Hx) as [H1 H2]. split; [|exact H2]. unfold elem.
  assert (x <> 0). { intros ->. apply H2. apply Z.mod_0_l. pose proof (ps_pos s Hs). lia. } lia.
Qed.
Lemma elem_up x : elem s x -> lbase x <= up x.
Proof.
  intros [V1 V2]. destruct (lbase_range x) as [_ H].
  { split; [exact V1|]. assert (1024 * 2 ^ s <= 2 ^ 64) by (change 1024 with (2 ^ 10); rewrite <- Z.pow_add_r by lia; apply pow2_le_mono; lia). lia. }
  unfold up, lbase. lia.
Qed.
Lemma ss_app {X} (R : X -> X -> Prop) A B : StronglySorted R (A ++ B) -> StronglySorted R A /\ StronglySorted R B /\ forall x y, In x A -> In y B -> R x y.
Proof.
  induction A as [|a A IH]; cbn [app]; intros H; [split; [constructor|split; [exact H|intros x y []]]|]. inversion H as [|a' l' H1 H2]; subst.
  destruct (IH H1) as (I1 & I2 & I3). rewrite Forall_forall in H2. split; [constructor; [exact I1|]; apply Forall_forall; intros x Hx; apply H2; apply in_or_app; auto|].
  split; [exact I2|]. intros x y [<-|Hx] Hy; [apply H2; apply in_or_app; auto|auto].
Qed.
Lemma ss_app_intro {X} (R : X -> X -> Prop) A B : StronglySorted R A -> StronglySorted R B -> (forall x y, In x A -> In y B -> R x y) -> StronglySorted R (A ++ B).
Proof.
  induction A as [|a A IH]; cbn [app]; intros H1 H2 H3; [exact H2|]. inversion H1 as [|a' l' H4 H5]; subst. constructor.
  - apply IH; auto. intros x y Hx Hy. apply H3; [right; exact Hx|exact Hy].
  - apply Forall_app. split; [exact H5|]. apply Forall_forall. intros y Hy. apply H3; [left; reflexivity|exact Hy].
Qed.
(** a new exact element goes behind those that start at the same place *)
Lemma ins_lex x L L' : 0 < x < 2 ^ 64 -> Z.odd x = true -> infs s L -> infs s L' -> ins x L L' -> StronglySorted lex L -> StronglySorted lex L'.
Proof.
  intros Hx Ho HL HL' (A & B & -> & -> & HB) Hso. destruct (ss_app _ _ _ Hso) as (S1 & S2 & S3). rewrite Forall_forall in HB.
  apply ss_app_intro; [exact S1| |].
  - constructor; [exact S2|]. apply Forall_forall. intros y Hy. left. apply HB. exact Hy.
  - intros a y Ha [<-|Hy]; [|apply S3; auto]. destruct HL' as [SL _]. destruct (ss_app _ _ _ SL) as (_ & _ & SL3). specialize (SL3 a x Ha (or_introl eq_refl)). cbv beta in SL3.
    destruct (Z.eq_dec (lbase a) (lbase x)) as [E|]; [right|left; lia]. split; [exact E|]. rewrite (lowbit_odd x) by (assumption || lia).
    assert (He : In a (A ++ B)) by (apply in_or_app; auto). pose proof (infs_elem _ HL) as F. rewrite Forall_forall in F. destruct (F a He) as [[F1 F2] _].
    destruct (lbase_range a) as [_ H]; [|lia]. split; [exact F1|].
    assert (1024 * 2 ^ s <= 2 ^ 64) by (change 1024 with (2 ^ 10); rewrite <- Z.pow_add_r by lia; apply pow2_le_mono; lia). lia.
Qed.

Definition mode (pk nk k : key) (A B : list Z) (zp : Z) (ek : key) : Prop :=
  let sep := Z.lor (inf pk nk k) 1 in
  (zp = -1 /\ ek = k /\ Forall (fun x => up x < sep - 1) A /\ Forall (fun x => sep < lbase x) B) \/
  (exists v B', B = v :: B' /\ zp = qof pk nk + s - lowbit_pos v - 1 /\ covers1 v (sep - 1) /\ covers1 v sep /\ Forall (fun x => up x < lbase v) A /\ ek = edit_key k zp).
Section Two.
Variables pk nk k ek : key.
Variables zp hi1 hi2 : Z.
Variables A B left right : list Z.
Hypothesis Kpk : kok pk. Hypothesis Knk : kok nk. Hypothesis Kk : kok k. Hypothesis Ke : kok ek.
Hypothesis H1 : plt pk ek. Hypothesis H2 : plt ek nk.
Hypothesis Hk1 : ple pk k. Hypothesis Hk2 : ple k nk.
Let q0 := qof pk nk.
Hypothesis Hr1 : 512 <= dist (q0 + 54 - s) pk ek.
Hypothesis Hr2 : 512 <= dist (q0 + 54 - s) ek nk.
Hypothesis HL : infs s (A ++ B).
Hypothesis Hso : StronglySorted lex (A ++ B).
Hypothesis Hm : Forall (meets (inf pk nk pk) (inf pk nk nk)) (A ++ B).
Hypothesis Hmode : mode pk nk k A B zp ek.
Let w1 := qof pk ek - q0.
Let w2 := qof ek nk - q0.
Let o1 := pre (qof pk ek) pk - pre q0 pk * 2 ^ w1.
Let o2 := pre (qof ek nk) ek - pre q0 pk * 2 ^ w2.
Hypothesis Hh1 : Z.shiftr hi1 s = pre (qof pk ek) ek - pre q0 pk * 2 ^ w1.
Hypothesis Hh2 : Z.shiftr hi2 s = pre (qof ek nk) nk - pre q0 pk * 2 ^ w2.
Hypothesis El : split_half c s w1 (o1 * 2 ^ s) hi1 A = Ok left.
Hypothesis Er : split_half c s w2 (o2 * 2 ^ s) hi2 B = Ok right.

Lemma two_seg : plt pk nk /\ 10 <= q0 /\ 0 <= inf pk nk k < 2 ^ 62 /\ inf pk nk k <= Z.lor (inf pk nk k) 1 <= inf pk nk k + 1.
Proof.
  assert (H0 : plt pk nk) by (apply (plt_ple_trans _ _ _ H1); apply plt_ple; exact H2). split; [exact H0|].
  destruct (seg_ex c pk nk Kpk Knk H0) as (sh & ig & z & HS). destruct (seg_tot _ _ _ _ _ _ HS) as [_ Hq]. split; [exact Hq|].
  destruct (inf_range c s Hs _ _ _ _ _ k HS Hk1 Hk2) as (I1 & I2 & I3). change (2 ^ 62) with (2 ^ 56 * 64). split; [lia|]. apply lor1_range. lia.
Qed.
Lemma two_cut : zp <> -1 -> exists v B', B = v :: B' /\ elem s v /\ v mod 2 ^ s <> 0 /\ zp = q0 + s - lowbit_pos v - 1 /\ covers1 v (inf pk nk k) /\ Forall (fun x => up x < lbase v) A /\ ek = edit_key k zp.
Proof.
  intros Hz. destruct Hmode as [(E & _)|(v & B' & EB & Ez & C1 & C2 & C3 & C4)]; [contradiction|]. exists v, B'. pose proof (infs_elem _ HL) as F. rewrite Forall_forall in F.
  destruct (F v) as [F1 F2]; [rewrite EB; apply in_or_app; right; left; reflexivity|]. destruct two_seg as (_ & _ & _ & R).
  split; [exact EB|]. split; [exact F1|]. split; [exact F2|]. split; [exact Ez|]. split; [|split; [exact C3|exact C4]]. unfold covers1 in *. lia.
Qed.
Lemma two_left_meets : Forall (meets (inf pk nk pk) (inf pk nk ek)) A.
Proof.
  pose proof (infs_elem _ HL) as F. rewrite Forall_forall in *. intros x Hx. destruct (Hm x) as [M1 M2]; [apply in_or_app; auto|]. destruct (F x) as [F1 F2]; [apply in_or_app; auto|].
  split; [|exact M2]. pose proof (elem_up x F1) as Hu. pose proof two_seg as T0; destruct T0 as (_ & Hq & Hi & R). destruct (Z.eq_dec zp (-1)) as [Ez|Ez].
  - destruct Hmode as [(E & -> & C1 & C2)|(v & B' & EB & Ev & C1 & C2 & C3 & C4)].
    + rewrite Forall_forall in C1. specialize (C1 x Hx). lia.
    + exfalso. destruct (F v) as [V1 V2]; [rewrite EB; apply in_or_app; right; left; reflexivity|].
      pose proof (cut_zp pk nk v zp V1 V2 Ev) as Hc. fold q0 in Hc. lia.
  - destruct (two_cut Ez) as (v & B' & EB & V1 & V2 & Ev & C1 & C2 & ->). rewrite (cut_base pk nk k v zp Hq V1 V2 C1 Ev). rewrite Forall_forall in C2. specialize (C2 x Hx). lia.
Qed.
Lemma two_right_meets : Forall (meets (inf pk nk ek) (inf pk nk nk)) B.
Proof.
  pose proof (infs_elem _ HL) as F. rewrite Forall_forall in *. intros x Hx. destruct (Hm x) as [M1 M2]; [apply in_or_app; auto|]. destruct (F x) as [F1 F2]; [apply in_or_app; auto|].
  split; [exact M1|]. pose proof (elem_up x F1) as Hu. pose proof two_seg as T0; destruct T0 as (_ & Hq & Hi & R). destruct (Z.eq_dec zp (-1)) as [Ez|Ez].
  - destruct Hmode as [(E & -> & C1 & C2)|(v & B' & EB & Ev & C1 & C2 & C3 & C4)].
    + rewrite Forall_forall in C2. specialize (C2 x Hx). lia.
    + exfalso. destruct (F v) as [V1 V2]; [rewrite EB; apply in_or_app; right; left; reflexivity|].
      pose proof (cut_zp pk nk v zp V1 V2 Ev) as Hc. fold q0 in Hc. lia.
  - destruct (two_cut Ez) as (v & B' & EB & V1 & V2 & Ev & C1 & C2 & ->). rewrite (cut_base pk nk k v zp Hq V1 V2 C1 Ev).
    destruct (ss_app _ _ _ Hso) as (_ & S2 & _). rewrite EB in S2, Hx. inversion S2 as [|a l S3 S4]; subst. destruct Hx as [<-|Hx]; [exact Hu|].
    rewrite Forall_forall in S4. specialize (S4 x Hx). unfold lex in S4. lia.
Qed.
Let hleft := sub_half pk nk pk ek Kpk Knk Kpk Ke (proj1 two_seg) (ple_refl pk) H1 (plt_ple _ _ H2) Hr1 hi1 A left.
Let hright := sub_half pk nk ek nk Kpk Knk Ke Knk (proj1 two_seg) (plt_ple _ _ H1) H2 (ple_refl nk) Hr2 hi2 B right.
Lemma two_elem : Forall (elem s) A /\ Forall (elem s) B.
Proof.
  pose proof (infs_elem _ HL) as F. rewrite Forall_forall in F. split; apply Forall_forall; intros x Hx; apply F; apply in_or_app; auto.
Qed.
Lemma two_left : Z.of_nat (length left) < 2 ^ 20 /\ infs s left /\ StronglySorted lex left /\ Forall (meets (inf pk ek pk) (inf pk ek ek)) left /\
  (forall K, (forall k', In k' K -> kok k' /\ klen ek <= klen k' /\ key_lt pk k' = true /\ key_lt k' ek = true) ->
     matched (fun k' => hit (inf pk nk k') (inf pk nk k')) K (A ++ B) -> matched (fun k' => hit (inf pk ek k') (inf pk ek k')) K left).
Proof.
  destruct (hleft Hh1 (proj1 two_elem) two_left_meets (proj1 (ss_app _ _ _ Hso)) El) as (R1 & R2 & R3 & R4 & R5 & _).
  split; [exact R1|]. split; [exact R2|]. split; [exact R3|]. split; [exact R4|].
  intros K HK HM. apply R5; [intros k' Hk'; destruct (HK k' Hk') as (Kk' & Hlen & Hlt1 & Hlt2); split; [apply (key_lt_ple _ _ Kpk Kk' Hlt1)|apply (key_lt_ple _ _ Kk' Ke Hlt2)]|].
  apply (matched_part _ K B A) with (2 := HM). intros k' x Hk' Hx Hh. destruct (HK k' Hk') as (Kk' & Hlen & Hlt1 & Hlt2).
  pose proof (key_lt_ple _ _ Kpk Kk' Hlt1) as P1. pose proof (key_lt_ple _ _ Kk' Ke Hlt2) as P2. pose proof two_seg as T0; destruct T0 as (_ & Hq & Hi & R). pose proof (infs_elem _ HL) as F. rewrite Forall_forall in F.
  destruct (F x) as [F1 F2]; [apply in_or_app; auto|]. destruct (Z.eq_dec zp (-1)) as [Ez|Ez].
  - destruct Hmode as [(E & E2 & C1 & C2)|(v & B' & EB & Ev & C1 & C2 & C3 & C4)].
    + rewrite Forall_forall in C2. specialize (C2 x Hx). destruct Hh as [Hh _]. rewrite E2 in P2. pose proof (inf_mono c s Hs pk nk k' k ltac:(fold q0; lia) P2). lia.
    + destruct (F v) as [V1 V2]; [rewrite EB; apply in_or_app; right; left; reflexivity|]. pose proof (cut_zp pk nk v zp V1 V2 Ev) as Hc. fold q0 in Hc. lia.
  - destruct (two_cut Ez) as (v & B' & EB & V1 & V2 & Ev & C1 & C2 & E2).
    assert (Hbx : lbase v <= lbase x).
    { destruct (ss_app _ _ _ Hso) as (_ & S2 & _). rewrite EB in S2, Hx. inversion S2 as [|a l S3 S4]; subst. destruct Hx as [<-|Hx]; [lia|].
      rewrite Forall_forall in S4. specialize (S4 x Hx). unfold lex in S4. lia. }
    pose proof (cut_base pk nk k v zp Hq V1 V2 C1 Ev) as Eb. rewrite <- E2 in Eb. destruct Hh as [Hh _]. pose proof (P2 (q0 + s) ltac:(lia)) as Q.
    assert (Epre : pre (q0 + s) k' = pre (q0 + s) ek). { unfold inf in Eb, Hh. fold q0 in Eb, Hh. lia. }
    pose proof (cut_zp pk nk v zp V1 V2 Ev) as Hc. fold q0 in Hc. rewrite E2 in Epre. pose proof (edit_min k zp ltac:(lia) k' (q0 + s) ltac:(lia) ltac:(lia) Epre) as Hle. rewrite <- E2 in Hle.
    pose proof (key_lt_short k' ek Kk' Ke ltac:(unfold klen in Hlen; lia) Hlt2) as Hs1. specialize (Hle (8 * klen ek) ltac:(unfold klen; lia)). lia.
Qed.
Lemma two_right : Z.of_nat (length right) < 2 ^ 20 /\ infs s right /\ StronglySorted lex right /\ Forall (meets (inf ek nk ek) (inf ek nk nk)) right /\
  (forall K, (forall k', In k' K -> kok k' /\ key_lt ek k' = true /\ key_lt k' nk = true) ->
     matched (fun k' => hit (inf pk nk k') (inf pk nk k')) K (A ++ B) -> matched (fun k' => hit (inf ek nk k') (inf ek nk k')) K right) /\
  (zp <> -1 -> exists y t, right = y :: t /\ forall k', hit (inf ek nk k') (inf ek nk k') y -> pre zp k' = pre zp k).
Proof.
  destruct (hright Hh2 (proj2 two_elem) two_right_meets (proj1 (proj2 (ss_app _ _ _ Hso))) Er) as (R1 & R2 & R3 & R4 & R5 & R6).
  split; [exact R1|]. split; [exact R2|]. split; [exact R3|]. split; [exact R4|]. pose proof two_seg as T0; destruct T0 as (_ & Hq & Hi & R). pose proof (infs_elem _ HL) as F. rewrite Forall_forall in F. split.
  - intros K HK HM. apply R5; [intros k' Hk'; destruct (HK k' Hk') as (Kk' & Hlt1 & Hlt2); split; [apply (key_lt_ple _ _ Ke Kk' Hlt1)|apply (key_lt_ple _ _ Kk' Knk Hlt2)]|].
    apply (matched_part _ K A B) with (2 := matched_right _ _ _ _ (Permutation_app_comm _ _) HM). intros k' x Hk' Hx Hh. destruct (HK k' Hk') as (Kk' & Hlt1 & Hlt2).
    pose proof (key_lt_ple _ _ Ke Kk' Hlt1) as P1. pose proof (key_lt_ple _ _ Kk' Knk Hlt2) as P2. destruct (Z.eq_dec zp (-1)) as [Ez|Ez].
    + destruct Hmode as [(E & E2 & C1 & C2)|(v & B' & EB & Ev & C1 & C2 & C3 & C4)].
      * rewrite Forall_forall in C1. specialize (C1 x Hx). destruct Hh as [_ Hh]. fold (up x) in Hh. rewrite E2 in P1. pose proof (inf_mono c s Hs pk nk k k' ltac:(fold q0; lia) P1). lia.
      * destruct (F v) as [V1 V2]; [rewrite EB; apply in_or_app; right; left; reflexivity|]. pose proof (cut_zp pk nk v zp V1 V2 Ev) as Hc. fold q0 in Hc. lia.
    + destruct (two_cut Ez) as (v & B' & EB & V1 & V2 & Ev & C1 & C2 & E2). pose proof (cut_base pk nk k v zp Hq V1 V2 C1 Ev) as Eb. rewrite <- E2 in Eb.
      rewrite Forall_forall in C2. specialize (C2 x Hx). destruct Hh as [_ Hh]. fold (up x) in Hh. pose proof (inf_mono c s Hs pk nk ek k' ltac:(fold q0; lia) P1). lia.
  - intros Ez. destruct (two_cut Ez) as (v & B' & EB & V1 & V2 & Ev & C1 & C2 & E2). pose proof (cut_base pk nk k v zp Hq V1 V2 C1 Ev) as Eb. rewrite <- E2 in Eb.
    pose proof (cut_zp pk nk v zp V1 V2 Ev) as Hc. fold q0 in Hc.
    destruct (R6 v B' EB) as (y & t & Ey & Hy).
    + destruct (sub_q pk nk ek nk Kpk Knk Ke Knk (proj1 two_seg) (plt_ple _ _ H1) H2 (ple_refl nk) Hr2) as (Q0 & W0 & W1 & Eq). fold q0 in W0, W1, Eq. fold w2 in W0, W1, Eq.
      destruct (shifted s w2 Hs W0 W1 v V1) as (S1 & S2 & S3 & S4). fold q0 w2. rewrite S2, <- Eb. unfold fine, inf. fold q0 w2. rewrite Eq.
      pose proof (cut_fine pk nk k v zp Hq V1 V2 Ev) as Hfine. rewrite <- E2 in Hfine. rewrite !Hfine by lia.
      replace (q0 + w2 + s - zp) with ((q0 + s - zp) + w2) by lia. rewrite Z.pow_add_r by lia. apply Z.eq_le_incl. ring.
    + exists y, t. split; [exact Ey|]. intros k' Hh. apply Hy in Hh. apply (cut_hit pk nk k v zp Hq V1 V2 C1 Ev k'). exact Hh.
Qed.
Lemma two_left_back y k' : In y left -> hit (inf pk ek k') (inf pk ek k') y -> exists x, In x (A ++ B) /\ hit (inf pk nk k') (inf pk nk k') x.
Proof.
  intros Hy Hh. destruct (sub_back pk nk pk ek Kpk Knk Kpk Ke (proj1 two_seg) (ple_refl pk) H1 (plt_ple _ _ H2) Hr1 hi1 A left y k' Hh1 (proj1 two_elem) two_left_meets El Hy Hh) as (x & Hx & Hx2).
  exists x. split; [apply in_or_app; auto|exact Hx2].
Qed.
Lemma two_right_back y k' : In y right -> hit (inf ek nk k') (inf ek nk k') y -> exists x, In x (A ++ B) /\ hit (inf pk nk k') (inf pk nk k') x.
Proof.
  intros Hy Hh. destruct (sub_back pk nk ek nk Kpk Knk Ke Knk (proj1 two_seg) (plt_ple _ _ H1) H2 (ple_refl nk) Hr2 hi2 B right y k' Hh2 (proj2 two_elem) two_right_meets Er Hy Hh) as (x & Hx & Hx2).
  exists x. split; [apply in_or_app; auto|exact Hx2].
Qed.
Lemma two_cut_back : zp <> -1 -> forall k', pre zp k' = pre zp k -> exists x, In x (A ++ B) /\ hit (inf pk nk k') (inf pk nk k') x.
Proof.
  intros Ez k' E. destruct (two_cut Ez) as (v & B' & EB & V1 & V2 & Ev & C1 & C2 & E2). pose proof two_seg as T0; destruct T0 as (_ & Hq & _).
  exists v. split; [rewrite EB; apply in_or_app; right; left; reflexivity|]. apply (cut_hit pk nk k v zp Hq V1 V2 C1 Ev k'). exact E.
Qed.
End Two.

(** ** the whole operation *)
Definition gapx (len : Z) (pk : key) (st : store) (nk : key) : Prop := gapok pk st nk /\ ordered pk st nk /\ klen pk <= len.
Lemma adj_gapx len t : adj (gapx len) t -> adj gapok t.
Proof. apply adj_mono. intros a st b H. apply H. Qed.
Lemma adj_put2 (P : key -> store -> key -> Prop) A0 pk st M nk st' B0 : adj P (A0 ++ (pk, st) :: (nk, st') :: B0) ->
  (exists st2 M', M = (pk, st2) :: M') -> adj P (M ++ [(nk, st')]) -> adj P (A0 ++ M ++ (nk, st') :: B0).
Proof.
  intros H (st2 & M' & ->) HM. apply adj_app in H as [Ha Hb]. rewrite adj_cons in Hb. cbn [app]. apply adj_app. split; [apply (adj_last _ _ _ _ _ Ha)|].
  change (adj P (((pk, st2) :: M') ++ (nk, st') :: B0)). apply adj_app. split; [exact HM|tauto].
Qed.
Definition roomy (pk nk k : key) : Prop := forall e, (e = k \/ exists zp, 1 <= zp /\ e = edit_key k zp) -> plt pk e -> plt e nk ->
  512 <= dist (qof pk nk + 54 - s) pk e /\ 512 <= dist (qof pk nk + 54 - s) e nk.
(** the filter does not tell [k'] from [k] in the gap (pk, nk) *)
Definition near (pk nk k k' : key) : Prop := pre (Z.min (qof pk nk + s - 1) (8 * klen k - 7)) k' = pre (Z.min (qof pk nk + s - 1) (8 * klen k - 7)) k.
Lemma near_inf pk nk k k' n : qof pk nk + s - 1 <= n -> pre n k' = pre n k -> near pk nk k k'.
Proof. intros H E. apply (pre_eq_down _ n); [lia|exact E]. Qed.
Lemma near_end pk nk k k' : pre (8 * klen k - 7) k' = pre (8 * klen k - 7) k -> near pk nk k k'.
Proof. intros E. apply (pre_eq_down _ (8 * klen k - 7)); [lia|exact E]. Qed.
Lemma half_pre q k : 0 <= q -> pre (q + s) k / 2 = pre (q + s - 1) k.
Proof. intros Hq. replace (q + s) with ((q + s - 1) + 1) at 1 by lia. change 2 with (2 ^ 1). apply pre_div; lia. Qed.
(** what an insertion into the gap (pk, nk) achieves *)
Record done (len : Z) (d d' : diva) (A0 : tree) (pk nk : key) (st' : store) (B0 : tree) (k : key) : Prop := {
  dn_size : d_size d' = s;
  dn_tree : exists st2 M, d_tree d' = A0 ++ ((pk, st2) :: M) ++ (nk, st') :: B0;
  dn_gap : adj (gapx len) (d_tree d');
  dn_new : covt gcov (d_tree d') k;
  dn_old : forall k', kok k' -> len <= klen k' -> covt gcov (d_tree d) k' -> covt gcov (d_tree d') k';
  dn_held : forall ks, (forall k', In k' ks -> kok k' /\ len <= klen k') -> heldt c s ks (d_tree d) -> heldt c s (k :: ks) (d_tree d');
  (* nothing else becomes positive, apart from keys that the filter cannot tell from [k] *)
  dn_back : forall k', kok k' -> covt gcov (d_tree d') k' -> covt gcov (d_tree d) k' \/
    (key_lt pk k' = true /\ key_lt k' nk = true /\ near pk nk k k')
}.
Lemma odd_hit i : 0 <= i < 2 ^ 62 -> lbase (Z.lor i 1) <= i <= up (Z.lor i 1).
Proof. intros Hi. pose proof (hit_self i ltac:(lia) ltac:(lia)) as [H1 H2]. fold (up (Z.lor i 1)) in H2. lia. Qed.

Lemma lor1_pos i : 0 <= i -> 0 < Z.lor i 1.
Proof. intros Hi. rewrite lor1 by exact Hi. pose proof (Z.div_pos i 2 Hi ltac:(lia)). lia. Qed.

Lemma odd_back i j : 0 <= i < 2 ^ 62 -> hit j j (Z.lor i 1) -> j / 2 = i / 2.
Proof.
  intros Hi [H1 H2]. destruct (lor1_range i ltac:(lia)) as [R1 R2]. unfold lbase in H1. rewrite lor1 in * by lia. pose proof (Z.div_pos i 2 ltac:(lia) ltac:(lia)).
  pose proof (Z.div_mod i 2 ltac:(lia)). pose proof (Z.mod_pos_bound i 2 ltac:(lia)). rewrite (lowbit_odd (2 * (i / 2) + 1)) in * by first [exact R2|lia].
  symmetry. apply (Z.div_unique_pos _ _ _ (j - 2 * (i / 2))); lia.
Qed.

(** the right block after the matched element was replaced by the new key *)
Lemma cut_store len nk k zp sh ig z t0 st1 st2 ke : let ek := edit_key k zp in kok k -> kok nk -> 1 <= zp -> seg c ek nk sh ig z -> plt ek nk -> (exists pk, plt pk ek) -> klen ek <= len ->
  infs s t0 -> StronglySorted lex t0 -> Forall (meets (inf ek nk ek) (inf ek nk nk)) t0 -> Z.of_nat (length t0) + 1 < 2 ^ 20 -> rep c s (tot ek nk) true st1 t0 ->
  extract c s k sh ig z 0 = Ok ke -> insert_raw c s st1 (Z.lor (Z.land ke (bitmask s)) 1) (tot ek nk) = Ok st2 ->
  let st3 := set_partial_key (set_invalid_bits st2 (7 - Z.rem (zp - 1) 8)) true in
  gapx len ek st3 nk /\ (exists L, get_infix_list c s st3 = Ok L /\ Permutation (Z.lor (sl k (qof ek nk) s) 1 :: t0) L) /\
  (forall k', kok k' -> klen ek <= klen k' -> pre zp k' = pre zp k -> part st3 ek k') /\
  (forall k', part st3 ek k' -> pre zp k' = pre zp k \/ pre (8 * klen k - 7) k' = pre (8 * klen k - 7) k).
Proof.
  intros ek Kk K2 Hz1 HS Pen (pk & Ppe) Hlen I1 I2 I3 Hlt0 RR Eke Est st3. assert (Ke : kok ek) by (apply edit_kok; assumption). pose proof (edit_ple k zp Hz1) as Hek. fold ek in Hek.
  destruct (seg_tot _ _ _ _ _ _ HS) as [Htt Hq2].
  assert (Exke : Z.land ke (bitmask s) = sl k (qof ek nk) s).
  { pose proof HS as [G2 _ Hqq]. destruct G2 as [A1 A2 A3 _ _ _ _ _ _ _]. pose proof (Z.mod_pos_bound (sh + ig) 8 ltac:(lia)) as R8. change 0 with (Z.b2z false) in Eke.
    rewrite (extract_eq c s k sh ig z false Kk ltac:(lia) ltac:(lia) ltac:(lia) ltac:(lia)) in Eke. inversion Eke as [Eke']. cbn [Z.b2z]. rewrite Z.mul_0_l, Z.add_0_l. unfold bitmask.
    rewrite Z.land_ones by lia. rewrite sl_split by lia. rewrite Z.add_comm, Z.mod_add by (pose proof (ps_pos s Hs); lia). replace (sh + ig + 1 + (z - 1)) with (qof ek nk) by lia. apply Z.mod_small. apply sl_range. lia. }
  rewrite Exke in Est. set (i := sl k (qof ek nk) s) in *. pose proof (sl_range k (qof ek nk) s ltac:(lia)) as Ri. fold i in Ri. pose proof (ps_pos s Hs) as Hps.
  assert (Hph : 2 ^ s <= 2 ^ 46) by (apply pow2_le_mono; lia).
  destruct (lor1_range i ltac:(lia)) as [Li1 Li2]. pose proof (lor1_pos i ltac:(lia)) as Li0.
  destruct (insert_raw_run c T s (tot ek nk) st1 t0 (Z.lor i 1) Hf RR ltac:(lia) Li2 Hlt0) as (st2' & t1 & Er2 & RR2 & Hins & _).
  rewrite Er2 in Est. inversion Est; subst st2'. clear Est.
  assert (Hib : 0 <= 7 - Z.rem (zp - 1) 8 <= 7) by (apply (ib_eq zp); lia).
  destruct (rep_flags c s _ _ _ _ (7 - Z.rem (zp - 1) 8) true RR2 Hib) as (RR3 & FR1 & FR2). fold st3 in RR3, FR1, FR2.
  assert (Hekz : pre zp ek = pre zp k) by (unfold ek; apply edit_pre_low; lia).
  split; [|split; [|split]].
  - split; [|split; [|exact Hlen]].
    + split; [exact Ke|]. split; [exact K2|]. split; [exact Pen|]. split; [|exists t1; exact RR3]. intros _ E0. rewrite E0 in Ppe. apply (plt_not_ple _ _ Ppe). apply ple_nil.
    + intros L1 E1. rewrite (rep_list _ _ _ _ _ _ RR3) in E1. inversion E1; subst L1. split.
      * apply (ins_lex (Z.lor i 1) t0 t1); [lia|exact Li2|exact I1|apply (rep_infs _ _ _ _ _ _ RR2)|exact Hins|exact I2].
      * destruct Hins as (ta & tb & -> & -> & _). apply Forall_app in I3 as [I3 I4]. apply Forall_app. split; [exact I3|]. constructor; [|exact I4].
        pose proof (odd_hit i ltac:(lia)) as Hh. unfold meets. rewrite !inf_split by lia. unfold tot in Htt.
        pose proof (sl_range nk (qof ek nk) s ltac:(lia)) as Rn. assert (511 * 2 ^ s <= (pre (qof ek nk) nk - pre (qof ek nk) ek) * 2 ^ s) by (apply Z.mul_le_mono_nonneg_r; lia).
        assert (Hsle : sl ek (qof ek nk) s <= i).
        { destruct (Z.le_gt_cases zp (qof ek nk)) as [Hge|Hlt].
          - assert (E0 : sl ek (qof ek nk) s = 0); [|lia]. apply (ones_run ek (qof ek nk) s false); [lia|]. intros j Hj. unfold ek. rewrite edit_bit by (assumption || lia). destruct (Z.ltb_spec j zp); [lia|apply andb_false_r].
          - pose proof (Hek (qof ek nk + s) ltac:(lia)) as He. rewrite !(pre_split (qof ek nk) s) in He by lia.
            assert (Ee : pre (qof ek nk) ek = pre (qof ek nk) k) by (apply (pre_eq_mono _ zp); [lia|exact Hekz]). rewrite Ee in He. unfold i. lia. }
        lia.
  - exists t1. split; [apply (rep_list _ _ _ _ _ _ RR3)|]. destruct Hins as (ta & tb & -> & -> & _). apply Permutation_middle.
  - intros k' Kk' Hlk' Epz. split; [exact FR1|]. split; [exact Hlk'|]. rewrite FR2. pose proof (edit_bits k zp ltac:(lia)) as Hb. fold ek in Hb.
    assert (Ez2 : pre zp ek = pre zp k') by lia. destruct (Z.le_gt_cases 0 (8 * klen ek - (7 - Z.rem (zp - 1) 8))) as [Hn|Hn].
    + apply (pre_eq_mono _ zp); [lia|exact Ez2].
    + unfold pre, sl. replace (Z.to_nat (8 * klen ek - (7 - Z.rem (zp - 1) 8))) with O by lia. reflexivity.
  - intros k' [_ [_ Hp]]. rewrite FR2 in Hp. apply (edit_part k zp Hz1 k'). exact Hp.
Qed.

Section Ins.
Variables (len : Z) (d : diva) (A0 : tree) (pk : key) (st : store) (nk : key) (st' : store) (B0 : tree) (k : key).
Hypothesis Hds : d_size d = s.
Hypothesis Ht : d_tree d = A0 ++ (pk, st) :: (nk, st') :: B0.
Hypothesis Ha : adj (gapx len) (d_tree d).
Hypothesis Kk : kok k.
Hypothesis Hlen : klen k <= len.
Hypothesis Hk1 : key_lt k pk = false.
Hypothesis Hk2 : key_lt k nk = true.
Hypothesis HN : forall L, get_infix_list c s st = Ok L -> Z.of_nat (length L) + 1 < 2 ^ 20.

Lemma at_gap : gapx len pk st nk.
Proof. rewrite Ht in Ha. apply adj_app in Ha as [_ H]. apply H. Qed.
Lemma at_ord : exists sh ig z, seg c pk nk sh ig z /\ kok pk /\ kok nk /\ plt pk nk /\ ple pk k /\ ple k nk /\ 10 <= qof pk nk /\ 0 <= inf pk nk k < 1024 * 2 ^ s /\ 1024 * 2 ^ s <= 2 ^ 56.
Proof.
  destruct at_gap as ((K1 & K2 & K3 & _) & _). destruct (seg_ex c pk nk K1 K2 K3) as (sh & ig & z & HS). exists sh, ig, z. pose proof (nlt_ple pk k K1 Kk Hk1) as P1. pose proof (key_lt_ple k nk Kk K2 Hk2) as P2.
  destruct (seg_tot _ _ _ _ _ _ HS) as [_ Hq]. destruct (inf_range c s Hs _ _ _ _ _ k HS P1 P2) as (I1 & I2 & I3).
  split; [exact HS|]. repeat (split; [assumption|]). split; lia.
Qed.
Theorem simple_done d' : insert_simple c d k = Ok d' -> done len d d' A0 pk nk st' B0 k.
Proof.
  intros E. destruct (insert_simple_spec c s Hs T Hf d A0 pk st nk st' B0 k Hds Ht (adj_gapx _ _ Ha) Kk Hk1 Hk2 HN) as (st2 & E2 & G1 & G2 & G3 & G4 & L & L' & EL & EL' & Hi).
  rewrite E2 in E. inversion E; subst d'. clear E. destruct at_gap as ((K1 & K2 & K3 & K4 & L0 & K5) & Hord & Hl). destruct (Hord L EL) as [O1 O2].
  destruct at_ord as (sh & ig & z & HS & _ & _ & _ & P1 & P2 & Hq & Hi1 & Hi2).
  pose proof (adj_at c s _ _ _ _ _ _ G1) as G5. pose proof G5 as (_ & _ & _ & _ & L2 & K6).
  pose proof (rep_list _ _ _ _ _ _ K5) as EL0. pose proof (rep_list _ _ _ _ _ _ K6) as EL2. rewrite EL in EL0. rewrite EL' in EL2. inversion EL0; subst L0. inversion EL2; subst L2.
  assert (Hx : gapx len pk st2 nk).
  { split; [exact G5|]. split; [|exact Hl]. intros L1 E1. rewrite EL' in E1. inversion E1; subst L1. destruct (lor1_range (inf pk nk k) ltac:(lia)) as [R1 R2]. pose proof (lor1_pos (inf pk nk k) ltac:(lia)) as R0. split.
    - apply (ins_lex (Z.lor (inf pk nk k) 1) L L'); [lia|exact R2|apply (rep_infs _ _ _ _ _ _ K5)|apply (rep_infs _ _ _ _ _ _ K6)|exact Hi|exact O1].
    - destruct Hi as (A & B & -> & -> & _). apply Forall_app in O2 as [O2 O3]. apply Forall_app. split; [exact O2|]. constructor; [|exact O3].
      pose proof (odd_hit (inf pk nk k) ltac:(lia)) as Hh. pose proof (inf_mono c s Hs pk nk pk k ltac:(lia) P1). pose proof (inf_mono c s Hs pk nk k nk ltac:(lia) P2). unfold meets. lia. }
  constructor; cbn [d_size d_tree].
  - reflexivity.
  - exists st2, []. reflexivity.
  - apply (adj_put2 _ A0 pk st [(pk, st2)] nk st' B0); [rewrite <- Ht; exact Ha|eauto|]. cbn [app]. rewrite adj_cons, adj_one. auto.
  - exact G2.
  - intros k' _ _ H. apply G3. exact H.
  - intros ks _ Hh. rewrite Ht in Hh, Ha. pose proof (gapok_sorted c s _ (adj_gapx _ _ Ha)) as Hso. apply (held_put c s Hs k ks A0 pk st [(pk, st2)] nk st' B0 Hso Hk1 Hk2 Hh); [eauto|].
    pose proof (heldt_at _ _ _ _ _ _ _ _ _ Hh) as HM. cbn [app]. split; [|simpl; auto]. intros L1 E1. rewrite EL' in E1. inversion E1; subst L1. specialize (HM L EL).
    destruct (flags_part _ _ G4) as [F1 F2]. assert (En : forall k', need pk st2 nk k' = need pk st nk k') by (intros k'; unfold need, partb; rewrite F1, F2; reflexivity).
    rewrite (filter_ext _ _ En). destruct Hi as (LA & LB & EA & EB & _). apply (matched_right _ _ (Z.lor (inf pk nk k) 1 :: L)); [rewrite EA, EB; apply Permutation_middle|].
    cbn [filter]. destruct (need pk st nk k); [|apply (matched_more _ _ _ [_] HM)]. apply matched_cons. exists (Z.lor (inf pk nk k) 1), L. split; [reflexivity|]. split; [|exact HM].
    apply hit_self; lia.
  - intros k' Kk' Hc. pose proof Ha as Ha2. rewrite Ht in Ha2. pose proof (gapok_sorted c s _ (adj_gapx _ _ Ha2)) as Hso. rewrite Ht. apply covt_app in Hc. rewrite covt_app. rewrite !covt_cons in *.
    destruct Hc as [Hc|[->|[(Hc1 & Hc2 & Hc3)|Hc]]].
    + left. left. apply (covt_last _ _ _ _ _ _ Hc).
    + left. right. left. reflexivity.
    + destruct Hc3 as [Hp|(L1 & x & E1 & Hx0 & Hh)].
      * left. right. right. left. split; [exact Hc1|]. split; [exact Hc2|]. left. apply (flags_partp st2); [congruence|exact Hp].
      * rewrite EL' in E1. injection E1 as <-. destruct Hi as (LA & LB & EA & EB & _). rewrite EB in Hx0. apply in_app_or in Hx0 as [Hx0|[<-|Hx0]].
        -- left. right. right. left. split; [exact Hc1|]. split; [exact Hc2|]. right. exists L, x. split; [exact EL|]. split; [rewrite EA; apply in_or_app; auto|exact Hh].
        -- right. split; [exact Hc1|]. split; [exact Hc2|]. apply odd_back in Hh; [|lia]. apply (near_inf _ _ _ _ (qof pk nk + s - 1)); [lia|]. rewrite <- !half_pre by lia.
           assert (E2s : 2 ^ s = 2 ^ (s - 1) * 2) by (replace s with (s - 1 + 1) at 1 by lia; rewrite Z.pow_add_r by lia; reflexivity).
           unfold inf in Hh. rewrite E2s, Z.mul_assoc in Hh. rewrite <- !Z.add_opp_r, <- !Z.mul_opp_l, !Z.div_add in Hh by lia. lia.
        -- left. right. right. left. split; [exact Hc1|]. split; [exact Hc2|]. right. exists L, x. split; [exact EL|]. split; [rewrite EA; apply in_or_app; auto|exact Hh].
    + left. right. right. right. exact Hc.
Qed.
Lemma sub_seg a b p sh ig z : 0 <= p -> kok a -> kok b -> ple a b -> pre (8 * p) a = pre (8 * p) b ->
  shared_ignore_implicit c (key_from a p) (key_from b p) = Ok (sh, ig, z) -> plt a b /\ seg c a b (sh + p * 8) ig z.
Proof.
  intros Hp K1 K2 H E R. destruct (sii_from c a b p sh ig z Hp K1 K2 H E R) as [P G]. split; [exact P|]. destruct (seg_ex c a b K1 K2 P) as (sh' & ig' & z' & HS).
  destruct (gap_unique _ _ _ _ _ _ _ _ (sg_gap _ _ _ _ _ _ HS) G) as (-> & -> & ->). exact HS.
Qed.
Lemma seg_total a b sh ig z x y : seg c a b sh ig z -> kok a -> kok b -> extract c s a sh ig z 0 = Ok x -> extract c s b sh ig z 1 = Ok y ->
  u32 (Z.shiftr y s - Z.shiftr x s + 1) = tot a b.
Proof.
  intros HS K1 K2 E1 E2. pose proof HS as [G _ Hq]. rewrite (extract_left G) in E1 by auto. rewrite (extract_right G) in E2 by auto. inversion E1. inversion E2. rewrite !(gap_shift G) by lia.
  destruct (seg_tot _ _ _ _ _ _ HS) as [Ht' _]. unfold tot in *. rewrite Hq in *. unfold qpos. rewrite u32_small by lia. lia.
Qed.
Lemma land_top x isz : 0 <= isz -> isz + s <= 64 -> 0 <= x < 2 ^ (isz + s) -> Z.land x (u64 (Z.shiftl (bitmask isz) s)) = u64 (Z.shiftl (Z.shiftr x s) s).
Proof.
  intros Hi His Hx. assert (E : u64 (Z.shiftl (bitmask isz) s) = Z.shiftl (Z.ones isz) s).
  { apply u64_small. unfold bitmask. rewrite Z.shiftl_mul_pow2, Z.ones_equiv by lia. assert (0 < 2 ^ isz) by (apply p2pos; lia). assert (0 < 2 ^ s) by (apply p2pos; lia).
    split; [apply Z.mul_nonneg_nonneg; lia|]. assert (2 ^ isz * 2 ^ s <= 2 ^ 64) by (rewrite <- Z.pow_add_r by lia; apply pow2_le_mono; lia). lia. }
  rewrite E. assert (E2 : Z.land x (Z.shiftl (Z.ones isz) s) = Z.shiftl (Z.shiftr x s) s).
  { apply Z.bits_inj'. intros j Hj. rewrite Z.land_spec, !Z.shiftl_spec by lia. destruct (Z.lt_ge_cases j s) as [Hlt|Hge].
    - rewrite (Z.testbit_neg_r _ (j - s)) by lia. rewrite (Z.testbit_neg_r _ (j - s)) by lia. apply andb_false_r.
    - rewrite Z.shiftr_spec, ones_testbit by lia. replace (j - s + s) with j by lia. destruct (Z.ltb_spec (j - s) isz); [apply andb_true_r|].
      rewrite (testbit_lt_pow x (isz + s)) by lia. apply andb_false_r. }
  rewrite E2. symmetry. apply u64_small. rewrite Z.shiftl_mul_pow2, Z.shiftr_div_pow2 by lia. pose proof (ps_pos s Hs) as Hp. pose proof (Z.mul_div_le x (2 ^ s) Hp). pose proof (Z.div_pos x (2 ^ s) ltac:(lia) Hp).
  pose proof (pow2_le_mono (isz + s) 64 ltac:(lia)). split; [apply Z.mul_nonneg_nonneg; lia|]. lia.
Qed.

Lemma alloc_ok a b sh ig z l st2 : seg c a b sh ig z -> infs s l -> Z.of_nat (length l) < 2 ^ 20 -> alloc_with_list c s l (tot a b) = Ok st2 ->
  rep c s (tot a b) true st2 l /\ is_partial_key st2 = false.
Proof.
  intros HS Hl Hn E. destruct (seg_tot _ _ _ _ _ _ HS) as [Htt _].
  assert (Hi : exists scalar, implicit_scalar c (tot a b) = Ok scalar).
  { unfold implicit_scalar. change (target_size / 2) with 512. destruct (Z.leb_spec 0 (tot a b - 512)); [|lia]. destruct (Z.leb_spec (tot a b - 512) 512); [|lia]. eexists. reflexivity. }
  destruct Hi as (scalar & Hi).
  apply (wp_inv _ _ _ (alloc_rep c T s l (tot a b) scalar (fun st2 => rep c s (tot a b) true st2 l /\ is_partial_key st2 = false) Hf ltac:(lia) Hi Hl Hn
    ltac:(intros; split; [assumption|]; rewrite partial_flags by lia; match goal with H : flags _ = 0 |- _ => rewrite H end; reflexivity)) E).
Qed.
Lemma split_tree (slt sgt : store) (ek : key) : plt pk ek -> plt ek nk -> kok ek -> klen ek <= len ->
  gapx len pk slt ek -> gapx len ek sgt nk ->
  (forall k', kok k' -> len <= klen k' -> key_lt pk k' = true -> key_lt k' ek = true -> gcov pk st nk k' -> gcov pk slt ek k') ->
  (forall k', kok k' -> len <= klen k' -> key_lt ek k' = true -> key_lt k' nk = true -> gcov pk st nk k' -> gcov ek sgt nk k') ->
  ek = k \/ (key_lt ek k = true /\ gcov ek sgt nk k) ->
  (forall ks, (forall k', In k' ks -> kok k' /\ len <= klen k') -> mat c s ks pk st nk -> mat c s (k :: ks) pk slt ek /\ mat c s (k :: ks) ek sgt nk) ->
  (forall k', kok k' -> key_lt pk k' = true -> key_lt k' ek = true -> gcov pk slt ek k' -> gcov pk st nk k' \/ near pk nk k k') ->
  (forall k', kok k' -> key_lt ek k' = true -> key_lt k' nk = true -> gcov ek sgt nk k' -> gcov pk st nk k' \/ near pk nk k k') ->
  gcov pk st nk ek \/ near pk nk k ek ->
  done len d (with_tree d (put (put (d_tree d) pk slt) ek sgt)) A0 pk nk st' B0 k.
Proof.
  intros P1 P2 Ke Hle G1 G2 C1 C2 C3 CM N1 N2 N3. destruct at_gap as ((K1 & K2 & K3 & _) & _). pose proof Ha as Ha'. rewrite Ht in Ha'. pose proof (gapok_sorted c s _ (adj_gapx _ _ Ha')) as Hso.
  pose proof (plt_key_lt _ _ K1 Ke P1) as L1. pose proof (plt_key_lt _ _ Ke K2 P2) as L2.
  assert (Et : put (put (d_tree d) pk slt) ek sgt = A0 ++ [(pk, slt); (ek, sgt)] ++ (nk, st') :: B0).
  { pose proof (sorted_app_below _ (pk, st) _ Hso) as Hb. rewrite Ht, put_hit by exact Hb. replace (A0 ++ (pk, slt) :: (nk, st') :: B0) with ((A0 ++ [(pk, slt)]) ++ (nk, st') :: B0) by (rewrite <- app_assoc; reflexivity).
    rewrite put_new; [rewrite <- app_assoc; reflexivity| |].
    - intros x Hx. apply in_app_or in Hx as [Hx|[<-|[]]]; [|exact L1]. apply (key_lt_trans _ pk); [apply Hb; exact Hx|exact L1].
    - intros x B' E. inversion E; subst. exact L2. }
  unfold with_tree. rewrite Et. constructor; cbn [d_size d_tree].
  - exact Hds.
  - exists slt, [(ek, sgt)]. reflexivity.
  - apply (adj_put2 _ A0 pk st _ nk st' B0); [exact Ha'|eauto|]. cbn [app]. rewrite !adj_cons, adj_one. auto.
  - cbn [app]. apply covt_app. right. rewrite !covt_cons. destruct C3 as [->|[C3 C4]]; [right; right; left; reflexivity|]. right. right. right. left. auto.
  - intros k' Kk' Hlk Hc. rewrite Ht in Hc. apply covt_app in Hc. cbn [app]. apply covt_app. rewrite !covt_cons in *. destruct Hc as [Hc|[->|[(Hc1 & Hc2 & Hc3)|Hc]]].
    + left. apply (covt_last _ _ _ _ _ _ Hc).
    + right. left. reflexivity.
    + right. destruct (key_lt_total k' ek) as [Hlt|[->|Hlt]].
      * right. left. auto.
      * right. right. left. reflexivity.
      * right. right. right. left. auto.
    + right. right. right. right. right. exact Hc.
  - intros ks Hks Hh. rewrite Ht in Hh. apply (held_put c s Hs k ks A0 pk st [(pk, slt); (ek, sgt)] nk st' B0 Hso Hk1 Hk2 Hh); [eauto|].
    pose proof (heldt_at _ _ _ _ _ _ _ _ _ Hh) as HM. destruct (CM ks Hks HM) as [M1 M2]. cbn [app]. unfold heldt. rewrite !adj_cons, adj_one. auto.
  - intros k' Kk' Hc. cbn [app] in Hc. rewrite Ht. apply covt_app in Hc. rewrite covt_app. rewrite !covt_cons in *. destruct Hc as [Hc|[->|[(Hc1 & Hc2 & Hc3)|[<-|[(Hc1 & Hc2 & Hc3)|Hc]]]]].
    + left. left. apply (covt_last _ _ _ _ _ _ Hc).
    + left. right. left. reflexivity.
    + pose proof (key_lt_trans _ _ _ Hc2 L2) as Hc4. destruct (N1 k' Kk' Hc1 Hc2 Hc3) as [Hg|Hg]; [left; right; right; left; auto|right; auto].
    + destruct N3 as [Hg|Hg]; [left; right; right; left; auto|right; auto].
    + pose proof (key_lt_trans _ _ _ L1 Hc1) as Hc4. destruct (N2 k' Kk' Hc1 Hc2 Hc3) as [Hg|Hg]; [left; right; right; left; auto|right; auto].
    + left. right. right. right. exact Hc.
Qed.
Hypothesis Hroom : roomy pk nk k.

Lemma short_not_ple a b : kok a -> kok b -> klen b <= klen a -> key_lt a b = true -> ple b a -> False.
Proof.
  intros Ka Kb Hab Hlt Hle. pose proof (key_lt_short a b Ka Kb ltac:(unfold klen in Hab; lia) Hlt) as H1. specialize (Hle (8 * klen b) ltac:(unfold klen; lia)). lia.
Qed.
Theorem split_done d' : insert_split c d k = Ok d' -> done len d d' A0 pk nk st' B0 k.
Proof.
  intros H. destruct at_gap as ((K1 & K2 & K3 & K4 & L & K5) & Hord & Hl). destruct at_ord as (sh & ig & z & HS & _ & _ & _ & P1 & P2 & Hq & Hi1 & Hi2).
  pose proof Ha as Ha'. rewrite Ht in Ha'. pose proof (gapok_sorted c s _ (adj_gapx _ _ Ha')) as Hso. pose proof (rep_list _ _ _ _ _ _ K5) as EL. destruct (Hord L EL) as [O1 O2].
  pose proof (rep_infs _ _ _ _ _ _ K5) as HinfL. pose proof HS as [HG Hrun Hqq].
  unfold insert_split in H. rewrite Hds in H. rewrite Ht in H at 1. rewrite locate_gap in H by assumption. cbn [bind] in H.
  apply bind_ok in H as (p & Ep & H). destruct (part_check s Hs st pk k K4 K1 Kk) as (p' & Ep' & Hp'). rewrite Ep' in Ep. inversion Ep; subst p'. clear Ep.
  destruct p; [apply simple_done; exact H|]. assert (Hnp : ~ part st pk k) by (intros X; apply Hp' in X; discriminate). clear Hp' Ep'.
  rewrite Hrun in H. cbn [bind] in H. cbv zeta in H.
  apply bind_ok in H as (ext & Eext & H). apply bind_ok in H as (prv & Eprv & H). apply bind_ok in H as (nxt & Enxt & H). rewrite EL in H. cbn [bind] in H.
  destruct (negb (Z.of_nat (length L) =? get_elem_count st)); [discriminate|].
  apply bind_ok in H as ([sl_ sr_] & Esearch & H). apply bind_ok in H as ([sp zp] & Escan & H).
  (* the separator *)
  assert (Esep : u64 (Z.lor ext 1 - Z.land prv (u64 (Z.shiftl (bitmask z) s))) = Z.lor (inf pk nk k) 1).
  { destruct (extract_key_seg c s Hs _ _ _ _ _ k HS K1 Kk P1 P2) as (e & Ee & _ & E2). rewrite Ee in Eext. inversion Eext; subst e. rewrite (extract_left HG) in Eprv by assumption. inversion Eprv as [Eprv'].
    pose proof (gp_is _ _ _ _ _ HG) as Hz. rewrite land_top; [|lia|lia|].
    - rewrite (gap_shift HG) by lia. unfold infix_of in E2. rewrite Hqq in E2. exact E2.
    - pose proof (gap_base HG pk) as Hb. assert (Hb1 : pre (sh + ig + 1) pk <= pre (sh + ig + 1) pk <= pre (sh + ig + 1) nk) by (pose proof (gp_one _ _ _ _ _ HG); lia). specialize (Hb Hb1).
      rewrite <- (gap_shift HG s pk) in Hb by lia. rewrite Z.shiftr_div_pow2 in Hb by lia. set (x := pre (qpos + s) pk - pre (sh + ig + 1) pk * 2 ^ (z - 1 + s)) in *.
      pose proof (ps_pos s Hs) as Hps. pose proof (Z.div_mod x (2 ^ s) ltac:(lia)) as D. pose proof (Z.mod_pos_bound x (2 ^ s) Hps) as R.
      replace (2 ^ (z + s)) with (2 * 2 ^ (z - 1) * 2 ^ s) by (rewrite <- Z.pow_succ_r, <- Z.pow_add_r by lia; f_equal; lia).
      assert (0 <= 2 ^ s * (x / 2 ^ s)) by (apply Z.mul_nonneg_nonneg; lia). assert ((x / 2 ^ s + 1) * 2 ^ s <= 2 * 2 ^ (z - 1) * 2 ^ s) by (apply Z.mul_le_mono_nonneg_r; lia). lia. }
  rewrite Esep in Esearch, Escan. destruct (lor1_range (inf pk nk k) ltac:(lia)) as [R1 R2]. pose proof (lor1_pos (inf pk nk k) ltac:(lia)) as R0.
  pose proof (scan_run s Hs L O1 (infs_elem _ HinfL) (Z.lor (inf pk nk k) 1) ltac:(lia) R2 _ _ _ _ _ Esearch Escan) as (LA & LB & ELAB & Esp & Hfound).
  rewrite <- Hqq in Hfound, H. set (q0 := qof pk nk) in *. set (ek := edit_key k zp) in *.
  assert (Hmode : mode pk nk k LA LB zp ek).
  { destruct Hfound as [(F1 & F2 & F3)|(v & B' & F1 & F2 & F3 & F4 & F5)]; [left|right].
    - split; [exact F1|]. split; [|auto]. unfold ek, edit_key. rewrite F1. reflexivity.
    - exists v, B'. fold q0. auto 8. }
  assert (Hzp : zp = -1 \/ q0 <= zp < q0 + s).
  { destruct Hfound as [(F1 & _)|(v & B' & F1 & F2 & _)]; [left; exact F1|right]. pose proof (infs_elem _ HinfL) as F. rewrite Forall_forall in F.
    destruct (F v) as [V1 V2]; [rewrite ELAB, F1; apply in_or_app; right; left; reflexivity|]. apply (cut_zp pk nk v zp V1 V2 F2). }
  assert (Ke : kok ek). { destruct Hzp as [Ez|Ez]; [unfold ek, edit_key; rewrite Ez; exact Kk|apply edit_kok; [exact Kk|lia]]. }
  assert (Hek : ple ek k). { destruct Hzp as [Ez|Ez]; [unfold ek, edit_key; rewrite Ez; apply ple_refl|apply edit_ple; lia]. }
  assert (Hekl : klen ek <= klen k). { destruct Hzp as [Ez|Ez]; [unfold ek, edit_key; rewrite Ez; simpl; lia|apply edit_len; lia]. }
  assert (Heke : forall n, 0 <= n <= q0 -> pre n ek = pre n k). { intros n Hn. destruct Hzp as [Ez|Ez]; [unfold ek, edit_key; rewrite Ez; reflexivity|apply edit_pre_low; lia]. }
  apply bind_ok in H as (ext2 & Eext2 & H). apply bind_ok in H as ([[sh1 ig1] is1] & Es1 & H). apply bind_ok in H as (x1 & Ex1 & H). apply bind_ok in H as (x2 & Ex2 & H).
  apply bind_ok in H as (b1 & Eb1 & H). apply bind_ok in H as (b2 & Eb2 & H). apply bind_ok in H as (h1 & Eh1 & H).
  apply bind_ok in H as ([[sh2 ig2] is2] & Es2 & H). apply bind_ok in H as (x3 & Ex3 & H). apply bind_ok in H as (x4 & Ex4 & H).
  apply bind_ok in H as (b3 & Eb3 & H). apply bind_ok in H as (h3 & Eh3 & H). apply bind_ok in H as (b4 & Eb4 & H). apply bind_ok in H as (h4 & Eh4 & H).
  set (swb := sh / 64 * 8) in *.
  assert (Hswb : 0 <= swb /\ 8 * swb <= sh). { pose proof (gp_sh _ _ _ _ _ HG). pose proof (Z.mul_div_le sh 64 ltac:(lia)). pose proof (Z.div_pos sh 64 ltac:(lia) ltac:(lia)). unfold swb. lia. }
  assert (Hshq : sh + 10 <= q0) by (pose proof (gp_ig _ _ _ _ _ HG); pose proof (gp_is _ _ _ _ _ HG); lia).
  assert (Hpe : pre (8 * swb) pk = pre (8 * swb) ek /\ pre (8 * swb) ek = pre (8 * swb) nk).
  { pose proof (gp_eq _ _ _ _ _ HG) as Eg. pose proof (pre_eq_mono (8 * swb) sh pk nk ltac:(lia) Eg) as Eg2. rewrite (Heke (8 * swb)) by lia. pose proof (P1 (8 * swb) ltac:(lia)). pose proof (P2 (8 * swb) ltac:(lia)). lia. }
  destruct Hpe as [Hpe1 Hpe2].
  assert (Hekn : ple ek nk) by (apply (ple_trans _ _ _ Hek P2)).
  destruct (sub_seg ek nk swb sh2 ig2 is2 ltac:(lia) Ke K2 Hekn Hpe2 Es2) as [Pen HS2].
  destruct (Z.leb_spec (u32 zp) (Z.max (sh1 + swb * 8) (sh2 + swb * 8))) as [Hsimple|Hsplit]; [apply simple_done; exact H|].
  assert (Hpek : ple pk ek).
  { destruct Hzp as [Ez|Ez]; [unfold ek, edit_key; rewrite Ez; exact P1|].
    destruct (sii_first c _ _ _ _ _ (kok_from pk swb K1) (kok_from ek swb Ke) Es1) as (S1 & S2 & S3).
    destruct (key_lt ek pk) eqn:Elt; [exfalso|apply nlt_ple; assumption]. pose proof (key_lt_ple _ _ Ke K1 Elt) as Hle.
    assert (Ezp : pre zp pk = pre zp ek). { pose proof (Hle zp ltac:(lia)). pose proof (P1 zp ltac:(lia)) as Q1. assert (Q2 : pre zp ek = pre zp k) by (unfold ek; apply edit_pre_low; clear -Ez Hq; lia). lia. }
    rewrite !kbit_from in S3 by lia. assert (Hge : zp <= 8 * swb + sh1).
    { destruct (Z.le_gt_cases zp (8 * swb + sh1)) as [|Hlt]; [assumption|exfalso]. apply S3. apply (sl_inj pk ek 0 0 zp ltac:(lia) Ezp (8 * swb + sh1)). lia. }
    assert (u32 zp <= zp) by (rewrite u32_mod; apply Z.mod_le; lia). lia. }
  destruct (sub_seg pk ek swb sh1 ig1 is1 ltac:(lia) K1 Ke Hpek Hpe1 Es1) as [Ppe HS1].
  assert (Hroom' : 512 <= dist (q0 + 54 - s) pk ek /\ 512 <= dist (q0 + 54 - s) ek nk).
  { apply Hroom; [|exact Ppe|exact Pen]. destruct Hzp as [Ez|Ez]; [left; unfold ek, edit_key; rewrite Ez; reflexivity|right; exists zp; split; [lia|reflexivity]]. }
  destruct Hroom' as [Hr1 Hr2].
  set (e1 := sh1 + swb * 8) in *. set (e2 := sh2 + swb * 8) in *.
  assert (Eq1 : e1 + ig1 + is1 = qof pk ek) by (symmetry; apply (sg_q _ _ _ _ _ _ HS1)). assert (Eq2 : e2 + ig2 + is2 = qof ek nk) by (symmetry; apply (sg_q _ _ _ _ _ _ HS2)).
  rewrite Eq1 in *. rewrite Eq2 in *.
  rewrite (seg_total _ _ _ _ _ _ _ HS1 K1 Ke Ex1 Ex2) in H. rewrite (seg_total _ _ _ _ _ _ _ HS2 Ke K2 Ex3 Ex4) in H.
  (* quotient parts *)
  assert (Hshift : forall x y, extract_key c s x sh ig z = Ok y -> kok x -> ple pk x -> ple x nk -> Z.shiftr y s - Z.shiftr prv s = pre q0 x - pre q0 pk).
  { intros x y E Kx X1 X2. unfold extract_key in E. pose proof (gp_ig _ _ _ _ _ HG). rewrite (extract_key_gap HG) in E by first [assumption|pose proof (gp_sh _ _ _ _ _ HG); split; [apply X1|apply X2]; lia].
    rewrite (extract_left HG) in Eprv by assumption. inversion E. inversion Eprv. rewrite !(gap_shift HG) by lia. rewrite Hqq. unfold qpos. lia. }
  assert (Hd1 : Z.shiftr ext2 s - Z.shiftr prv s = pre q0 ek - pre q0 pk).
  { destruct (Z.eqb_spec zp (-1)) as [Ez|Ez].
    - inversion Eext2; subst ext2. unfold ek, edit_key. rewrite Ez. apply (Hshift k ext Eext Kk P1 P2).
    - apply (Hshift ek ext2 Eext2 Ke Hpek Hekn). }
  assert (Hd2 : Z.shiftr nxt s - Z.shiftr prv s = pre q0 nk - pre q0 pk).
  { rewrite (extract_left HG) in Eprv by assumption. rewrite (extract_right HG) in Enxt by assumption. inversion Enxt. inversion Eprv. rewrite !(gap_shift HG) by lia. rewrite Hqq. unfold qpos. lia. }
  rewrite Hd1 in *. rewrite Hd2 in *.
  set (w1 := qof pk ek - q0) in *. set (w2 := qof ek nk - q0) in *.
  pose proof (edge_left pk nk pk ek K1 K2 K1 Ke K3 (ple_refl _) Ppe Hekn Hr1 b1 eq_refl Eb1) as Edge1.
  pose proof (edge pk nk pk ek K1 K2 K1 Ke K3 (ple_refl _) Ppe Hekn Hr1 ek b2 h1 Ke Hpek Hekn Eb2 Eh1) as Edge2.
  pose proof (edge pk nk ek nk K1 K2 Ke K2 K3 Hpek Pen (ple_refl _) Hr2 ek b3 h3 Ke Hpek Hekn Eb3 Eh3) as Edge3.
  pose proof (edge pk nk ek nk K1 K2 Ke K2 K3 Hpek Pen (ple_refl _) Hr2 nk b4 h4 K2 (plt_ple _ _ K3) (ple_refl _) Eb4 Eh4) as Edge4.
  rewrite Edge1, Edge2, Edge3, Edge4 in H. clear Edge1 Edge2 Edge3 Edge4 Hshift.
  fold q0 in H. fold w1 in H. fold w2 in H.
  assert (EsLA : firstn (Z.to_nat sp) L = LA /\ skipn (Z.to_nat sp) L = LB).
  { rewrite Esp, Nat2Z.id, ELAB. rewrite firstn_app, firstn_all, Nat.sub_diag, app_nil_r, skipn_app, skipn_all, Nat.sub_diag. split; reflexivity. }
  destruct EsLA as [EsA EsB]. rewrite EsA, EsB in H. clear EsA EsB.
  apply bind_ok in H as (left & Eleft & H). apply bind_ok in H as (right & Eright & H). apply bind_ok in H as (slt & Eslt & H). apply bind_ok in H as (right' & Eright' & H).
  apply bind_ok in H as (sgt & Esgt & H). apply bind_ok in H as (uu & _ & H).
  assert (Hshr : forall x, Z.shiftr (x * 2 ^ s) s = x). { intros x. rewrite Z.shiftr_div_pow2 by lia. apply Z.div_mul. pose proof (ps_pos s Hs). lia. }
  rewrite ELAB in HinfL, O1, O2.
  pose proof (two_left pk nk k ek zp _ _ LA LB left right K1 K2 Ke Ppe Pen P1 P2 Hr1 Hr2 HinfL O1 O2 Hmode (Hshr _) (Hshr _) Eleft Eright) as (TL1 & TL2 & TL3 & TL4 & TL5).
  pose proof (two_right pk nk k ek zp _ _ LA LB left right K1 K2 Ke Ppe Pen P1 P2 Hr1 Hr2 HinfL O1 O2 Hmode (Hshr _) (Hshr _) Eleft Eright) as (TR1 & TR2 & TR3 & TR4 & TR5 & TR6).
  pose proof (two_left_back pk nk k ek zp _ _ LA LB left right K1 K2 Ke Ppe Pen P1 P2 Hr1 Hr2 HinfL O2 Hmode (Hshr _) (Hshr _) Eleft Eright) as TLb.
  pose proof (two_right_back pk nk k ek zp _ _ LA LB left right K1 K2 Ke Ppe Pen P1 P2 Hr1 Hr2 HinfL O1 O2 Hmode (Hshr _) (Hshr _) Eleft Eright) as TRb.
  pose proof (two_cut_back pk nk k ek zp LA LB K1 K2 Ppe Pen P1 P2 HinfL Hmode) as TCb.
  clear Eleft Eright Eh1 Eh3 Eh4 Eb1 Eb2 Eb3 Eb4 Es1 Es2 Ex2 Ex3 Ex4 Ex1 Eext Eext2 Enxt Eprv Esearch Escan Esep Hshr Hd1 Hd2.
  destruct (alloc_ok _ _ _ _ _ _ _ HS1 TL2 TL1 Eslt) as [RL _].
  destruct (rep_flags c s _ _ _ _ (get_invalid_bits st) (is_partial_key st) RL (invalid_range st)) as (RL2 & FL1 & FL2).
  set (slt2 := set_partial_key (set_invalid_bits slt (get_invalid_bits st)) (is_partial_key st)) in *.
  assert (Gl : gapx len pk slt2 ek).
  { split; [|split; [|exact Hl]].
    - split; [exact K1|]. split; [exact Ke|]. split; [exact Ppe|]. split; [unfold part_ok; rewrite FL1; exact K4|]. exists left. exact RL2.
    - intros L1 E1. rewrite (rep_list _ _ _ _ _ _ RL2) in E1. inversion E1; subst L1. auto. }
  assert (Cl : forall k', kok k' -> len <= klen k' -> key_lt pk k' = true -> key_lt k' ek = true -> gcov pk st nk k' -> gcov pk slt2 ek k').
  { intros k' Kk' Hlk L1 L2 [Hp|(L1' & x & E1 & Hx & Hh)].
    - left. unfold part in *. rewrite FL1, FL2. exact Hp.
    - right. rewrite EL in E1. inversion E1; subst L1'. destruct (proj1 (matched_one _ k' left) (TL5 [k'] ltac:(intros k1 [<-|[]]; split; [exact Kk'|]; split; [clear -Hekl Hlen Hlk; lia|]; split; assumption) (proj2 (matched_one _ k' (LA ++ LB)) (ex_intro _ x (conj (eq_ind L (fun l => In x l) Hx (LA ++ LB) ELAB) Hh))))) as (y & Hy & Hyh).
      exists left, y. split; [apply (rep_list _ _ _ _ _ _ RL2)|]. auto. }
  assert (Hlk : key_lt pk k = true) by (apply plt_key_lt; [exact K1|exact Kk|apply (plt_ple_trans _ _ _ Ppe Hek)]).
  pose proof (plt_key_lt _ _ K1 Ke Ppe) as Lpe. pose proof (plt_key_lt _ _ Ke K2 Pen) as Len.
  assert (Hke : key_lt k ek = false). { destruct (key_lt k ek) eqn:E; [|reflexivity]. exfalso. apply (short_not_ple k ek Kk Ke Hekl E Hek). }
  assert (Ml : forall ks, (forall k', In k' ks -> kok k' /\ len <= klen k') -> mat c s ks pk st nk -> mat c s (k :: ks) pk slt2 ek).
  { intros ks Hks HM. apply (mat_far c s Hs k ks pk slt2 ek); [unfold need; rewrite Hke, andb_false_r; reflexivity|]. intros L1 E1. rewrite (rep_list _ _ _ _ _ _ RL2) in E1. inversion E1; subst L1.
    specialize (HM L EL). rewrite ELAB in HM. rewrite (filter_sub (need pk st nk)).
    - apply TL5; [|apply matched_filter; exact HM]. intros k' Hk'. apply filter_In in Hk' as [Hk' Hn]. apply filter_In in Hk' as [Hk' _]. apply need_iff in Hn as (N1 & N2 & _).
      destruct (Hks k' Hk') as [Kk' Hl']. split; [exact Kk'|]. split; [clear -Hekl Hlen Hl'; lia|auto].
    - intros k' _ Hn. apply need_iff in Hn as (N1 & N2 & N3). apply need_iff. split; [exact N1|]. split; [apply (key_lt_trans _ ek); assumption|].
      intros Hp. apply N3. unfold part in *. rewrite FL1, FL2. exact Hp. }
  assert (Mr : forall ks sg, (forall k', In k' ks -> kok k' /\ len <= klen k') -> mat c s ks pk st nk -> (forall k', kok k' -> len <= klen k' -> key_lt ek k' = true -> part st pk k' -> part sg ek k') ->
    matched (at_inf c s ek nk) (filter (need ek sg nk) ks) right).
  { intros ks sg Hks HM Hsg. specialize (HM L EL). rewrite ELAB in HM. rewrite (filter_sub (need pk st nk)).
    - apply TR5; [|apply matched_filter; exact HM]. intros k' Hk'. apply filter_In in Hk' as [Hk' Hn]. apply filter_In in Hk' as [Hk' _]. apply need_iff in Hn as (N1 & N2 & _).
      destruct (Hks k' Hk') as [Kk' Hl']. auto.
    - intros k' Hk' Hn. destruct (Hks k' Hk') as [Kk' Hl']. apply need_iff in Hn as (N1 & N2 & N3). apply need_iff. split; [apply (key_lt_trans _ ek); assumption|]. split; [exact N2|].
      intros Hp. apply N3. apply Hsg; assumption. }
  assert (Nl : forall k', kok k' -> key_lt pk k' = true -> key_lt k' ek = true -> gcov pk slt2 ek k' -> gcov pk st nk k' \/ near pk nk k k').
  { intros k' _ _ _ [Hp|(L1 & y & E1 & Hy & Hh)]; left; [left; unfold part in *; rewrite FL1, FL2 in Hp; exact Hp|right].
    rewrite (rep_list _ _ _ _ _ _ RL2) in E1. injection E1 as <-. destruct (TLb y k' Hy Hh) as (x & Hx & Hx2). exists L, x. rewrite ELAB at 2. auto. }
  destruct (Z.eqb_spec zp (-1)) as [Ez|Ez].
  - assert (Eek : ek = k) by (unfold ek, edit_key; rewrite Ez; reflexivity). inversion Eright'; subst right'. clear Eright'.
    destruct (alloc_ok _ _ _ _ _ _ _ HS2 TR2 TR1 Esgt) as [RR FR]. inversion H; subst d'. clear H.
    replace (put (put (d_tree d) pk slt2) k sgt) with (put (put (d_tree d) pk slt2) ek sgt) by (rewrite Eek; reflexivity).
    apply (split_tree slt2 sgt ek Ppe Pen Ke ltac:(clear -Hekl Hlen; lia) Gl); [|exact Cl| |left; exact Eek| | | |].
    + split; [|split; [|clear -Hekl Hlen; lia]].
      * split; [exact Ke|]. split; [exact K2|]. split; [exact Pen|]. split; [intros Hp; rewrite FR in Hp; discriminate|]. exists right. exact RR.
      * intros L1 E1. rewrite (rep_list _ _ _ _ _ _ RR) in E1. inversion E1; subst L1. auto.
    + intros k' Kk' Hlk' L1 L2 [Hp|(L1' & x & E1 & Hx & Hh)].
      * exfalso. apply Hnp. rewrite Eek in L1. apply (part_between st pk k k' K1 Kk Kk' Hlk (key_lt_asym _ _ L1) Hp).
      * right. rewrite EL in E1. inversion E1; subst L1'. destruct (proj1 (matched_one _ k' _) (TR5 [k'] ltac:(intros k1 [<-|[]]; split; [exact Kk'|]; split; assumption) (proj2 (matched_one _ k' (LA ++ LB)) (ex_intro _ x (conj (eq_ind L (fun l => In x l) Hx (LA ++ LB) ELAB) Hh))))) as (y & Hy & Hyh).
        exists right, y. split; [apply (rep_list _ _ _ _ _ _ RR)|]. auto.
    + intros ks Hks HM. split; [apply Ml; assumption|]. apply (mat_far c s Hs k ks ek sgt nk); [unfold need; rewrite Eek, key_lt_irrefl; reflexivity|].
      intros L1 E1. rewrite (rep_list _ _ _ _ _ _ RR) in E1. inversion E1; subst L1. apply Mr; [exact Hks|exact HM|]. intros k' Kk' _ L1 Hp.
      exfalso. apply Hnp. rewrite Eek in L1. apply (part_between st pk k k' K1 Kk Kk' Hlk (key_lt_asym _ _ L1) Hp).
    + exact Nl.
    + intros k' _ _ _ [[Hp _]|(L1 & y & E1 & Hy & Hh)]; [congruence|left; right]. rewrite (rep_list _ _ _ _ _ _ RR) in E1. injection E1 as <-.
      destruct (TRb y k' Hy Hh) as (x & Hx & Hx2). exists L, x. rewrite ELAB at 2. auto.
    + right. rewrite Eek. unfold near. reflexivity.
  - destruct Hzp as [|Hzp]; [contradiction|]. destruct (TR6 Ez) as (y0 & t0 & -> & Hy0). inversion Eright'; subst right'. clear Eright'.
    assert (Ht0 : infs s t0 /\ StronglySorted lex t0 /\ Forall (meets (inf ek nk ek) (inf ek nk nk)) t0).
    { destruct TR2 as [I1 I2]. inversion I1; inversion I2; inversion TR3; inversion TR4; subst. split; [split; assumption|]. split; assumption. }
    destruct Ht0 as (I1 & I2 & I3). cbn [length] in TR1. assert (Hlt0 : Z.of_nat (length t0) + 1 < 2 ^ 20) by lia.
    destruct (alloc_ok _ _ _ _ _ _ _ HS2 I1 ltac:(lia) Esgt) as [RR FR].
    apply bind_ok in H as (ke & Eke & H). apply bind_ok in H as (sgt2 & Esgt2 & H). inversion H; subst d'. clear H.
    assert (Hz1 : 1 <= zp) by (clear -Hzp Hq; lia). assert (Hlen2 : klen ek <= len) by (clear -Hekl Hlen; lia).
    destruct (cut_store len nk k zp e2 ig2 is2 t0 sgt sgt2 ke Kk K2 Hz1 HS2 Pen (ex_intro _ pk Ppe) Hlen2 I1 I2 I3 Hlt0 RR Eke Esgt2) as (Gr & Hkeep & Hpart & Hback). fold ek in Gr, Hkeep, Hpart, Hback.
    set (sgt3 := set_partial_key (set_invalid_bits sgt2 (7 - Z.rem (zp - 1) 8)) true) in *.
    assert (Hekz : pre zp ek = pre zp k) by (unfold ek; apply edit_pre_low; clear -Hz1; lia).
    apply (split_tree slt2 sgt3 ek Ppe Pen Ke Hlen2 Gl Gr Cl).
    + intros k' Kk' Hlk' L1 L2 [Hp|(L1' & x & E1 & Hx & Hh)].
      * left. destruct (key_lt k' k) eqn:Ekk.
        -- assert (Hz0 : 0 <= zp) by (clear -Hz1; lia). apply Hpart; [exact Kk'|clear -Hlk' Hlen2; lia|]. pose proof (key_lt_ple _ _ Ke Kk' L1 zp Hz0) as M1. pose proof (key_lt_ple _ _ Kk' Kk Ekk zp Hz0) as M2. clear -M1 M2 Hekz. lia.
        -- exfalso. apply Hnp. apply (part_between st pk k k' K1 Kk Kk' Hlk Ekk Hp).
      * rewrite EL in E1. inversion E1; subst L1'. destruct (proj1 (matched_one _ k' _) (TR5 [k'] ltac:(intros k1 [<-|[]]; split; [exact Kk'|]; split; assumption) (proj2 (matched_one _ k' (LA ++ LB)) (ex_intro _ x (conj (eq_ind L (fun l => In x l) Hx (LA ++ LB) ELAB) Hh))))) as (y & Hy & Hyh). destruct Hy as [<-|Hy].
        -- left. apply Hpart; [exact Kk'|clear -Hlk' Hlen2; lia|]. apply Hy0. exact Hyh.
        -- right. destruct Hkeep as (t1 & Et1 & Hperm). exists t1, y. split; [exact Et1|]. split; [|exact Hyh]. apply (Permutation_in _ Hperm). right. exact Hy.
    + destruct (key_lt_total ek k) as [Hlt|[He|Hlt]]; [right; split; [exact Hlt|left; apply Hpart; [exact Kk|exact Hekl|reflexivity]]|left; exact He|].
      exfalso. apply (short_not_ple k ek Kk Ke Hekl Hlt Hek).
    + intros ks Hks HM. split; [apply Ml; assumption|].
      assert (Hpp : forall k', kok k' -> len <= klen k' -> key_lt ek k' = true -> part st pk k' -> part sgt3 ek k').
      { intros k' Kk' Hlk' L1 Hp. destruct (key_lt k' k) eqn:Ekk.
        - assert (Hz0 : 0 <= zp) by (clear -Hz1; lia). apply Hpart; [exact Kk'|clear -Hlk' Hlen2; lia|]. pose proof (key_lt_ple _ _ Ke Kk' L1 zp Hz0) as M1. pose proof (key_lt_ple _ _ Kk' Kk Ekk zp Hz0) as M2. clear -M1 M2 Hekz. lia.
        - exfalso. apply Hnp. apply (part_between st pk k k' K1 Kk Kk' Hlk Ekk Hp). }
      apply (mat_far c s Hs k ks ek sgt3 nk); [apply not_true_is_false; intros Hn; apply need_iff in Hn as (_ & _ & Hn); apply Hn; apply Hpart; [exact Kk|exact Hekl|reflexivity]|].
      intros L1 E1. destruct Hkeep as (t1 & Et1 & Hperm). rewrite Et1 in E1. inversion E1; subst L1. apply (matched_right _ _ _ _ Hperm). apply (matched_more _ _ t0 [_]).
      apply (matched_drop _ _ (y0 :: t0) y0 t0); [reflexivity| |apply Mr; assumption]. intros k' Hk' Hh. apply filter_In in Hk' as [Hk' Hn]. apply need_iff in Hn as (_ & _ & Hn). destruct (Hks k' Hk') as [Kk' Hl'].
      apply Hn. apply Hpart; [exact Kk'|clear -Hl' Hlen2; lia|]. apply Hy0. exact Hh.
    + exact Nl.
    + assert (Hcz : forall k', pre zp k' = pre zp k -> gcov pk st nk k').
      { intros k' E. destruct (TCb Ez k' E) as (x & Hx & Hx2). right. exists L, x. rewrite ELAB at 2. auto. }
      intros k' Kk' L1 L2 [Hp|(L1' & y & E1 & Hy & Hh)].
      * destruct (Hback k' Hp) as [E|E]; [left; apply Hcz; exact E|right; apply near_end; exact E].
      * destruct Hkeep as (t1 & Et1 & Hperm). rewrite Et1 in E1. injection E1 as <-. apply (Permutation_in _ (Permutation_sym Hperm)) in Hy. destruct Hy as [<-|Hy].
        -- destruct (seg_tot _ _ _ _ _ _ HS2) as [Htt Hq2]. pose proof (sl_range k (qof ek nk) s ltac:(clear -Hs; lia)) as Ri. pose proof (sl_range k' (qof ek nk) s ltac:(clear -Hs; lia)) as Ri'.
           assert (Hps : 2 ^ s <= 2 ^ 46) by (apply pow2_le_mono; clear -Hs; lia). assert (Hp46 : 2 ^ 46 < 2 ^ 62) by (vm_compute; reflexivity).
           apply odd_back in Hh; [|clear -Ri Hps Hp46; lia]. rewrite inf_split in Hh by (clear -Hq2 Hs; lia).
           assert (E2s : 2 ^ s = 2 ^ (s - 1) * 2) by (replace s with (s - 1 + 1) at 1 by lia; rewrite Z.pow_add_r by (clear -Hs; lia); reflexivity).
           rewrite E2s, Z.mul_assoc, Z.div_add_l in Hh by (clear; lia).
           pose proof (key_lt_ple _ _ Ke Kk' L1 (qof ek nk) ltac:(clear -Hq2; lia)) as Hqe. pose proof (p2pos (s - 1) ltac:(clear -Hs; lia)) as Hp1.
           assert (D1 : 0 <= sl k' (qof ek nk) s / 2 < 2 ^ (s - 1)) by (split; [apply Z.div_pos; clear -Ri'; lia|apply Z.div_lt_upper_bound; clear -Ri' E2s; lia]).
           assert (D2 : 0 <= sl k (qof ek nk) s / 2 < 2 ^ (s - 1)) by (split; [apply Z.div_pos; clear -Ri; lia|apply Z.div_lt_upper_bound; clear -Ri E2s; lia]).
           assert (Eqe : pre (qof ek nk) k' = pre (qof ek nk) ek).
           { destruct (Z.eq_dec (pre (qof ek nk) k') (pre (qof ek nk) ek)) as [|Hne]; [assumption|exfalso].
             assert (1 * 2 ^ (s - 1) <= (pre (qof ek nk) k' - pre (qof ek nk) ek) * 2 ^ (s - 1)) by (apply Z.mul_le_mono_nonneg_r; clear -Hqe Hne Hp1; lia). clear -H Hh D1 D2. lia. }
           destruct (Z.le_gt_cases zp (qof ek nk)) as [Hge|Hlt].
           ++ left. apply Hcz. rewrite <- Hekz. apply (pre_eq_mono _ (qof ek nk)); [clear -Hge Hz1; lia|exact Eqe].
           ++ right. destruct (sub_q pk nk ek nk K1 K2 Ke K2 K3 Hpek Pen (ple_refl nk) Hr2) as (_ & W0 & _). apply (near_inf _ _ _ _ (qof ek nk + s - 1)); [clear -W0; lia|].
              rewrite <- !half_pre by (clear -Hq2; lia). rewrite !(pre_split (qof ek nk) s) by (clear -Hq2 Hs; lia). rewrite E2s, !Z.mul_assoc, !Z.div_add_l by (clear; lia).
              assert (Ee : pre (qof ek nk) ek = pre (qof ek nk) k) by (apply (pre_eq_mono _ zp); [clear -Hlt Hq2; lia|exact Hekz]). rewrite Eqe, Ee in *. clear -Hh. lia.
        -- left. right. destruct (TRb y k' (or_intror Hy) Hh) as (x & Hx & Hx2). exists L, x. rewrite ELAB at 2. auto.
    + left. destruct (TCb Ez ek Hekz) as (x & Hx & Hx2). right. exists L, x. rewrite ELAB at 2. auto.
Qed.
End Ins.
End S.
