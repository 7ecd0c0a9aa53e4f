(** Key facts used by InsertSplit: the measures of two gaps compared, suffixes of
    keys, the truncated key. *)
From Coq Require Import ZArith List Bool Lia.
From Coq Require Import ZifyBool ZifyNat.
From Verif Require Import Base Util Store Bits Cells Lowbit Key KeyBits KeyOrder Diva SplitList.
Import ListNotations.
Open Scope Z_scope.

(** ** distance of two keys seen through their first [n] bits *)
Definition dist (n : Z) (a b : key) : Z := pre n b - pre n a.
Lemma dist_step n a b : 0 <= n -> 2 * dist n a b - 1 <= dist (n + 1) a b <= 2 * dist n a b + 1.
Proof. intros Hn. unfold dist. rewrite !pre_snoc by lia. destruct (kbit a n), (kbit b n); simpl Z.b2z; lia. Qed.
Lemma dist_up n m a b : 0 <= n <= m -> 1 <= dist n a b -> dist n a b <= dist m a b.
Proof.
  intros H H1. replace m with (n + (m - n)) by lia. assert (H2 : 0 <= m - n) by lia. revert H2. generalize (m - n). clear m H.
  intros x Hx. assert (Hn : 0 <= n \/ n < 0) by lia. destruct Hn as [Hn|Hn].
  - pattern x. apply natlike_ind; [rewrite Z.add_0_r; lia| |exact Hx]. intros y Hy IH. replace (n + Z.succ y) with (n + y + 1) by lia.
    pose proof (dist_step (n + y) a b ltac:(lia)). lia.
  - exfalso. unfold dist, pre, sl in H1. replace (Z.to_nat n) with O in H1 by lia. simpl in H1. lia.
Qed.
Lemma dist_low n j a b : 0 <= n -> 0 <= j -> dist n a b <= 1 -> dist (n + j) a b <= 2 ^ (j + 1) - 1.
Proof.
  intros Hn Hj H. pattern j. apply natlike_ind; [rewrite Z.add_0_r; simpl; lia| |exact Hj]. intros y Hy IH.
  replace (n + Z.succ y) with (n + y + 1) by lia. replace (Z.succ y + 1) with (y + 1 + 1) by lia. rewrite (Z.pow_add_r 2 (y + 1) 1) by lia. change (2 ^ 1) with 2.
  pose proof (dist_step (n + y) a b ltac:(lia)). lia.
Qed.

Section Gaps.
Context {a b : key} {sh ig z : Z}.
Hypothesis G : gap a b sh ig z.
Lemma gap_d1 : dist (sh + ig + 1) a b = 1.
Proof. unfold dist. pose proof (gp_one _ _ _ _ _ G). lia. Qed.
Lemma gap_d2 : 2 <= dist (sh + ig + 2) a b.
Proof. unfold dist. pose proof (gp_two _ _ _ _ _ G). lia. Qed.
Lemma gap_above n : sh + ig + 2 <= n -> 2 <= dist n a b.
Proof. intros H. pose proof gap_d2. destruct G. pose proof (dist_up (sh + ig + 2) n a b ltac:(lia) ltac:(lia)). lia. Qed.
Lemma gap_limit n : 0 <= n -> 512 <= dist n a b -> sh + ig + z <= n.
Proof.
  intros Hn H. pose proof gap_d1 as D1. destruct G as [G1 G2 G3 G4 G5 G6 G7 G8 G9 G10].
  destruct (Z.le_gt_cases (sh + ig + z) n) as [|Hlt]; auto. exfalso.
  assert (D9 : dist (sh + ig + 9) a b <= 511).
  { replace (sh + ig + 9) with (sh + ig + 1 + 8) by lia. pose proof (dist_low (sh + ig + 1) 8 a b ltac:(lia) ltac:(lia) ltac:(lia)) as D. change (2 ^ (8 + 1) - 1) with 511 in D. exact D. }
  pose proof (dist_up n (sh + ig + 9) a b) as M9. pose proof (dist_up n (sh + ig + 10) a b) as M10. unfold dist in *.
  assert (Hz : z = 10 \/ z = 11) by lia. destruct Hz as [->| ->].
  - specialize (M9 ltac:(lia) ltac:(lia)). lia.
  - specialize (G10 eq_refl). specialize (M10 ltac:(lia) ltac:(lia)). lia.
Qed.
End Gaps.
Lemma gap_mono a b sh ig z a' b' sh' ig' z' : gap a b sh ig z -> gap a' b' sh' ig' z' -> (forall n, 0 <= n -> dist n a' b' <= dist n a b) ->
  sh + ig <= sh' + ig' /\ sh + ig + z <= sh' + ig' + z'.
Proof.
  intros G G' H. assert (HD : sh + ig <= sh' + ig').
  { destruct (Z.le_gt_cases (sh + ig) (sh' + ig')) as [|Hlt]; auto. exfalso. pose proof (gap_d1 G). pose proof (gap_above G' (sh + ig + 1) ltac:(lia)).
    destruct G. specialize (H (sh + ig + 1) ltac:(lia)). lia. }
  split; [exact HD|]. pose proof (gp_is _ _ _ _ _ G). pose proof (gp_is _ _ _ _ _ G').
  assert (Hc : z = 10 \/ (z = 11 /\ (z' = 11 \/ z' = 10))) by lia. destruct Hc as [->|(-> & [->| ->])]; try lia.
  destruct (Z.eq_dec (sh + ig) (sh' + ig')) as [E|E]; [|lia]. exfalso.
  pose proof (gp_half _ _ _ _ _ G eq_refl) as HH. pose proof (gp_tot _ _ _ _ _ G') as HT. destruct G. specialize (H (sh + ig + 10) ltac:(lia)).
  unfold dist in H. rewrite <- E in HT. lia.
Qed.
Lemma gap_first a b sh ig z sh' : gap a b sh ig z -> 0 <= sh' -> pre sh' a = pre sh' b -> kbit a sh' <> kbit b sh' -> sh' = sh.
Proof.
  intros [G1 G2 G3 G4 G5 G6 _ _ _ _] H1 H2 H3. destruct (Z.lt_trichotomy sh' sh) as [Hlt|[|Hlt]]; auto; exfalso.
  - apply H3. pose proof (sl_inj a b 0 0 sh G1 G4 sh' ltac:(lia)). assumption.
  - pose proof (sl_inj a b 0 0 sh' H1 H2 sh ltac:(lia)) as E. rewrite !Z.add_0_l in E. congruence.
Qed.
Lemma gap_unique a b sh ig z sh' ig' z' : gap a b sh ig z -> gap a b sh' ig' z' -> sh = sh' /\ ig = ig' /\ z = z'.
Proof.
  intros G G'. destruct (gap_mono _ _ _ _ _ _ _ _ _ _ G G' ltac:(intros; lia)) as [H1 H2]. destruct (gap_mono _ _ _ _ _ _ _ _ _ _ G' G ltac:(intros; lia)) as [H3 H4].
  assert (sh' = sh). { destruct G' as [A1 A2 A3 A4 A5 A6 _ _ _ _]. apply (gap_first a b sh ig z sh' G); auto. rewrite A5, A6. discriminate. }
  lia.
Qed.

(** ** suffixes *)
Lemma byte_from k p i : 0 <= p -> 0 <= i -> byte (key_from k p) i = byte k (p + i).
Proof.
  intros Hp Hi. unfold byte, key_from. rewrite Z2Nat.inj_add by lia. generalize (Z.to_nat p) (Z.to_nat i). clear. intros p i. revert k. induction p as [|p IH]; intros k; [reflexivity|].
  destruct k as [|x k]; [destruct i; reflexivity|]. cbn [skipn Nat.add nth]. apply IH.
Qed.
Lemma kbit_from k p i : 0 <= p -> 0 <= i -> kbit (key_from k p) i = kbit k (8 * p + i).
Proof.
  intros Hp Hi. unfold kbit. assert (0 <= i / 8) by (apply Z.div_pos; lia). rewrite byte_from by lia.
  replace ((8 * p + i) / 8) with (p + i / 8) by (rewrite (Z.mul_comm 8), Z.div_add_l by lia; lia).
  replace ((8 * p + i) mod 8) with (i mod 8); [reflexivity|]. rewrite (Z.mul_comm 8), Z.add_comm, Z.mod_add by lia. reflexivity.
Qed.
Lemma kok_from k p : kok k -> kok (key_from k p).
Proof. intros H. unfold kok, key_from in *. rewrite Forall_forall in *. intros x Hx. apply H. rewrite <- (firstn_skipn (Z.to_nat p) k). apply in_or_app. right. exact Hx. Qed.
Lemma pre_from k p n : 0 <= p -> 0 <= n -> pre (8 * p + n) k = pre (8 * p) k * 2 ^ n + pre n (key_from k p).
Proof.
  intros Hp Hn. rewrite pre_split by lia. f_equal. unfold pre. apply sl_ext; [lia|]. intros i Hi. rewrite kbit_from by lia. f_equal.
Qed.
Lemma gap_from a b p sh ig z : 0 <= p -> pre (8 * p) a = pre (8 * p) b -> gap (key_from a p) (key_from b p) sh ig z -> gap a b (sh + p * 8) ig z.
Proof.
  intros Hp E [G1 G2 G3 G4 G5 G6 G7 G8 G9 G10].
  assert (F : forall n k, 0 <= n -> pre (n + p * 8) k = pre (8 * p) k * 2 ^ n + pre n (key_from k p)).
  { intros n k Hn. rewrite <- pre_from by lia. f_equal. lia. }
  constructor; try lia.
  - rewrite !F by lia. rewrite E. lia.
  - rewrite kbit_from in G5 by lia. rewrite <- G5. f_equal. lia.
  - rewrite kbit_from in G6 by lia. rewrite <- G6. f_equal. lia.
  - replace (sh + p * 8 + ig + 1) with (sh + ig + 1 + p * 8) by lia. rewrite !F by lia. rewrite E. lia.
  - replace (sh + p * 8 + ig + z) with (sh + ig + z + p * 8) by lia. rewrite !F by lia. rewrite E. lia.
  - replace (sh + p * 8 + ig + 2) with (sh + ig + 2 + p * 8) by lia. rewrite !F by lia. rewrite E. lia.
  - intros Hz. specialize (G10 Hz). replace (sh + p * 8 + ig + 10) with (sh + ig + 10 + p * 8) by lia. rewrite !F by lia. rewrite E. lia.
Qed.

(** ** what the first loop finds, whatever the order of the keys *)
Lemma loop_inv {A B} (I : A -> Prop) (Q : B -> Prop) (body : A -> res (A + B)) :
  (forall s r, I s -> body s = Ok r -> match r with inl s' => I s' | inr b => Q b end) ->
  forall fuel s b, I s -> loop fuel body s = Ok b -> Q b.
Proof.
  intros H fuel. induction fuel as [|n IH]; intros s b Hs E; [discriminate|]. cbn [loop] in E. destruct (body s) as [[s'|b']| |] eqn:Eb; try discriminate.
  - apply (IH s' b); auto. apply (H s (inl s') Hs Eb).
  - inversion E; subst. apply (H s (inr b) Hs Eb).
Qed.
Lemma shared_first fuel a b sh i : kok a -> kok b -> shared_loop fuel a b = Ok (sh, i) -> 0 <= sh /\ pre sh a = pre sh b /\ kbit a sh <> kbit b sh.
Proof.
  intros Ha Hb E. unfold shared_loop in E.
  apply (loop_inv (fun x : Z * Z => 0 <= snd x /\ fst x = 64 * snd x /\ pre (fst x) a = pre (fst x) b)
                  (fun x : Z * Z => 0 <= fst x /\ pre (fst x) a = pre (fst x) b /\ kbit a (fst x) <> kbit b (fst x))) in E.
  - exact E.
  - clear -Ha Hb. intros [sh i] r (Hi & Hs & He) Eb. cbn [fst snd] in *. revert Eb. set (x := Z.lxor _ _).
    assert (Hx : 0 <= x < 2 ^ 64).
    { apply bits_lt_pow; [lia|]. intros j Hj. unfold x. rewrite !word_at_sl by (auto; lia). rewrite Z.lxor_spec, !sl_testbit by lia.
      destruct (Z.ltb_spec j 64); [lia|reflexivity]. }
    destruct (lzcnt_spec x (fun j => xorb (kbit a (64 * i + j)) (kbit b (64 * i + j))) Hx) as (L1 & L2 & L3).
    { intros j Hj. apply word_xor; auto. }
    assert (Hpre : pre (sh + lzcnt x) a = pre (sh + lzcnt x) b).
    { rewrite !pre_split, He by lia. f_equal. apply sl_ext; [lia|]. intros j Hj. specialize (L2 j Hj). rewrite Hs. simpl in L2.
      destruct (kbit a (64 * i + j)), (kbit b (64 * i + j)); simpl in L2; congruence. }
    cbv zeta. destruct (Z.eqb_spec (lzcnt x) 64) as [E64|E64]; intros Eb; inversion Eb; cbn [fst snd].
    + rewrite E64 in *. split; [lia|]. split; [lia|exact Hpre].
    + split; [lia|]. split; [exact Hpre|]. specialize (L3 ltac:(lia)). cbv beta in L3. rewrite <- Hs in L3.
      destruct (kbit a (sh + lzcnt x)), (kbit b (sh + lzcnt x)); simpl in L3; congruence.
  - cbn [fst snd]. split; [lia|]. split; reflexivity.
Qed.
Lemma sii_first c a b sh ig z : kok a -> kok b -> shared_ignore_implicit c a b = Ok (sh, ig, z) -> 0 <= sh /\ pre sh a = pre sh b /\ kbit a sh <> kbit b sh.
Proof.
  intros Ha Hb H. unfold shared_ignore_implicit, shared_ignore_implicit_fuel in H. apply bind_ok in H as ([s1 i1] & E & H).
  apply bind_ok in H as (ig' & _ & H). apply bind_ok in H as (x1 & _ & H). apply bind_ok in H as (x2 & _ & H). inversion H; subst.
  apply (shared_first _ _ _ _ _ Ha Hb E).
Qed.
Lemma first_plt a b n : 0 <= n -> kbit a n <> kbit b n -> ple a b -> plt a b.
Proof.
  intros Hn Hk H. exists (n + 1). split; [lia|]. specialize (H (n + 1) ltac:(lia)). destruct (Z.eq_dec (pre (n + 1) a) (pre (n + 1) b)) as [E|E]; [|lia].
  exfalso. apply Hk. apply (sl_inj a b 0 0 (n + 1) ltac:(lia) E n). lia.
Qed.
(** the measures of two keys computed on suffixes are those of the keys *)
Lemma sii_from c a b p sh ig z : 0 <= p -> kok a -> kok b -> ple a b -> pre (8 * p) a = pre (8 * p) b ->
  shared_ignore_implicit c (key_from a p) (key_from b p) = Ok (sh, ig, z) -> plt a b /\ gap a b (sh + p * 8) ig z.
Proof.
  intros Hp Ha Hb Hle E H. pose proof (kok_from a p Ha) as Ka. pose proof (kok_from b p Hb) as Kb.
  destruct (sii_first c _ _ _ _ _ Ka Kb H) as (S1 & S2 & S3).
  assert (Hle2 : ple (key_from a p) (key_from b p)).
  { intros n Hn. specialize (Hle (8 * p + n) ltac:(lia)). rewrite !pre_from in Hle by lia. rewrite E in Hle. lia. }
  pose proof (first_plt _ _ sh S1 S3 Hle2) as Hlt.
  destruct (gap_run c _ _ Ka Kb Hlt) as (sh' & ig' & z' & E' & G). rewrite E' in H. inversion H; subst. split; [|apply gap_from; assumption].
  apply (first_plt a b (8 * p + sh)); [lia| |exact Hle]. rewrite <- !kbit_from by lia. exact S3.
Qed.

Lemma pre_eq_down n m a b : n <= m -> pre m a = pre m b -> pre n a = pre n b.
Proof.
  intros H E. destruct (Z.le_gt_cases 0 n) as [Hn|Hn]; [apply (pre_eq_mono n m); [lia|exact E]|].
  unfold pre, sl. replace (Z.to_nat n) with O by lia. reflexivity.
Qed.

(** ** the truncated key *)
Section Edit.
Variable k : key.
Hypothesis Hk : kok k.
Variable zp : Z.
Hypothesis Hzp : 1 <= zp.
Let ek := edit_key k zp.
Let ib := 7 - Z.rem (zp - 1) 8.
Lemma ib_eq : ib = 7 - (zp - 1) mod 8 /\ 0 <= ib <= 7.
Proof. unfold ib. rewrite Z.rem_mod_nonneg by lia. pose proof (Z.mod_pos_bound (zp - 1) 8 ltac:(lia)). lia. Qed.
Lemma edit_cases : ((zp - 1) / 8 < klen k /\ ek = firstn (Z.to_nat ((zp - 1) / 8)) k ++ [Z.ldiff (byte k ((zp - 1) / 8)) (Z.ones ib)] /\ klen ek = (zp - 1) / 8 + 1) \/
  (klen k <= (zp - 1) / 8 /\ ek = k).
Proof.
  unfold ek, edit_key, ib. destruct (Z.eqb_spec zp (-1)); [lia|]. cbn [negb andb]. rewrite Z.quot_div_nonneg by lia. unfold bitmask.
  destruct (Z.ltb_spec ((zp - 1) / 8) (klen k)) as [H|H]; [left|right; split; [lia|reflexivity]]. split; [exact H|]. split; [reflexivity|].
  assert (0 <= (zp - 1) / 8) by (apply Z.div_pos; lia). unfold klen in *. rewrite app_length, firstn_length. cbn [length]. lia.
Qed.
Lemma edit_len : klen ek <= klen k.
Proof. destruct edit_cases as [(H & _ & E)|(_ & ->)]; lia. Qed.
Lemma edit_kok : kok ek.
Proof.
  destruct edit_cases as [(H & E & _)|(_ & ->)]; [|exact Hk]. rewrite E. unfold kok in *. apply Forall_app. split.
  - rewrite Forall_forall in *. intros x Hx. apply Hk. rewrite <- (firstn_skipn (Z.to_nat ((zp - 1) / 8)) k). apply in_or_app. left. exact Hx.
  - constructor; [|constructor]. destruct ib_eq as [_ Hib]. pose proof (byte_range k ((zp - 1) / 8) Hk).
    change 256 with (2 ^ 8). apply bits_lt_pow; [lia|]. intros j Hj. rewrite Z.ldiff_spec. rewrite (testbit_lt_pow (byte k ((zp - 1) / 8)) 8) by (change (2 ^ 8) with 256; lia). reflexivity.
Qed.
Lemma edit_bit i : 0 <= i -> kbit ek i = kbit k i && (i <? zp).
Proof.
  intros Hi. pose proof (Z.div_mod (zp - 1) 8 ltac:(lia)) as D. pose proof (Z.mod_pos_bound (zp - 1) 8 ltac:(lia)) as R.
  pose proof (Z.div_mod i 8 ltac:(lia)) as Di. pose proof (Z.mod_pos_bound i 8 ltac:(lia)) as Ri.
  assert (H0 : 0 <= (zp - 1) / 8) by (apply Z.div_pos; lia). assert (Hi0 : 0 <= i / 8) by (apply Z.div_pos; lia).
  destruct edit_cases as [(H & E & Hlen)|(H & E)].
  - unfold kbit. destruct (Z.lt_trichotomy (i / 8) ((zp - 1) / 8)) as [Hlt|[He|Hgt]].
    + assert (Eb : byte ek (i / 8) = byte k (i / 8)).
      { rewrite E. unfold byte. rewrite app_nth1 by (rewrite firstn_length; unfold klen in H; lia). rewrite <- (firstn_skipn (Z.to_nat ((zp - 1) / 8)) k) at 2.
        rewrite app_nth1; [reflexivity|]. rewrite firstn_length. unfold klen in H. lia. }
      rewrite Eb. destruct (Z.ltb_spec i zp); [rewrite andb_true_r; reflexivity|lia].
    + assert (Eb : byte ek (i / 8) = Z.ldiff (byte k (i / 8)) (Z.ones ib)).
      { rewrite He, E. unfold byte at 1. rewrite app_nth2; rewrite firstn_length; unfold klen in H; [|lia].
        replace (Z.to_nat ((zp - 1) / 8) - Nat.min (Z.to_nat ((zp - 1) / 8)) (length k))%nat with O by lia. reflexivity. }
      destruct ib_eq as [Eib Rib]. rewrite Eb, Z.ldiff_spec, ones_testbit by lia. f_equal.
      destruct (Z.ltb_spec (7 - i mod 8) ib), (Z.ltb_spec i zp); try reflexivity; exfalso; lia.
    + rewrite byte_out by lia. rewrite Z.bits_0. destruct (Z.ltb_spec i zp); [lia|]. rewrite andb_false_r. reflexivity.
  - rewrite E. destruct (Z.ltb_spec i zp); [rewrite andb_true_r; reflexivity|]. rewrite andb_false_r. apply kbit_out. lia.
Qed.
Lemma edit_pre_low n : 0 <= n <= zp -> pre n ek = pre n k.
Proof. intros Hn. unfold pre. apply sl_ext; [lia|]. intros i Hi. rewrite edit_bit by lia. destruct (Z.ltb_spec (0 + i) zp); [apply andb_true_r|lia]. Qed.
Lemma edit_pre_high n : zp <= n -> pre n ek = pre zp k * 2 ^ (n - zp).
Proof.
  intros Hn. replace n with (zp + (n - zp)) at 1 by lia. rewrite pre_split by lia. rewrite edit_pre_low by lia.
  rewrite (ones_run ek zp (n - zp) false); [lia|lia|]. intros i Hi. rewrite edit_bit by lia. destruct (Z.ltb_spec i zp); [lia|apply andb_false_r].
Qed.
Lemma edit_ple : ple ek k.
Proof.
  intros n Hn. destruct (Z.le_gt_cases n zp) as [H|H]; [rewrite edit_pre_low by lia; lia|]. rewrite edit_pre_high by lia.
  replace n with (zp + (n - zp)) at 2 by lia. rewrite (pre_split zp (n - zp)) by lia. pose proof (sl_range k zp (n - zp) ltac:(lia)). lia.
Qed.
Lemma edit_min k' n : zp <= n -> 0 <= n -> pre n k' = pre n ek -> ple ek k'.
Proof.
  intros Hn H0 E m Hm. destruct (Z.le_gt_cases m n) as [H|H].
  - rewrite (pre_eq_mono m n k' ek ltac:(lia) E). lia.
  - replace m with (n + (m - n)) by lia. rewrite (pre_split n (m - n) k') by lia. rewrite E. rewrite !edit_pre_high by lia.
    replace (n + (m - n) - zp) with (n - zp + (m - n)) by lia. rewrite Z.pow_add_r by lia. pose proof (sl_range k' n (m - n) ltac:(lia)). lia.
Qed.
Lemma edit_bits : 8 * klen ek - ib <= zp.
Proof.
  pose proof (Z.div_mod (zp - 1) 8 ltac:(lia)) as D. pose proof (Z.mod_pos_bound (zp - 1) 8 ltac:(lia)) as R. destruct ib_eq as [E R2].
  destruct edit_cases as [(_ & _ & ->)|(H & ->)]; lia.
Qed.
(** a key that the truncated key stands for agrees with [k] on [zp] bits, or on all but the last seven bits of [k] *)
Lemma edit_part k' : pre (8 * klen ek - ib) ek = pre (8 * klen ek - ib) k' -> pre zp k' = pre zp k \/ pre (8 * klen k - 7) k' = pre (8 * klen k - 7) k.
Proof.
  intros H. pose proof (Z.div_mod (zp - 1) 8 ltac:(lia)) as D. pose proof (Z.mod_pos_bound (zp - 1) 8 ltac:(lia)) as R. destruct ib_eq as [E R2].
  destruct edit_cases as [(_ & _ & El)|(Hc & Ee)].
  - left. replace (8 * klen ek - ib) with zp in H by lia. rewrite <- H. apply edit_pre_low. lia.
  - right. rewrite Ee in H. apply (pre_eq_down _ (8 * klen k - ib)); [lia|]. symmetry. exact H.
Qed.
End Edit.
