(** Invariant of the filter, queries and simple insertion. *)
From Coq Require Import ZArith List Bool Lia Sorted.
From Coq Require Import ZifyBool ZifyNat.
From Verif Require Import Base Util Store Bits Cells Lowbit Key KeyBits KeyOrder Diva Tree StoreRep Spec.
Import ListNotations.
Open Scope Z_scope.

(** ** IsPrefixOf *)
(** [k] starts with all of [pk] but its last [ib] bits *)
Definition pfx (pk : key) (ib : Z) (k : key) : Prop :=
  klen pk <= klen k /\ pre (8 * klen pk - ib) pk = pre (8 * klen pk - ib) k.

Lemma pre_byte x a : kok (x :: a) -> pre 8 (x :: a) = x.
Proof. intros H. change 8 with (8 + 0). rewrite pre_cons by (auto; lia). change (pre 0 a) with 0. lia. Qed.
Lemma is_prefix_of_spec pk k ib : kok pk -> kok k -> pk <> [] -> 0 <= ib <= 7 ->
  exists b, is_prefix_of pk k ib = Ok b /\ (b = true <-> pfx pk ib k).
Proof.
  intros Hpk Hk Hne Hib. unfold is_prefix_of.
  assert (Hl : klen pk <> 0) by (destruct pk; [congruence|rewrite klen_cons; unfold klen; lia]).
  destruct (Z.eqb_spec (klen pk) 0); [lia|]. clear n Hl.
  set (t := match memcmp (length pk - 1) pk k with Eq => true | _ => false end).
  set (e := Z.lor (byte pk (klen pk - 1)) (bitmask ib) =? Z.lor (byte k (klen pk - 1)) (bitmask ib)).
  exists ((klen pk <=? klen k) && t && e). split; [destruct ((klen pk <=? klen k) && t); reflexivity|].
  unfold pfx. destruct (Z.leb_spec (klen pk) (klen k)) as [Hle|Hle]; [|split; [discriminate|lia]].
  cbn [andb]. assert (Hmain : t && e = true <-> pre (8 * klen pk - ib) pk = pre (8 * klen pk - ib) k); [|tauto].
  unfold t, e. clear t e. revert k Hk Hle. induction pk as [|x pk IH]; [congruence|]. intros k Hk Hle.
  destruct k as [|y k]; [rewrite klen_cons in Hle; unfold klen in Hle; simpl in Hle; lia|].
  destruct (kok_cons _ _ Hpk) as [Hx Hpk']. destruct (kok_cons _ _ Hk) as [Hy Hk']. rewrite !klen_cons in *.
  destruct pk as [|x' pk].
  - change (klen []) with 0. cbn [length Nat.sub memcmp]. replace (0 + 1 - 1) with 0 by lia. change (byte [x] 0) with x. change (byte (y :: k) 0) with y.
    cbn [andb]. unfold bitmask. rewrite lor_ones_eq by lia. rewrite Z.eqb_eq.
    assert (E : forall z l, kok (z :: l) -> pre (8 * (0 + 1) - ib) (z :: l) = z / 2 ^ ib).
    { intros z l Hz. rewrite <- (pre_byte z l Hz) at 2. rewrite <- (pre_div (8 * (0 + 1) - ib) ib) by lia. f_equal. f_equal. lia. }
    rewrite !E by auto. tauto.
  - rewrite klen_cons in *. set (n := klen pk) in *. assert (0 <= n) by (unfold n, klen; lia).
    replace (length (x :: x' :: pk) - 1)%nat with (S (length (x' :: pk) - 1)) by (cbn [length]; lia). cbn [memcmp].
    replace (n + 1 + 1 - 1) with (n + 1 - 1 + 1) by lia. rewrite !byte_cons by lia.
    replace (8 * (n + 1 + 1) - ib) with (8 + (8 * (n + 1) - ib)) by lia. rewrite !pre_cons by (auto; lia).
    specialize (IH Hpk' ltac:(congruence) k Hk' ltac:(lia)).
    pose proof (pre_range (8 * (n + 1) - ib) (x' :: pk) ltac:(lia)). pose proof (pre_range (8 * (n + 1) - ib) k ltac:(lia)).
    destruct (Z.compare_spec x y) as [->|Hxy|Hxy].
    + rewrite IH. split; [intros ->; reflexivity|lia].
    + split; [discriminate|]. intros E. exfalso. nia.
    + split; [discriminate|]. intros E. exfalso. nia.
Qed.

(** ** segments *)
Section F.
Variable c : cfg.
Variable s : Z.
Hypothesis Hs : 1 <= s <= 46.

(** number of bits before the explicit part of infixes between two tree keys *)
Definition qof (pk nk : key) : Z :=
  match shared_ignore_implicit c pk nk with Ok (sh, ig, isz) => sh + ig + isz | _ => 0 end.
Definition tot (pk nk : key) : Z := pre (qof pk nk) nk - pre (qof pk nk) pk + 1.
(** position of [k] in the segment *)
Definition inf (pk nk k : key) : Z := pre (qof pk nk + s) k - pre (qof pk nk) pk * 2 ^ s.

Lemma lor1 x : 0 <= x -> Z.lor x 1 = 2 * (x / 2) + 1.
Proof.
  intros Hx. apply Z.bits_inj'. intros j Hj. rewrite Z.lor_spec. destruct (Z.eq_dec j 0) as [->|Hn].
  - rewrite Z.testbit_odd_0. destruct (Z.testbit x 0); reflexivity.
  - replace j with (Z.succ (j - 1)) by lia. rewrite Z.testbit_odd_succ by lia. rewrite <- Z.div2_spec || idtac.
    rewrite <- Z.div2_div, Z.div2_spec, Z.shiftr_spec by lia. replace (Z.succ (j - 1)) with (j - 1 + 1) by lia.
    rewrite (Z.bits_above_log2 1) by (simpl; lia). apply orb_false_r.
Qed.
Lemma lor1_sub x y : 0 <= y <= x -> Z.even y = true -> Z.lor x 1 - y = Z.lor (x - y) 1.
Proof.
  intros H He. rewrite !lor1 by lia. apply Z.even_spec in He as (z & ->).
  replace (x - 2 * z) with (x + (- z) * 2) by lia. rewrite Z.div_add by lia. lia.
Qed.
Lemma lor1_range x : 0 <= x -> x <= Z.lor x 1 <= x + 1 /\ Z.odd (Z.lor x 1) = true.
Proof.
  intros Hx. rewrite lor1 by lia. pose proof (Z.div_mod x 2 ltac:(lia)). pose proof (Z.mod_pos_bound x 2 ltac:(lia)).
  split; [lia|]. rewrite Z.add_comm. rewrite Z.odd_add, Z.odd_mul. reflexivity.
Qed.
Lemma lor1_mono x y : 0 <= x <= y -> Z.lor x 1 <= Z.lor y 1.
Proof. intros. rewrite !lor1 by lia. pose proof (Z.div_le_mono x y 2 ltac:(lia) ltac:(lia)). lia. Qed.
Lemma even_mul_pow x : Z.even (x * 2 ^ s) = true.
Proof. rewrite Z.even_mul. rewrite Z.even_pow by lia. apply orb_true_r. Qed.

Record seg (pk nk : key) (sh ig isz : Z) : Prop := {
  sg_gap : gap pk nk sh ig isz;
  sg_run : shared_ignore_implicit c pk nk = Ok (sh, ig, isz);
  sg_q : qof pk nk = sh + ig + isz
}.
Lemma seg_ex pk nk : kok pk -> kok nk -> plt pk nk -> exists sh ig isz, seg pk nk sh ig isz.
Proof.
  intros H1 H2 H3. destruct (gap_run c pk nk H1 H2 H3) as (sh & ig & isz & E & HG). exists sh, ig, isz.
  constructor; auto. unfold qof. rewrite E. reflexivity.
Qed.
Lemma seg_tot pk nk sh ig isz : seg pk nk sh ig isz -> 512 <= tot pk nk <= 1024 /\ 10 <= qof pk nk.
Proof.
  intros [HG E Hq]. unfold tot. rewrite Hq. destruct HG. split; [lia|lia].
Qed.

Lemma inf_split pk nk k : 0 <= qof pk nk -> inf pk nk k = (pre (qof pk nk) k - pre (qof pk nk) pk) * 2 ^ s + sl k (qof pk nk) s.
Proof. intros. unfold inf. rewrite pre_split by lia. lia. Qed.
Lemma inf_range pk nk sh ig isz k : seg pk nk sh ig isz -> ple pk k -> ple k nk ->
  0 <= inf pk nk k < tot pk nk * 2 ^ s /\ tot pk nk * 2 ^ s <= 1024 * 2 ^ s /\ 1024 * 2 ^ s <= 2 ^ 56.
Proof.
  intros HS H1 H2. destruct (seg_tot _ _ _ _ _ HS). rewrite inf_split by lia. specialize (H1 (qof pk nk) ltac:(lia)). specialize (H2 (qof pk nk) ltac:(lia)).
  pose proof (sl_range k (qof pk nk) s ltac:(lia)). unfold tot in *. pose proof (pow2_le_mono s 46 ltac:(lia)).
  change (2 ^ 56) with (1024 * 2 ^ 46). pose proof (Z.pow_pos_nonneg 2 s ltac:(lia) ltac:(lia)). split; [nia|]. split; [nia|lia].
Qed.
Lemma inf_mono pk nk k k' : 0 <= qof pk nk -> ple k k' -> inf pk nk k <= inf pk nk k'.
Proof. intros Hq H. unfold inf. specialize (H (qof pk nk + s) ltac:(lia)). lia. Qed.

Lemma segment_eq pk nk sh ig isz : seg pk nk sh ig isz -> kok pk -> kok nk ->
  segment c s pk nk = Ok (sh, ig, isz, pre (qof pk nk) pk - pre (sh + ig + 1) pk * 2 ^ (isz - 1), tot pk nk).
Proof.
  intros [HG E Hq] H1 H2. unfold segment. rewrite E. cbn [bind].
  rewrite (extract_right HG) by auto. cbn [bind]. rewrite (extract_left HG) by auto. cbn [bind].
  rewrite !(gap_shift HG) by lia. f_equal. unfold tot. rewrite Hq. unfold qpos.
  destruct HG. rewrite u32_small by lia. f_equal. lia.
Qed.
Lemma extract_key_seg pk nk sh ig isz k : seg pk nk sh ig isz -> kok pk -> kok k -> ple pk k -> ple k nk ->
  exists e, extract_key c s k sh ig isz = Ok e /\
    u64 (e - u64 (Z.shiftl (pre (qof pk nk) pk - pre (sh + ig + 1) pk * 2 ^ (isz - 1)) s)) = inf pk nk k /\
    infix_of s e (pre (qof pk nk) pk - pre (sh + ig + 1) pk * 2 ^ (isz - 1)) = Z.lor (inf pk nk k) 1.
Proof.
  intros HS Hpk Hk H1 H2. pose proof HS as [HG E Hq]. unfold extract_key.
  pose proof (gp_sh _ _ _ _ _ HG). pose proof (gp_ig _ _ _ _ _ HG). pose proof (gp_is _ _ _ _ _ HG).
  rewrite (extract_key_gap HG) by first [assumption|split; [apply H1|apply H2]; lia].
  eexists. split; [reflexivity|]. destruct (inf_range _ _ _ _ _ k HS H1 H2) as (I1 & I2 & I3).
  rewrite Hq. unfold qpos. unfold inf in *. rewrite Hq in *. set (q := sh + ig + isz) in *. set (B := pre (sh + ig + 1) pk) in *.
  pose proof (gap_base HG pk ltac:(specialize (H1 (sh + ig + 1) ltac:(lia)); specialize (H2 (sh + ig + 1) ltac:(lia)); lia)) as Hb1.
  unfold qpos in Hb1. fold q B in Hb1.
  assert (Hp : 2 * 2 ^ (isz - 1) <= 2 ^ 11) by (replace (2 * 2 ^ (isz - 1)) with (2 ^ isz) by (rewrite <- Z.pow_succ_r by lia; f_equal; lia); apply pow2_le_mono; lia).
  pose proof (pow2_le_mono s 46 ltac:(lia)) as Hps. pose proof (Z.pow_pos_nonneg 2 s ltac:(lia) ltac:(lia)) as Hps0.
  assert (Hsh : u64 (Z.shiftl (pre q pk - B * 2 ^ (isz - 1)) s) = (pre q pk - B * 2 ^ (isz - 1)) * 2 ^ s).
  { rewrite Z.shiftl_mul_pow2 by lia. apply u64_small. nia. }
  assert (Hee : pre (q + s) k - B * 2 ^ (isz - 1 + s) - (pre q pk - B * 2 ^ (isz - 1)) * 2 ^ s = pre (q + s) k - pre q pk * 2 ^ s).
  { rewrite Z.pow_add_r by lia. lia. }
  unfold infix_of. rewrite Hsh. split.
  - rewrite Hee. apply u64_small. lia.
  - rewrite lor1_sub; [|nia|apply even_mul_pow]. rewrite Hee. apply u64_small.
    pose proof (lor1_range (pre (q + s) k - pre q pk * 2 ^ s) ltac:(lia)). lia.
Qed.

(** ** coverage *)
Definition part (st : store) (pk k : key) : Prop := is_partial_key st = true /\ pfx pk (get_invalid_bits st) k.
Definition gcov (pk : key) (st : store) (nk k : key) : Prop :=
  part st pk k \/ exists L x, get_infix_list c s st = Ok L /\ In x L /\ hit (inf pk nk k) (inf pk nk k) x.
(** a partial key is not empty *)
Definition part_ok (st : store) (pk : key) : Prop := is_partial_key st = true -> pk <> [].
(** invariant of two neighbouring tree keys *)
Definition gapok (pk : key) (st : store) (nk : key) : Prop :=
  kok pk /\ kok nk /\ plt pk nk /\ part_ok st pk /\
  exists L, rep c s (tot pk nk) true st L.

Lemma gapok_sorted t : adj gapok t -> sorted t.
Proof. apply adj_mono. intros a st b (H1 & H2 & H3 & _). apply plt_key_lt; auto. Qed.
Lemma adj_at A pk st nk st' B : adj gapok (A ++ (pk, st) :: (nk, st') :: B) -> gapok pk st nk.
Proof. intros H. apply adj_app in H as [_ H]. apply H. Qed.
Lemma adj_put A pk st st2 nk st' B : adj gapok (A ++ (pk, st) :: (nk, st') :: B) -> gapok pk st2 nk ->
  adj gapok (A ++ (pk, st2) :: (nk, st') :: B).
Proof.
  intros H H2. apply adj_app in H as [Ha Hb]. apply adj_app. split; [apply (adj_last _ _ _ _ _ Ha)|].
  rewrite adj_cons in *. tauto.
Qed.

Lemma invalid_range st : 0 <= get_invalid_bits st <= 7.
Proof. unfold get_invalid_bits. change 7 with (Z.ones 3). rewrite Z.land_ones by lia. pose proof (Z.mod_pos_bound (Z.shiftr (status st) 28) (2 ^ 3) ltac:(lia)). change (Z.ones 3) with 7. change (2 ^ 3) with 8 in *. lia. Qed.
Lemma partial_flags st : is_partial_key st = negb (Z.shiftr (flags st) 3 =? 0).
Proof. unfold is_partial_key, flags. rewrite Z.shiftr_shiftr by lia. reflexivity. Qed.
Lemma invalid_flags st : get_invalid_bits st = Z.land (flags st) 7.
Proof. reflexivity. Qed.
Lemma flags_part st st' : flags st' = flags st -> is_partial_key st' = is_partial_key st /\ get_invalid_bits st' = get_invalid_bits st.
Proof. intros E. rewrite !partial_flags, !invalid_flags, E. auto. Qed.
Lemma flags_part_ok st st' pk : flags st' = flags st -> part_ok st pk -> part_ok st' pk.
Proof. intros E. destruct (flags_part _ _ E) as [E1 E2]. unfold part_ok. rewrite E1. auto. Qed.
Lemma flags_partp st st' pk k : flags st' = flags st -> part st pk k -> part st' pk k.
Proof. intros E. destruct (flags_part _ _ E) as [E1 E2]. unfold part. rewrite E1, E2. auto. Qed.

Lemma part_check st pk k : part_ok st pk -> kok pk -> kok k ->
  exists b : bool, (if is_partial_key st then is_prefix_of pk k (get_invalid_bits st) else Ok false) = Ok b /\ (b = true <-> part st pk k).
Proof.
  intros Hp H1 H2. unfold part. destruct (is_partial_key st) eqn:E.
  - pose proof (Hp E) as Hne. destruct (is_prefix_of_spec pk k (get_invalid_bits st) H1 H2 Hne (invalid_range st)) as (b & E1 & E2).
    exists b. split; [exact E1|]. rewrite E2. tauto.
  - exists false. split; [reflexivity|]. split; [discriminate|tauto].
Qed.

Hypothesis T : tables_ok c.

(** ** point queries *)
Theorem point_query_spec d A pk st nk st' B k : d_size d = s -> d_tree d = A ++ (pk, st) :: (nk, st') :: B ->
  adj gapok (d_tree d) -> kok k -> key_lt pk k = true -> key_lt nk k = false ->
  exists b, point_query c d k = Ok b /\ (b = true <-> covt gcov (d_tree d) k).
Proof.
  intros Hds Ht Ha Hk H1 H2. rewrite Ht in *. pose proof (gapok_sorted _ Ha) as Hso. unfold point_query. rewrite Ht, Hds.
  rewrite seek_q by auto. cbn [peek snd bind skip1_rev]. destruct (key_eq nk k) eqn:E.
  - apply key_eq_iff in E. subst nk. exists true. split; [reflexivity|]. split; [intros _|reflexivity].
    change ((pk, st) :: (k, st') :: B) with ([(pk, st)] ++ (k, st') :: B). rewrite app_assoc. apply covt_tree.
  - assert (Hlt : key_lt k nk = true).
    { destruct (nlt_cases _ _ H2) as [->|]; auto. rewrite key_eq_refl in E. discriminate. }
    pose proof (covt_gap gcov A pk st nk st' B k Hso H1 Hlt) as Hcg. destruct (adj_at _ _ _ _ _ _ Ha) as (K1 & K2 & K3 & K4 & L & K5).
    destruct (part_check st pk k K4 K1 Hk) as (b & Eb & Hb). rewrite Eb. cbn [bind]. destruct b.
    + exists true. split; [reflexivity|]. rewrite Hcg. unfold gcov. tauto.
    + destruct (seg_ex pk nk K1 K2 K3) as (sh & ig & isz & HS). rewrite (segment_eq _ _ _ _ _ HS) by auto. cbn [bind].
      pose proof (key_lt_ple pk k K1 Hk H1) as P1. pose proof (key_lt_ple k nk Hk K2 Hlt) as P2.
      destruct (extract_key_seg _ _ _ _ _ k HS K1 Hk P1 P2) as (e & Ee & E1 & E2). rewrite Ee. cbn [bind]. rewrite E1.
      destruct (inf_range _ _ _ _ _ k HS P1 P2) as (I1 & I2 & I3).
      assert (Hw : wp (point_query_store c s st (inf pk nk k) (tot pk nk)) (fun b => b = true <-> gcov pk st nk k)).
      { apply (rep_point c s (tot pk nk) true st L); [exact K5|lia|]. intros b Hbx. rewrite Hbx. unfold gcov. rewrite (rep_list c s (tot pk nk) true st L K5).
        split.
        - intros (x & X1 & X2). right. exists L, x. auto.
        - intros [Hp|(L' & x & EL & X1 & X2)]; [exfalso; apply Hb in Hp; discriminate|]. inversion EL; subst. exists x. auto. }
      apply wp_exists in Hw. destruct Hw as (b & Hw1 & Hw2). exists b. split; [exact Hw1|]. rewrite Hcg. exact Hw2.
Qed.

(** ** range queries *)
Lemma key_lt_short a b : kok a -> kok b -> (length b <= length a)%nat -> key_lt a b = true -> pre (8 * klen b) a < pre (8 * klen b) b.
Proof.
  revert b. induction a as [|x a IH]; intros [|y b] Ha Hb Hl; rewrite ?key_lt_nil_l, ?key_lt_nil_r, ?key_lt_cons; try discriminate; [simpl in Hl; lia|].
  destruct (kok_cons _ _ Ha), (kok_cons _ _ Hb). rewrite klen_cons. replace (8 * (klen b + 1)) with (8 + 8 * klen b) by lia.
  assert (0 <= klen b) by (unfold klen; lia). rewrite !pre_cons by (auto; lia).
  pose proof (pre_range (8 * klen b) a ltac:(lia)). pose proof (pre_range (8 * klen b) b ltac:(lia)).
  destruct (Z.compare_spec x y) as [->|Hxy|Hxy]; try discriminate; intros E.
  - specialize (IH b ltac:(auto) ltac:(auto) ltac:(simpl in Hl; lia) E). lia.
  - nia.
Qed.
Lemma part_between st pk l k : kok pk -> kok l -> kok k -> key_lt pk l = true -> key_lt k l = false -> part st pk k -> part st pk l.
Proof.
  intros K1 K2 K3 H1 H2 [Hp [Hl He]]. split; [exact Hp|]. pose proof (invalid_range st) as Hi. set (ib := get_invalid_bits st) in *.
  pose proof (key_lt_ple pk l K1 K2 H1) as P1. pose proof (nlt_ple l k K2 K3 H2) as P2.
  assert (0 <= klen pk) by (unfold klen; lia). 
  assert (Hne : 1 <= klen pk \/ klen pk = 0) by lia. destruct Hne as [Hne|H0].
  - specialize (P1 (8 * klen pk - ib) ltac:(lia)). pose proof (P2 (8 * klen pk - ib) ltac:(lia)).
    assert (E : pre (8 * klen pk - ib) pk = pre (8 * klen pk - ib) l) by lia. split; [|exact E].
    destruct (Z.le_gt_cases (klen pk) (klen l)); auto. exfalso.
    pose proof (key_lt_short pk l K1 K2 ltac:(unfold klen in *; lia) H1) as Hlt.
    assert (0 <= klen l) by (unfold klen; lia). pose proof (pre_eq_mono (8 * klen l) (8 * klen pk - ib) pk l ltac:(lia) E). lia.
  - split; [unfold klen in *; lia|]. unfold pre, sl. rewrite H0. replace (Z.to_nat (8 * 0 - ib)) with O by lia. reflexivity.
Qed.

(** what RangeQuery answers for [l, r] inside one segment *)
Definition rcov (pk : key) (st : store) (nk l r : key) : Prop :=
  part st pk l \/ exists L x, get_infix_list c s st = Ok L /\ In x L /\ hit (Z.lor (inf pk nk l) 1) (Z.lor (inf pk nk r) 1) x.

Lemma top_odd x : 0 < x < 2 ^ 64 -> exists z, x + lowbit x - 1 = 2 * z + 1.
Proof.
  intros Hx. destruct (lowbit_facts x Hx) as (Hl & k & Hk & E). set (b := lowbit x) in *. exists (b * (k + 1) - 1). nia.
Qed.
Lemma gcov_rcov pk st nk l k r : gapok pk st nk -> kok l -> kok k -> kok r -> key_lt pk l = true -> key_lt k l = false -> key_lt r k = false ->
  key_lt r nk = true -> gcov pk st nk k -> rcov pk st nk l r.
Proof.
  intros (K1 & K2 & K3 & K4 & L & K5) Hl Hk Hr H1 H2 H3 H4 [Hp|(L' & x & EL & Hx & Hh)].
  - left. apply (part_between st pk l k); auto.
  - right. exists L', x. split; [exact EL|]. split; [exact Hx|].
    destruct (seg_ex pk nk K1 K2 K3) as (sh & ig & isz & HS). destruct (seg_tot _ _ _ _ _ HS) as [_ Hq].
    pose proof (key_lt_ple pk l K1 Hl H1) as P1. pose proof (nlt_ple l k Hl Hk H2) as P2. pose proof (nlt_ple k r Hk Hr H3) as P3.
    pose proof (key_lt_ple r nk Hr K2 H4) as P4.
    pose proof (inf_mono pk nk l k ltac:(lia) P2). pose proof (inf_mono pk nk k r ltac:(lia) P3).
    destruct (inf_range _ _ _ _ _ l HS P1 ltac:(eapply ple_trans; eauto using ple_trans)) as (I1 & I2 & I3).
    rewrite (rep_list c s (tot pk nk) true st L K5) in EL. inversion EL; subst L'.
    pose proof (rep_infs c s (tot pk nk) true st L K5) as [_ HF]. rewrite Forall_forall in HF. destruct (HF x Hx) as [Hx1 Hx2].
    assert (x <> 0) by (intros ->; apply Hx2; apply Z.mod_0_l; pose proof (Z.pow_pos_nonneg 2 s ltac:(lia) ltac:(lia)); lia).
    destruct Hh as [Hh1 Hh2]. destruct (top_odd x ltac:(lia)) as (z & Ez). unfold hit.
    pose proof (lor1_range (inf pk nk r) ltac:(lia)). split; [lia|]. rewrite Ez in *. rewrite lor1 by lia.
    pose proof (Z.div_mod (inf pk nk l) 2 ltac:(lia)). pose proof (Z.mod_pos_bound (inf pk nk l) 2 ltac:(lia)). lia.
Qed.

Lemma range_generic_spec pk st nk l r : gapok pk st nk -> kok l -> kok r -> key_lt pk l = true -> key_lt r l = false -> key_lt r nk = true ->
  ~ part st pk l ->
  exists b, range_query_generic c s pk nk st l r = Ok b /\ (b = true <-> rcov pk st nk l r).
Proof.
  intros (K1 & K2 & K3 & K4 & L & K5) Hl Hr H1 H3 H4 Hnp. unfold range_query_generic.
  destruct (seg_ex pk nk K1 K2 K3) as (sh & ig & isz & HS). rewrite (segment_eq _ _ _ _ _ HS) by auto. cbn [bind].
  pose proof (key_lt_ple pk l K1 Hl H1) as P1. pose proof (nlt_ple l r Hl Hr H3) as P3. pose proof (key_lt_ple r nk Hr K2 H4) as P4.
  pose proof (ple_trans _ _ _ P1 P3) as P5. pose proof (ple_trans _ _ _ P3 P4) as P6.
  destruct (extract_key_seg _ _ _ _ _ l HS K1 Hl P1 P6) as (e & Ee & E1 & E2). rewrite Ee. cbn [bind]. rewrite E2.
  destruct (extract_key_seg _ _ _ _ _ r HS K1 Hr P5 P4) as (e' & Ee' & E1' & E2'). rewrite Ee'. cbn [bind]. rewrite E2'.
  destruct (seg_tot _ _ _ _ _ HS) as [_ Hq]. pose proof (inf_mono pk nk l r ltac:(lia) P3) as Hm.
  destruct (inf_range _ _ _ _ _ l HS P1 P6) as (I1 & I2 & I3). destruct (inf_range _ _ _ _ _ r HS P5 P4) as (J1 & J2 & J3).
  pose proof (lor1_range (inf pk nk l) ltac:(lia)) as [R1 _]. pose proof (lor1_mono (inf pk nk l) (inf pk nk r) ltac:(lia)) as R3.
  assert (R4 : Z.lor (inf pk nk r) 1 < 1024 * 2 ^ s).
  { rewrite lor1 by lia. pose proof (Z.div_mod (inf pk nk r) 2 ltac:(lia)). pose proof (Z.mod_pos_bound (inf pk nk r) 2 ltac:(lia)).
    replace s with (1 + (s - 1)) in * by lia. rewrite Z.pow_add_r in * by lia. change (2 ^ 1) with 2 in *. lia. }
  assert (Hw : wp (range_query_store c s st (Z.lor (inf pk nk l) 1) (Z.lor (inf pk nk r) 1)) (fun b => b = true <-> rcov pk st nk l r)).
  { apply (rep_range c s (tot pk nk) true st L); [exact K5|lia|exact R4|]. intros b Hbx. rewrite Hbx. unfold rcov. rewrite (rep_list c s (tot pk nk) true st L K5).
    split.
    - intros (x & X1 & X2). right. exists L, x. auto.
    - intros [Hp|(L' & x & EL & X1 & X2)]; [contradiction|]. inversion EL; subst. exists x. auto. }
  apply wp_exists in Hw. exact Hw.
Qed.

(** exact answer of the generic RangeQuery *)
Theorem range_query_spec d A pk st nk st' B l r : d_size d = s -> d_tree d = A ++ (pk, st) :: (nk, st') :: B ->
  adj gapok (d_tree d) -> kok l -> kok r -> key_lt pk l = true -> key_lt nk l = false -> key_lt r l = false ->
  exists b, range_query false c d l r = Ok b /\ (b = true <-> key_lt r nk = false \/ rcov pk st nk l r).
Proof.
  intros Hds Ht Ha Hl Hr H1 H2 H3. rewrite Ht in *. pose proof (gapok_sorted _ Ha) as Hso. unfold range_query. rewrite Ht, Hds.
  rewrite seek_q by auto. cbn [peek snd bind skip1_rev]. rewrite key_le_iff. destruct (key_lt r nk) eqn:E; cbn [negb].
  - pose proof (adj_at _ _ _ _ _ _ Ha) as HG. pose proof HG as (K1 & K2 & K3 & K4 & L & K5).
    destruct (part_check st pk l K4 K1 Hl) as (b & Eb & Hb). rewrite Eb. cbn [bind]. destruct b.
    + exists true. split; [reflexivity|]. unfold rcov. tauto.
    + assert (Hnp : ~ part st pk l) by (intros Hp; apply Hb in Hp; discriminate).
      destruct (range_generic_spec pk st nk l r HG Hl Hr H1 H3 E Hnp) as (b & E1 & E2). exists b. split; [exact E1|].
      rewrite E2. split; [tauto|]. intros [Hd|]; [discriminate|assumption].
  - exists true. split; [reflexivity|]. tauto.
Qed.
(** keys covered inside the queried range are reported *)
Lemma covt_range A pk st nk st' B l r k : adj gapok (A ++ (pk, st) :: (nk, st') :: B) ->
  kok l -> kok r -> kok k -> key_lt pk l = true -> key_lt nk l = false -> key_lt k l = false -> key_lt r k = false ->
  covt gcov (A ++ (pk, st) :: (nk, st') :: B) k -> key_lt r nk = false \/ rcov pk st nk l r.
Proof.
  intros Ha Hl Hr Hk H1 H2 H3 H4 Hc. pose proof (gapok_sorted _ Ha) as Hso. destruct (key_lt r nk) eqn:E; [right|auto].
  pose proof (adj_at _ _ _ _ _ _ Ha) as HG. pose proof HG as (K1 & K2 & _).
  assert (Hk1 : key_lt pk k = true) by (eapply lt_nlt_trans; eauto).
  assert (Hk2 : key_lt k nk = true) by (eapply nlt_lt_trans; eauto).
  apply (covt_gap gcov A pk st nk st' B k Hso Hk1 Hk2) in Hc. apply (gcov_rcov pk st nk l k r); auto.
Qed.

(** ** InsertSimple *)
Hypothesis Hf : fits c s.

Lemma hit_self x : 0 <= x -> x < 2 ^ 63 -> hit x x (Z.lor x 1).
Proof.
  intros Hx Hx2. destruct (lor1_range x Hx) as [R1 R2]. unfold hit, lbase.
  pose proof (Z.div_mod x 2 ltac:(lia)). pose proof (Z.mod_pos_bound x 2 ltac:(lia)). rewrite lor1 in * by lia.
  rewrite (lowbit_odd (2 * (x / 2) + 1)) by first [exact R2|lia]. lia.
Qed.
Lemma gcov_ins pk st st2 nk k L L' x : get_infix_list c s st = Ok L -> get_infix_list c s st2 = Ok L' -> ins x L L' -> flags st2 = flags st ->
  gcov pk st nk k -> gcov pk st2 nk k.
Proof.
  intros E1 E2 (A & B & -> & -> & _) Hfl [Hp|(L0 & y & EL & Hy & Hh)].
  - left. apply (flags_partp st); auto.
  - right. exists (A ++ x :: B), y. split; [exact E2|]. split; [|exact Hh]. rewrite E1 in EL. inversion EL; subst L0.
    apply in_app_or in Hy. apply in_or_app. destruct Hy; [left; assumption|right; right; assumption].
Qed.
Theorem insert_simple_spec d A pk st nk st' B k : d_size d = s -> d_tree d = A ++ (pk, st) :: (nk, st') :: B ->
  adj gapok (d_tree d) -> kok k -> key_lt k pk = false -> key_lt k nk = true ->
  (forall L, get_infix_list c s st = Ok L -> Z.of_nat (length L) + 1 < 2 ^ 20) ->
  exists st2, insert_simple c d k = Ok (mkdiva s (A ++ (pk, st2) :: (nk, st') :: B)) /\
    adj gapok (A ++ (pk, st2) :: (nk, st') :: B) /\
    covt gcov (A ++ (pk, st2) :: (nk, st') :: B) k /\
    (forall k', covt gcov (d_tree d) k' -> covt gcov (A ++ (pk, st2) :: (nk, st') :: B) k') /\
    flags st2 = flags st /\ (exists L L', get_infix_list c s st = Ok L /\ get_infix_list c s st2 = Ok L' /\ ins (Z.lor (inf pk nk k) 1) L L').
Proof.
  intros Hds Ht Ha Hk H1 H2 HN. rewrite Ht in *. pose proof (gapok_sorted _ Ha) as Hso. unfold insert_simple. rewrite Ht, Hds.
  rewrite locate_gap by auto. cbn [bind]. pose proof (adj_at _ _ _ _ _ _ Ha) as (K1 & K2 & K3 & K4 & L & K5).
  destruct (seg_ex pk nk K1 K2 K3) as (sh & ig & isz & HS). rewrite (segment_eq _ _ _ _ _ HS) by auto. cbn [bind].
  pose proof (nlt_ple pk k K1 Hk H1) as P1. pose proof (key_lt_ple k nk Hk K2 H2) as P2.
  destruct (extract_key_seg _ _ _ _ _ k HS K1 Hk P1 P2) as (e & Ee & E1 & E2). rewrite Ee. cbn [bind]. rewrite E2.
  destruct (inf_range _ _ _ _ _ k HS P1 P2) as (I1 & I2 & I3). destruct (lor1_range (inf pk nk k) ltac:(lia)) as [R1 R2].
  assert (R4 : Z.lor (inf pk nk k) 1 < 1024 * 2 ^ s).
  { rewrite lor1 by lia. pose proof (Z.div_mod (inf pk nk k) 2 ltac:(lia)). pose proof (Z.mod_pos_bound (inf pk nk k) 2 ltac:(lia)).
    replace s with (1 + (s - 1)) in * by lia. rewrite Z.pow_add_r in * by lia. change (2 ^ 1) with 2 in *. lia. }
  destruct (insert_raw_run c T s (tot pk nk) st L (Z.lor (inf pk nk k) 1) Hf K5 ltac:(lia) R2 (HN _ (rep_list _ _ _ _ _ _ K5))) as (st2 & L' & E3 & K7 & K8 & K9).
  rewrite E3. cbn [bind]. exists st2. unfold with_tree. rewrite put_hit by (apply (sorted_app_below _ (pk, st)  _ Hso)). rewrite Hds.
  split; [reflexivity|].
  assert (Hg2 : gapok pk st2 nk).
  { split; [exact K1|]. split; [exact K2|]. split; [exact K3|]. split; [apply (flags_part_ok st); auto|]. exists L'. exact K7. }
  pose proof (adj_put _ _ _ _ _ _ _ Ha Hg2) as Ha2. split; [exact Ha2|].
  pose proof (rep_list c s (tot pk nk) true st L K5) as EL. pose proof (rep_list c s (tot pk nk) true st2 L' K7) as EL'.
  split; [|split; [|split; [exact K9|exists L, L'; auto]]].
  - apply covt_app. right. rewrite covt_cons. destruct (nlt_cases _ _ H1) as [->|Hlt]; [left; reflexivity|]. right. left.
    split; [exact Hlt|]. split; [exact H2|]. right. exists L', (Z.lor (inf pk nk k) 1). split; [exact EL'|].
    split; [|apply hit_self; lia]. destruct K8 as (A0 & B0 & _ & -> & _). apply in_or_app. right. left. reflexivity.
  - intros k' Hk'. apply covt_app in Hk'. apply covt_app. rewrite !covt_cons in *. destruct Hk' as [Hc|[->|[(Hc1 & Hc2 & Hc3)|Hc]]].
    + left. apply (covt_last _ _ _ _ _ _ Hc).
    + right. left. reflexivity.
    + right. right. left. split; [exact Hc1|]. split; [exact Hc2|]. apply (gcov_ins pk st st2 nk k' L L' (Z.lor (inf pk nk k) 1)); auto.
    + right. right. right. exact Hc.
Qed.
End F.
