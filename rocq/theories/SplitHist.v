(** Histories in which insertions split blocks: bulk loaded filters satisfy the
    invariant of Split.v, every insertion keeps it, so stored keys stay covered. *)
From Coq Require Import ZArith List Bool Lia Sorting.Sorted Permutation.
From Coq Require Import ZifyBool ZifyNat.
From Verif Require Import Base Util Store Tables Key Diva Bits Shift View Cells Lowbit StoreFind StoreInsert StoreQuery
  Layout StoreList Spec StoreRep TablesProofs KeyBits KeyOrder Tree Filter RangeInt Contents Bulk SpecFilter SpecBlock Hist Claims SplitList SplitKeys Split.
Import ListNotations.
Open Scope Z_scope.

Lemma pre_beyond k m n : 0 <= m -> 8 * klen k <= m -> 0 <= n -> pre (m + n) k = pre m k * 2 ^ n.
Proof.
  intros Hm Hk Hn. rewrite pre_split by lia. rewrite (ones_run k m n false); [lia|lia|]. intros i Hi. apply kbit_out. lia.
Qed.

Section G.
Context (c : cfg) (s : Z).
Hypothesis Hs : 1 <= s <= 46.
Hypothesis T : tables_ok c.
Hypothesis Hf : fits c s.
Notation gapok := (gapok c s).
Notation gcov := (gcov c s).
Notation inf := (inf c s).
Notation inv := (inv c s).
Notation qof := (qof c).
Notation tot := (tot c).
Notation gapx := (gapx c s).
Notation done := (done c s).

(** ** keys that keep their distance *)
Lemma wide pk nk R : kok pk -> kok nk -> plt pk nk -> qof pk nk <= R -> 510 * 2 ^ (R - qof pk nk) < dist R pk nk.
Proof.
  intros H1 H2 H3 HR. destruct (seg_ex c pk nk H1 H2 H3) as (sh & ig & z & HS). destruct (seg_tot _ _ _ _ _ _ HS) as [Ht Hq].
  set (q := qof pk nk) in *. unfold Filter.tot in Ht. fold q in Ht. unfold dist. replace R with (q + (R - q)) at 2 3 by lia. rewrite !pre_split by lia.
  pose proof (sl_range nk q (R - q) ltac:(lia)) as R1. pose proof (sl_range pk q (R - q) ltac:(lia)) as R2.
  set (P := 2 ^ (R - q)) in *. assert (HP : 511 * P <= (pre q nk - pre q pk) * P) by (apply Z.mul_le_mono_nonneg_r; lia). lia.
Qed.
Lemma narrow pk nk x y N R : kok pk -> kok nk -> plt pk nk -> N = qof pk nk + 54 - s -> N <= R -> dist R pk nk <= dist R x y * 2 ^ (53 - s) -> 512 <= dist N x y.
Proof.
  intros H1 H2 H3 -> HR HD. destruct (seg_ex c pk nk H1 H2 H3) as (sh & ig & z & HS). destruct (seg_tot _ _ _ _ _ _ HS) as [_ Hq].
  pose proof (wide pk nk R H1 H2 H3 ltac:(lia)) as HW. set (q := qof pk nk) in *. set (N := q + 54 - s) in *.
  assert (E : 2 ^ (R - q) = 2 ^ (R - N) * 2 * 2 ^ (53 - s)). { replace (R - q) with ((R - N) + (1 + (53 - s))) by (unfold N; lia). rewrite !Z.pow_add_r by (unfold N; lia). change (2 ^ 1) with 2. ring. }
  pose proof (p2pos (R - N) ltac:(lia)) as P1. pose proof (p2pos (53 - s) ltac:(lia)) as P2. rewrite E in HW.
  assert (HD2 : 1020 * 2 ^ (R - N) < dist R x y).
  { apply Z.mul_lt_mono_pos_r with (p := 2 ^ (53 - s)); [exact P2|]. lia. }
  unfold dist in *. replace R with (N + (R - N)) in HD2 at 2 3 by lia. rewrite !pre_split in HD2 by (unfold N in *; lia).
  pose proof (sl_range x N (R - N) ltac:(lia)) as R1. pose proof (sl_range y N (R - N) ltac:(lia)) as R2.
  set (P := 2 ^ (R - N)) in *. clear -HD2 R1 R2 P1. destruct (Z.le_gt_cases 512 (pre N y - pre N x)) as [|Hlt]; [assumption|exfalso].
  assert ((pre N y - pre N x) * P <= 511 * P) by (apply Z.mul_le_mono_nonneg_r; lia). lia.
Qed.

Lemma apart_roomy len d A pk st nk st' B k : apart s len d k -> d_tree d = A ++ (pk, st) :: (nk, st') :: B ->
  kok pk -> kok nk -> kok k -> plt pk nk -> key_lt k pk = false -> key_lt k nk = true -> klen pk <= Z.of_nat len -> klen nk <= Z.of_nat len -> klen k <= Z.of_nat len ->
  roomy c s pk nk k.
Proof.
  intros HA E K1 K2 K3 Hp G1 G2 L1 L2 L3 e He P1 P2. set (M := 8 * Z.of_nat len).
  assert (EM : Z.of_nat (8 * len) = M) by (unfold M; lia).
  assert (HM : 0 <= M) by (unfold M; lia).
  assert (Hx : exists n, 0 <= n /\ pre M e = pre M k / 2 ^ n * 2 ^ n /\ klen e <= Z.of_nat len).
  { destruct He as [->|(zp & Hz & ->)].
    - exists 0. split; [lia|]. rewrite Z.pow_0_r, Z.div_1_r. split; [lia|exact L3].
    - assert (Hzp : 1 <= zp) by exact Hz. pose proof (edit_len k zp ltac:(lia)) as Hl. destruct (Z.le_gt_cases zp M) as [Hle|Hgt].
      + exists (M - zp). split; [lia|]. rewrite (edit_pre_high k zp) by (assumption || lia). split; [|lia]. f_equal.
        replace (pre M k) with (pre (zp + (M - zp)) k) by (f_equal; lia). rewrite pre_split by lia. pose proof (sl_range k zp (M - zp) ltac:(lia)).
        rewrite Z.div_add_l by lia. rewrite Z.div_small by lia. lia.
      + exists 0. split; [lia|]. rewrite Z.pow_0_r, Z.div_1_r. rewrite (edit_pre_low k zp) by (assumption || lia). split; lia. }
  destruct Hx as (n & Hn & Ex & Le).
  assert (Hnb : neighbours d pk nk) by (apply (tree_nbr _ _ _ _ _ _ _ E)).
  assert (La : le pk k) by (apply le_iff; exact G1). assert (Lb : lt k nk) by (apply lt_iff; exact G2).
  specialize (HA pk nk n Hnb La Lb Hn). cbv zeta in HA. rewrite !top_pre in HA by assumption. rewrite EM, <- Ex in HA.
  assert (Hlt : pre M pk < pre M e).
  { destruct P1 as (m & Hm & Hlt). destruct (Z.le_gt_cases m M) as [H|H]; [apply (pre_lt_mono m M); [lia|exact Hlt]|].
    replace m with (M + (m - M)) in Hlt by lia. rewrite !pre_beyond in Hlt by (unfold M; lia). pose proof (p2pos (m - M) ltac:(lia)). apply Z.mul_lt_mono_pos_r in Hlt; assumption. }
  specialize (HA Hlt). destruct HA as [A1 A2].
  destruct (seg_ex c pk nk K1 K2 Hp) as (sh & ig & z & HS). destruct (seg_tot _ _ _ _ _ _ HS) as [_ Hq].
  set (N := qof pk nk + 54 - s). set (R := Z.max M N).
  assert (HR : forall x, klen x <= Z.of_nat len -> pre R x = pre M x * 2 ^ (R - M)).
  { intros x Hx. replace R with (M + (R - M)) at 1 by lia. apply pre_beyond; unfold M, R in *; lia. }
  pose proof (p2pos (R - M) ltac:(lia)) as PR. pose proof (p2pos (53 - s) ltac:(lia)) as PS.
  assert (HD : forall x y, klen x <= Z.of_nat len -> klen y <= Z.of_nat len -> pre M nk - pre M pk <= (pre M y - pre M x) * 2 ^ (53 - s) -> dist R pk nk <= dist R x y * 2 ^ (53 - s)).
  { intros x y Lx Ly H. unfold dist. rewrite !HR by assumption. rewrite <- !Z.mul_sub_distr_r.
    rewrite <- Z.mul_assoc, (Z.mul_comm (2 ^ (R - M))), Z.mul_assoc. apply Z.mul_le_mono_nonneg_r; [lia|exact H]. }
  split; (apply (narrow pk nk _ _ N R); [assumption..|reflexivity|lia|apply HD; assumption]).
Qed.

(** ** the invariant along a history *)
Definition stem (len : Z) (lo hi : key) (d : diva) : Prop :=
  d_size d = s /\ d_tree d <> [] /\ hd_key (d_tree d) = lo /\ last_key (d_tree d) = hi /\ klen hi <= len /\ adj (gapx len) (d_tree d).
Lemma stem_valid len lo hi d : stem len lo hi d -> valid c s d.
Proof. intros (H1 & H2 & _ & _ & _ & H5). constructor; auto. eapply adj_gapx; exact H5. Qed.

Lemma exact_ordered X pk st nk : gapok pk st nk -> (forall k, In k X -> kok k) -> exact c s X pk st nk -> ordered c s pk st nk.
Proof.
  intros (K1 & K2 & K3 & _ & L0 & HR) HX (_ & L & EL & HP) L' EL'. rewrite EL in EL'. injection EL' as <-.
  rewrite (rep_list _ _ _ _ _ _ HR) in EL. injection EL as ->.
  assert (Hodd : Forall (fun x => exists k, x = Z.lor (inf pk nk k) 1 /\ ple pk k /\ ple k nk) L).
  { rewrite Forall_forall. intros x Hx. apply (Permutation_in _ HP) in Hx. apply in_map_iff in Hx as (k & <- & Hk). apply filter_In in Hk as [Hk Hi].
    unfold inside in Hi. apply andb_true_iff in Hi as [I1 I2]. apply negb_true_iff in I1. pose proof (HX k Hk) as Kk. exists k. split; [reflexivity|].
    split; [apply nlt_ple; auto|apply key_lt_ple; auto]. }
  destruct (seg_ex c pk nk K1 K2 K3) as (sh & ig & z & HS). destruct (seg_tot _ _ _ _ _ _ HS) as [_ Hq].
  assert (Hodd2 : Forall (fun x => Z.odd x = true /\ 0 < x < 2 ^ 62 /\ meets (inf pk nk pk) (inf pk nk nk) x) L).
  { eapply Forall_impl; [|exact Hodd]. intros x (k & -> & P1 & P2). destruct (inf_range c s Hs _ _ _ _ _ k HS P1 P2) as (I1 & I2 & I3).
    assert (Hi : 0 <= inf pk nk k < 2 ^ 62) by lia. pose proof (odd_hit _ Hi) as Ho.
    split.
    - rewrite <- Z.bit0_odd, Z.lor_spec. change (Z.testbit 1 0) with true. apply orb_true_r.
    - split; [pose proof (lor1_pos _ (proj1 Hi)); rewrite lor1 by lia; pose proof (Z.div_mod (inf pk nk k) 2 ltac:(lia)); pose proof (Z.mod_pos_bound (inf pk nk k) 2 ltac:(lia)); lia|].
      unfold meets. pose proof (inf_mono c s Hs pk nk pk k ltac:(lia) P1). pose proof (inf_mono c s Hs pk nk k nk ltac:(lia) P2). lia. }
  split; [|eapply Forall_impl; [|exact Hodd2]; cbv beta; tauto].
  apply (ss_impl (fun x y => lbase x <= lbase y) _ (fun x => Z.odd x = true /\ 0 < x < 2 ^ 62 /\ meets (inf pk nk pk) (inf pk nk nk) x) L); [|exact Hodd2|apply (rep_infs _ _ _ _ _ _ HR)].
  intros x y (O1 & R1 & _) (O2 & R2 & _) Hle. unfold lex. rewrite !lowbit_odd by (assumption || lia). lia.
Qed.

Lemma step_done len lo hi d k split d' : stem (Z.of_nat len) lo hi d -> kok k -> length k = len -> key_lt k lo = false -> key_lt k hi = true ->
  counters_free d -> (split = true -> apart s len d k) -> insert c d k split = Ok d' ->
  exists A pk st nk st' B, d_tree d = A ++ (pk, st) :: (nk, st') :: B /\ key_lt k pk = false /\ key_lt k nk = true /\ done (Z.of_nat len) d d' A pk nk st' B k.
Proof.
  intros HS Kk Hl Hlo Hhi HC HA E. pose proof (stem_valid _ _ _ _ HS) as HV. pose proof HS as (S1 & S2 & S3 & S4 & S5 & S6).
  rewrite <- S3 in Hlo. rewrite <- S4 in Hhi. destruct (find_gap (d_tree d) k (valid_sorted _ _ _ HV) S2 Hlo Hhi) as (A & pk & st & nk & st' & B & Et & G1 & G2).
  assert (Hkl : klen k <= Z.of_nat len) by (unfold klen; lia).
  pose proof S6 as Sg. rewrite Et in Sg. apply adj_app in Sg as [_ Sg]. rewrite adj_cons in Sg. destruct Sg as [((K1 & K2 & K3 & K4 & L0 & HR) & Ho & Lp) Sg].
  assert (HN : forall L, get_infix_list c s st = Ok L -> Z.of_nat (length L) + 1 < 2 ^ 20).
  { intros L EL. rewrite (rep_list _ _ _ _ _ _ HR) in EL. injection EL as <-. destruct (rep_count _ T _ _ _ _ _ HR) as (C1 & _).
    unfold counters_free in HC. rewrite Et in HC. apply Forall_app in HC as [_ HC]. inversion HC as [|? ? HC1 _]; subst. cbn [snd] in HC1. lia. }
  assert (HD : done (Z.of_nat len) d d' A pk nk st' B k).
  { destruct split; cbn [insert] in E.
    - apply (split_done c s Hs T Hf (Z.of_nat len) d A pk st nk st' B k); auto.
      assert (Ln : klen nk <= Z.of_nat len).
      { destruct B as [|[b sb] B].
        - rewrite Et in S4. rewrite last_app_cons in S4. unfold last_key in S4. cbn in S4. rewrite S4. exact S5.
        - rewrite adj_cons in Sg. apply Sg. }
      apply (apart_roomy len d A pk st nk st' B k); auto.
    - apply (simple_done c s Hs T Hf (Z.of_nat len) d A pk st nk st' B k); auto. }
  exists A, pk, st, nk, st', B. auto.
Qed.
Lemma step_stem len lo hi d k split d' : stem (Z.of_nat len) lo hi d -> kok k -> length k = len -> key_lt k lo = false -> key_lt k hi = true ->
  counters_free d -> (split = true -> apart s len d k) -> insert c d k split = Ok d' ->
  stem (Z.of_nat len) lo hi d' /\ covt gcov (d_tree d') k /\ (forall k', kok k' -> length k' = len -> covt gcov (d_tree d) k' -> covt gcov (d_tree d') k') /\
  last_st (d_tree d') = last_st (d_tree d).
Proof.
  intros HS Kk Hl Hlo Hhi HC HA E. destruct (step_done len lo hi d k split d' HS Kk Hl Hlo Hhi HC HA E) as (A & pk & st & nk & st' & B & Et & _ & _ & HD). pose proof HS as (S1 & S2 & S3 & S4 & S5 & S6).
  destruct HD as [D1 (st2 & M & D2) D3 D4 D5 _ _]. split; [|split; [exact D4|split]].
  - split; [exact D1|]. rewrite D2. split; [destruct A; discriminate|]. rewrite <- D2. split; [|split; [|split; [exact S5|exact D3]]].
    + rewrite <- S3, D2, Et. destruct A; reflexivity.
    + rewrite <- S4, D2, Et. rewrite app_assoc, last_app_cons. symmetry. change ((pk, st) :: (nk, st') :: B) with ([(pk, st)] ++ (nk, st') :: B). rewrite app_assoc, last_app_cons. reflexivity.
  - intros k' K' L' H. apply D5; auto. unfold klen. lia.
  - rewrite D2, Et. rewrite app_assoc, last_st_app. symmetry. change ((pk, st) :: (nk, st') :: B) with ([(pk, st)] ++ (nk, st') :: B). rewrite app_assoc, last_st_app. reflexivity.
Qed.

Lemma seq_stem len lo ops : forall d d', stem (Z.of_nat len) lo (repeat 255 len) d -> lo = repeat 0 len -> within_limits c s len d ops -> insert_seq c d ops = Ok d' ->
  stem (Z.of_nat len) lo (repeat 255 len) d' /\ forall k, kok k -> length k = len -> covt gcov (d_tree d) k \/ In k (map fst ops) -> covt gcov (d_tree d') k.
Proof.
  induction ops as [|[k split] ops IH]; intros d d' HS Hlo HW E.
  - injection E as <-. split; [exact HS|]. intros k _ _ [H|[]]. exact H.
  - cbn [insert_seq] in E. apply bind_ok in E as (d1 & E1 & E2). cbn [within_limits] in HW. destruct HW as ((W1 & W2 & W3) & W4 & W5 & W6).
    assert (Kk : kok k) by exact W1.
    destruct (step_stem len lo (repeat 255 len) d k split d1 HS) as (S1 & S2 & S3 & _); auto.
    { rewrite Hlo, <- W2. apply zeros_low. exact Kk. } { apply lt_iff. exact W3. }
    destruct (IH d1 d' S1 Hlo (W6 d1 E1) E2) as [I1 I2]. split; [exact I1|]. intros k' K' L' [H|[<-|H]]; apply I2; auto.
Qed.

Lemma seq_last len lo ops : forall d d', stem (Z.of_nat len) lo (repeat 255 len) d -> lo = repeat 0 len -> within_limits c s len d ops -> insert_seq c d ops = Ok d' ->
  last_st (d_tree d') = last_st (d_tree d).
Proof.
  induction ops as [|[k split] ops IH]; intros d d' HS Hlo HW E; [injection E as <-; reflexivity|].
  cbn [insert_seq] in E. apply bind_ok in E as (d1 & E1 & E2). cbn [within_limits] in HW. destruct HW as ((W1 & W2 & W3) & W4 & W5 & W6).
  assert (Kk : kok k) by exact W1.
  destruct (step_stem len lo (repeat 255 len) d k split d1 HS) as (S1 & _ & _ & S4); auto.
  { rewrite Hlo, <- W2. apply zeros_low. exact Kk. } { apply lt_iff. exact W3. }
  rewrite (IH d1 d' S1 Hlo (W6 d1 E1) E2). exact S4.
Qed.

Lemma load_stem len keys d : loadable (FixedLength len) keys -> load c s (FixedLength len) keys = Ok d ->
  stem (Z.of_nat len) (repeat 0 len) (repeat 255 len) d /\ forall k, In k keys -> kok k /\ length k = len /\ covt gcov (d_tree d) k.
Proof.
  intros HL E. pose proof (loaded c s Hs T Hf (FixedLength len) keys HL) as (d' & X & E' & HI & Hsm & HX & HB & E1 & E2). rewrite E in E'. injection E' as <-.
  pose proof HL as [Hb _ _ [Hlen _]]. rewrite Forall_forall in Hb, Hlen. pose proof HI as (I1 & I2 & I3 & I4 & I5 & I6). cbn [low_end high_end] in *. split.
  - split; [exact I1|]. split; [exact I2|]. split; [exact I3|]. split; [exact I4|]. split; [unfold klen; rewrite repeat_length; lia|].
    rewrite adj_iff in *. intros A a st b w B Et. split; [eapply I5; exact Et|]. split.
    + apply (exact_ordered X); [eapply I5; exact Et| |eapply I6; exact Et]. intros k Hk. apply HX in Hk as [Hk _]. apply Hb. exact Hk.
    + assert (Ha : In a (boundaries d)). { unfold boundaries. rewrite Et, map_app. apply in_or_app. right. left. reflexivity. }
      unfold klen. apply HB in Ha as [Ha|[->| ->]]; [rewrite (Hlen _ Ha); lia|rewrite repeat_length; lia|rewrite repeat_length; lia].
  - intros k Hk. split; [apply Hb; exact Hk|]. split; [apply Hlen; exact Hk|].
    eapply (inv_stored c s Hs); [exact HI|apply Hb; exact Hk|]. destruct (key_bounds (FixedLength len) keys k HL Hk) as [B1 [B2|B2]]; [right; rewrite B2; exact E2|].
    destruct (in_dec (list_eq_dec Z.eq_dec) k (boundaries d)) as [Hd|Hd]; [right; exact Hd|left]. split; [apply HX; auto|auto].
Qed.

Lemma grown_stem len keys ops d : grown c s len keys ops d -> stem (Z.of_nat len) (repeat 0 len) (repeat 255 len) d /\
  forall k, In k keys \/ In k (map fst ops) -> kok k /\ covt gcov (d_tree d) k.
Proof.
  intros (HL & HW & E). unfold grow in E. apply bind_ok in E as (d0 & E0 & E). specialize (HW d0 E0).
  destruct (load_stem len keys d0 HL E0) as [S0 C0]. destruct (seq_stem len _ ops d0 d S0 eq_refl HW E) as [S1 C1]. split; [exact S1|].
  assert (Hops : forall k, In k (map fst ops) -> kok k /\ length k = len).
  { clear -HW E. revert d0 HW E. induction ops as [|[k0 b] ops IH]; intros d0 HW E k [].
    - subst. destruct HW as ((W1 & W2 & _) & _). split; [exact W1|exact W2].
    - cbn [insert_seq] in E. apply bind_ok in E as (d1 & E1 & E). destruct HW as (_ & _ & _ & W). apply (IH d1 (W d1 E1) E k H). }
  intros k [Hk|Hk].
  - destruct (C0 k Hk) as (K1 & K2 & K3). split; [exact K1|]. apply C1; auto.
  - destruct (Hops k Hk) as [K1 K2]. split; [exact K1|]. apply C1; auto.
Qed.
Lemma grown_last len keys ops d : grown c s len keys ops d -> last_st (d_tree d) = blankst c s.
Proof.
  intros (HL & HW & E). unfold grow in E. apply bind_ok in E as (d0 & E0 & E). specialize (HW d0 E0).
  destruct (load_stem len keys d0 HL E0) as [S0 _]. rewrite (seq_last len _ ops d0 d S0 eq_refl HW E). apply (loaded_last c s Hs T Hf (FixedLength len) keys d0 HL E0).
Qed.
Lemma grown_valid len keys ops d : grown c s len keys ops d -> valid c s d.
Proof. intros H. destruct (grown_stem _ _ _ _ H) as [HS _]. eapply stem_valid; exact HS. Qed.
Lemma stem_keys len lo hi d : stem len lo hi d -> Forall (fun k => klen k <= len) (map fst (d_tree d)).
Proof.
  intros (_ & Hne & _ & Hl & Hh & Ha). revert Hne Hl Ha. induction (d_tree d) as [|[a st] t IH]; intros Hne Hl Ha; [constructor|].
  destruct t as [|[b w] t].
  - unfold last_key in Hl. cbn in Hl. repeat constructor. cbn. rewrite Hl. exact Hh.
  - rewrite adj_cons in Ha. destruct Ha as [(_ & _ & Hk) Ha]. constructor; [exact Hk|]. apply IH; [discriminate| |exact Ha].
    change ((a, st) :: (b, w) :: t) with ([(a, st)] ++ (b, w) :: t) in Hl. rewrite last_app_cons in Hl. exact Hl.
Qed.
Lemma grown_int len keys ops d int_opt l r : grown c s len keys ops d -> suited int_opt (FixedLength len) l r -> int_ok int_opt d l r.
Proof.
  intros H HS Hi. destruct (HS Hi) as ((n & En & Hn) & Hl & Hr). injection En as <-. split; [exact Hl|]. split; [exact Hr|].
  destruct (grown_stem _ _ _ _ H) as [HT _]. eapply Forall_impl; [|apply (stem_keys _ _ _ _ HT)]. intros k Hk. unfold klen, short in *. lia.
Qed.
Lemma point_cov len d k : stem (Z.of_nat len) (repeat 0 len) (repeat 255 len) d -> kok k -> length k = len -> point_query c d k = Ok true -> covt gcov (d_tree d) k.
Proof.
  intros HS Hk Hl H. pose proof (stem_valid _ _ _ _ HS) as HV. pose proof HS as (_ & S2 & S3 & S4 & _).
  destruct (placed _ k (valid_sorted _ _ _ HV) S2) as [a st B E Hb|st B E|A pk st nk st' B E G1 G2|Ha].
  - exfalso. rewrite E in S3. cbn [hd_key] in S3. rewrite S3, <- Hl, zeros_low in Hb by exact Hk. discriminate.
  - rewrite E. apply (covt_tree _ []).
  - destruct (point_query_spec c s Hs d A pk st nk st' B k (v_size _ _ _ HV) E (v_gap _ _ _ HV) Hk G1 G2) as (b & Eb & Hb). rewrite H in Eb. injection Eb as <-. apply Hb. reflexivity.
  - exfalso. destruct (d_tree d) as [|y B] eqn:E; [congruence|]. destruct (last_key_in y B) as (z & Hz & Ez). specialize (Ha z Hz). rewrite Ez, S4, <- Hl in Ha.
    rewrite (ffs_high k (length k) Hk ltac:(lia)) in Ha. discriminate.
Qed.
Lemma grown_snoc len keys ops d k b d' : grown c s len keys ops d -> bytes k -> length k = len -> lt k (repeat 255 len) -> counters_free d -> (b = true -> apart s len d k) ->
  insert c d k b = Ok d' -> grown c s len keys (ops ++ [(k, b)]) d'.
Proof.
  intros (HL & HW & E) H1 H2 H3 H4 H5 H6. split; [exact HL|]. unfold grow in *. apply bind_ok in E as (d0 & E0 & E). split.
  - intros d1 E1. specialize (HW d1 E1). rewrite E0 in E1. injection E1 as <-. clear E0. revert d0 HW E. induction ops as [|[k0 b0] ops IH]; intros d0 HW E.
    + injection E as ->. cbn [app within_limits]. split; [auto|]. split; [exact H4|]. split; [exact H5|]. intros; exact I.
    + cbn [app within_limits insert_seq] in *. apply bind_ok in E as (d1 & E1 & E). destruct HW as (W1 & W2 & W3 & W4). split; [exact W1|]. split; [exact W2|]. split; [exact W3|].
      intros d2 E2. rewrite E1 in E2. injection E2 as <-. apply IH; [apply W4; exact E1|exact E].
  - rewrite E0. cbn [bind]. clear E0 HW. revert d0 E. induction ops as [|[k0 b0] ops IH]; intros d0 E.
    + injection E as ->. cbn [app insert_seq]. rewrite H6. reflexivity.
    + cbn [app insert_seq] in *. apply bind_ok in E as (d1 & E1 & E). rewrite E1. cbn [bind]. apply IH. exact E.
Qed.
Lemma grown_keeps len keys ops d k b d' : grown c s len keys ops d -> bytes k -> length k = len -> lt k (repeat 255 len) -> counters_free d -> (b = true -> apart s len d k) ->
  insert c d k b = Ok d' -> forall k', bytes k' -> length k' = len -> point_query c d k' = Ok true -> point_query c d' k' = Ok true.
Proof.
  intros HG H1 H2 H3 H4 H5 H6 k' K' L' HQ. destruct (grown_stem _ _ _ _ HG) as [HS _]. pose proof (point_cov len d k' HS K' L' HQ) as Hc.
  destruct (step_stem len (repeat 0 len) (repeat 255 len) d k b d' HS) as (S1 & _ & S3 & _); auto.
  { rewrite <- H2. apply zeros_low. exact H1. } { apply lt_iff. exact H3. }
  apply (cov_point c s Hs); [eapply stem_valid; exact S1|exact K'|]. apply S3; auto.
Qed.
End G.

(** ** statements for the machine configuration *)
Section M.
Variables (junk s : Z).
Hypothesis Hs : 1 <= s <= 46.
Notation c := (machine junk).
Let T := machine_ok junk.
Let Hf := machine_fits junk s (proj1 Hs).
Theorem grown_point len keys ops d : grown c s len keys ops d -> forall k, In k keys \/ In k (map fst ops) -> point_query c d k = Ok true.
Proof.
  intros H k Hk. destruct (grown_stem c s Hs T Hf _ _ _ _ H) as [HS HC]. destruct (HC k Hk) as [K1 K2].
  apply (cov_point c s Hs); [eapply stem_valid; exact HS|exact K1|exact K2].
Qed.
Theorem grown_range len keys ops d : grown c s len keys ops d -> forall int_opt l r k, In k keys \/ In k (map fst ops) -> bytes l -> bytes r -> suited int_opt (FixedLength len) l r ->
  le l k -> le k r -> range_query int_opt c d l r = Ok true.
Proof.
  intros H i l r k Hk Bl Br HSu L1 L2. pose proof (grown_int c s Hs T Hf _ _ _ _ i l r H HSu) as Hi. destruct (grown_stem c s Hs T Hf _ _ _ _ H) as [HS HC]. destruct (HC k Hk) as [K1 K2].
  apply (cov_range c s Hs i d l r k); auto; [eapply stem_valid; exact HS|apply le_iff; exact L1|apply le_iff; exact L2].
Qed.
Theorem grown_one_key len keys ops d : grown c s len keys ops d -> forall int_opt k, bytes k -> suited int_opt (FixedLength len) k k -> point_query c d k = range_query int_opt c d k k.
Proof.
  intros H i k Bk HSu. apply (point_is_range c s Hs i d k); [eapply (grown_valid c s Hs T Hf); exact H|exact Bk|eapply (grown_int c s Hs T Hf); eassumption].
Qed.
Theorem grown_grows len keys ops d : grown c s len keys ops d -> forall i1 i2 l r l' r', bytes l -> bytes r -> bytes l' -> bytes r' ->
  suited i1 (FixedLength len) l r -> suited i2 (FixedLength len) l' r' -> le l r -> le l' l -> le r r' ->
  range_query i1 c d l r = Ok true -> range_query i2 c d l' r' = Ok true.
Proof.
  intros H i1 i2 l r l' r' B1 B2 B3 B4 U1 U2 H1 H2 H3. apply (range_grows c s Hs i1 i2 d l r l' r'); auto;
    [eapply (grown_valid c s Hs T Hf); exact H|eapply (grown_int c s Hs T Hf); eassumption|eapply (grown_int c s Hs T Hf); eassumption|apply le_iff; assumption..].
Qed.
Theorem grown_builds_agree len keys ops d : grown c s len keys ops d -> forall l r, bytes l -> bytes r -> suited true (FixedLength len) l r ->
  range_query true c d l r = range_query false c d l r.
Proof.
  intros H l r B1 B2 HSu. apply (range_query_any c s Hs true d l r); [eapply (grown_valid c s Hs T Hf); exact H|exact B1|exact B2|eapply (grown_int c s Hs T Hf); eassumption].
Qed.
Theorem insert_keeps_positives len keys ops d k b d' : grown c s len keys ops d ->
  bytes k -> length k = len -> lt k (repeat 255 len) -> counters_free d -> (b = true -> apart s len d k) -> insert c d k b = Ok d' ->
  grown c s len keys (ops ++ [(k, b)]) d' /\
  point_query c d' k = Ok true /\
  (forall k', bytes k' -> length k' = len -> point_query c d k' = Ok true -> point_query c d' k' = Ok true) /\
  (forall int_opt l r k', bytes k' -> length k' = len -> point_query c d k' = Ok true -> bytes l -> bytes r -> suited int_opt (FixedLength len) l r ->
     le l k' -> le k' r -> range_query int_opt c d' l r = Ok true).
Proof.
  intros HG H1 H2 H3 H4 H5 H6. pose proof (grown_snoc c s len keys ops d k b d' HG H1 H2 H3 H4 H5 H6) as HG'. split; [exact HG'|].
  assert (HK := grown_keeps c s Hs T Hf len keys ops d k b d' HG H1 H2 H3 H4 H5 H6).
  split; [|split; [exact HK|]].
  - apply (grown_point len keys (ops ++ [(k, b)]) d' HG'). right. rewrite map_app. apply in_or_app. right. left. reflexivity.
  - intros i l r k' K' L' HQ Bl Br HSu L1 L2. specialize (HK k' K' L' HQ). destruct (grown_stem c s Hs T Hf _ _ _ _ HG') as [HS _].
    apply (cov_range c s Hs i d' l r k'); auto; [eapply stem_valid; exact HS|eapply (grown_int c s Hs T Hf); eassumption| |apply le_iff; exact L1|apply le_iff; exact L2].
    apply (point_cov c s Hs len); auto.
Qed.
Theorem split_keeps_keys len keys ops d k d' : grown c s len keys ops d ->
  bytes k -> length k = len -> lt k (repeat 255 len) -> counters_free d -> apart s len d k -> insert c d k true = Ok d' ->
  forall k', bytes k' -> length k' = len -> k' = k \/ point_query c d k' = Ok true ->
    point_query c d' k' = Ok true /\
    forall int_opt l r, bytes l -> bytes r -> suited int_opt (FixedLength len) l r -> le l k' -> le k' r -> range_query int_opt c d' l r = Ok true.
Proof.
  intros HG H1 H2 H3 H4 H5 H6 k' K' L' Hk'. destruct (insert_keeps_positives len keys ops d k true d' HG H1 H2 H3 H4 (fun _ => H5) H6) as (G1 & G2 & G3 & G4).
  destruct Hk' as [->|Hq].
  - split; [exact G2|]. intros i l r Bl Br HSu Ll Lr. apply (grown_range _ _ _ _ G1 i l r k); auto. right. rewrite map_app. apply in_or_app. right. left. reflexivity.
  - split; [apply G3; auto|]. intros i l r Bl Br HSu Ll Lr. apply (G4 i l r k'); auto.
Qed.
Lemma combine_fst {A B} (l : list A) (m : list B) : length m = length l -> map fst (combine l m) = l.
Proof. revert m. induction l as [|a l IH]; intros [|b m] H; try discriminate; [reflexivity|]. cbn. f_equal. apply IH. cbn in H. lia. Qed.
Theorem any_random_outcome len keys ks flags d : length flags = length ks -> grown c s len keys (combine ks flags) d ->
  forall k, In k keys \/ In k ks -> point_query c d k = Ok true /\
    forall int_opt l r, bytes l -> bytes r -> suited int_opt (FixedLength len) l r -> le l k -> le k r -> range_query int_opt c d l r = Ok true.
Proof.
  intros Hl HG k Hk. rewrite <- (combine_fst ks flags Hl) in Hk. split; [apply (grown_point _ _ _ _ HG); exact Hk|].
  intros i l r Bl Br HSu Ll Lr. apply (grown_range _ _ _ _ HG i l r k); auto.
Qed.
End M.

(** ** a decision procedure for the limits, used in the examples *)
Definition bytesb (k : key) : bool := forallb (fun b => (0 <=? b) && (b <? 256)) k.
Definition leb (a b : key) : bool := if list_eq_dec Z.eq_dec a b then true else ltb a b.
Fixpoint pairs (l : list key) : list (key * key) :=
  match l with
  | a :: (b :: _) as rest => (a, b) :: pairs rest
  | _ => []
  end.
Definition apartb (s : Z) (len : nat) (d : diva) (k : key) : bool :=
  forallb (fun '(a, b) =>
    if leb a k && ltb k b then
      forallb (fun n => let n := Z.of_nat n in
        let lo := top (8 * len) a in let hi := top (8 * len) b in let x := top (8 * len) k / 2 ^ n * 2 ^ n in
        if lo <? x then (hi - lo <=? (x - lo) * 2 ^ (53 - s)) && (hi - lo <=? (hi - x) * 2 ^ (53 - s)) else true) (seq 0 (8 * len + 1))
    else true) (pairs (boundaries d)).
Fixpoint withinb (c : cfg) (s : Z) (len : nat) (d : diva) (ops : list (key * bool)) : bool :=
  match ops with
  | [] => true
  | (k, split) :: rest =>
      forallb bytesb (boundaries d) && bytesb k && (length k =? len)%nat && ltb k (repeat 255 len) && forallb (fun e => get_elem_count (snd e) + 1 <? 2 ^ 20) (d_tree d) &&
      (if split then apartb s len d k else true) &&
      match insert c d k split with Ok d' => withinb c s len d' rest | _ => true end
  end.
Lemma nbr_pairs l a b : nbr l a b -> In (a, b) (pairs l).
Proof.
  intros (A & B & ->). induction A as [|x A IH]; [left; reflexivity|]. cbn [app]. destruct (A ++ a :: b :: B) as [|y t] eqn:E; [destruct A; discriminate|].
  right. exact IH.
Qed.
Lemma top_small n k : bytes k -> 0 <= top n k < 2 ^ Z.of_nat n.
Proof. intros Hk. rewrite top_pre by exact Hk. apply pre_range. lia. Qed.
Lemma bytesb_ok k : bytesb k = true -> bytes k.
Proof. unfold bytesb, bytes. rewrite forallb_forall, Forall_forall. intros H x Hx. specialize (H x Hx). lia. Qed.
Lemma apartb_ok s len d k : s <= 53 -> bytes k -> Forall bytes (boundaries d) -> apartb s len d k = true -> apart s len d k.
Proof.
  intros Hs Hk HB H a b n Hn Ha Hb H0. cbv zeta. intros Hlt. unfold apartb in H. rewrite forallb_forall in H. specialize (H (a, b) (nbr_pairs _ _ _ Hn)). cbv beta iota in H.
  assert (E1 : leb a k = true). { unfold leb. destruct (list_eq_dec Z.eq_dec a k) as [|Ne]; [reflexivity|]. destruct Ha as [->|Ha]; [congruence|exact Ha]. }
  rewrite E1, Hb in H. cbn [andb] in H. rewrite forallb_forall in H.
  pose proof (top_small (8 * len) k Hk) as Tk.
  assert (Ba : bytes a). { rewrite Forall_forall in HB. apply HB. destruct Hn as (A & B & E). rewrite E. apply in_or_app. right. left. reflexivity. }
  pose proof (top_small (8 * len) a Ba) as Ta.
  destruct (Z.le_gt_cases n (Z.of_nat (8 * len))) as [Hle|Hgt].
  - specialize (H (Z.to_nat n)). rewrite in_seq in H. specialize (H ltac:(lia)). cbv beta zeta in H. rewrite Z2Nat.id in H by lia.
    replace (top (8 * len) a <? top (8 * len) k / 2 ^ n * 2 ^ n) with true in H by (symmetry; apply Z.ltb_lt; exact Hlt).
    apply andb_true_iff in H as [A1 A2]. apply Z.leb_le in A1, A2. split; assumption.
  - exfalso. rewrite Z.div_small in Hlt; [lia|]. pose proof (pow2_le_mono (Z.of_nat (8 * len)) n ltac:(lia)). lia.
Qed.
Lemma withinb_ok c s len : s <= 53 -> forall ops d, withinb c s len d ops = true -> within_limits c s len d ops.
Proof.
  intros Hs. induction ops as [|[k b] ops IH]; intros d H; [exact I|]. cbn [withinb] in H. cbn [within_limits].
  repeat (apply andb_true_iff in H as [H ?H]).
  assert (HB : Forall bytes (boundaries d)). { rewrite forallb_forall in H. rewrite Forall_forall. intros x Hx. apply bytesb_ok, H, Hx. }
  assert (Hk : bytes k) by (apply bytesb_ok; assumption).
  split; [split; [exact Hk|split; [apply Nat.eqb_eq; assumption|assumption]]|].
  split; [|split].
  - unfold counters_free. rewrite Forall_forall. match goal with X : forallb _ (d_tree d) = true |- _ => rewrite forallb_forall in X; intros e He; specialize (X e He); cbv beta in X; lia end.
  - intros ->. apply apartb_ok; assumption.
  - intros d' E. match goal with X : match insert c d k b with _ => _ end = true |- _ => rewrite E in X end. apply IH. assumption.
Qed.
Definition grownb (c : cfg) (s : Z) (len : nat) (keys : list key) (ops : list (key * bool)) : option diva :=
  match load c s (FixedLength len) keys with
  | Ok d0 => if withinb c s len d0 ops then match insert_seq c d0 ops with Ok d => Some d | _ => None end else None
  | _ => None
  end.
Lemma grownb_ok c s len keys ops d : s <= 53 -> loadable (FixedLength len) keys -> grownb c s len keys ops = Some d -> grown c s len keys ops d.
Proof.
  intros Hs HL H. unfold grownb in H. destruct (load c s (FixedLength len) keys) as [d0| |] eqn:E; try discriminate.
  destruct (withinb c s len d0 ops) eqn:W; [|discriminate]. destruct (insert_seq c d0 ops) as [d1| |] eqn:E1; try discriminate. injection H as <-.
  split; [exact HL|]. split; [|unfold grow; rewrite E; exact E1]. intros d' E'. rewrite E in E'. injection E' as <-. apply withinb_ok; assumption.
Qed.
