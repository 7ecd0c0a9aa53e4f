(** Filters after a bulk load and any number of inserts. *)
From Coq Require Import ZArith List Bool Lia Sorting.Sorted Permutation.
From Verif Require Import Base Util Store Tables Key Diva Bits Shift View Cells Lowbit StoreFind StoreInsert StoreQuery
  Layout StoreList Spec StoreRep TablesProofs KeyBits KeyOrder Tree Filter RangeInt Contents Bulk SpecFilter.
Import ListNotations.
Open Scope Z_scope.

(** ** the vocabulary of the specification and of the proofs *)
Lemma bytes_kok k : bytes k <-> kok k.
Proof. reflexivity. Qed.
Lemma ltb_key_lt a : forall b, ltb a b = key_lt a b.
Proof.
  induction a as [|x a IH]; intros [|y b].
  - reflexivity.
  - rewrite key_lt_nil_l. reflexivity.
  - rewrite key_lt_nil_r. reflexivity.
  - rewrite key_lt_cons. cbn [ltb]. rewrite IH. destruct (Z.compare_spec x y) as [->|H|H].
    + rewrite Z.ltb_irrefl, Z.eqb_refl. reflexivity.
    + destruct (Z.ltb_spec x y); [reflexivity|lia].
    + destruct (Z.ltb_spec x y); [lia|]. destruct (Z.eqb_spec x y); [lia|]. reflexivity.
Qed.
Lemma lt_iff a b : lt a b <-> key_lt a b = true.
Proof. unfold lt. rewrite ltb_key_lt. tauto. Qed.
Lemma le_iff a b : le a b <-> key_lt b a = false.
Proof.
  unfold le. rewrite lt_iff. split.
  - intros [->|H]; [apply key_lt_irrefl|apply key_lt_asym; exact H].
  - intros H. destruct (nlt_cases _ _ H) as [->|E]; auto.
Qed.
Lemma app_kok a n : kok a -> kok (a ++ repeat 0 n).
Proof. intros H. apply Forall_app. split; [exact H|]. apply kok_repeat. lia. Qed.
Lemma kbit_app_zeros a n i : 0 <= i -> kbit (a ++ repeat 0 n) i = kbit a i.
Proof.
  intros Hi. unfold kbit, byte. f_equal. set (j := Z.to_nat (i / 8)).
  destruct (Nat.lt_ge_cases j (length a)) as [H|H].
  - apply app_nth1. exact H.
  - rewrite app_nth2 by exact H. rewrite (nth_overflow a) by exact H.
    destruct (Nat.lt_ge_cases (j - length a) n); [apply nth_repeat|apply nth_overflow; rewrite repeat_length; assumption].
Qed.
Lemma pre_app_zeros a n m : 0 <= m -> pre m (a ++ repeat 0 n) = pre m a.
Proof. intros Hm. unfold pre. apply sl_ext; auto. intros i Hi. apply kbit_app_zeros. lia. Qed.
Lemma padlt_plt a b : kok a -> kok b -> (padlt a b <-> plt a b).
Proof.
  intros Ha Hb. unfold padlt. rewrite lt_iff.
  assert (E : plt (a ++ repeat 0 (length b)) (b ++ repeat 0 (length a)) <-> plt a b).
  { unfold plt. split; intros (n & Hn & H); exists n; (split; [exact Hn|]); rewrite !pre_app_zeros in * by exact Hn; exact H. }
  rewrite <- E. split.
  - apply key_lt_plt; try (apply app_kok; assumption). rewrite !app_length, !repeat_length. lia.
  - apply plt_key_lt; apply app_kok; assumption.
Qed.
Lemma longest_max keys : longest keys = max_len keys.
Proof. induction keys as [|k keys IH]; [reflexivity|]. unfold longest in *. cbn [map list_max fold_right] in *. unfold max_len in *. cbn [fold_right]. rewrite <- IH. reflexivity. Qed.
Lemma ss_impl {A} (P Q : A -> A -> Prop) (R : A -> Prop) l : (forall a b, R a -> R b -> P a b -> Q a b) -> Forall R l -> StronglySorted P l -> StronglySorted Q l.
Proof.
  intros H HR Hs. induction Hs as [|a l Hs IH Hfa]; [constructor|]. inversion HR as [|? ? R1 R2]; subst. constructor; [apply IH; exact R2|].
  rewrite Forall_forall in *. intros b Hb. apply H; auto.
Qed.
Lemma mod1024 n : (n mod 1024 <> 1)%nat -> Z.of_nat n mod 1024 <> 1.
Proof.
  intros H E. apply H. apply Nat2Z.inj. rewrite Nat2Z.inj_mod. exact E.
Qed.

(** ** first bits as a number *)
Lemma number_app a b : number (a ++ [b]) = 256 * number a + b.
Proof. unfold number. rewrite fold_left_app. reflexivity. Qed.
Lemma pre_number m k : kok k -> pre (8 * Z.of_nat m) k = number (firstn m (k ++ repeat 0 m)).
Proof.
  intros Hk.
  assert (H : forall m', (m' <= m)%nat -> pre (8 * Z.of_nat m') k = number (firstn m' (k ++ repeat 0 m))).
  { induction m' as [|m' IH]; intros Hm; [reflexivity|].
    assert (Hlen : (m' < length (k ++ repeat 0%Z m))%nat) by (rewrite app_length, repeat_length; lia).
    assert (E : firstn (S m') (k ++ repeat 0 m) = firstn m' (k ++ repeat 0 m) ++ [nth m' (k ++ repeat 0 m) 0]).
    { clear -Hlen. revert Hlen. generalize (k ++ repeat 0 m). intros l. revert m'. induction l as [|x l IH]; intros m' H; [simpl in H; lia|].
      destruct m' as [|m']; [reflexivity|]. cbn [firstn nth app]. f_equal. apply IH. simpl in H. lia. }
    rewrite E, number_app, <- IH by lia.
    replace (8 * Z.of_nat (S m')) with (8 * Z.of_nat m' + 8) by lia. rewrite pre_split by lia. change (2 ^ 8) with 256.
    rewrite sl_byte by (auto; lia). unfold byte. rewrite Nat2Z.id. 
    assert (En : nth m' (k ++ repeat 0 m) 0 = nth m' k 0).
    { destruct (Nat.lt_ge_cases m' (length k)) as [H|H]; [apply app_nth1; exact H|]. rewrite app_nth2 by exact H. rewrite (nth_overflow k) by exact H.
      destruct (Nat.lt_ge_cases (m' - length k) m); [apply nth_repeat|apply nth_overflow; rewrite repeat_length; assumption]. }
    rewrite En. lia. }
  apply H. lia.
Qed.
Lemma top_pre n k : kok k -> top n k = pre (Z.of_nat n) k.
Proof.
  intros Hk. unfold top. set (m := ((n + 7) / 8)%nat). rewrite <- pre_number by exact Hk.
  assert (Hm : (n <= 8 * m)%nat). { unfold m. pose proof (Nat.div_mod (n + 7) 8 ltac:(lia)). pose proof (Nat.mod_upper_bound (n + 7) 8 ltac:(lia)). lia. }
  replace (8 * Z.of_nat m) with (Z.of_nat n + (Z.of_nat (8 * m - n))) by lia. rewrite pre_split by lia.
  pose proof (sl_range k (Z.of_nat n) (Z.of_nat (8 * m - n)) ltac:(lia)). rewrite Z.div_add_l by lia. rewrite (Z.div_small (sl _ _ _)) by lia. lia.
Qed.

Section F.
Context (c : cfg) (s : Z).
Hypothesis Hs : 1 <= s <= 46.
Hypothesis T : tables_ok c.
Hypothesis Hf : fits c s.
Notation gapok := (gapok c s).
Notation gcov := (gcov c s).
Notation rcov := (rcov c s).
Notation inf := (inf c s).
Notation inv := (inv c s).

(** ** queries on any well-formed filter *)
Record valid (d : diva) : Prop := {
  v_size : d_size d = s;
  v_some : d_tree d <> [];
  v_gap : adj gapok (d_tree d)
}.
Lemma valid_sorted d : valid d -> sorted (d_tree d).
Proof. intros [_ _ H]. eapply gapok_sorted; exact H. Qed.
Lemma inv_valid X lo hi d : inv X lo hi d -> valid d.
Proof. intros (H1 & H2 & _ & _ & H3 & _). constructor; assumption. Qed.

(** where a key lies *)
Inductive place (t : tree) (k : key) : Prop :=
| pl_below a st B : t = (a, st) :: B -> key_lt k a = true -> place t k
| pl_first st B : t = (k, st) :: B -> place t k
| pl_gap A pk st nk st' B : t = A ++ (pk, st) :: (nk, st') :: B -> key_lt pk k = true -> key_lt nk k = false -> place t k
| pl_above : (forall x, In x t -> key_lt (fst x) k = true) -> place t k.
Lemma placed t k : sorted t -> t <> [] -> place t k.
Proof.
  intros Hso Hne. destruct (key_lt k (hd_key t)) eqn:E1.
  - destruct t as [|[a st] B]; [congruence|]. eapply pl_below; [reflexivity|exact E1].
  - destruct (nlt_cases _ _ E1) as [->|E2].
    + destruct t as [|[a st] B]; [congruence|]. eapply pl_first. reflexivity.
    + destruct (key_lt (last_key t) k) eqn:E3.
      * apply pl_above. intros x Hx. destruct t as [|y B]; [congruence|]. 
        assert (key_lt (last_key (y :: B)) (fst x) = false); [|eapply nlt_lt_trans; eassumption || (eapply lt_nlt_trans; eassumption)].
        apply in_split in Hx as (P & Q & E). rewrite E in *. rewrite last_app_cons. apply sorted_last. eapply sorted_tail; exact Hso.
      * destruct (find_gap_q t k Hso Hne E2 E3) as (A & pk & st & nk & st' & B & E & G1 & G2). eapply pl_gap; eassumption.
Qed.
Lemma seek_above t k : (forall x, In x t -> key_lt (fst x) k = true) -> seek t k = (rev t, []).
Proof. intros H. rewrite <- (app_nil_r t) at 1. apply seek_app; [exact H|]. intros x B' E. discriminate. Qed.
Lemma seek_below a st B k : key_lt k a = true -> seek ((a, st) :: B) k = ([], (a, st) :: B).
Proof. intros H. unfold seek. cbn [seek_from]. rewrite (key_lt_asym _ _ H). reflexivity. Qed.
Lemma seek_first a st B : seek ((a, st) :: B) a = ([], (a, st) :: B).
Proof. unfold seek. cbn [seek_from]. rewrite key_lt_irrefl. reflexivity. Qed.

(** *** covered keys are found *)
Lemma covt_in_range t k : covt gcov t k -> sorted t -> key_lt k (hd_key t) = false /\ key_lt (last_key t) k = false.
Proof.
  induction t as [|[a st] t IH]; [intros []|]. destruct t as [|[b w] t].
  - rewrite covt_one. intros -> _. split; apply key_lt_irrefl.
  - rewrite covt_cons. intros H Hso. change ((a, st) :: (b, w) :: t) with ([(a, st)] ++ (b, w) :: t). rewrite last_app_cons. cbn [app hd_key].
    assert (Hso2 : sorted ((b, w) :: t)) by (apply (sorted_tail [(a, st)]); exact Hso). assert (Hab : key_lt a b = true) by (apply Hso).
    pose proof (sorted_last _ _ Hso2) as Hl. cbn [fst] in Hl. destruct H as [->|[(H1 & H2 & _)|H]].
    + split; [apply key_lt_irrefl|]. apply key_lt_asym. eapply lt_nlt_trans; eassumption.
    + split; [apply key_lt_asym; exact H1|]. apply key_lt_asym. eapply lt_nlt_trans; eassumption.
    + destruct (IH H Hso2) as [I1 I2]. split; [|exact I2]. apply key_lt_asym. cbn [hd_key] in I1. eapply lt_nlt_trans; eassumption.
Qed.
Theorem cov_point d k : valid d -> kok k -> covt gcov (d_tree d) k -> point_query c d k = Ok true.
Proof.
  intros HV Hk Hc. pose proof (valid_sorted _ HV) as Hso. destruct (covt_in_range _ _ Hc Hso) as [R1 R2].
  destruct (placed _ k Hso (v_some _ HV)) as [a st B E H|st B E|A pk st nk st' B E G1 G2|H].
  - rewrite E in R1. cbn [hd_key] in R1. congruence.
  - unfold point_query. rewrite E, seek_first. cbn [peek snd bind]. rewrite key_eq_refl. reflexivity.
  - destruct (point_query_spec c s Hs d A pk st nk st' B k (v_size _ HV) E (v_gap _ HV) Hk G1 G2) as (b & Eb & Hb).
    rewrite Eb. f_equal. apply Hb. exact Hc.
  - destruct (d_tree d) as [|y B] eqn:E; [exfalso; apply (v_some _ HV); exact E|]. destruct (last_key_in y B) as (z & Hz & Ez). rewrite <- Ez in R2. rewrite (H z Hz) in R2. discriminate.
Qed.

(** both instantiations of RangeQuery *)
Definition short (k : key) : Prop := (length k <= 8)%nat.
Definition int_ok (int_opt : bool) (d : diva) (l r : key) : Prop :=
  int_opt = true -> short l /\ short r /\ Forall short (map fst (d_tree d)).
Theorem range_query_any int_opt d l r : valid d -> kok l -> kok r -> int_ok int_opt d l r -> range_query int_opt c d l r = range_query false c d l r.
Proof.
  intros HV Kl Kr Hi. destruct int_opt; [|reflexivity]. destruct (Hi eq_refl) as (Sl & Sr & St). clear Hi.
  pose proof (valid_sorted _ HV) as Hso. unfold range_query.
  destruct (placed _ l Hso (v_some _ HV)) as [a st B E H|st B E|A pk st nk st' B E G1 G2|H].
  - rewrite E, seek_below by exact H. reflexivity.
  - rewrite E, seek_first. reflexivity.
  - pose proof (v_gap _ HV) as Ha. rewrite E in *. rewrite seek_q by auto. cbn [peek snd bind skip1_rev].
    destruct (key_le nk r); [reflexivity|]. pose proof (adj_at _ _ _ _ _ _ _ _ Ha) as (K1 & K2 & K3 & _).
    destruct (if is_partial_key st then is_prefix_of pk l (get_invalid_bits st) else Ok false) as [[|]| |]; cbn [bind]; try reflexivity.
    rewrite (v_size _ HV). rewrite map_app in St. apply Forall_app in St as [_ St]. cbn [map fst] in St. inversion St as [|? ? S1 S2]; subst. inversion S2; subst. unfold short in *.
    apply range_int_eq; auto; unfold klen; lia.
  - rewrite seek_above by exact H. reflexivity.
Qed.
Theorem cov_range int_opt d l r k : valid d -> kok k -> kok l -> kok r -> int_ok int_opt d l r -> covt gcov (d_tree d) k ->
  key_lt k l = false -> key_lt r k = false -> range_query int_opt c d l r = Ok true.
Proof.
  intros HV Hk Hl Hr Hi Hc H1 H2. rewrite range_query_any by assumption. clear Hi. pose proof (valid_sorted _ HV) as Hso.
  destruct (covt_in_range _ _ Hc Hso) as [R1 R2].
  destruct (placed _ l Hso (v_some _ HV)) as [a st B E H|st B E|A pk st nk st' B E G1 G2|H].
  - unfold range_query. rewrite E, seek_below by exact H. cbn [peek snd bind]. rewrite key_le_iff.
    rewrite E in R1. cbn [hd_key] in R1. destruct (key_lt r a) eqn:E2; [|reflexivity]. exfalso.
    rewrite (nlt_lt_trans _ _ _ H2 E2) in R1. discriminate.
  - unfold range_query. rewrite E, seek_first. cbn [peek snd bind]. rewrite key_le_iff.
    destruct (key_lt r l) eqn:E2; [|reflexivity]. exfalso. rewrite (nlt_lt_trans _ _ _ H2 E2) in H1. discriminate.
  - assert (H3 : key_lt r l = false).
    { destruct (key_lt r l) eqn:E2; [|reflexivity]. exfalso. rewrite (nlt_lt_trans _ _ _ H2 E2) in H1. discriminate. }
    destruct (range_query_spec c s Hs d A pk st nk st' B l r (v_size _ HV) E (v_gap _ HV) Hl Hr G1 G2 H3) as (b & Eb & Hb).
    rewrite Eb. f_equal. apply Hb. rewrite E in Hc. pose proof (v_gap _ HV) as Ha. rewrite E in Ha.
    apply (covt_range c s Hs A pk st nk st' B l r k); assumption.
  - exfalso. destruct (d_tree d) as [|y B] eqn:E; [apply (v_some _ HV); exact E|]. destruct (last_key_in y B) as (z & Hz & Ez). rewrite <- Ez in R2.
    rewrite (lt_nlt_trans _ _ _ (H z Hz) H1) in R2. discriminate.
Qed.

(** *** a point query is a one-key range query *)
Lemma hit_odd i j x : 0 <= i -> 0 <= j -> 0 < x < 2 ^ 64 -> (hit (Z.lor i 1) (Z.lor j 1) x <-> hit i j x).
Proof.
  intros Hi Hj Hx. destruct (top_odd x Hx) as (z & Ez). unfold hit, lbase.
  assert (exists y, x - lowbit x = 2 * y) as (y & Ey) by (destruct (lowbit_facts x Hx) as (Hl & q & Hq & E); exists (z - lowbit x + 1); lia).
  rewrite Ez, Ey, !lor1 by lia. pose proof (Z.div_mod i 2 ltac:(lia)). pose proof (Z.mod_pos_bound i 2 ltac:(lia)).
  pose proof (Z.div_mod j 2 ltac:(lia)). pose proof (Z.mod_pos_bound j 2 ltac:(lia)). lia.
Qed.
Lemma gap_elems pk st nk L x : gapok pk st nk -> get_infix_list c s st = Ok L -> In x L -> 0 < x < 2 ^ 64.
Proof.
  intros (_ & _ & _ & _ & L' & HR) EL Hx. rewrite (rep_list _ _ _ _ _ _ HR) in EL. injection EL as <-.
  destruct (rep_infs _ _ _ _ _ _ HR) as [_ Hfa]. rewrite Forall_forall in Hfa. destruct (Hfa x Hx) as [H1 H2].
  assert (x <> 0) by (intros ->; apply H2; apply Z.mod_0_l; apply Z.pow_nonzero; lia).
  pose proof (pow2_le_mono s 46 ltac:(lia)). change (2 ^ 64) with (2 ^ 18 * 2 ^ 46). change (2 ^ 18) with 262144. lia.
Qed.
Lemma rcov_gcov pk st nk k : gapok pk st nk -> kok k -> key_lt pk k = true -> key_lt k nk = true -> (rcov pk st nk k k <-> gcov pk st nk k).
Proof.
  intros HG Hk H1 H2. pose proof HG as (K1 & K2 & K3 & _). destruct (seg_ex c pk nk K1 K2 K3) as (sh & ig & isz & HS).
  destruct (inf_range c s Hs _ _ _ _ _ k HS (key_lt_ple _ _ K1 Hk H1) (key_lt_ple _ _ Hk K2 H2)) as (I1 & _).
  unfold Filter.rcov, Filter.gcov. split; (intros [H|(L & x & EL & Hx & Hh)]; [left; exact H|right; exists L, x; split; [exact EL|split; [exact Hx|]]]);
    pose proof (gap_elems _ _ _ _ _ HG EL Hx) as Hr; apply (hit_odd (inf pk nk k) (inf pk nk k) x); auto; lia.
Qed.
Theorem point_is_range int_opt d k : valid d -> kok k -> int_ok int_opt d k k -> point_query c d k = range_query int_opt c d k k.
Proof.
  intros HV Hk Hi. rewrite range_query_any by assumption. clear Hi. pose proof (valid_sorted _ HV) as Hso.
  destruct (placed _ k Hso (v_some _ HV)) as [a st B E H|st B E|A pk st nk st' B E G1 G2|H].
  - unfold point_query, range_query. rewrite E, seek_below by exact H. cbn [peek snd bind skip1_rev]. rewrite key_le_iff, H.
    rewrite key_eq_sym, (key_lt_neq _ _ H). reflexivity.
  - unfold point_query, range_query. rewrite E, seek_first. cbn [peek snd bind]. rewrite key_eq_refl, key_le_iff, key_lt_irrefl. reflexivity.
  - destruct (point_query_spec c s Hs d A pk st nk st' B k (v_size _ HV) E (v_gap _ HV) Hk G1 G2) as (b & Eb & Hb).
    destruct (range_query_spec c s Hs d A pk st nk st' B k k (v_size _ HV) E (v_gap _ HV) Hk Hk G1 G2 (key_lt_irrefl k)) as (b' & Eb' & Hb').
    rewrite Eb, Eb'. f_equal. apply eq_true_iff_eq. rewrite Hb, Hb'. pose proof (v_gap _ HV) as Ha. rewrite E in *.
    destruct (key_lt k nk) eqn:E2.
    + rewrite (covt_gap gcov A pk st nk st' B k) by assumption. rewrite rcov_gcov by first [assumption|exact (adj_at _ _ _ _ _ _ _ _ Ha)].
      split; [auto|intros [Hd|]; [discriminate|assumption]].
    + destruct (nlt_cases _ _ E2) as [->|E3]; [|congruence]. split; [auto|intros _].
      change ((pk, st) :: (nk, st') :: B) with ([(pk, st)] ++ (nk, st') :: B). rewrite app_assoc. apply covt_tree.
  - unfold point_query, range_query. rewrite seek_above by exact H. reflexivity.
Qed.

Lemma hit_wider l l' r r' x : 0 <= l' -> l' <= l -> 0 <= r -> r <= r' -> hit (Z.lor l 1) (Z.lor r 1) x -> hit (Z.lor l' 1) (Z.lor r' 1) x.
Proof.
  intros H1 H2 H3 H4. pose proof (lor1_mono l' l ltac:(lia)). pose proof (lor1_mono r r' ltac:(lia)). unfold hit. lia.
Qed.
(** *** a larger range is answered true if a smaller one is *)
Theorem range_grows i1 i2 d l r l' r' : valid d -> kok l -> kok r -> kok l' -> kok r' -> int_ok i1 d l r -> int_ok i2 d l' r' ->
  key_lt r l = false -> key_lt l l' = false -> key_lt r' r = false ->
  range_query i1 c d l r = Ok true -> range_query i2 c d l' r' = Ok true.
Proof.
  intros HV Hl Hr Hl' Hr' Hi1 Hi2 H1 H2 H3. rewrite (range_query_any i1), (range_query_any i2) by assumption. clear Hi1 Hi2. pose proof (valid_sorted _ HV) as Hso.
  intros HT.
  assert (Hlr : key_lt r' l' = false).
  { destruct (key_lt r' l') eqn:E; [|reflexivity]. exfalso. pose proof (nlt_lt_trans _ _ _ H3 E) as E1. rewrite (lt_nlt_trans _ _ _ E1 H2) in H1. discriminate. }
  destruct (placed _ l' Hso (v_some _ HV)) as [a st B E H|st B E|A pk st nk st' B E G1 G2|H].
  - unfold range_query. rewrite E, seek_below by exact H. cbn [peek snd bind skip1_rev]. rewrite key_le_iff. destruct (key_lt r' a) eqn:E2; [|reflexivity].
    exfalso. pose proof (nlt_lt_trans _ _ _ H3 E2) as E3. pose proof (nlt_lt_trans _ _ _ H1 E3) as E4.
    unfold range_query in HT. rewrite E, seek_below in HT by exact E4. cbn [peek snd bind skip1_rev] in HT. rewrite key_le_iff, E3 in HT. discriminate.
  - unfold range_query. rewrite E, seek_first. cbn [peek snd bind]. rewrite key_le_iff, Hlr. reflexivity.
  - destruct (range_query_spec c s Hs d A pk st nk st' B l' r' (v_size _ HV) E (v_gap _ HV) Hl' Hr' G1 G2 Hlr) as (b & Eb & Hb).
    rewrite Eb. f_equal. apply Hb. destruct (key_lt r' nk) eqn:E2; [right|left; reflexivity].
    assert (L1 : key_lt pk l = true) by (eapply lt_nlt_trans; [exact G1|exact H2]).
    assert (L2 : key_lt r nk = true) by (eapply nlt_lt_trans; [exact H3|exact E2]).
    assert (L3 : key_lt l nk = true) by (eapply nlt_lt_trans; [exact H1|exact L2]).
    destruct (range_query_spec c s Hs d A pk st nk st' B l r (v_size _ HV) E (v_gap _ HV) Hl Hr L1 (key_lt_asym _ _ L3) H1) as (b0 & Eb0 & Hb0).
    rewrite Eb0 in HT. injection HT as ->. destruct (proj1 Hb0 eq_refl) as [Hd|HR]; [congruence|].
    pose proof (v_gap _ HV) as Ha. rewrite E in Ha. pose proof (adj_at _ _ _ _ _ _ _ _ Ha) as HG. pose proof HG as (K1 & K2 & K3 & _).
    destruct HR as [HP|(L & x & EL & Hx & Hh)]; [left; apply (part_between st pk l' l); assumption|right].
    exists L, x. split; [exact EL|]. split; [exact Hx|].
    destruct (seg_ex c pk nk K1 K2 K3) as (sh & ig & isz & HS). destruct (seg_tot _ _ _ _ _ _ HS) as [_ Hq].
    assert (Hq0 : 0 <= qof c pk nk) by (clear -Hq; lia). pose proof (inf_mono c s Hs pk nk l' l Hq0 (nlt_ple _ _ Hl' Hl H2)). pose proof (inf_mono c s Hs pk nk r r' Hq0 (nlt_ple _ _ Hr Hr' H3)).
    destruct (inf_range c s Hs _ _ _ _ _ l' HS (key_lt_ple _ _ K1 Hl' G1) (ple_trans _ _ _ (nlt_ple _ _ Hl' Hr' Hlr) (key_lt_ple _ _ Hr' K2 E2))) as (I1 & _).
    destruct (inf_range c s Hs _ _ _ _ _ r HS (ple_trans _ _ _ (key_lt_ple _ _ K1 Hl L1) (nlt_ple _ _ Hl Hr H1)) (key_lt_ple _ _ Hr K2 L2)) as (I2 & _).
    apply (hit_wider (inf pk nk l) (inf pk nk l') (inf pk nk r) (inf pk nk r') x); [apply I1|assumption|apply I2|assumption|exact Hh].
  - exfalso. unfold range_query in HT. rewrite seek_above in HT; [discriminate|]. intros x Hx. eapply lt_nlt_trans; [apply H; exact Hx|exact H2].
Qed.

(** ** histories *)
Definition nbr (l : list key) (a b : key) : Prop := exists A B, l = A ++ a :: b :: B.
Lemma nbr_tree (t : tree) a b : nbr (map fst t) a b -> exists A st w B, t = A ++ (a, st) :: (b, w) :: B.
Proof.
  intros (A & B & E). revert t E. induction A as [|x A IH]; intros t E.
  - destruct t as [|[a' st] [|[b' w] t]]; try discriminate. cbn in E. injection E as -> -> _. exists [], st, w, t. reflexivity.
  - destruct t as [|[a' st] t]; [discriminate|]. cbn in E. injection E as _ E. destruct (IH _ E) as (A' & st' & w & B' & ->). exists ((a', st) :: A'), st', w, B'. reflexivity.
Qed.
Lemma tree_nbr A a st b w B (t : tree) : t = A ++ (a, st) :: (b, w) :: B -> nbr (map fst t) a b.
Proof. intros ->. exists (map fst A), (map fst B). rewrite map_app. reflexivity. Qed.
Lemma count_inside a b ks : count_between a b ks = length (filter (inside a b) ks).
Proof. unfold count_between. f_equal. apply filter_ext. intros k. unfold inside. rewrite !ltb_key_lt. reflexivity. Qed.

Lemma insert_all_inv lo hi X ks : forall d Y, inv (Y ++ X) lo hi d -> Forall kok ks ->
  Forall (fun k => key_lt k lo = false) ks -> Forall (fun k => key_lt k hi = true) ks ->
  (forall a b, nbr (map fst (d_tree d)) a b -> Z.of_nat (length (filter (inside a b) X)) <= 1023) ->
  (forall a b, nbr (map fst (d_tree d)) a b -> Z.of_nat (length (filter (inside a b) (Y ++ ks))) < 2 ^ 20 - 1024) ->
  exists d', insert_all c d ks = Ok d' /\ inv (rev ks ++ Y ++ X) lo hi d' /\ map fst (d_tree d') = map fst (d_tree d) /\ last_st (d_tree d') = last_st (d_tree d).
Proof.
  induction ks as [|k ks IH]; intros d Y HI Hk Hlo Hhi HX HY.
  - exists d. split; [reflexivity|]. split; [exact HI|split; reflexivity].
  - inversion Hk as [|? ? K1 K2]; subst. inversion Hlo as [|? ? L1 L2]; subst. inversion Hhi as [|? ? H1 H2]; subst.
    destruct (insert_simple_inv c s Hs T Hf _ lo hi d k HI K1 L1 H1) as (d1 & E1 & HI1 & Em & El).
    { intros A a st b w B E Hin. specialize (HX a b (tree_nbr _ _ _ _ _ _ _ E)). specialize (HY a b (tree_nbr _ _ _ _ _ _ _ E)).
      rewrite filter_app, app_length in *. lia. }
    cbn [insert_all insert]. rewrite E1. cbn [bind].
    destruct (IH d1 (k :: Y)) as (d2 & E2 & HI2 & Em2 & El2); auto; try (rewrite Em; auto).
    { intros a b Hn. specialize (HY a b Hn). rewrite filter_app, app_length in *. cbn [filter] in *. destruct (inside a b k); cbn [length] in *; lia. }
    exists d2. split; [exact E2|]. split; [|split; congruence]. cbn [rev]. rewrite <- app_assoc. exact HI2.
Qed.

(** what is known about a loaded filter *)
Lemma loaded_nd m keys : loadable m keys -> exists d X, load c s m keys = Ok d /\ inv X (low_end m keys) (high_end m keys) d /\ NoDup X /\
  (forall a b, nbr (map fst (d_tree d)) a b -> Z.of_nat (length (filter (inside a b) X)) <= 1023) /\
  (forall k, In k X <-> In k keys /\ ~ In k (boundaries d)) /\
  (forall k, In k (boundaries d) -> In k keys \/ k = low_end m keys \/ k = high_end m keys) /\
  In (low_end m keys) (boundaries d) /\ In (high_end m keys) (boundaries d).
Proof.
  intros [Hb Hne Hc Hk]. apply mod1024 in Hc.
  assert (Hfin : forall d X lo hi, inv X lo hi d -> adj (small c s) (d_tree d) -> forall a b, nbr (map fst (d_tree d)) a b -> Z.of_nat (length (filter (inside a b) X)) <= 1023).
  { intros d X lo hi HI Hsm a b Hn. apply nbr_tree in Hn as (A & st & w & B & E). destruct HI as (_ & _ & _ & _ & _ & Hx). rewrite adj_iff in Hx, Hsm.
    destruct (Hx _ _ _ _ _ _ E) as (_ & L & EL & HP). pose proof (Hsm _ _ _ _ _ _ E L EL) as HL. rewrite (Permutation_length HP), map_length in HL. exact HL. }
  assert (Hends : forall d X lo hi, inv X lo hi d -> In lo (boundaries d) /\ In hi (boundaries d)).
  { intros d X lo hi (_ & H1 & <- & <- & _). unfold boundaries. destruct (d_tree d) as [|[a st] B]; [congruence|]. split; [left; reflexivity|].
    destruct (last_key_in (a, st) B) as (y & Hy & <-). apply in_map. exact Hy. }
  assert (Hall : forall d X lo hi (P : key -> Prop), inv X lo hi d -> (forall k, In k X -> ~ In k (map fst (d_tree d))) ->
    (forall k, In k X \/ In k (map fst (d_tree d)) <-> P k \/ k = lo \/ k = hi) ->
    (forall k, In k X <-> P k /\ ~ In k (boundaries d)) /\ (forall k, In k (boundaries d) -> P k \/ k = lo \/ k = hi)).
  { intros d X lo hi P HI Hd HM. destruct (Hends _ _ _ _ HI) as [E1 E2]. unfold boundaries in *. split; intros k; specialize (HM k).
    - split.
      + intros H. split; [|apply Hd; exact H]. destruct (proj1 HM (or_introl H)) as [H1|[->| ->]]; [exact H1| |]; exfalso; apply (Hd _ H); assumption.
      + intros [H1 H2]. destruct (proj2 HM (or_introl H1)) as [H|H]; [exact H|contradiction].
    - intros H. apply HM. right. exact H. }
  assert (Hpl : StronglySorted padlt keys -> StronglySorted plt keys) by (apply (ss_impl _ _ kok); [intros a b Ka Kb; apply padlt_plt; auto|exact Hb]).
  assert (Hhd : kok (hd [] keys)) by (destruct keys; [congruence|inversion Hb; assumption]).
  destruct m as [len| |]; cbn [load low_end high_end]; rewrite ?longest_max in *.
  - destruct Hk as [Hlen Hso].
    destruct (bulk_fixed_inv c s Hs T Hf len keys) as (d & X & E & HI & [Hsm [_ [Hnd Hdj]]] & HM); auto.
    { apply (ss_impl _ _ kok) with (3 := Hso); [intros a b _ _; apply lt_iff|exact Hb]. }
    exists d, X. split; [exact E|]. split; [exact HI|]. split; [exact Hnd|]. split; [eapply Hfin; eassumption|].
    destruct (Hall _ _ _ _ (fun k => In k keys) HI Hdj HM) as [M1 M2]. destruct (Hends _ _ _ _ HI) as [M3 M4]. auto.
  - destruct Hk as [Hso Hz]. destruct (bulk_var_inv c s Hs T Hf keys) as (d & X & E & HI & [Hsm [_ [Hnd Hdj]]] & HM); auto.
    { destruct Hz as [Hz|Hz]; [left; exact Hz|right]. apply padlt_plt; auto. apply kok_repeat. lia. }
    exists d, X. split; [exact E|]. split; [exact HI|]. split; [exact Hnd|]. split; [eapply Hfin; eassumption|].
    destruct (Hall _ _ _ _ (fun k => In k keys) HI Hdj HM) as [M1 M2]. destruct (Hends _ _ _ _ HI) as [M3 M4]. auto.
  - destruct Hk as [Hso Hz]. destruct (bulk_stream_inv c s Hs T Hf keys) as (d & X & E & HI & [Hsm [_ [Hnd Hdj]]] & HM); auto.
    { apply padlt_plt; auto. apply kok_repeat. lia. }
    exists d, X. split; [exact E|]. split; [exact HI|]. split; [exact Hnd|]. split; [eapply Hfin; eassumption|].
    destruct (Hall _ _ _ _ (fun k => In k keys) HI Hdj HM) as [M1 M2]. destruct (Hends _ _ _ _ HI) as [M3 M4]. auto.
Qed.
Lemma loaded m keys : loadable m keys -> exists d X, load c s m keys = Ok d /\ inv X (low_end m keys) (high_end m keys) d /\
  (forall a b, nbr (map fst (d_tree d)) a b -> Z.of_nat (length (filter (inside a b) X)) <= 1023) /\
  (forall k, In k X <-> In k keys /\ ~ In k (boundaries d)) /\
  (forall k, In k (boundaries d) -> In k keys \/ k = low_end m keys \/ k = high_end m keys) /\
  In (low_end m keys) (boundaries d) /\ In (high_end m keys) (boundaries d).
Proof. intros HL. destruct (loaded_nd m keys HL) as (d & X & E & HI & _ & H). exists d, X. auto. Qed.
(** the block of the last entry is never touched *)
Lemma loaded_last m keys d : loadable m keys -> load c s m keys = Ok d -> last_st (d_tree d) = blankst c s.
Proof.
  intros [Hb Hne Hc Hk] E. apply mod1024 in Hc.
  assert (Hpl : StronglySorted padlt keys -> StronglySorted plt keys) by (apply (ss_impl _ _ kok); [intros a b Ka Kb; apply padlt_plt; auto|exact Hb]).
  assert (Hhd : kok (hd [] keys)) by (destruct keys; [congruence|inversion Hb; assumption]).
  destruct m as [len| |]; cbn [load] in E; rewrite ?longest_max in *.
  - destruct Hk as [Hlen Hso].
    destruct (bulk_fixed_inv c s Hs T Hf len keys) as (d' & X & E' & _ & (_ & H & _) & _); auto.
    { apply (ss_impl _ _ kok) with (3 := Hso); [intros a b _ _; apply lt_iff|exact Hb]. }
    rewrite E in E'. injection E' as <-. exact H.
  - destruct Hk as [Hso Hz]. destruct (bulk_var_inv c s Hs T Hf keys) as (d' & X & E' & _ & (_ & H & _) & _); auto.
    { destruct Hz as [Hz|Hz]; [left; exact Hz|right]. apply padlt_plt; auto. apply kok_repeat. lia. }
    rewrite E in E'. injection E' as <-. exact H.
  - destruct Hk as [Hso Hz]. destruct (bulk_stream_inv c s Hs T Hf keys) as (d' & X & E' & _ & (_ & H & _) & _); auto.
    { apply padlt_plt; auto. apply kok_repeat. lia. }
    rewrite E in E'. injection E' as <-. exact H.
Qed.
(** a loaded filter after any insertions *)
Lemma built m keys ks : loadable m keys -> insertable c s m keys ks ->
  exists d0 d X, load c s m keys = Ok d0 /\ build c s m keys ks = Ok d /\ inv (rev ks ++ X) (low_end m keys) (high_end m keys) d /\ boundaries d = boundaries d0 /\
    (forall k, In k X <-> In k keys /\ ~ In k (boundaries d)) /\
    (forall k, In k (boundaries d) -> In k keys \/ k = low_end m keys \/ k = high_end m keys) /\
    In (low_end m keys) (boundaries d) /\ In (high_end m keys) (boundaries d).
Proof.
  intros HL [I1 I2 I3 I4]. destruct (loaded m keys HL) as (d0 & X & E & HI & Hsm & HM).
  destruct (insert_all_inv _ _ X ks d0 [] HI I1) as (d & E1 & HI1 & Em & _).
  { eapply Forall_impl; [|exact I2]. intros k. apply le_iff. } { eapply Forall_impl; [|exact I3]. intros k. apply lt_iff. } { exact Hsm. }
  { intros a b Hn. rewrite <- count_inside. apply (I4 d0 a b E). exact Hn. }
  exists d0, d, X. split; [exact E|]. split; [unfold build; rewrite E; exact E1|]. split; [exact HI1|]. split; [exact Em|].
  assert (Eb : boundaries d = boundaries d0) by exact Em. rewrite Eb. exact HM.
Qed.
Lemma built_last m keys ks d : loadable m keys -> insertable c s m keys ks -> build c s m keys ks = Ok d -> last_st (d_tree d) = blankst c s.
Proof.
  intros HL [I1 I2 I3 I4] E. destruct (loaded m keys HL) as (d0 & X & E0 & HI & Hsm & HM).
  destruct (insert_all_inv _ _ X ks d0 [] HI I1) as (d' & E1 & _ & _ & El).
  { eapply Forall_impl; [|exact I2]. intros k. apply le_iff. } { eapply Forall_impl; [|exact I3]. intros k. apply lt_iff. } { exact Hsm. }
  { intros a b Hn. rewrite <- count_inside. apply (I4 d0 a b E0). exact Hn. }
  unfold build in E. rewrite E0 in E. cbn [bind] in E. rewrite E1 in E. injection E as <-. rewrite El. eapply loaded_last; eassumption.
Qed.
Lemma inv_stored X lo hi d k : inv X lo hi d -> kok k -> (In k X /\ key_lt k lo = false /\ key_lt k hi = true) \/ In k (boundaries d) -> covt gcov (d_tree d) k.
Proof.
  intros HI Hk [(H1 & H2 & H3)|H].
  - eapply inv_covt; eassumption.
  - apply in_map_iff in H as ([k' st] & E & H). simpl in E. subst k'. apply in_split in H as (A & B & ->). apply covt_tree.
Qed.
Lemma key_bounds m keys k : loadable m keys -> In k keys -> key_lt k (low_end m keys) = false /\ (k = high_end m keys \/ key_lt k (high_end m keys) = true).
Proof.
  intros [Hb Hne Hc Hk] Hin. pose proof Hb as Hb'. rewrite Forall_forall in Hb'. pose proof (Hb' k Hin) as Kk.
  assert (Hhd : kok (hd [] keys)) by (destruct keys; [congruence|inversion Hb; assumption]).
  assert (Hff : forall n, (length k <= n)%nat -> k = repeat 255 n \/ key_lt k (repeat 255 n) = true).
  { intros n Hn. pose proof (ffs_high k n Kk Hn) as H. destruct (nlt_cases _ _ H) as [E|E]; auto. }
  assert (Hhk : StronglySorted padlt keys -> key_lt k (hd [] keys) = false).
  { intros Hso. destruct keys as [|k0 keys]; [congruence|]. cbn [hd] in *. destruct Hin as [->|Hin]; [apply key_lt_irrefl|].
    inversion Hso as [|? ? _ Hfa]; subst. rewrite Forall_forall in Hfa. apply key_lt_asym, plt_key_lt; auto. apply padlt_plt; auto. }
  destruct m as [len| |]; cbn [low_end high_end]; rewrite ?longest_max in *.
  - destruct Hk as [Hlen _]. rewrite Forall_forall in Hlen. rewrite <- (Hlen k Hin). split; [apply zeros_low; exact Kk|apply Hff; lia].
  - destruct Hk as [Hso Hz]. split; [|apply Hff, max_len_spec; exact Hin]. destruct Hz as [<-|Hz]; [apply Hhk; exact Hso|].
    apply key_lt_asym. eapply lt_nlt_trans; [|apply Hhk; exact Hso]. apply plt_key_lt; [apply kok_repeat; lia|exact Hhd|]. apply padlt_plt; auto. apply kok_repeat. lia.
  - destruct Hk as [Hso Hz]. split; [|apply Hff, max_len_spec; exact Hin].
    apply key_lt_asym. eapply lt_nlt_trans; [|apply Hhk; exact Hso]. apply plt_key_lt; [apply kok_repeat; lia|exact Hhd|]. apply padlt_plt; auto. apply kok_repeat. lia.
Qed.

(** *** no false negatives *)
Lemma built_valid m keys ks d : loadable m keys -> insertable c s m keys ks -> build c s m keys ks = Ok d -> valid d.
Proof. intros HL HI E. destruct (built m keys ks HL HI) as (d0 & d' & X & _ & E' & HV & _). rewrite E in E'. injection E' as <-. eapply inv_valid; exact HV. Qed.
Lemma stored_cov m keys ks d k : loadable m keys -> insertable c s m keys ks -> build c s m keys ks = Ok d -> In k keys \/ In k ks ->
  kok k /\ covt gcov (d_tree d) k.
Proof.
  intros HL HI E Hin. destruct (built m keys ks HL HI) as (d0 & d' & X & _ & E' & HV & _ & HX & HB & E1 & E2). rewrite E in E'. injection E' as <-.
  assert (Hk : kok k). { destruct Hin as [H|H]; [pose proof (ld_bytes _ _ HL) as Hf0|pose proof (in_bytes _ _ _ _ _ HI) as Hf0]; rewrite Forall_forall in Hf0; apply Hf0; exact H. }
  split; [exact Hk|]. eapply inv_stored; [exact HV|exact Hk|]. destruct Hin as [H|H].
  - destruct (key_bounds m keys k HL H) as [B1 B2]. destruct B2 as [B2|B2]; [right; rewrite B2; exact E2|].
    destruct (in_dec (list_eq_dec Z.eq_dec) k (boundaries d)) as [Hd|Hd]; [right; exact Hd|left].
    split; [apply in_or_app; right; apply HX; auto|auto].
  - left. split; [apply in_or_app; left; apply in_rev in H; exact H|].
    pose proof (in_low _ _ _ _ _ HI) as F1. pose proof (in_high _ _ _ _ _ HI) as F2. rewrite Forall_forall in F1, F2.
    split; [apply le_iff; apply F1; exact H|apply lt_iff; apply F2; exact H].
Qed.
Theorem build_ok m keys ks : loadable m keys -> insertable c s m keys ks -> exists d, build c s m keys ks = Ok d.
Proof. intros HL HI. destruct (built m keys ks HL HI) as (d0 & d & X & _ & E & _). exists d. exact E. Qed.
Theorem point_found m keys ks d k : loadable m keys -> insertable c s m keys ks -> build c s m keys ks = Ok d -> In k keys \/ In k ks ->
  point_query c d k = Ok true.
Proof. intros HL HI E Hin. destruct (stored_cov m keys ks d k HL HI E Hin) as [Hk Hc]. apply cov_point; [eapply built_valid; eassumption|exact Hk|exact Hc]. Qed.
Theorem range_found int_opt m keys ks d k l r : loadable m keys -> insertable c s m keys ks -> build c s m keys ks = Ok d -> In k keys \/ In k ks ->
  bytes l -> bytes r -> int_ok int_opt d l r -> le l k -> le k r -> range_query int_opt c d l r = Ok true.
Proof.
  intros HL HI E Hin Hl Hr Hi H1 H2. destruct (stored_cov m keys ks d k HL HI E Hin) as [Hk Hc].
  apply (cov_range int_opt d l r k); auto; [eapply built_valid; eassumption|apply le_iff; exact H1|apply le_iff; exact H2].
Qed.

(** *** positive answers are explained *)
Lemma pre_half q k : 0 <= q -> pre (q + s) k / 2 = pre (q + s - 1) k.
Proof.
  intros Hq. replace (q + s) with ((q + s - 1) + 1) at 1 by lia. rewrite pre_split by lia. change (2 ^ 1) with 2.
  pose proof (sl_range k (q + s - 1) 1 ltac:(lia)). rewrite Z.div_add_l by lia. rewrite (Z.div_small (sl _ _ _)) by (change (2 ^ 1) with 2 in *; lia). lia.
Qed.
Lemma inf_half pk nk k : 0 <= qof c pk nk -> inf pk nk k / 2 = pre (qof c pk nk + s - 1) k - pre (qof c pk nk) pk * 2 ^ (s - 1).
Proof.
  intros Hq. unfold Filter.inf. rewrite <- pre_half by lia.
  assert (E2 : 2 ^ s = 2 ^ (s - 1) * 2) by (replace s with (s - 1 + 1) at 1 by lia; rewrite Z.pow_add_r by lia; reflexivity). rewrite E2.
  replace (pre (qof c pk nk + s) k - pre (qof c pk nk) pk * (2 ^ (s - 1) * 2)) with (pre (qof c pk nk + s) k + (- (pre (qof c pk nk) pk * 2 ^ (s - 1))) * 2) by ring.
  rewrite Z.div_add by lia. lia.
Qed.
Lemma hit_infx l r x : 0 <= l -> 0 <= r -> 0 <= x < 2 ^ 60 -> (hit (Z.lor l 1) (Z.lor r 1) (Z.lor x 1) <-> l / 2 <= x / 2 <= r / 2).
Proof.
  intros Hl Hr Hx. rewrite hit_odd; [|lia|lia|destruct (lor1_range x ltac:(lia)); rewrite lor1 in * by lia; pose proof (Z.div_pos x 2 ltac:(lia) ltac:(lia)); change (2 ^ 64) with (16 * 2 ^ 60); lia].
  destruct (lor1_range x ltac:(lia)) as [R1 R2]. unfold hit, lbase. rewrite lor1 in * by lia.
  pose proof (Z.div_pos x 2 ltac:(lia) ltac:(lia)). rewrite (lowbit_odd (2 * (x / 2) + 1)) by first [exact R2|change (2 ^ 64) with (16 * 2 ^ 60); lia].
  pose proof (Z.div_mod l 2 ltac:(lia)). pose proof (Z.mod_pos_bound l 2 ltac:(lia)). pose proof (Z.div_mod r 2 ltac:(lia)). pose proof (Z.mod_pos_bound r 2 ltac:(lia)). lia.
Qed.
Lemma exact_rcov X pk st nk l r : exact c s X pk st nk -> gapok pk st nk -> Forall kok X -> kok l -> kok r ->
  key_lt pk l = true -> key_lt r l = false -> key_lt r nk = true ->
  (rcov pk st nk l r <-> exists k', In k' X /\ inside pk nk k' = true /\
    pre (qof c pk nk + s - 1) l <= pre (qof c pk nk + s - 1) k' <= pre (qof c pk nk + s - 1) r).
Proof.
  intros (Hp & L & EL & HP) (K1 & K2 & K3 & K4 & _) HX Hl Hr H1 H2 H3. rewrite Forall_forall in HX.
  destruct (seg_ex c pk nk K1 K2 K3) as (sh & ig & isz & HS). destruct (seg_tot _ _ _ _ _ _ HS) as [_ Hq]. assert (Hq0 : 0 <= qof c pk nk) by (clear -Hq; lia).
  pose proof (key_lt_ple _ _ K1 Hl H1) as P1. pose proof (nlt_ple _ _ Hl Hr H2) as P2. pose proof (key_lt_ple _ _ Hr K2 H3) as P3.
  destruct (inf_range c s Hs _ _ _ _ _ l HS P1 (ple_trans _ _ _ P2 P3)) as (I1 & _).
  destruct (inf_range c s Hs _ _ _ _ _ r HS (ple_trans _ _ _ P1 P2) P3) as (I2 & _).
  assert (Hin : forall k', In k' X -> inside pk nk k' = true -> 0 <= inf pk nk k' < 2 ^ 60).
  { intros k' Hk' Hi. unfold inside in Hi. apply andb_true_iff in Hi as [G1 G2]. apply negb_true_iff in G1.
    destruct (inf_range c s Hs _ _ _ _ _ k' HS (nlt_ple _ _ K1 (HX k' Hk') G1) (key_lt_ple _ _ (HX k' Hk') K2 G2)) as (I3 & I4 & I5).
    clear -I3 I4 I5. change (2 ^ 60) with (16 * 2 ^ 56). lia. }
  assert (Heq : forall k', In k' X -> inside pk nk k' = true -> (hit (Z.lor (inf pk nk l) 1) (Z.lor (inf pk nk r) 1) (infx c s pk nk k') <->
    pre (qof c pk nk + s - 1) l <= pre (qof c pk nk + s - 1) k' <= pre (qof c pk nk + s - 1) r)).
  { intros k' Hk' Hi. unfold infx. rewrite hit_infx by (try apply I1; try apply I2; apply (Hin k' Hk' Hi)). rewrite !inf_half by exact Hq0. clear. lia. }
  unfold Filter.rcov. split.
  - intros [[Hpp _]|(L' & x & EL' & Hx & Hh)]; [congruence|]. rewrite EL in EL'. injection EL' as <-.
    apply (Permutation_in _ HP) in Hx. apply in_map_iff in Hx as (k' & <- & Hk'). apply filter_In in Hk' as [Hk' Hi].
    exists k'. split; [exact Hk'|]. split; [exact Hi|]. apply Heq; assumption.
  - intros (k' & Hk' & Hi & Hb). right. exists L, (infx c s pk nk k'). split; [exact EL|]. split; [|apply Heq; assumption].
    apply (Permutation_in _ (Permutation_sym HP)). apply in_map. apply filter_In. auto.
Qed.
Lemma inside_iff a b k : inside a b k = true <-> le a k /\ lt k b.
Proof. unfold inside. rewrite andb_true_iff, negb_true_iff, le_iff, lt_iff. tauto. Qed.
Theorem inv_explained X lo hi d a b : inv X lo hi d -> Forall kok X -> neighbours d a b ->
  exists q : nat, 512 <= top q b - top q a + 1 <= 1024 /\
    let n := (q + Z.to_nat s - 1)%nat in
    (forall k, bytes k -> lt a k -> lt k b -> exists ans, point_query c d k = Ok ans /\
       (ans = true <-> exists k', In k' X /\ le a k' /\ lt k' b /\ top n k' = top n k)) /\
    (forall l r, bytes l -> bytes r -> lt a l -> le l r -> lt r b -> exists ans, range_query false c d l r = Ok ans /\
       (ans = true <-> exists k', In k' X /\ le a k' /\ lt k' b /\ top n l <= top n k' <= top n r)).
Proof.
  intros HInv HXk Hn. pose proof (inv_valid _ _ _ _ HInv) as HV. apply nbr_tree in Hn as (A & st & w & B & Et).
  pose proof (v_gap _ HV) as Ha. pose proof HInv as (_ & _ & _ & _ & _ & Hx). rewrite adj_iff in Hx. pose proof (Hx _ _ _ _ _ _ Et) as Hex. clear Hx.
  rewrite Et in Ha. pose proof (adj_at _ _ _ _ _ _ _ _ Ha) as HG. pose proof HG as (K1 & K2 & K3 & _). pose proof (gapok_sorted _ _ _ Ha) as Hso.
  destruct (seg_ex c a b K1 K2 K3) as (sh & ig & isz & HS). destruct (seg_tot _ _ _ _ _ _ HS) as [Ht Hq]. set (q := qof c a b) in *.
  exists (Z.to_nat q). rewrite !top_pre by assumption. rewrite Z2Nat.id by lia. split; [exact Ht|]. intros n.
  assert (En : Z.of_nat n = q + s - 1) by (unfold n; lia).
  assert (Hrange : forall l r, bytes l -> bytes r -> lt a l -> le l r -> lt r b -> exists ans, range_query false c d l r = Ok ans /\
       (ans = true <-> exists k', In k' X /\ le a k' /\ lt k' b /\ top n l <= top n k' <= top n r)).
  { intros l r Kl Kr H1 H2 H3. rewrite lt_iff in H1, H3. rewrite le_iff in H2. assert (H4 : key_lt l b = true) by (eapply nlt_lt_trans; eassumption).
    destruct (range_query_spec c s Hs d A a st b w B l r (v_size _ HV) Et (v_gap _ HV) Kl Kr H1 (key_lt_asym _ _ H4) H2) as (ans & Ea & Hans).
    exists ans. split; [exact Ea|]. rewrite Hans, H3. rewrite (exact_rcov _ _ _ _ _ _ Hex HG HXk Kl Kr H1 H2 H3). fold q. rewrite <- En. split.
    - intros [Hd|(k' & Hk' & Hi & Hb)]; [discriminate|]. exists k'. split; [exact Hk'|]. apply inside_iff in Hi as [Hi1 Hi2]. split; [exact Hi1|]. split; [exact Hi2|].
      rewrite Forall_forall in HXk. rewrite !top_pre by auto. exact Hb.
    - intros (k' & Hk' & Hi1 & Hi2 & Hb). right. exists k'. split; [exact Hk'|]. split; [apply inside_iff; auto|].
      rewrite Forall_forall in HXk. rewrite !top_pre in Hb by auto. exact Hb. }
  split; [|exact Hrange].
  intros k Kk H1 H2. destruct (Hrange k k Kk Kk H1 (or_introl eq_refl) H2) as (ans & Ea & Hans). exists ans. split.
  - rewrite (point_is_range false d k HV Kk ltac:(intros Hd; discriminate)). exact Ea.
  - rewrite Hans. split; intros (k' & Hk' & Hi1 & Hi2 & Hb); exists k'; (split; [exact Hk'|split; [exact Hi1|split; [exact Hi2|]]]); clear -Hb; lia.
Qed.
Theorem answers_explained m keys ks d a b : loadable m keys -> insertable c s m keys ks -> build c s m keys ks = Ok d -> neighbours d a b ->
  exists q : nat, 512 <= top q b - top q a + 1 <= 1024 /\
    let n := (q + Z.to_nat s - 1)%nat in
    (forall k, bytes k -> lt a k -> lt k b -> exists ans, point_query c d k = Ok ans /\
       (ans = true <-> exists k', in_blocks keys ks d k' /\ le a k' /\ lt k' b /\ top n k' = top n k)) /\
    (forall l r, bytes l -> bytes r -> lt a l -> le l r -> lt r b -> exists ans, range_query false c d l r = Ok ans /\
       (ans = true <-> exists k', in_blocks keys ks d k' /\ le a k' /\ lt k' b /\ top n l <= top n k' <= top n r)).
Proof.
  intros HL HI E Hn. destruct (built m keys ks HL HI) as (d0 & d' & X & _ & E' & HInv & _ & HX & _).
  rewrite E in E'. injection E' as <-.
  assert (HXk : Forall kok (rev ks ++ X)).
  { apply Forall_forall. intros k Hk. apply in_app_or in Hk as [Hk|Hk].
    - pose proof (in_bytes _ _ _ _ _ HI) as F. rewrite Forall_forall in F. apply F. apply in_rev. exact Hk.
    - pose proof (ld_bytes _ _ HL) as F. rewrite Forall_forall in F. apply F. apply HX. exact Hk. }
  assert (Hmem : forall k, In k (rev ks ++ X) <-> in_blocks keys ks d k).
  { intros k. rewrite in_app_iff, <- in_rev, HX. reflexivity. }
  destruct (inv_explained _ _ _ _ _ _ HInv HXk Hn) as (q & Hq & Hp & Hr). exists q. split; [exact Hq|]. intros n. split.
  - intros k Kk H1 H2. destruct (Hp k Kk H1 H2) as (ans & Ea & Hans). exists ans. split; [exact Ea|]. rewrite Hans. split; intros (k' & Hk' & Hi); exists k'; (split; [apply Hmem; exact Hk'|exact Hi]).
  - intros l r Kl Kr H1 H2 H3. destruct (Hr l r Kl Kr H1 H2 H3) as (ans & Ea & Hans). exists ans. split; [exact Ea|]. rewrite Hans. split; intros (k' & Hk' & Hi); exists k'; (split; [apply Hmem; exact Hk'|exact Hi]).
Qed.

(** *** order of insertion *)
Lemma exact_perm X Y pk st nk : Permutation X Y -> exact c s X pk st nk -> exact c s Y pk st nk.
Proof.
  intros HP (Hp & L & EL & HL). split; [exact Hp|]. exists L. split; [exact EL|]. etransitivity; [exact HL|]. apply Permutation_map.
  clear -HP. induction HP; cbn [filter]; try (destruct (inside pk nk x)); try (destruct (inside pk nk y)); try constructor; try assumption; try reflexivity.
  etransitivity; eassumption.
Qed.
Lemma same_answers X lo hi d1 d2 i l r : inv X lo hi d1 -> inv X lo hi d2 -> boundaries d1 = boundaries d2 -> Forall kok X ->
  kok l -> kok r -> int_ok i d1 l r -> key_lt r l = false -> range_query i c d1 l r = range_query i c d2 l r.
Proof.
  intros HI1 HI2 Hb HX Kl Kr Hi H2. pose proof (inv_valid _ _ _ _ HI1) as V1. pose proof (inv_valid _ _ _ _ HI2) as V2.
  assert (Hi2 : int_ok i d2 l r) by (intros E; destruct (Hi E) as (S1 & S2 & S3); unfold boundaries in Hb; rewrite <- Hb; auto).
  rewrite (range_query_any i d1), (range_query_any i d2) by assumption. clear Hi Hi2 i.
  pose proof (valid_sorted _ V1) as So1. pose proof (valid_sorted _ V2) as So2. unfold boundaries in Hb.
  destruct (placed _ l So1 (v_some _ V1)) as [a st B E H|st B E|A pk st nk st' B E G1 G2|H].
  - unfold range_query. rewrite E, seek_below by exact H. rewrite E in Hb. destruct (d_tree d2) as [|[a' w] B2]; [discriminate|]. cbn [map fst] in Hb. injection Hb as <- _.
    rewrite seek_below by exact H. cbn [peek snd bind skip1_rev]. reflexivity.
  - unfold range_query. rewrite E, seek_first. rewrite E in Hb. destruct (d_tree d2) as [|[a' w] B2]; [discriminate|]. cbn [map fst] in Hb. injection Hb as <- _.
    rewrite seek_first. cbn [peek snd bind]. rewrite key_le_iff, H2. reflexivity.
  - assert (Hn : nbr (map fst (d_tree d2)) pk nk) by (rewrite <- Hb; eapply tree_nbr; exact E). apply nbr_tree in Hn as (A2 & st2 & w2 & B2 & E2).
    destruct (range_query_spec c s Hs d1 A pk st nk st' B l r (v_size _ V1) E (v_gap _ V1) Kl Kr G1 G2 H2) as (b1 & Eb1 & Hb1).
    destruct (range_query_spec c s Hs d2 A2 pk st2 nk w2 B2 l r (v_size _ V2) E2 (v_gap _ V2) Kl Kr G1 G2 H2) as (b2 & Eb2 & Hb2).
    rewrite Eb1, Eb2. f_equal. apply eq_true_iff_eq. rewrite Hb1, Hb2. destruct (key_lt r nk) eqn:E3; [|tauto].
    destruct HI1 as (_ & _ & _ & _ & A1 & X1). destruct HI2 as (_ & _ & _ & _ & A1' & X2). rewrite adj_iff in A1, A1', X1, X2.
    rewrite (exact_rcov X pk st nk l r) by first [assumption|eapply X1; exact E|eapply A1; exact E].
    rewrite (exact_rcov X pk st2 nk l r) by first [assumption|eapply X2; exact E2|eapply A1'; exact E2]. reflexivity.
  - unfold range_query. rewrite seek_above by exact H. rewrite seek_above; [reflexivity|].
    intros x Hx. apply (in_map fst) in Hx. rewrite <- Hb in Hx. apply in_map_iff in Hx as (y & Ey & Hy). rewrite <- Ey. apply H. exact Hy.
Qed.
Theorem order_irrelevant m keys ks ks' d d' : loadable m keys -> insertable c s m keys ks -> Permutation ks ks' ->
  build c s m keys ks = Ok d -> build c s m keys ks' = Ok d' ->
  (forall k, bytes k -> point_query c d k = point_query c d' k) /\
  (forall i l r, bytes l -> bytes r -> le l r -> int_ok i d l r -> range_query i c d l r = range_query i c d' l r).
Proof.
  intros HL HI HP E E'.
  assert (HI' : insertable c s m keys ks').
  { destruct HI as [I1 I2 I3 I4]. constructor; try (eapply Permutation_Forall; eassumption).
    intros d0 a b E0 Hn. specialize (I4 d0 a b E0 Hn). rewrite count_inside in *.
    assert (Hl : length (filter (inside a b) ks') = length (filter (inside a b) ks)); [|rewrite Hl; exact I4].
    apply Permutation_length. clear -HP. symmetry in HP. induction HP; cbn [filter]; try (destruct (inside a b x)); try (destruct (inside a b y)); try constructor; try assumption; try reflexivity.
    etransitivity; eassumption. }
  destruct (loaded m keys HL) as (d0 & X & E0 & HInv & Hsm & HX & _).
  assert (Hone : forall js dj, insertable c s m keys js -> build c s m keys js = Ok dj -> inv (rev js ++ X) (low_end m keys) (high_end m keys) dj /\ boundaries dj = boundaries d0).
  { intros js dj [I1 I2 I3 I4] Ej. destruct (insert_all_inv _ _ X js d0 [] HInv I1) as (dj' & E1 & HI1 & Em & _).
    { eapply Forall_impl; [|exact I2]. intros k. apply le_iff. } { eapply Forall_impl; [|exact I3]. intros k. apply lt_iff. } { exact Hsm. }
    { intros a b Hn. rewrite <- count_inside. apply (I4 d0 a b E0). exact Hn. }
    unfold build in Ej. rewrite E0 in Ej. cbn [bind] in Ej. rewrite E1 in Ej. injection Ej as <-. split; [exact HI1|exact Em]. }
  destruct (Hone ks d HI E) as [V1 B1]. destruct (Hone ks' d' HI' E') as [V2 B2].
  assert (V2' : inv (rev ks ++ X) (low_end m keys) (high_end m keys) d').
  { destruct V2 as (U1 & U2 & U3 & U4 & U5 & U6). split; [exact U1|]. split; [exact U2|]. split; [exact U3|]. split; [exact U4|]. split; [exact U5|].
    eapply adj_mono; [|exact U6]. intros a st b. apply exact_perm. apply Permutation_app_tail. rewrite <- !Permutation_rev. symmetry. exact HP. }
  assert (HXk : Forall kok (rev ks ++ X)).
  { apply Forall_forall. intros k Hk. apply in_app_or in Hk as [Hk|Hk].
    - pose proof (in_bytes _ _ _ _ _ HI) as F. rewrite Forall_forall in F. apply F. apply in_rev. exact Hk.
    - pose proof (ld_bytes _ _ HL) as F. rewrite Forall_forall in F. apply F. apply HX. exact Hk. }
  assert (Hr : forall i l r, bytes l -> bytes r -> le l r -> int_ok i d l r -> range_query i c d l r = range_query i c d' l r).
  { intros i l r Kl Kr Hle Hi. apply le_iff in Hle. apply (same_answers _ _ _ d d' i l r V1 V2' ltac:(congruence) HXk Kl Kr Hi Hle). }
  split; [|exact Hr]. intros k Kk.
  rewrite (point_is_range false d k (inv_valid _ _ _ _ V1) Kk ltac:(intros Hd; discriminate)).
  rewrite (point_is_range false d' k (inv_valid _ _ _ _ V2) Kk ltac:(intros Hd; discriminate)).
  apply Hr; auto; [left; reflexivity|intros Hd; discriminate].
Qed.
End F.
