(** Proofs of the statements of Properties.v that need a bridge from the
    specification vocabulary to the lemmas. *)
From Coq Require Import ZArith List Bool Lia Sorting.Sorted Permutation.
From Coq Require Import ZifyBool ZifyNat.
From Verif Require Import Base Util Store Tables Key Diva Bits Shift View Cells Lowbit StoreFind StoreInsert StoreQuery
  Layout StoreList Spec StoreRep TablesProofs KeyBits KeyOrder Tree Filter RangeInt Contents Bulk SpecFilter SpecBlock Hist.
Import ListNotations.
Open Scope Z_scope.

Lemma machine_ok junk : tables_ok (machine junk).
Proof. apply tables_ok_lf95. Qed.
Lemma machine_fits junk s : 1 <= s -> fits (machine junk) s.
Proof. intros Hs. apply fits_relaxed; [reflexivity|exact Hs|]. intros g Hg. apply size_pos; [apply machine_ok|exact Hg]. Qed.

(** ** blocks *)
Lemma lowbit_land x : 0 < x < 2 ^ 64 -> lowbit x = Z.land x (- x).
Proof.
  intros Hx. unfold lowbit, u64, low. apply Z.bits_inj'. intros i Hi. rewrite !Z.land_spec, ones_testbit by lia.
  destruct (Z.ltb_spec i 64); [rewrite andb_true_r; reflexivity|]. rewrite (testbit_lt_pow x 64 i) by lia. reflexivity.
Qed.
Lemma start_lbase x : 0 < x < 2 ^ 64 -> start x = lbase x.
Proof. intros Hx. unfold start, lbase. rewrite lowbit_land by exact Hx. reflexivity. Qed.
Lemma element_pos s x : 1 <= s <= 53 -> element s x -> 0 < x < 2 ^ 63.
Proof.
  intros Hs [H1 H2]. assert (Hb : 1024 * 2 ^ s <= 2 ^ 63) by (change (2 ^ 63) with (1024 * 2 ^ 53); pose proof (pow2_le_mono s 53 ltac:(lia)); lia).
  assert (x <> 0). { intros ->. apply H2. rewrite Z.mod_0_l; [reflexivity|]. pose proof (Z.pow_pos_nonneg 2 s); lia. } lia.
Qed.
Lemma ordered_infs s L : 1 <= s <= 53 -> (Forall (element s) L /\ ordered L <-> infs s L).
Proof.
  intros Hs. unfold infs, ordered. split.
  - intros [H1 H2]. split; [|exact H1]. apply (ss_impl (fun x y => start x <= start y) _ (element s) L); [|exact H1|exact H2].
    intros a b Ha Hb H. apply element_pos in Ha, Hb; try exact Hs. rewrite !start_lbase in H by lia. exact H.
  - intros [H1 H2]. split; [exact H2|]. apply (ss_impl (fun x y => lbase x <= lbase y) _ (element s) L); [|exact H2|exact H1].
    intros a b Ha Hb H. apply element_pos in Ha, Hb; try exact Hs. rewrite !start_lbase by lia. exact H.
Qed.
Lemma covers_hit x y : 0 < x < 2 ^ 63 -> 0 <= y -> (covers x y <-> hit y y x).
Proof.
  intros Hx Hy. destruct (tz_decomp x ltac:(lia)) as (k & Hk & E). pose proof (lowbit_pow x ltac:(lia)) as EL.
  assert (Ht : 0 <= tzcnt x) by (apply tzcnt_range; lia). set (t := tzcnt x) in *.
  pose proof (Z.pow_pos_nonneg 2 t ltac:(lia) Ht) as Hp.
  assert (Hp1 : 2 ^ (t + 1) = 2 * 2 ^ t) by (rewrite Z.pow_add_r by lia; lia).
  assert (Hx1 : x mod 2 ^ (t + 1) = 2 ^ t).
  { rewrite Hp1. symmetry. apply (Z.mod_unique_pos x (2 * 2 ^ t) k (2 ^ t)); nia. }
  assert (Hx2 : x / 2 ^ (t + 1) = k).
  { rewrite Hp1. symmetry. apply (Z.div_unique_pos x (2 * 2 ^ t) k (2 ^ t)); nia. }
  unfold hit, lbase. rewrite EL. split.
  - intros (n & Hn & M & D). assert (n = t).
    { destruct (Z.lt_trichotomy n t) as [L|[L|L]]; [|exact L|]; exfalso.
      - assert (Ex : x mod 2 ^ (n + 1) = 0).
        { apply Z.mod_divide; [pose proof (Z.pow_pos_nonneg 2 (n + 1)); lia|]. exists (2 ^ (t - (n + 1)) * (2 * k + 1)).
          rewrite E. replace t with ((t - (n + 1)) + (n + 1)) at 1 by lia. rewrite Z.pow_add_r by lia. ring. }
        pose proof (Z.pow_pos_nonneg 2 n ltac:(lia) Hn). lia.
      - assert (Ex : (x mod 2 ^ (n + 1)) mod 2 ^ (t + 1) = 2 ^ t).
        { rewrite <- Znumtheory.Zmod_div_mod; [exact Hx1|pose proof (Z.pow_pos_nonneg 2 (t + 1)); lia|pose proof (Z.pow_pos_nonneg 2 (n + 1)); lia|].
          exists (2 ^ (n - t)). rewrite <- Z.pow_add_r by lia. f_equal. lia. }
        rewrite M in Ex. assert (E0 : 2 ^ n mod 2 ^ (t + 1) = 0).
        { apply Z.mod_divide; [pose proof (Z.pow_pos_nonneg 2 (t + 1)); lia|]. exists (2 ^ (n - (t + 1))). rewrite <- Z.pow_add_r by lia. f_equal. lia. }
        lia. }
    subst n. rewrite Hx2 in D. rewrite Hp1 in D. pose proof (Z.div_mod y (2 * 2 ^ t) ltac:(lia)) as Dy. pose proof (Z.mod_pos_bound y (2 * 2 ^ t) ltac:(lia)).
    rewrite <- D in Dy. nia.
  - intros [H1 H2]. exists t. split; [exact Ht|]. split; [exact Hx1|]. rewrite Hx2, Hp1.
    apply (Z.div_unique_pos y (2 * 2 ^ t) k (y - k * (2 * 2 ^ t))); nia.
Qed.

Section Block.
Context (c : cfg) (s : Z).
Hypothesis Hs : 1 <= s <= 53.
Hypothesis T : tables_ok c.
Hypothesis Hf : fits c s.

Lemma implicit_some ti : 512 <= ti <= 1024 -> exists sc, implicit_scalar c ti = Ok sc.
Proof.
  intros H. unfold implicit_scalar, target_size. change (1024 / 2) with 512. cbv zeta.
  replace ((0 <=? ti - 512) && (ti - 512 <=? 512)) with true by lia. eauto.
Qed.
Lemma insert_each_rep ti : forall keys st L, rep c s ti true st L -> Forall (fun k => 0 <= k < 1024 * 2 ^ s /\ Z.odd k = true) keys ->
  Z.of_nat (length L) + Z.of_nat (length keys) < 2 ^ 20 ->
  exists st' L', insert_each c s st keys ti = Ok st' /\ rep c s ti true st' L' /\ Permutation L' (L ++ keys) /\ flags st' = flags st.
Proof.
  induction keys as [|k keys IH]; intros st L HR Hk Hl.
  - exists st, L. rewrite app_nil_r. split; [reflexivity|]. auto.
  - inversion Hk as [|? ? [K1 K2] K3]; subst. cbn [length] in Hl.
    destruct (insert_raw_run c T s ti st L k Hf HR K1 K2 ltac:(lia)) as (st1 & L1 & E1 & R1 & (A & B & -> & -> & _) & F1).
    destruct (IH st1 _ R1 K3) as (st2 & L2 & E2 & R2 & P2 & F2). { rewrite app_length in *. cbn [length]. lia. }
    exists st2, L2. cbn [insert_each]. rewrite E1. cbn [bind]. split; [exact E2|]. split; [exact R2|]. split; [|congruence].
    rewrite P2. rewrite <- !app_assoc. apply Permutation_app_head. cbn [app]. apply Permutation_cons_app. reflexivity.
Qed.
Lemma block_rep ti L keys : 512 <= ti <= 1024 -> Forall (element s) L -> ordered L ->
  Forall (fun k => element s k /\ Z.odd k = true) keys -> Z.of_nat (length L + length keys) < 2 ^ 20 ->
  exists st L', block c s L keys ti = Ok st /\ rep c s ti true st L' /\ Permutation L' (L ++ keys).
Proof.
  intros Ht HL HO Hk Hn. destruct (implicit_some ti Ht) as (sc & Hi).
  assert (H : wp (alloc_with_list c s L ti) (fun st => rep c s ti true st L)).
  { apply (alloc_rep c T s L ti sc); [exact Hf|exact Hs|exact Hi|apply ordered_infs; auto|lia|auto]. }
  apply wp_exists in H as (st & E & HR).
  destruct (insert_each_rep ti keys st L HR) as (st' & L' & E' & R' & P' & _).
  { eapply Forall_impl; [|exact Hk]. intros k [[K1 _] K2]. auto. } { lia. }
  exists st', L'. unfold block. rewrite E. cbn [bind]. auto.
Qed.
Theorem block_contents ti L keys : 512 <= ti <= 1024 -> Forall (element s) L -> ordered L ->
  Forall (fun k => element s k /\ Z.odd k = true) keys -> Z.of_nat (length L + length keys) < 2 ^ 20 ->
  exists st L', block c s L keys ti = Ok st /\ get_infix_list c s st = Ok L' /\ Permutation L' (L ++ keys) /\ ordered L' /\
    get_elem_count st = Z.of_nat (length L') /\ Z.of_nat (length L') <= c_size c (get_size_grade st).
Proof.
  intros Ht HL HO Hk Hn. destruct (block_rep ti L keys Ht HL HO Hk Hn) as (st & L' & E & R & P).
  exists st, L'. split; [exact E|]. split; [apply (rep_list _ _ _ _ _ _ R)|]. split; [exact P|].
  pose proof (rep_infs _ _ _ _ _ _ R) as Hinf. apply ordered_infs in Hinf as [_ HO']; [|exact Hs]. split; [exact HO'|].
  destruct (rep_count _ T _ _ _ _ _ R) as (C1 & _ & _ & C4 & _). auto.
Qed.
Theorem block_answers ti L keys : 512 <= ti <= 1024 -> Forall (element s) L -> ordered L ->
  Forall (fun k => element s k /\ Z.odd k = true) keys -> Z.of_nat (length L + length keys) < 2 ^ 20 ->
  exists st, block c s L keys ti = Ok st /\
    (forall y, 0 <= y < 1024 * 2 ^ s -> exists b, point_query_store c s st y ti = Ok b /\ (b = true <-> exists x, In x (L ++ keys) /\ covers x y)) /\
    (forall y z, 0 <= y <= z -> z < 1024 * 2 ^ s -> exists b, range_query_store c s st y z = Ok b /\
       (b = true <-> exists x w, In x (L ++ keys) /\ y <= w <= z /\ covers x w)).
Proof.
  intros Ht HL HO Hk Hn. destruct (block_rep ti L keys Ht HL HO Hk Hn) as (st & L' & E & R & P).
  exists st. split; [exact E|]. pose proof (rep_infs _ _ _ _ _ _ R) as [_ Hinf]. rewrite Forall_forall in Hinf.
  assert (Hpos : forall x, In x (L ++ keys) -> 0 < x < 2 ^ 63).
  { intros x Hx. apply (element_pos s); [exact Hs|]. apply Hinf. eapply Permutation_in; [symmetry; exact P|exact Hx]. }
  assert (Hin : forall x, In x L' <-> In x (L ++ keys)).
  { intros x. split; apply Permutation_in; [exact P|symmetry; exact P]. }
  split.
  - intros y Hy. assert (H : wp (point_query_store c s st y ti) (fun b => b = true <-> exists x, In x L' /\ hit y y x)).
    { apply (rep_point c s ti true st L'); auto. }
    apply wp_exists in H as (b & Eb & Hb). exists b. split; [exact Eb|]. rewrite Hb. split; intros (x & Hx & Hh); exists x.
    + apply Hin in Hx. split; [exact Hx|]. apply covers_hit; auto. lia.
    + split; [apply Hin; exact Hx|]. apply covers_hit; auto. lia.
  - intros y z Hy Hz. assert (H : wp (range_query_store c s st y z) (fun b => b = true <-> exists x, In x L' /\ hit y z x)).
    { apply (rep_range c s ti true st L'); auto. }
    apply wp_exists in H as (b & Eb & Hb). exists b. split; [exact Eb|]. rewrite Hb. split.
    + intros (x & Hx & Hh). apply Hin in Hx. exists x, (Z.max y (lbase x)). split; [exact Hx|]. pose proof (Hpos x Hx).
      destruct (lowbit_facts x ltac:(lia)) as (F1 & F2 & _). unfold hit, lbase in *. split; [lia|]. apply covers_hit; [lia|lia|]. unfold hit, lbase. lia.
    + intros (x & w & Hx & Hw & Hc). exists x. split; [apply Hin; exact Hx|]. apply covers_hit in Hc; [|auto|lia]. unfold hit in *. lia.
Qed.
Theorem block_resized ti L keys st (grow : bool) : 512 <= ti <= 1024 -> Forall (element s) L -> ordered L ->
  Forall (fun k => element s k /\ Z.odd k = true) keys -> Z.of_nat (length L + length keys) < 2 ^ 20 ->
  block c s L keys ti = Ok st ->
  let g := get_size_grade st + (if grow then 1 else -1) in
  0 <= g < 256 -> get_elem_count st <= c_size c g ->
  exists st', resize c s st grow ti = Ok st' /\ get_size_grade st' = g /\ get_infix_list c s st' = get_infix_list c s st /\
    get_elem_count st' = get_elem_count st /\ is_partial_key st' = is_partial_key st /\ get_invalid_bits st' = get_invalid_bits st /\
    (forall y, 0 <= y < 1024 * 2 ^ s -> point_query_store c s st' y ti = point_query_store c s st y ti) /\
    (forall y z, 0 <= y <= z -> z < 1024 * 2 ^ s -> range_query_store c s st' y z = range_query_store c s st y z).
Proof.
  intros Ht HL HO Hk Hn E g Hg Hc. destruct (block_rep ti L keys Ht HL HO Hk Hn) as (st0 & L' & E0 & R & P). rewrite E in E0. injection E0 as <-.
  destruct (rep_count _ T _ _ _ _ _ R) as (C1 & _). 
  assert (H : wp (resize c s st grow ti) (fun st' => rep c s ti true st' L' /\ flags st' = flags st /\ get_size_grade st' = g)).
  { apply (resize_rep c T s ti st L' grow); auto. rewrite C1 in Hc. exact Hc. }
  apply wp_exists in H as (st' & E' & R' & F' & G'). exists st'. split; [exact E'|]. split; [exact G'|].
  rewrite (rep_list _ _ _ _ _ _ R), (rep_list _ _ _ _ _ _ R'). split; [reflexivity|]. destruct (rep_count _ T _ _ _ _ _ R') as (C1' & _). split; [congruence|].
  destruct (flags_part _ _ F') as [F1 F2]. split; [exact F1|]. split; [exact F2|].
  assert (Hbb : forall b b' (X : Prop), (b = true <-> X) -> (b' = true <-> X) -> b = b') by (intros b b' X H1 H2; apply eq_true_iff_eq; rewrite H1, H2; reflexivity).
  split.
  - intros y Hy. assert (H : forall st, rep c s ti true st L' -> exists b, point_query_store c s st y ti = Ok b /\ (b = true <-> exists x, In x L' /\ hit y y x)).
    { intros st1 R1. apply wp_exists. apply (rep_point c s ti true st1 L'); auto. }
    destruct (H _ R) as (b & -> & Hb). destruct (H _ R') as (b' & -> & Hb'). f_equal. eapply Hbb; eassumption.
  - intros y z Hy Hz. assert (H : forall st, rep c s ti true st L' -> exists b, range_query_store c s st y z = Ok b /\ (b = true <-> exists x, In x L' /\ hit y z x)).
    { intros st1 R1. apply wp_exists. apply (rep_range c s ti true st1 L'); auto. }
    destruct (H _ R) as (b & -> & Hb). destruct (H _ R') as (b' & -> & Hb'). f_equal. eapply Hbb; eassumption.
Qed.
End Block.

(** ** filters *)
Section Filters.
Context (junk s : Z).
Hypothesis Hs : 1 <= s <= 46.
Notation c := (machine junk).

Let T := machine_ok junk.
Let Hf : fits c s := machine_fits junk s ltac:(lia).

Lemma insertable_few m keys ks : Forall bytes ks -> Forall (le (low_end m keys)) ks -> Forall (fun k => lt k (high_end m keys)) ks ->
  Z.of_nat (length ks) < 2 ^ 20 - 1024 -> insertable c s m keys ks.
Proof.
  intros H1 H2 H3 H4. constructor; auto. intros d a b _ _. unfold count_between. pose proof (filter_len (fun k => negb (ltb k a) && ltb k b) ks). lia.
Qed.
Lemma suited_ok int_opt m keys ks d l r : loadable m keys -> insertable c s m keys ks -> build c s m keys ks = Ok d -> suited int_opt m l r -> int_ok int_opt d l r.
Proof.
  intros HL HI E HSu Ei. destruct (HSu Ei) as ((len & -> & Hlen) & Sl & Sr). split; [exact Sl|]. split; [exact Sr|].
  destruct (built c s Hs T Hf _ keys ks HL HI) as (d0 & d' & X & _ & E' & _ & _ & _ & HB & _). rewrite E in E'. injection E' as <-.
  apply Forall_forall. intros k Hk. unfold short. destruct (HB k Hk) as [H|[->| ->]].
  - destruct (ld_kind _ _ HL) as [HF _]. rewrite Forall_forall in HF. rewrite (HF k H). exact Hlen.
  - cbn [low_end]. rewrite repeat_length. exact Hlen.
  - cbn [high_end]. rewrite repeat_length. exact Hlen.
Qed.

Theorem never_miss_point m keys ks : loadable m keys -> insertable c s m keys ks ->
  exists d, build c s m keys ks = Ok d /\ forall k, In k keys \/ In k ks -> point_query c d k = Ok true.
Proof.
  intros HL HI. destruct (build_ok c s Hs T Hf m keys ks HL HI) as (d & E). exists d. split; [exact E|]. intros k Hk. eapply (point_found c s Hs T Hf); eassumption.
Qed.
Theorem never_miss_range m keys ks : loadable m keys -> insertable c s m keys ks ->
  exists d, build c s m keys ks = Ok d /\ forall int_opt l r k, In k keys \/ In k ks -> bytes l -> bytes r -> suited int_opt m l r ->
    le l k -> le k r -> range_query int_opt c d l r = Ok true.
Proof.
  intros HL HI. destruct (build_ok c s Hs T Hf m keys ks HL HI) as (d & E). exists d. split; [exact E|]. intros i l r k Hk Bl Br HSu L1 L2.
  apply (range_found c s Hs T Hf i m keys ks d k l r); auto. eapply suited_ok; eassumption.
Qed.
Lemma insertable_nil m keys : insertable c s m keys [].
Proof. apply insertable_few; constructor. Qed.
Theorem load_complete m keys : loadable m keys -> exists d, load c s m keys = Ok d /\
  (forall k, In k keys -> point_query c d k = Ok true) /\
  (forall int_opt l r k, In k keys -> bytes l -> bytes r -> suited int_opt m l r -> le l k -> le k r -> range_query int_opt c d l r = Ok true).
Proof.
  intros HL. pose proof (insertable_nil m keys) as HI. destruct (build_ok c s Hs T Hf m keys [] HL HI) as (d & E). exists d.
  split. { unfold build in E. destruct (load c s m keys); cbn [bind insert_all] in E; congruence. }
  split.
  - intros k Hk. eapply (point_found c s Hs T Hf); [exact HL|exact HI|exact E|auto].
  - intros i l r k Hk Bl Br HSu L1 L2. apply (range_found c s Hs T Hf i m keys [] d k l r); auto. eapply suited_ok; eassumption.
Qed.
Theorem one_key_range m keys ks d : loadable m keys -> insertable c s m keys ks -> build c s m keys ks = Ok d ->
  forall int_opt k, bytes k -> suited int_opt m k k -> point_query c d k = range_query int_opt c d k k.
Proof.
  intros HL HI E i k Bk HSu. apply (point_is_range c s Hs i d k); [exact (built_valid c s Hs T Hf _ _ _ _ HL HI E)|exact Bk|eapply suited_ok; eassumption].
Qed.
Theorem wider_range m keys ks d : loadable m keys -> insertable c s m keys ks -> build c s m keys ks = Ok d ->
  forall i1 i2 l r l' r', bytes l -> bytes r -> bytes l' -> bytes r' -> suited i1 m l r -> suited i2 m l' r' ->
  le l' l -> le l r -> le r r' -> range_query i1 c d l r = Ok true -> range_query i2 c d l' r' = Ok true.
Proof.
  intros HL HI E i1 i2 l r l' r' B1 B2 B3 B4 S1 S2 L1 L2 L3. apply le_iff in L1, L2, L3.
  apply (range_grows c s Hs i1 i2 d l r l' r'); auto; [exact (built_valid c s Hs T Hf _ _ _ _ HL HI E)|eapply suited_ok; eassumption|eapply suited_ok; eassumption].
Qed.
Theorem builds_agree m keys ks d : loadable m keys -> insertable c s m keys ks -> build c s m keys ks = Ok d ->
  forall l r, bytes l -> bytes r -> suited true m l r -> range_query true c d l r = range_query false c d l r.
Proof.
  intros HL HI E l r B1 B2 HSu. apply (range_query_any c s Hs true d l r); [exact (built_valid c s Hs T Hf _ _ _ _ HL HI E)|exact B1|exact B2|eapply suited_ok; eassumption].
Qed.
Theorem explained m keys ks d a b : loadable m keys -> insertable c s m keys ks -> build c s m keys ks = Ok d -> neighbours d a b ->
  exists q : nat, 512 <= top q b - top q a + 1 <= 1024 /\
    let n := (q + Z.to_nat s - 1)%nat in
    (forall k, bytes k -> lt a k -> lt k b -> exists ans, point_query c d k = Ok ans /\
       (ans = true <-> exists k', in_blocks keys ks d k' /\ le a k' /\ lt k' b /\ top n k' = top n k)) /\
    (forall l r, bytes l -> bytes r -> lt a l -> le l r -> lt r b -> exists ans, range_query false c d l r = Ok ans /\
       (ans = true <-> exists k', in_blocks keys ks d k' /\ le a k' /\ lt k' b /\ top n l <= top n k' <= top n r)).
Proof. exact (answers_explained c s Hs T Hf m keys ks d a b). Qed.
Theorem any_order m keys ks ks' d d' : loadable m keys -> insertable c s m keys ks -> Permutation ks ks' ->
  build c s m keys ks = Ok d -> build c s m keys ks' = Ok d' ->
  (forall k, bytes k -> point_query c d k = point_query c d' k) /\
  (forall i l r, bytes l -> bytes r -> le l r -> suited i m l r -> range_query i c d l r = range_query i c d' l r).
Proof.
  intros HL HI HP E E'. destruct (order_irrelevant c s Hs T Hf m keys ks ks' d d' HL HI HP E E') as [H1 H2]. split; [exact H1|].
  intros i l r B1 B2 L HSu. apply H2; auto. eapply suited_ok; eassumption.
Qed.
(** every query between the ends is answered *)
Theorem always_answers m keys ks d : loadable m keys -> insertable c s m keys ks -> build c s m keys ks = Ok d ->
  (forall k, bytes k -> le (low_end m keys) k -> le k (high_end m keys) -> exists b, point_query c d k = Ok b) /\
  (forall i l r, bytes l -> bytes r -> suited i m l r -> le (low_end m keys) l -> le l r -> le r (high_end m keys) -> exists b, range_query i c d l r = Ok b).
Proof.
  intros HL HI E. pose proof (built_valid c s Hs T Hf _ _ _ _ HL HI E) as HV.
  destruct (built c s Hs T Hf _ keys ks HL HI) as (d0 & d' & X & _ & E' & HInv & _ & _ & _ & _ & Hhi). rewrite E in E'. injection E' as <-.
  assert (Hr : forall l r, bytes l -> bytes r -> le (low_end m keys) l -> le l r -> le r (high_end m keys) -> exists b, range_query false c d l r = Ok b).
  { intros l r Bl Br L1 L2 L3. apply le_iff in L1, L2, L3. pose proof (valid_sorted _ _ _ HV) as Hso.
    destruct (placed _ l Hso (v_some _ _ _ HV)) as [a st B Et H|st B Et|A pk st nk st' B Et G1 G2|H].
    - exfalso. destruct HInv as (_ & _ & Hhd & _). rewrite Et in Hhd. cbn [hd_key] in Hhd. congruence.
    - unfold range_query. rewrite Et, seek_first. cbn [peek snd bind]. rewrite key_le_iff, L2. eexists; reflexivity.
    - destruct (range_query_spec c s Hs d A pk st nk st' B l r (v_size _ _ _ HV) Et (v_gap _ _ _ HV) Bl Br G1 G2 L2) as (b & Eb & _). eauto.
    - exfalso. unfold boundaries in Hhi. apply in_map_iff in Hhi as ((hk & hv) & Eh & Hin). cbn [fst] in Eh. subst hk.
      pose proof (H _ Hin) as Hlt. cbn [fst] in Hlt. 
      rewrite (lt_nlt_trans _ _ _ Hlt L2) in L3. discriminate. }
  split.
  - intros k Bk L1 L2. rewrite (one_key_range m keys ks d HL HI E false k Bk ltac:(intros Hd; discriminate)). apply Hr; auto. left. reflexivity.
  - intros i l r Bl Br HSu L1 L2 L3. rewrite (range_query_any c s Hs i d l r HV Bl Br) by (eapply suited_ok; eassumption). apply Hr; auto.
Qed.
End Filters.
