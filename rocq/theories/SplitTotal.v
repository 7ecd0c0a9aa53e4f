(** InsertSplit (diva.hpp:741-938) runs to completion: no undefined behaviour and
    no endless loop, for keys whose truncations stay away from the boundary below. *)
From Coq Require Import ZArith List Bool Lia Sorting.Sorted Permutation.
From Coq Require Import ZifyBool ZifyNat.
From Verif Require Import Base Util Store Tables Bits View Cells Lowbit StoreFind StoreInsert Key KeyBits KeyOrder Diva Tree StoreRep Spec SpecFilter SpecBlock Filter Contents Bulk Hist Claims SplitList SplitKeys Words Split SplitHist SpecSplit.
Import ListNotations.
Open Scope Z_scope.

(** ** shifts never fault on the machine *)
Section Relaxed.
Variable c : cfg.
Hypothesis Hc : c_strict c = false.
Lemma shr_total x n : exists y, shr64 c x n = Ok y.
Proof. unfold shr64. rewrite Hc. destruct (_ && _); eauto. Qed.
Lemma shl_total x n : exists y, shl64 c x n = Ok y.
Proof. unfold shl64. rewrite Hc. destruct (_ && _); eauto. Qed.
Lemma mask_total n : exists y, bitmask_rt c n = Ok y.
Proof. unfold bitmask_rt. destruct (_ =? _); [eauto|]. destruct (shl_total 1 n) as (y & ->). cbn [bind]. eauto. Qed.
Lemma bits_total k p w : exists y, bits_at c k p w = Ok y.
Proof. unfold bits_at. destruct (_ <=? _); [eauto|]. destruct (shr_total (word_at k (p / 8)) (64 - w - p mod 8)) as (y & ->). cbn [bind]. destruct (mask_total w) as (z & ->). cbn [bind]. eauto. Qed.
Lemma extract_total s k sh ig z m : exists y, extract c s k sh ig z m = Ok y.
Proof.
  unfold extract. cbv zeta. destruct (shr_total (word_at k ((sh + ig) / 8)) (63 - (z - 1) - s - (sh + ig) mod 8)) as (x & ->). cbn [bind].
  destruct (mask_total (z - 1 + s)) as (y & ->). cbn [bind]. destruct (shl_total m (z - 1 + s)) as (t & ->). cbn [bind]. eauto.
Qed.
Lemma extract_key_total s k sh ig z : exists y, extract_key c s k sh ig z = Ok y.
Proof. apply extract_total. Qed.

Lemma shared_swap fuel a b : shared_loop fuel a b = shared_loop fuel b a.
Proof.
  unfold shared_loop. generalize (0, 0). induction fuel as [|n IH]; intros [x y]; [reflexivity|]. cbn [loop]. cbv zeta.
  rewrite (Z.lxor_comm (word_at a (y * 8))). destruct (_ =? 64); [apply IH|reflexivity].
Qed.
(** the measures of two keys exist unless the keys are equal up to padding *)
Lemma sii_total a b : kok a -> kok b -> plt a b \/ plt b a -> exists x, shared_ignore_implicit c a b = Ok x.
Proof.
  intros Ka Kb [H|H]; [destruct (gap_run c a b Ka Kb H) as (x & y & z & E & _); eauto|].
  assert (HW : wp (shared_ignore_implicit c a b) (fun _ => True)); [|apply wp_exists in HW as (x & E & _); eauto].
  unfold shared_ignore_implicit, shared_ignore_implicit_fuel. apply wp_bind. rewrite shared_swap.
  replace (key_fuel a b) with (key_fuel b a) by (unfold key_fuel; lia). apply shared_loop_wp; auto. intros sh Hsh Hpre _ _.
  pose proof (diff_bound b a sh H Hpre Hsh) as Hlim.
  apply wp_bind. replace (key_fuel b a) with (key_fuel a b) by (unfold key_fuel; lia). apply ignore_loop_wp; auto; [lia|]. intros ig Hig _ _.
  destruct (bits_total a (sh + ig + 1) (base_implicit_size - 1)) as (x & ->). cbn [bind]. destruct (bits_total b (sh + ig + 1) (base_implicit_size - 1)) as (y & ->). exact I.
Qed.
End Relaxed.

(** ** one half of the elements *)
Section Half.
Variable c : cfg.
Variable s w o h : Z.
Hypothesis Hs : 1 <= s <= 46.
Hypothesis Hw : 0 <= w.
Hypothesis Hws : w + s + 10 <= 64.
Hypothesis Ho : 0 <= o <= h.
Hypothesis Hh : h * 2 ^ s + 2 ^ s <= 2 ^ 64.
Variable jb je : Z.
Hypothesis Hjb : jb / 2 ^ s = o.
Hypothesis Hje : je / 2 ^ s = h.
Notation image := (image s w o h).
Definition fine_elem (x : Z) : Prop := elem s x /\ x mod 2 ^ s <> 0 /\ meets jb je (x * 2 ^ w).

Lemma low_half x : elem s x -> x mod 2 ^ s <> 0 -> lowbit x <= 2 ^ (s - 1).
Proof.
  intros Hx Hm. destruct (elem_lt s w Hs Hw Hws x Hx) as [_ H2]. destruct (lowbit_form x ltac:(destruct Hx; lia)) as (t & k & Ht & Hk & _ & E1 & E2 & _).
  rewrite E1. apply pow2_le_mono. destruct (Z.lt_ge_cases t s) as [|Hge]; [lia|exfalso]. apply Hm. rewrite E2. replace t with (s + (t - s)) by lia.
  rewrite Z.pow_add_r, <- Z.mul_assoc, Z.mul_comm by lia. apply Z.mod_mul. pose proof (ps_pos s Hs). lia.
Qed.
Lemma cells x : fine_elem x -> x * 2 ^ w mod 2 ^ s = 0 -> let X := x * 2 ^ w in
  Z.max (lbase X / 2 ^ s) o <= Z.min (up X / 2 ^ s) h /\ up X / 2 ^ s - lbase X / 2 ^ s + 1 <= 2 ^ w /\ 0 <= lbase X / 2 ^ s.
Proof.
  intros (Hx & Hm & M1 & M2) He X. fold X in M1, M2. pose proof (ps_pos s Hs) as Hp. destruct (exp_form s w Hs Hw Hws x Hx He) as (F1 & F2 & F3 & F4 & F5 & F6 & F7). fold X in F1, F2, F3, F4, F5, F6, F7.
  pose proof (Z.div_le_mono _ _ (2 ^ s) Hp M1) as D1. pose proof (Z.div_le_mono _ _ (2 ^ s) Hp M2) as D2. rewrite Hje in D1. rewrite Hjb in D2.
  destruct (shifted s w Hs Hw Hws x Hx) as (S1 & S2 & S3 & S4). fold X in S1, S2, S3. pose proof (low_half x Hx Hm) as HL. pose proof (ps_half s Hs) as Eh. pose proof (p2pos w Hw) as Hpw.
  assert (Hl0 : 0 <= lbase X). { rewrite S2. destruct (elem_lt s w Hs Hw Hws x Hx) as [_ H2]. destruct (lbase_range x ltac:(destruct Hx; split; lia)). apply Z.mul_nonneg_nonneg; lia. }
  assert (D3 : lbase X / 2 ^ s <= up X / 2 ^ s) by (apply Z.div_le_mono; [exact Hp|]; unfold lbase, up; lia).
  split; [lia|]. split; [|apply Z.div_pos; lia].
  assert (Hq : (up X / 2 ^ s - lbase X / 2 ^ s + 1) * 2 ^ s <= 2 ^ w * 2 ^ s).
  { pose proof (Z.div_mod (lbase X) (2 ^ s) ltac:(lia)) as DL. rewrite F3 in DL.
    assert (lowbit X <= 2 ^ (s - 1) * 2 ^ w) by (rewrite S1; apply Z.mul_le_mono_nonneg_r; lia). assert (E2 : 2 ^ w * 2 ^ s = 2 * (2 ^ (s - 1) * 2 ^ w)) by (rewrite Eh; ring). rewrite E2. unfold up, lbase in *. lia. }
  apply (Zmult_le_reg_r _ _ (2 ^ s)); lia.
Qed.
Lemma image_len x : fine_elem x -> 1 <= Z.of_nat (length (image x)) <= 2 ^ w.
Proof.
  intros Hx. pose proof (p2pos w Hw) as Hpw. unfold SplitList.image. cbv zeta. destruct (Z.eqb_spec (x * 2 ^ w mod 2 ^ s) 0) as [E|E]; [|cbn [length]; lia].
  destruct (cells x Hx E) as (C1 & C2 & C3). rewrite map_length, seq_length. revert C1 C2 C3. generalize (lbase (x * 2 ^ w) / 2 ^ s) (up (x * 2 ^ w) / 2 ^ s). clear -Hpw. intros a b C1 C2 C3. lia.
Qed.
Lemma images_len l : Forall fine_elem l -> Z.of_nat (length l) <= Z.of_nat (length (flat_map image l)) <= Z.of_nat (length l) * 2 ^ w.
Proof.
  induction 1 as [|x l Hx Hl IH]; [cbn; lia|]. cbn [flat_map length]. rewrite app_length. pose proof (image_len x Hx). rewrite Nat2Z.inj_succ. lia.
Qed.
Lemma shift_total lo l : Forall (elem s) l -> exists r, shift_infixes c w lo l = Ok r /\ length r = length l.
Proof.
  induction 1 as [|x l Hx Hl (r & IH & El)]; [exists []; split; reflexivity|]. cbn [shift_infixes]. rewrite (shl_eq c s w Hs Hw Hws x Hx). cbn [bind]. rewrite IH. cbn [bind length]. eexists. split; [reflexivity|]. cbn. lia.
Qed.
Lemma expand_total lo hi l : Forall (elem s) l -> exists r, expand_infixes c s w lo hi l = Ok r.
Proof.
  induction 1 as [|x l Hx Hl (r & IH)]; [exists []; reflexivity|]. cbn [expand_infixes]. rewrite (shl_eq c s w Hs Hw Hws x Hx). cbn [bind]. rewrite IH. cbn [bind]. cbv zeta. destruct (_ =? 0); eauto.
Qed.
Lemma length_total hi l : Z.shiftr hi s = h -> Forall fine_elem l -> forall len b, 0 <= len -> len + Z.of_nat (length (flat_map image l)) < 2 ^ 32 ->
  exists b', expanded_length c s w (o * 2 ^ s) hi l len b = Ok (len + Z.of_nat (length (flat_map image l)) - Z.of_nat (length l), b').
Proof.
  intros Hhi. induction 1 as [|x l Hx Hl IH]; intros len b H0 Hlen.
  - cbn [expanded_length flat_map length]. exists b. do 2 f_equal. lia.
  - cbn [expanded_length]. cbn [flat_map] in *. rewrite app_length, Nat2Z.inj_add in *. cbn [length]. rewrite Nat2Z.inj_succ.
    pose proof (image_len x Hx) as Il. pose proof Hx as (He & Hm & Hmeets). pose proof (ps_pos s Hs) as Hp.
    assert (Ht : 0 <= lowbit_pos x < 64). { destruct (elem_lt s w Hs Hw Hws x He). destruct (lowbit_form x ltac:(destruct He; lia)) as (t & k & Ht & _ & Et & _). unfold lowbit_pos. lia. }
    rewrite u32_small by lia. pose proof (exp_iff s w Hs Hw Hws x He) as Hi. destruct (Z.leb_spec s (lowbit_pos x + w)) as [Hle|Hlt].
    + rewrite (shl_eq c s w Hs Hw Hws x He). cbn [bind]. cbv zeta. apply Hi in Hle. destruct (cells x Hx Hle) as (C1 & C2 & C3).
      destruct (exp_form s w Hs Hw Hws x He Hle) as (F1 & F2 & F3 & F4 & F5 & F6 & F7). set (X := x * 2 ^ w) in *. destruct (elem_lt s w Hs Hw Hws x He) as [HX _]. fold X in HX.
      assert (Hip : 0 < X / 2 ^ s < 2 ^ 64). { split; [lia|]. apply Z.div_lt_upper_bound; [lia|]. clear -HX Hp. set (q := 2 ^ 64) in *. set (r := 2 ^ s) in *. assert (1 * q <= r * q) by (apply Z.mul_le_mono_nonneg_r; lia). lia. }
      rewrite Hhi. rewrite !Z.shiftr_div_pow2 by lia. rewrite Z.div_mul by lia. rewrite lor_pred by assumption. fold (up (X / 2 ^ s)). fold (lbase (X / 2 ^ s)). rewrite F5.
      rewrite (u64_small (lbase (X / 2 ^ s))) by (destruct (lbase_range (X / 2 ^ s) Hip); lia). rewrite F4.
      assert (Ei : Z.of_nat (length (image x)) = Z.min (up X / 2 ^ s) h - Z.max (lbase X / 2 ^ s) o + 1).
      { unfold SplitList.image. cbv zeta. fold X. rewrite Hle. change (0 =? 0) with true. cbv iota. rewrite map_length, seq_length. revert C1. clear. intros. lia. }
      rewrite Ei in *. set (m := Z.min (up X / 2 ^ s) h - Z.max (lbase X / 2 ^ s) o) in *. change (2 ^ 32) with 4294967296 in *. change (2 ^ 64) with 18446744073709551616 in *.
      rewrite (u64_small m) by (clear -Il Hlen H0; change (2 ^ 64) with 18446744073709551616; lia). rewrite u32_small by (clear -Il Hlen H0; change (2 ^ 32) with 4294967296; lia).
      destruct (IH (len + m) true ltac:(lia) ltac:(lia)) as (b' & E). exists b'. rewrite E. do 2 f_equal. lia.
    + assert (Ei : length (image x) = 1%nat). { unfold SplitList.image. cbv zeta. destruct (Z.eqb_spec (x * 2 ^ w mod 2 ^ s) 0) as [E|E]; [apply Hi in E; lia|reflexivity]. }
      rewrite Ei in *. destruct (IH len b H0 ltac:(lia)) as (b' & E). exists b'. rewrite E. do 2 f_equal. lia.
Qed.
Theorem half_total hi l : Z.shiftr hi s = h -> Forall fine_elem l -> Z.of_nat (length l) * 2 ^ w < 2 ^ 20 ->
  exists r, split_half c s w (o * 2 ^ s) hi l = Ok r.
Proof.
  intros Hhi Hl Hn. unfold split_half. pose proof (images_len l Hl) as HI.
  assert (He : Forall (elem s) l) by (eapply Forall_impl; [|exact Hl]; intros x H; apply H).
  change (2 ^ 20) with 1048576 in *.
  destruct (length_total hi l Hhi Hl (Z.of_nat (length l)) false ltac:(lia) ltac:(change (2 ^ 32) with 4294967296; lia)) as (b & E). rewrite E. cbn [bind].
  pose proof (exp_flag c s w o h Hs Hw Hws Ho _ _ _ _ _ _ _ He E) as Eb. cbn [orb] in Eb.
  assert (Hlo : Forall (fun x => x * 2 ^ w mod 2 ^ s <> 0 -> o * 2 ^ s <= x * 2 ^ w) l).
  { eapply Forall_impl; [|exact Hl]. intros x (H1 & H2 & H3) H4. exact (half_lo s w o h Hs Hw Hws Ho jb je Hjb x H1 H3 H4). }
  assert (Hlen : exists r, update_infix_list c s w (o * 2 ^ s) hi l b = Ok r /\ length r = length (flat_map image l)).
  { unfold update_infix_list. destruct b.
    - destruct (expand_total (o * 2 ^ s) hi l He) as (r & Er). rewrite Er. cbn [bind]. pose proof (expand_eq c s w o h Hs Hw Hws Ho Hh hi l r Hhi He Hlo Er) as ->.
      eexists. split; [reflexivity|]. symmetry. apply Permutation_length, sort_perm.
    - destruct (shift_total (o * 2 ^ s) l He) as (r & Er & El). exists r. split; [exact Er|]. rewrite El. clear -Eb Hl.
      induction l as [|x l IH]; [reflexivity|]. cbn [existsb] in Eb. symmetry in Eb. apply orb_false_iff in Eb as [E1 E2]. inversion Hl; subst. cbn [flat_map length]. rewrite app_length, <- IH by (auto).
      unfold SplitList.image. cbv zeta. rewrite E1. reflexivity. }
  destruct Hlen as (r & Er & El). rewrite Er. cbn [bind]. rewrite El. destruct (Z.eqb_spec (Z.of_nat (length (flat_map image l))) (Z.of_nat (length l) + Z.of_nat (length (flat_map image l)) - Z.of_nat (length l))); [|lia].
  match goal with |- context [(?a <? ?b)] => destruct (Z.ltb_spec a b) end; [|lia]. cbn [andb]. eauto.
Qed.
End Half.

Section S.
Variable c : cfg.
Variable s : Z.
Hypothesis Hs : 1 <= s <= 46.
Hypothesis T : tables_ok c.
Hypothesis Hf : fits c s.
Hypothesis Hc : c_strict c = false.
Notation qof := (qof c).
Notation tot := (tot c).
Notation inf := (inf c s).

(** elements that start on the wrong side do not occur *)
Section Meets.
Variables pk nk k ek : key.
Variable zp : Z.
Variables A B : list Z.
Hypothesis Kpk : kok pk. Hypothesis Knk : kok nk. Hypothesis Ke : kok ek.
Hypothesis H1 : plt pk ek. Hypothesis H2 : plt ek nk.
Hypothesis Hk1 : ple pk k. Hypothesis Hk2 : ple k nk.
Hypothesis HL : infs s (A ++ B).
Hypothesis Hso : StronglySorted lex (A ++ B).
Hypothesis Hm : Forall (meets (inf pk nk pk) (inf pk nk nk)) (A ++ B).
Hypothesis Hmode : mode c s pk nk k A B zp ek.
Lemma left_meets : Forall (meets (inf pk nk pk) (inf pk nk ek)) A.
Proof.
  pose proof (infs_elem s Hs _ HL) as F. rewrite Forall_forall in *. intros x Hx. destruct (Hm x) as [M1 M2]; [apply in_or_app; auto|]. destruct (F x) as [F1 F2]; [apply in_or_app; auto|].
  split; [|exact M2]. pose proof (elem_up s Hs x F1) as Hu. pose proof (two_seg c s Hs pk nk k ek Kpk Knk H1 H2 Hk1 Hk2) as (_ & Hq & Hi & R). destruct (Z.eq_dec zp (-1)) as [Ez|Ez].
  - destruct Hmode as [(E & -> & C1 & C2)|(v & B' & EB & Ev & C1 & C2 & C3 & C4)].
    + rewrite Forall_forall in C1. specialize (C1 x Hx). lia.
    + exfalso. destruct (F v) as [V1 V2]; [rewrite EB; apply in_or_app; right; left; reflexivity|].
      pose proof (cut_zp c s Hs pk nk v zp V1 V2 Ev) as Hcz. lia.
  - destruct (two_cut c s Hs pk nk k ek zp A B Kpk Knk H1 H2 Hk1 Hk2 HL Hmode Ez) as (v & B' & EB & V1 & V2 & Ev & C1 & C2 & E2). rewrite E2.
    rewrite (cut_base c s Hs pk nk k v zp Hq V1 V2 C1 Ev). rewrite Forall_forall in C2. specialize (C2 x Hx). lia.
Qed.
Lemma right_meets : Forall (meets (inf pk nk ek) (inf pk nk nk)) B.
Proof.
  pose proof (infs_elem s Hs _ HL) as F. rewrite Forall_forall in *. intros x Hx. destruct (Hm x) as [M1 M2]; [apply in_or_app; auto|]. destruct (F x) as [F1 F2]; [apply in_or_app; auto|].
  split; [exact M1|]. pose proof (elem_up s Hs x F1) as Hu. pose proof (two_seg c s Hs pk nk k ek Kpk Knk H1 H2 Hk1 Hk2) as (_ & Hq & Hi & R). destruct (Z.eq_dec zp (-1)) as [Ez|Ez].
  - destruct Hmode as [(E & -> & C1 & C2)|(v & B' & EB & Ev & C1 & C2 & C3 & C4)].
    + rewrite Forall_forall in C2. specialize (C2 x Hx). lia.
    + exfalso. destruct (F v) as [V1 V2]; [rewrite EB; apply in_or_app; right; left; reflexivity|].
      pose proof (cut_zp c s Hs pk nk v zp V1 V2 Ev) as Hcz. lia.
  - destruct (two_cut c s Hs pk nk k ek zp A B Kpk Knk H1 H2 Hk1 Hk2 HL Hmode Ez) as (v & B' & EB & V1 & V2 & Ev & C1 & C2 & E2). rewrite E2.
    rewrite (cut_base c s Hs pk nk k v zp Hq V1 V2 C1 Ev).
    destruct (ss_app _ _ _ Hso) as (_ & S2 & _). rewrite EB in S2, Hx. inversion S2 as [|a l S3 S4]; subst. destruct Hx as [<-|Hx]; [exact Hu|].
    rewrite Forall_forall in S4. specialize (S4 x Hx). unfold lex in S4. lia.
Qed.
End Meets.

(** the images of one half fit when there are few of them *)
Section Sub.
Variables pk nk a e : key.
Hypothesis Kpk : kok pk. Hypothesis Knk : kok nk. Hypothesis Ka : kok a. Hypothesis Ke : kok e.
Hypothesis H0 : plt pk nk. Hypothesis H1 : ple pk a. Hypothesis H2 : plt a e. Hypothesis H3 : ple e nk.
Hypothesis Hroom : 512 <= dist (qof pk nk + 54 - s) a e.
Let w := qof a e - qof pk nk.
Let P := pre (qof pk nk) pk * 2 ^ w.
Lemma sub_total hi l : Z.shiftr hi s = pre (qof a e) e - P -> Forall (fun x => elem s x /\ x mod 2 ^ s <> 0) l -> Forall (meets (inf pk nk a) (inf pk nk e)) l ->
  Z.of_nat (length l) * 2 ^ w < 2 ^ 20 ->
  exists r, split_half c s w ((pre (qof a e) a - P) * 2 ^ s) hi l = Ok r.
Proof.
  intros Hhi Hl Hm Hn. destruct (sub_q c s Hs pk nk a e Kpk Knk Ka Ke H0 H1 H2 H3 Hroom) as (Q0 & W0 & W1 & E). fold w in W0, W1, E.
  destruct (sub_bounds c s Hs pk nk a e Kpk Knk Ka Ke H0 H1 H2 H3 Hroom) as (B1 & B2 & B3 & B4). fold w in B1, B2, B3. fold P in B1, B2, B3.
  pose proof (fine_div c s Hs pk nk a e Kpk Knk Ka Ke H0 H1 H2 H3 Hroom) as FD. fold w in FD. fold P in FD.
  pose proof (fine_inf0 c s Hs pk nk a e Kpk Knk Ka Ke H0 H1 H2 H3 Hroom) as FI. fold w in FI.
  apply (half_total c s w _ _ Hs W0 W1 B1 B2 (fine c s pk nk a e a) (fine c s pk nk a e e) (FD a) (FD e) hi l Hhi); [|exact Hn].
  rewrite Forall_forall in *. intros x Hx. destruct (Hl x Hx) as [X1 X2]. split; [exact X1|]. split; [exact X2|].
  destruct (Hm x Hx) as [M1 M2]. destruct (shifted s w Hs W0 W1 x X1) as (S1 & S2 & S3 & S4). unfold meets. rewrite S2, S3.
  pose proof (p2pos w W0) as Hp. pose proof (Z.div_mod (fine c s pk nk a e a) (2 ^ w) ltac:(lia)) as D. pose proof (Z.mod_pos_bound (fine c s pk nk a e a) (2 ^ w) Hp) as R. rewrite FI in D.
  pose proof (Z.div_mod (fine c s pk nk a e e) (2 ^ w) ltac:(lia)) as D'. pose proof (Z.mod_pos_bound (fine c s pk nk a e e) (2 ^ w) Hp) as R'. rewrite FI in D'.
  assert (lbase x * 2 ^ w <= inf pk nk e * 2 ^ w) by (apply Z.mul_le_mono_nonneg_r; lia). assert (inf pk nk a * 2 ^ w <= up x * 2 ^ w) by (apply Z.mul_le_mono_nonneg_r; lia). lia.
Qed.
End Sub.
Lemma alloc_total a b sh ig z l : seg c a b sh ig z -> infs s l -> Z.of_nat (length l) < 2 ^ 20 -> exists st2, alloc_with_list c s l (tot a b) = Ok st2.
Proof.
  intros HS Hl Hn. destruct (seg_tot _ _ _ _ _ _ HS) as [Htt _].
  assert (Hi : exists scalar, implicit_scalar c (tot a b) = Ok scalar).
  { unfold implicit_scalar. change (target_size / 2) with 512. destruct (Z.leb_spec 0 (tot a b - 512)); [|lia]. destruct (Z.leb_spec (tot a b - 512) 512); [|lia]. eexists. reflexivity. }
  destruct Hi as (scalar & Hi).
  assert (HW : wp (alloc_with_list c s l (tot a b)) (fun _ => True)) by (apply (alloc_rep c T s l (tot a b) scalar (fun _ => True) Hf ltac:(lia) Hi Hl Hn); auto).
  apply wp_exists in HW as (x & E & _). eauto.
Qed.

Section Ins.
Variables (len : Z) (d : diva) (A0 : tree) (pk : key) (st : store) (nk : key) (st' : store) (B0 : tree) (k : key).
Hypothesis Hds : d_size d = s.
Hypothesis Ht : d_tree d = A0 ++ (pk, st) :: (nk, st') :: B0.
Hypothesis Ha : adj (gapx c s len) (d_tree d).
Hypothesis Kk : kok k.
Hypothesis Hlen : klen k <= len.
Hypothesis Hk1 : key_lt k pk = false.
Hypothesis Hk2 : key_lt k nk = true.
Hypothesis HN : forall L, get_infix_list c s st = Ok L -> Z.of_nat (length L) + 1 < 2 ^ 20.
Hypothesis Hroom : roomy c s pk nk k.
(** the keys the split may choose *)
Definition cand (e : key) : Prop := e = k \/ exists zp, qof pk nk <= zp /\ e = edit_key k zp.
Hypothesis Hnk : klen nk <= klen k.
Hypothesis Hclear : ~ part st pk k -> forall e, cand e -> plt pk e \/ plt e pk.
Hypothesis Hfit : ~ part st pk k -> forall e, cand e -> plt pk e -> plt e nk ->
  get_elem_count st * 2 ^ (qof pk e - qof pk nk) < 2 ^ 20 /\ get_elem_count st * 2 ^ (qof e nk - qof pk nk) < 2 ^ 20.

Lemma simple_total : exists d', insert_simple c d k = Ok d'.
Proof.
  destruct (insert_simple_spec c s Hs T Hf d A0 pk st nk st' B0 k Hds Ht (adj_gapx c s _ _ Ha) Kk Hk1 Hk2 HN) as (st2 & E2 & _). eauto.
Qed.
Lemma simple_wp : wp (insert_simple c d k) (fun _ => True).
Proof. destruct simple_total as (d' & ->). exact I. Qed.
Theorem split_total : exists d', insert_split c d k = Ok d'.
Proof.
  cut (wp (insert_split c d k) (fun _ => True)); [intros W; apply wp_exists in W as (x & E & _); eauto|].
  destruct (at_gap c s len d A0 pk st nk st' B0 Ht Ha) as ((K1 & K2 & K3 & K4 & L & K5) & Hord & Hl).
  destruct (at_ord c s Hs len d A0 pk st nk st' B0 k Ht Ha Kk Hk1 Hk2 HN) as (sh & ig & z & HS & _ & _ & _ & P1 & P2 & Hq & Hi1 & Hi2).
  pose proof Ha as Ha'. rewrite Ht in Ha'. pose proof (gapok_sorted c s _ (adj_gapx c s _ _ Ha')) as Hso. pose proof (rep_list _ _ _ _ _ _ K5) as EL. destruct (Hord L EL) as [O1 O2].
  pose proof (rep_infs _ _ _ _ _ _ K5) as HinfL. pose proof HS as [HG Hrun Hqq]. destruct (rep_count _ T _ _ _ _ _ K5) as (Cn & _ & _ & _ & Hown & _).
  unfold insert_split. rewrite Hds. rewrite Ht at 1. rewrite locate_gap by assumption. cbn [bind].
  destruct (part_check s Hs st pk k K4 K1 Kk) as (p' & Ep' & Hp'). rewrite Ep'. cbn [bind].
  destruct p'; [apply simple_wp|]. assert (Hnp : ~ part st pk k) by (intros X; apply Hp' in X; discriminate). clear Hp' Ep'.
  rewrite Hrun. cbn [bind]. cbv zeta.
  destruct (extract_key_total c Hc s k sh ig z) as (ext & Eext). rewrite Eext. cbn [bind].
  destruct (extract_total c Hc s pk sh ig z 0) as (prv & Eprv). rewrite Eprv. cbn [bind].
  destruct (extract_total c Hc s nk sh ig z 1) as (nxt & Enxt). rewrite Enxt. cbn [bind].
  rewrite EL. cbn [bind]. rewrite Cn, Z.eqb_refl. cbn [negb].
  (* the separator *)
  assert (Esep : u64 (Z.lor ext 1 - Z.land prv (u64 (Z.shiftl (bitmask z) s))) = Z.lor (inf pk nk k) 1).
  { destruct (extract_key_seg c s Hs _ _ _ _ _ k HS K1 Kk P1 P2) as (e & Ee & _ & E2). rewrite Ee in Eext. inversion Eext; subst e. rewrite (extract_left HG) in Eprv by assumption. inversion Eprv as [Eprv'].
    pose proof (gp_is _ _ _ _ _ HG) as Hz. rewrite (land_top c s Hs pk st nk k Hk1 Hk2 HN); [|lia|lia|].
    - rewrite (gap_shift HG) by lia. unfold infix_of in E2. rewrite Hqq in E2. exact E2.
    - pose proof (gap_base HG pk) as Hb. assert (Hb1 : pre (sh + ig + 1) pk <= pre (sh + ig + 1) pk <= pre (sh + ig + 1) nk) by (pose proof (gp_one _ _ _ _ _ HG); lia). specialize (Hb Hb1).
      rewrite <- (gap_shift HG s pk) in Hb by lia. rewrite Z.shiftr_div_pow2 in Hb by lia. set (x := pre (qpos + s) pk - pre (sh + ig + 1) pk * 2 ^ (z - 1 + s)) in *.
      pose proof (ps_pos s Hs) as Hps. pose proof (Z.div_mod x (2 ^ s) ltac:(lia)) as D. pose proof (Z.mod_pos_bound x (2 ^ s) Hps) as R.
      replace (2 ^ (z + s)) with (2 * 2 ^ (z - 1) * 2 ^ s) by (rewrite <- Z.pow_succ_r, <- Z.pow_add_r by lia; f_equal; lia).
      assert (0 <= 2 ^ s * (x / 2 ^ s)) by (apply Z.mul_nonneg_nonneg; lia). assert ((x / 2 ^ s + 1) * 2 ^ s <= 2 * 2 ^ (z - 1) * 2 ^ s) by (apply Z.mul_le_mono_nonneg_r; lia). lia. }
  rewrite Esep. destruct (lor1_range (inf pk nk k) ltac:(lia)) as [R1 R2]. pose proof (lor1_pos (inf pk nk k) ltac:(lia)) as R0.
  assert (Hsep : 0 < Z.lor (inf pk nk k) 1 < 2 ^ 63) by lia.
  assert (HW : wp (sep_search L (Z.lor (inf pk nk k) 1)) (fun x => exists y, sep_scan s (sh + ig + z + s) L (Z.lor (inf pk nk k) 1) (fst x) (snd x) = Ok y)).
  { apply (sep_search_wp s Hs L O1 (infs_elem s Hs _ HinfL) _ Hsep R2). intros l L1 L2 L3. cbn [fst snd].
    assert (HW : wp (sep_scan s (sh + ig + z + s) L (Z.lor (inf pk nk k) 1) l (l + 1)) (fun _ => True)) by (apply (sep_scan_wp s Hs L O1 (infs_elem s Hs _ HinfL) _ Hsep R2 l L1 L2 L3); auto).
    apply wp_exists in HW as (y & Ey & _). eauto. }
  apply wp_exists in HW as ([sl_ sr_] & Esearch & [sp zp] & Escan). cbn [fst snd] in Escan. rewrite Esearch. cbn [bind]. rewrite Escan. cbn [bind].
  pose proof (scan_run s Hs L O1 (infs_elem s Hs _ HinfL) (Z.lor (inf pk nk k) 1) ltac:(lia) R2 _ _ _ _ _ Esearch Escan) as (LA & LB & ELAB & Esp & Hfound).
  rewrite <- Hqq in Hfound. rewrite <- Hqq. set (q0 := qof pk nk) in *. set (ek := edit_key k zp) in *.
  assert (Hmode : mode c s pk nk k LA LB zp ek).
  { destruct Hfound as [(F1 & F2 & F3)|(v & B' & F1 & F2 & F3 & F4 & F5)]; [left|right].
    - split; [exact F1|]. split; [|auto]. unfold ek, edit_key. rewrite F1. reflexivity.
    - exists v, B'. fold q0. auto 8. }
  assert (Hzp : zp = -1 \/ q0 <= zp < q0 + s).
  { destruct Hfound as [(F1 & _)|(v & B' & F1 & F2 & _)]; [left; exact F1|right]. pose proof (infs_elem s Hs _ HinfL) as F. rewrite Forall_forall in F.
    destruct (F v) as [V1 V2]; [rewrite ELAB, F1; apply in_or_app; right; left; reflexivity|]. apply (cut_zp c s Hs pk nk v zp V1 V2 F2). }
  assert (Hcand : cand ek). { destruct Hzp as [Ez|Ez]; [left; unfold ek, edit_key; rewrite Ez; reflexivity|right; exists zp; split; [fold q0; lia|reflexivity]]. }
  assert (Ke : kok ek). { destruct Hzp as [Ez|Ez]; [unfold ek, edit_key; rewrite Ez; exact Kk|apply edit_kok; [exact Kk|lia]]. }
  assert (Hek : ple ek k). { destruct Hzp as [Ez|Ez]; [unfold ek, edit_key; rewrite Ez; apply ple_refl|apply edit_ple; lia]. }
  assert (Hekl : klen ek <= klen k). { destruct Hzp as [Ez|Ez]; [unfold ek, edit_key; rewrite Ez; simpl; lia|apply edit_len; lia]. }
  assert (Heke : forall n, 0 <= n <= q0 -> pre n ek = pre n k). { intros n Hn. destruct Hzp as [Ez|Ez]; [unfold ek, edit_key; rewrite Ez; reflexivity|apply edit_pre_low; lia]. }
  set (swb := sh / 64 * 8) in *.
  assert (Hswb : 0 <= swb /\ 8 * swb <= sh). { pose proof (gp_sh _ _ _ _ _ HG). pose proof (Z.mul_div_le sh 64 ltac:(lia)). pose proof (Z.div_pos sh 64 ltac:(lia) ltac:(lia)). unfold swb. lia. }
  assert (Hshq : sh + 10 <= q0) by (pose proof (gp_ig _ _ _ _ _ HG); pose proof (gp_is _ _ _ _ _ HG); lia).
  assert (Hpe : pre (8 * swb) pk = pre (8 * swb) ek /\ pre (8 * swb) ek = pre (8 * swb) nk).
  { pose proof (gp_eq _ _ _ _ _ HG) as Eg. pose proof (pre_eq_mono (8 * swb) sh pk nk ltac:(lia) Eg) as Eg2. rewrite (Heke (8 * swb)) by lia. pose proof (P1 (8 * swb) ltac:(lia)). pose proof (P2 (8 * swb) ltac:(lia)). lia. }
  destruct Hpe as [Hpe1 Hpe2].
  assert (Hekn : ple ek nk) by (apply (ple_trans _ _ _ Hek P2)).
  assert (Pen' : plt ek nk).
  { exists (8 * klen nk). split; [unfold klen; lia|]. pose proof (key_lt_short k nk Kk K2 ltac:(unfold klen in Hnk; lia) Hk2) as Hsn. pose proof (Hek (8 * klen nk) ltac:(unfold klen; lia)). lia. }
  assert (Hfrom : forall a b, pre (8 * swb) a = pre (8 * swb) b -> plt a b -> plt (key_from a swb) (key_from b swb)).
  { intros a b E (n & Hn & Hlt). destruct (Z.le_gt_cases n (8 * swb)) as [Hle|Hgt].
    - exfalso. pose proof (pre_eq_mono n (8 * swb) a b ltac:(lia) E). lia.
    - exists (n - 8 * swb). split; [lia|]. replace n with (8 * swb + (n - 8 * swb)) in Hlt by lia. rewrite !pre_from in Hlt by lia. rewrite E in Hlt. lia. }
  assert (Ex : exists ext2, (if zp =? -1 then Ok ext else extract_key c s ek sh ig z) = Ok ext2). { destruct (zp =? -1); [eauto|apply extract_key_total; exact Hc]. }
  destruct Ex as (ext2 & Eext2). rewrite Eext2. cbn [bind].
  assert (Ex : exists x, shared_ignore_implicit c (key_from pk swb) (key_from ek swb) = Ok x).
  { apply (sii_total c Hc); [apply kok_from; exact K1|apply kok_from; exact Ke|]. destruct (Hclear Hnp ek Hcand) as [H|H]; [left; apply Hfrom; auto|right; apply Hfrom; auto]. }
  destruct Ex as ([[sh1 ig1] is1] & Es1). rewrite Es1. cbn [bind].
  destruct (extract_total c Hc s pk (sh1 + swb * 8) ig1 is1 0) as (x1 & Ex1). rewrite Ex1. cbn [bind].
  destruct (extract_total c Hc s ek (sh1 + swb * 8) ig1 is1 1) as (x2 & Ex2). rewrite Ex2. cbn [bind].
  destruct (bits_total c Hc pk q0 (sh1 + swb * 8 + ig1 + is1 - q0)) as (b1 & Eb1). rewrite Eb1. cbn [bind].
  destruct (bits_total c Hc ek q0 (sh1 + swb * 8 + ig1 + is1 - q0)) as (b2 & Eb2). rewrite Eb2. cbn [bind].
  destruct (shl_total c Hc (u64 (Z.shiftr ext2 s - Z.shiftr prv s)) (s + (sh1 + swb * 8 + ig1 + is1 - q0))) as (h1 & Eh1). rewrite Eh1. cbn [bind].
  assert (Ex : exists x, shared_ignore_implicit c (key_from ek swb) (key_from nk swb) = Ok x).
  { apply (sii_total c Hc); [apply kok_from; exact Ke|apply kok_from; exact K2|]. left. apply Hfrom; auto. }
  destruct Ex as ([[sh2 ig2] is2] & Es2). rewrite Es2. cbn [bind].
  destruct (extract_total c Hc s ek (sh2 + swb * 8) ig2 is2 0) as (x3 & Ex3). rewrite Ex3. cbn [bind].
  destruct (extract_total c Hc s nk (sh2 + swb * 8) ig2 is2 1) as (x4 & Ex4). rewrite Ex4. cbn [bind].
  destruct (bits_total c Hc ek q0 (sh2 + swb * 8 + ig2 + is2 - q0)) as (b3 & Eb3). rewrite Eb3. cbn [bind].
  destruct (shl_total c Hc (u64 (Z.shiftr ext2 s - Z.shiftr prv s)) (s + (sh2 + swb * 8 + ig2 + is2 - q0))) as (h3 & Eh3). rewrite Eh3. cbn [bind].
  destruct (bits_total c Hc nk q0 (sh2 + swb * 8 + ig2 + is2 - q0)) as (b4 & Eb4). rewrite Eb4. cbn [bind].
  destruct (shl_total c Hc (u64 (Z.shiftr nxt s - Z.shiftr prv s)) (s + (sh2 + swb * 8 + ig2 + is2 - q0))) as (h4 & Eh4). rewrite Eh4. cbn [bind].
  destruct (sub_seg c ek nk swb sh2 ig2 is2 ltac:(lia) Ke K2 Hekn Hpe2 Es2) as [Pen HS2].
  destruct (Z.leb_spec (u32 zp) (Z.max (sh1 + swb * 8) (sh2 + swb * 8))) as [Hsimple|Hsplit]; [apply simple_wp|].
  assert (Hpek : ple pk ek).
  { destruct Hzp as [Ez|Ez]; [unfold ek, edit_key; rewrite Ez; exact P1|].
    destruct (sii_first c _ _ _ _ _ (kok_from pk swb K1) (kok_from ek swb Ke) Es1) as (S1 & S2 & S3).
    destruct (key_lt ek pk) eqn:Elt; [exfalso|apply nlt_ple; assumption]. pose proof (key_lt_ple _ _ Ke K1 Elt) as Hle.
    assert (Ezp : pre zp pk = pre zp ek). { pose proof (Hle zp ltac:(lia)). pose proof (P1 zp ltac:(lia)) as Q1. assert (Q2 : pre zp ek = pre zp k) by (unfold ek; apply edit_pre_low; clear -Ez Hq; lia). lia. }
    rewrite !kbit_from in S3 by lia. assert (Hge : zp <= 8 * swb + sh1).
    { destruct (Z.le_gt_cases zp (8 * swb + sh1)) as [|Hlt]; [assumption|exfalso]. apply S3. apply (sl_inj pk ek 0 0 zp ltac:(lia) Ezp (8 * swb + sh1)). lia. }
    assert (u32 zp <= zp) by (rewrite u32_mod; apply Z.mod_le; lia). lia. }
  destruct (sub_seg c pk ek swb sh1 ig1 is1 ltac:(lia) K1 Ke Hpek Hpe1 Es1) as [Ppe HS1].
  assert (Hroom' : 512 <= dist (q0 + 54 - s) pk ek /\ 512 <= dist (q0 + 54 - s) ek nk).
  { apply Hroom; [|exact Ppe|exact Pen]. destruct Hzp as [Ez|Ez]; [left; unfold ek, edit_key; rewrite Ez; reflexivity|right; exists zp; split; [lia|reflexivity]]. }
  destruct Hroom' as [Hr1 Hr2].
  set (e1 := sh1 + swb * 8) in *. set (e2 := sh2 + swb * 8) in *.
  assert (Eq1 : e1 + ig1 + is1 = qof pk ek) by (symmetry; apply (sg_q _ _ _ _ _ _ HS1)). assert (Eq2 : e2 + ig2 + is2 = qof ek nk) by (symmetry; apply (sg_q _ _ _ _ _ _ HS2)).
  rewrite Eq1 in *. rewrite Eq2 in *.
  rewrite (seg_total c s Hs pk st nk k Hk1 Hk2 HN _ _ _ _ _ _ _ HS1 K1 Ke Ex1 Ex2). rewrite (seg_total c s Hs pk st nk k Hk1 Hk2 HN _ _ _ _ _ _ _ HS2 Ke K2 Ex3 Ex4).
  (* quotient parts *)
  assert (Hshift : forall x y, extract_key c s x sh ig z = Ok y -> kok x -> ple pk x -> ple x nk -> Z.shiftr y s - Z.shiftr prv s = pre q0 x - pre q0 pk).
  { intros x y E Kx X1 X2. unfold extract_key in E. pose proof (gp_ig _ _ _ _ _ HG). rewrite (extract_key_gap HG) in E by first [assumption|pose proof (gp_sh _ _ _ _ _ HG); split; [apply X1|apply X2]; lia].
    rewrite (extract_left HG) in Eprv by assumption. inversion E. inversion Eprv. rewrite !(gap_shift HG) by lia. rewrite Hqq. unfold qpos. lia. }
  assert (Hd1 : Z.shiftr ext2 s - Z.shiftr prv s = pre q0 ek - pre q0 pk).
  { destruct (Z.eqb_spec zp (-1)) as [Ez|Ez].
    - inversion Eext2; subst ext2. unfold ek, edit_key. rewrite Ez. apply (Hshift k ext Eext Kk P1 P2).
    - apply (Hshift ek ext2 Eext2 Ke Hpek Hekn). }
  assert (Hd2 : Z.shiftr nxt s - Z.shiftr prv s = pre q0 nk - pre q0 pk).
  { rewrite (extract_left HG) in Eprv by assumption. rewrite (extract_right HG) in Enxt by assumption. inversion Enxt. inversion Eprv. rewrite !(gap_shift HG) by lia. rewrite Hqq. unfold qpos. lia. }
  rewrite Hd1 in *. rewrite Hd2 in *.
  set (w1 := qof pk ek - q0) in *. set (w2 := qof ek nk - q0) in *.
  pose proof (edge_left c s Hs pk nk pk ek K1 K2 K1 Ke K3 (ple_refl _) Ppe Hekn Hr1 b1 eq_refl Eb1) as Edge1.
  pose proof (edge c s Hs pk nk pk ek K1 K2 K1 Ke K3 (ple_refl _) Ppe Hekn Hr1 ek b2 h1 Ke Hpek Hekn Eb2 Eh1) as Edge2.
  pose proof (edge c s Hs pk nk ek nk K1 K2 Ke K2 K3 Hpek Pen (ple_refl _) Hr2 ek b3 h3 Ke Hpek Hekn Eb3 Eh3) as Edge3.
  pose proof (edge c s Hs pk nk ek nk K1 K2 Ke K2 K3 Hpek Pen (ple_refl _) Hr2 nk b4 h4 K2 (plt_ple _ _ K3) (ple_refl _) Eb4 Eh4) as Edge4.
  rewrite Edge1, Edge2, Edge3, Edge4. clear Edge1 Edge2 Edge3 Edge4 Hshift.
  fold q0. fold w1. fold w2.
  assert (EsLA : firstn (Z.to_nat sp) L = LA /\ skipn (Z.to_nat sp) L = LB).
  { rewrite Esp, Nat2Z.id, ELAB. rewrite firstn_app, firstn_all, Nat.sub_diag, app_nil_r, skipn_app, skipn_all, Nat.sub_diag. split; reflexivity. }
  destruct EsLA as [EsA EsB]. rewrite EsA, EsB. clear EsA EsB.
  assert (Hshr : forall x, Z.shiftr (x * 2 ^ s) s = x). { intros x. rewrite Z.shiftr_div_pow2 by lia. apply Z.div_mul. pose proof (ps_pos s Hs). lia. }
  rewrite ELAB in HinfL, O1, O2, Cn. rewrite app_length in Cn.
  pose proof (infs_elem s Hs _ HinfL) as HE. apply Forall_app in HE as [HE1 HE2].
  pose proof (left_meets pk nk k ek zp LA LB K1 K2 Ke Ppe Pen P1 P2 HinfL O2 Hmode) as HM1.
  pose proof (right_meets pk nk k ek zp LA LB K1 K2 Ke Ppe Pen P1 P2 HinfL O1 O2 Hmode) as HM2.
  destruct (Hfit Hnp ek Hcand Ppe Pen) as [F1 F2]. fold q0 in F1, F2. fold w1 in F1. fold w2 in F2.
  destruct (sub_q c s Hs pk nk pk ek K1 K2 K1 Ke K3 (ple_refl _) Ppe Hekn Hr1) as (_ & W1 & _). fold q0 in W1. fold w1 in W1.
  destruct (sub_q c s Hs pk nk ek nk K1 K2 Ke K2 K3 Hpek Pen (ple_refl _) Hr2) as (_ & W2 & _). fold q0 in W2. fold w2 in W2.
  pose proof (p2pos w1 W1) as PW1. pose proof (p2pos w2 W2) as PW2.
  assert (N1 : Z.of_nat (length LA) * 2 ^ w1 < 2 ^ 20) by (apply Z.le_lt_trans with (get_elem_count st * 2 ^ w1); [apply Z.mul_le_mono_nonneg_r; lia|exact F1]).
  assert (N2 : Z.of_nat (length LB) * 2 ^ w2 < 2 ^ 20) by (apply Z.le_lt_trans with (get_elem_count st * 2 ^ w2); [apply Z.mul_le_mono_nonneg_r; lia|exact F2]).
  destruct (sub_total pk nk pk ek K1 K2 K1 Ke K3 (ple_refl _) Ppe Hekn Hr1 _ LA (Hshr _) HE1 HM1 N1) as (left & Eleft).
  destruct (sub_total pk nk ek nk K1 K2 Ke K2 K3 Hpek Pen (ple_refl _) Hr2 _ LB (Hshr _) HE2 HM2 N2) as (right & Eright).
  fold q0 in Eleft, Eright. fold w1 in Eleft. fold w2 in Eright. rewrite Eleft. cbn [bind]. rewrite Eright. cbn [bind].
  pose proof (two_left c s Hs pk nk k ek zp _ _ LA LB left right K1 K2 Ke Ppe Pen P1 P2 Hr1 Hr2 HinfL O1 O2 Hmode (Hshr _) (Hshr _) Eleft Eright) as (TL1 & TL2 & TL3 & TL4 & TL5).
  pose proof (two_right c s Hs pk nk k ek zp _ _ LA LB left right K1 K2 Ke Ppe Pen P1 P2 Hr1 Hr2 HinfL O1 O2 Hmode (Hshr _) (Hshr _) Eleft Eright) as (TR1 & TR2 & TR3 & TR4 & TR5 & TR6).
  destruct (alloc_total _ _ _ _ _ _ HS1 TL2 TL1) as (slt & Eslt). rewrite Eslt. cbn [bind].
  unfold free_block. rewrite Hown.
  destruct (Z.eqb_spec zp (-1)) as [Ez|Ez].
  - cbn [bind]. destruct (alloc_total _ _ _ _ _ _ HS2 TR2 TR1) as (sgt & Esgt). rewrite Esgt. exact I.
  - destruct Hzp as [|Hzp]; [contradiction|]. destruct (TR6 Ez) as (y0 & t0 & -> & Hy0). cbn [bind].
    assert (Ht0 : infs s t0). { destruct TR2 as [I1 I2]. inversion I1; inversion I2; subst. split; assumption. }
    cbn [length] in TR1. assert (Hlt0 : Z.of_nat (length t0) + 1 < 2 ^ 20) by lia.
    destruct (alloc_total _ _ _ _ _ _ HS2 Ht0 ltac:(lia)) as (sgt & Esgt). rewrite Esgt. cbn [bind].
    destruct (alloc_ok c s Hs T Hf pk st nk k Hk1 Hk2 HN _ _ _ _ _ _ _ HS2 Ht0 ltac:(lia) Esgt) as [RR FR].
    destruct (extract_total c Hc s k e2 ig2 is2 0) as (ke & Eke). rewrite Eke. cbn [bind].
    pose proof (ps_pos s Hs) as Hps. assert (Hph : 2 ^ s <= 2 ^ 46) by (apply pow2_le_mono; lia).
    set (i := Z.land ke (bitmask s)) in *. assert (Ri : 0 <= i < 2 ^ s). { unfold i, bitmask. rewrite Z.land_ones by lia. apply Z.mod_pos_bound. exact Hps. }
    destruct (lor1_range i ltac:(lia)) as [Li1 Li2]. pose proof (lor1_pos i ltac:(lia)) as Li0.
    destruct (insert_raw_run c T s (tot ek nk) sgt t0 (Z.lor i 1) Hf RR ltac:(lia) Li2 Hlt0) as (st2' & t1 & Er2 & _). rewrite Er2. exact I.
Qed.
End Ins.
End S.

(** * the same, for the filters that insertions build *)
Section G.
Context (c : cfg) (s : Z).
Hypothesis Hs : 1 <= s <= 46.
Hypothesis T : tables_ok c.
Hypothesis Hf : fits c s.
Hypothesis Hc : c_strict c = false.
Notation qof := (qof c).
Notation tot := (tot c).

Lemma near a e R : kok a -> kok e -> plt a e -> qof a e <= R -> dist R a e < 1024 * 2 ^ (R - qof a e).
Proof.
  intros H1 H2 H3 HR. destruct (seg_ex c a e H1 H2 H3) as (sh & ig & z & HS). destruct (seg_tot _ _ _ _ _ _ HS) as [Ht Hq].
  set (q := qof a e) in *. unfold Filter.tot in Ht. fold q in Ht. unfold dist. replace R with (q + (R - q)) at 1 2 by lia. rewrite !pre_split by lia.
  pose proof (sl_range e q (R - q) ltac:(lia)) as R1. pose proof (sl_range a q (R - q) ltac:(lia)) as R2.
  set (P := 2 ^ (R - q)) in *. assert (HP : (pre q e - pre q a) * P <= 1023 * P) by (apply Z.mul_le_mono_nonneg_r; lia). lia.
Qed.
(** a part that is not too narrow holds all the images *)
Lemma fit_ratio pk nk a e R n : kok pk -> kok nk -> plt pk nk -> kok a -> kok e -> plt a e -> qof pk nk <= R -> qof a e <= R -> 0 <= n ->
  3 * n * dist R pk nk <= 2 ^ 20 * dist R a e -> n * 2 ^ (qof a e - qof pk nk) < 2 ^ 20.
Proof.
  intros H1 H2 H3 H4 H5 H6 R1 R2 Hn HD. destruct (Z.le_gt_cases (qof pk nk) (qof a e)) as [Hq|Hq]; [|rewrite Z.pow_neg_r by lia; lia].
  pose proof (wide c pk nk R H1 H2 H3 R1) as W. pose proof (near a e R H4 H5 H6 R2) as N.
  set (q0 := qof pk nk) in *. set (q1 := qof a e) in *. replace (R - q0) with ((q1 - q0) + (R - q1)) in W by lia. rewrite Z.pow_add_r in W by lia.
  pose proof (p2pos (R - q1) ltac:(lia)) as P1. pose proof (p2pos (q1 - q0) ltac:(lia)) as P2.
  set (P := 2 ^ (R - q1)) in *. set (Q := 2 ^ (q1 - q0)) in *. set (D := dist R pk nk) in *. set (D' := dist R a e) in *. clearbody P Q D D'. clear - W N HD P1 P2 Hn.
  destruct (Z.eq_dec n 0) as [->|Hn0]; [lia|].
  apply Z.nle_gt. intros Hbig.
  assert (X1 : 3 * n * (510 * (Q * P)) <= 3 * n * D) by (apply Z.mul_le_mono_nonneg_l; lia).
  assert (X2 : 2 ^ 20 * P <= n * Q * P) by (apply Z.mul_le_mono_nonneg_r; lia).
  replace (3 * n * (510 * (Q * P))) with (1530 * (n * Q * P)) in X1 by ring. set (Y := n * Q * P) in *. clearbody Y. lia.
Qed.

Section One.
Variables (len : nat) (d : diva) (A : tree) (pk : key) (st : store) (nk : key) (st' : store) (B : tree) (k : key).
Hypothesis HA : splittable len d k.
Hypothesis E : d_tree d = A ++ (pk, st) :: (nk, st') :: B.
Hypothesis K1 : kok pk. Hypothesis K2 : kok nk. Hypothesis K3 : kok k.
Hypothesis Hp : plt pk nk. Hypothesis G1 : key_lt k pk = false. Hypothesis G2 : key_lt k nk = true.
Hypothesis L1 : klen pk <= Z.of_nat len. Hypothesis L2 : klen nk <= Z.of_nat len. Hypothesis L3 : klen k <= Z.of_nat len.
Hypothesis Hcnt : 0 <= get_elem_count st.
Hypothesis Hpo : part_ok st pk.
Hypothesis Hnp : ~ part st pk k.
Let M := 8 * Z.of_nat len.
Lemma cand_top e : cand c pk nk k e -> kok e /\ klen e <= Z.of_nat len /\ pre M e <> pre M pk /\
  (pre M pk < pre M e -> 3 * get_elem_count st * (pre M nk - pre M pk) <= 2 ^ 20 * (pre M e - pre M pk) /\ 3 * get_elem_count st * (pre M nk - pre M pk) <= 2 ^ 20 * (pre M nk - pre M e)).
Proof.
  intros He. assert (EM : Z.of_nat (8 * len) = M) by (unfold M; lia). assert (HM : 0 <= M) by (unfold M; lia).
  destruct (seg_ex c pk nk K1 K2 Hp) as (sh & ig & z & HS). destruct (seg_tot _ _ _ _ _ _ HS) as [_ Hq].
  assert (La : le pk k) by (apply le_iff; exact G1). assert (Lb : lt k nk) by (apply lt_iff; exact G2).
  assert (Hx : exists n, 0 <= n /\ (n = 0 \/ 510 * 2 ^ n < pre M nk - pre M pk) /\ pre M e = pre M k / 2 ^ n * 2 ^ n /\ klen e <= Z.of_nat len /\ kok e).
  { destruct He as [->|(zp & Hz & ->)].
    - exists 0. split; [lia|]. rewrite Z.pow_0_r, Z.div_1_r. split; [lia|]. split; [lia|]. split; assumption.
    - pose proof (edit_len k zp ltac:(lia)) as Hl. assert (Ke : kok (edit_key k zp)) by (apply edit_kok; [assumption|lia]). destruct (Z.le_gt_cases zp M) as [Hle|Hgt].
      + exists (M - zp). split; [lia|]. split.
        * right. pose proof (wide c pk nk M K1 K2 Hp ltac:(lia)) as W. unfold dist in W. assert (2 ^ (M - zp) <= 2 ^ (M - qof pk nk)) by (apply pow2_le_mono; lia). lia.
        * rewrite (edit_pre_high k zp) by (assumption || lia). split; [|split; [lia|exact Ke]]. f_equal.
          replace (pre M k) with (pre (zp + (M - zp)) k) by (f_equal; lia). rewrite pre_split by lia. pose proof (sl_range k zp (M - zp) ltac:(lia)).
          rewrite Z.div_add_l by lia. rewrite Z.div_small by lia. lia.
      + exists 0. split; [lia|]. rewrite Z.pow_0_r, Z.div_1_r. rewrite (edit_pre_low k zp) by (assumption || lia). split; [lia|]. split; [lia|]. split; [lia|exact Ke]. }
  destruct Hx as (n & Hn & Hw & Ex & Le & Ke). split; [exact Ke|]. split; [exact Le|].
  destruct (HA A pk st nk st' B E La Lb) as [(F1 & F2 & F3)|HA'].
  - exfalso. apply Hnp. split; [exact F1|]. split; [unfold klen; lia|]. cbv zeta in F3. rewrite !top_pre in F3 by assumption. pose proof (invalid_range st) as HI.
    assert (Hne : (0 < length pk)%nat) by (pose proof (Hpo F1); destruct pk; [congruence|simpl; lia]).
    replace (Z.of_nat (8 * length pk - Z.to_nat (get_invalid_bits st))) with (8 * klen pk - get_invalid_bits st) in F3 by (unfold klen; lia). exact F3.
  - specialize (HA' n Hn). cbv zeta in HA'. rewrite !top_pre in HA' by assumption. rewrite EM, <- Ex in HA'. exact (HA' Hw).
Qed.
Lemma plt_top a e : kok a -> kok e -> klen a <= Z.of_nat len -> klen e <= Z.of_nat len -> plt a e -> pre M a < pre M e.
Proof.
  intros Ka Ke La Le (m & Hm & Hlt). destruct (Z.le_gt_cases m M) as [H|H]; [apply (pre_lt_mono m M); [lia|exact Hlt]|].
  replace m with (M + (m - M)) in Hlt by lia. rewrite !pre_beyond in Hlt by (unfold M; lia). pose proof (p2pos (m - M) ltac:(lia)). apply Z.mul_lt_mono_pos_r in Hlt; assumption.
Qed.
Lemma can_clear e : cand c pk nk k e -> plt pk e \/ plt e pk.
Proof.
  intros He. destruct (cand_top e He) as (_ & _ & Hne & _). destruct (Z.lt_trichotomy (pre M e) (pre M pk)) as [H|[H|H]]; [right|contradiction|left]; exists M; (split; [unfold M; lia|exact H]).
Qed.
Lemma can_fit e : cand c pk nk k e -> plt pk e -> plt e nk ->
  get_elem_count st * 2 ^ (qof pk e - qof pk nk) < 2 ^ 20 /\ get_elem_count st * 2 ^ (qof e nk - qof pk nk) < 2 ^ 20.
Proof.
  intros He P1 P2. destruct (cand_top e He) as (Ke & Le & _ & H). specialize (H (plt_top pk e K1 Ke L1 Le P1)). destruct H as [H1 H2].
  set (R := Z.max M (Z.max (qof pk nk) (Z.max (qof pk e) (qof e nk)))).
  assert (HR : forall x, klen x <= Z.of_nat len -> pre R x = pre M x * 2 ^ (R - M)).
  { intros x Hx. replace R with (M + (R - M)) at 1 by lia. apply pre_beyond; unfold M, R in *; lia. }
  pose proof (p2pos (R - M) ltac:(lia)) as PR.
  assert (HD : forall x y n, klen x <= Z.of_nat len -> klen y <= Z.of_nat len -> 3 * n * (pre M nk - pre M pk) <= 2 ^ 20 * (pre M y - pre M x) -> 3 * n * dist R pk nk <= 2 ^ 20 * dist R x y).
  { intros x y n Lx Ly H. unfold dist. rewrite !HR by assumption. rewrite <- !Z.mul_sub_distr_r.
    rewrite !Z.mul_assoc. apply Z.mul_le_mono_nonneg_r; [lia|exact H]. }
  split; (apply (fit_ratio pk nk _ _ R); [assumption..|lia|lia|exact Hcnt|apply HD; assumption]).
Qed.
End One.

Lemma step_total len lo hi d k split : stem c s (Z.of_nat len) lo hi d -> kok k -> length k = len -> key_lt k lo = false -> key_lt k hi = true ->
  counters_free d -> (split = true -> apart s len d k /\ splittable len d k) -> exists d', insert c d k split = Ok d'.
Proof.
  intros HS Kk Hl Hlo Hhi HC HA. pose proof (stem_valid _ _ _ _ _ _ HS) as HV. pose proof (stem_keys _ _ _ _ _ _ HS) as HK. pose proof HS as (S1 & S2 & S3 & S4 & S5 & S6).
  rewrite <- S3 in Hlo. rewrite <- S4 in Hhi. destruct (find_gap (d_tree d) k (valid_sorted _ _ _ HV) S2 Hlo Hhi) as (A & pk & st & nk & st' & B & Et & G1 & G2).
  assert (Hkl : klen k <= Z.of_nat len) by (unfold klen; lia).
  pose proof S6 as Sg. rewrite Et in Sg. apply adj_app in Sg as [_ Sg]. rewrite adj_cons in Sg. destruct Sg as [((K1 & K2 & K3 & K4 & L0 & HR) & Ho & Lp) Sg].
  destruct (rep_count _ T _ _ _ _ _ HR) as (C1 & _).
  assert (HN : forall L, get_infix_list c s st = Ok L -> Z.of_nat (length L) + 1 < 2 ^ 20).
  { intros L EL. rewrite (rep_list _ _ _ _ _ _ HR) in EL. injection EL as <-.
    unfold counters_free in HC. rewrite Et in HC. apply Forall_app in HC as [_ HC]. inversion HC as [|? ? HC1 _]; subst. cbn [snd] in HC1. lia. }
  assert (Ln : klen nk <= Z.of_nat len).
  { rewrite Forall_forall in HK. apply HK. rewrite Et, map_app. apply in_or_app. right. right. left. reflexivity. }
  assert (Hcnt : 0 <= get_elem_count st) by lia.
  destruct split; cbn [insert].
  - destruct (HA eq_refl) as [H1 H2]. apply (split_total c s Hs T Hf Hc (Z.of_nat len) d A pk st nk st' B k); auto.
    + apply (apart_roomy c s Hs len d A pk st nk st' B k); auto.
    + unfold klen in *. lia.
    + intros Hnp. apply (can_clear len d A pk st nk st' B k); auto.
    + intros Hnp. apply (can_fit len d A pk st nk st' B k); auto.
  - apply (simple_total c s Hs T Hf (Z.of_nat len) d A pk st nk st' B k); auto.
Qed.
Lemma seq_total len ops : forall d, stem c s (Z.of_nat len) (repeat 0 len) (repeat 255 len) d -> within_limits c s len d ops -> splits_fit c len d ops ->
  exists d', insert_seq c d ops = Ok d'.
Proof.
  induction ops as [|[k split] ops IH]; intros d HS HW HF; [eexists; reflexivity|].
  cbn [within_limits splits_fit insert_seq] in *. destruct HW as ((W1 & W2 & W3) & W4 & W5 & W6). destruct HF as [F1 F2]. assert (Kk : kok k) by exact W1.
  assert (Hlo : key_lt k (repeat 0 len) = false) by (rewrite <- W2; apply zeros_low; exact Kk). assert (Hhi : key_lt k (repeat 255 len) = true) by (apply lt_iff; exact W3).
  destruct (step_total len _ _ d k split HS Kk W2 Hlo Hhi W4) as (d1 & E1); [auto|]. rewrite E1. cbn [bind].
  destruct (step_stem c s Hs T Hf len _ _ d k split d1 HS Kk W2 Hlo Hhi W4 W5 E1) as (S1 & _). apply IH; auto.
Qed.
(** ** short keys keep their distance by themselves *)
Lemma map_split3 (t : tree) A a b B : map fst t = A ++ a :: b :: B -> exists A' sa sb B', t = A' ++ (a, sa) :: (b, sb) :: B'.
Proof.
  intros E. apply map_eq_app in E as (A' & t1 & -> & _ & E). destruct t1 as [|[x sx] [|[y sy] t1]]; try discriminate. cbn in E. injection E as -> -> _. eauto.
Qed.
Lemma short_apart len lo hi d k : 8 * Z.of_nat len + s <= 53 -> stem c s (Z.of_nat len) lo hi d -> kok k -> length k = len -> apart s len d k.
Proof.
  intros Hsh HS Kk Hl a b n Hn Ha Hb H0. cbv zeta. intros Hlt. pose proof (stem_keys _ _ _ _ _ _ HS) as HK. pose proof HS as (_ & _ & _ & _ & _ & S6).
  assert (Hn2 := Hn). destruct Hn2 as (A & B & En).
  assert (Hin : In a (boundaries d) /\ In b (boundaries d)) by (rewrite En; split; apply in_or_app; right; [left|right; left]; reflexivity).
  destruct Hin as [Ia Ib]. rewrite Forall_forall in HK. pose proof (HK a Ia) as La. pose proof (HK b Ib) as Lb.
  assert (Kab : kok a /\ kok b).
  { unfold boundaries in En. destruct (map_split3 _ _ _ _ _ En) as (A' & sa & sb & B' & Et). rewrite Et in S6. apply adj_app in S6 as [_ S6]. rewrite adj_cons in S6. destruct S6 as [((K1 & K2 & _) & _) _]. auto. }
  destruct Kab as [Ka Kb].
  pose proof (top_small (8 * len) a Ka) as Ta. pose proof (top_small (8 * len) b Kb) as Tb. pose proof (top_small (8 * len) k Kk) as Tk.
  assert (Hkb : top (8 * len) k < top (8 * len) b).
  { rewrite !top_pre by assumption. apply lt_iff in Hb. pose proof (key_lt_short k b Kk Kb ltac:(unfold klen in Lb; lia) Hb) as Hp. apply (pre_lt_mono (8 * klen b)); [unfold klen in *; lia|exact Hp]. }
  pose proof (p2pos n H0) as Pn. pose proof (Z.mul_div_le (top (8 * len) k) (2 ^ n) Pn) as Hx. rewrite Z.mul_comm in Hx.
  set (x := top (8 * len) k / 2 ^ n * 2 ^ n) in *. pose proof (pow2_le_mono (Z.of_nat (8 * len)) (53 - s) ltac:(lia)) as HP.
  set (P := 2 ^ (53 - s)) in *. set (Q := 2 ^ Z.of_nat (8 * len)) in *. clearbody P Q x. clear -Hlt Hx Hkb Ta Tb Tk HP.
  assert (1 * P <= (x - top (8 * len) a) * P) by (apply Z.mul_le_mono_nonneg_r; lia). assert (1 * P <= (top (8 * len) b - x) * P) by (apply Z.mul_le_mono_nonneg_r; lia). lia.
Qed.
Lemma short_within len ops : 8 * Z.of_nat len + s <= 53 -> forall d, stem c s (Z.of_nat len) (repeat 0 len) (repeat 255 len) d ->
  Forall (fun o => bytes (fst o) /\ length (fst o) = len /\ lt (fst o) (repeat 255 len)) ops -> counted c d ops -> within_limits c s len d ops.
Proof.
  intros Hsh. induction ops as [|[k split] ops IH]; intros d HS HO HC; [exact I|]. inversion HO as [|? ? (W1 & W2 & W3) HO']; subst. cbn [fst] in *. cbn [within_limits counted] in *. destruct HC as [C1 C2].
  assert (Kk : kok k) by exact W1. assert (HA : split = true -> apart s (length k) d k) by (intros _; apply (short_apart (length k) _ _ d k Hsh HS Kk eq_refl)).
  split; [auto|]. split; [exact C1|]. split; [exact HA|]. intros d' E. apply IH; [|exact HO'|apply C2; exact E].
  apply (step_stem c s Hs T Hf (length k) _ _ d k split d' HS Kk eq_refl); [apply zeros_low; exact Kk|apply lt_iff; exact W3|exact C1|exact HA|exact E].
Qed.
End G.

(** * statements for the machine configuration *)
Section M.
Variables (junk s : Z).
Hypothesis Hs : 1 <= s <= 46.
Notation c := (machine junk).
Let T := machine_ok junk.
Let Hf := machine_fits junk s (proj1 Hs).
Let Hc : c_strict c = false := eq_refl.

Theorem growth_succeeds len keys ops : loadable (FixedLength len) keys ->
  (forall d0, load c s (FixedLength len) keys = Ok d0 -> within_limits c s len d0 ops /\ splits_fit c len d0 ops) ->
  exists d, grown c s len keys ops d.
Proof.
  intros HL HW. destruct (loaded c s Hs T Hf (FixedLength len) keys HL) as (d0 & X & E0 & _). destruct (HW d0 E0) as [W1 W2].
  destruct (load_stem c s Hs T Hf len keys d0 HL E0) as [S0 _]. destruct (seq_total c s Hs T Hf Hc len ops d0 S0 W1 W2) as (d & E).
  exists d. split; [exact HL|]. split; [intros d1 E1; apply HW; exact E1|]. unfold grow. rewrite E0. exact E.
Qed.
Theorem insert_succeeds len keys ops d k split : grown c s len keys ops d -> bytes k -> length k = len -> lt k (repeat 255 len) -> counters_free d ->
  (split = true -> apart s len d k /\ splittable len d k) ->
  exists d', insert c d k split = Ok d' /\ grown c s len keys (ops ++ [(k, split)]) d'.
Proof.
  intros HG H1 H2 H3 H4 H5. destruct (grown_stem c s Hs T Hf _ _ _ _ HG) as [HS _]. assert (Kk : kok k) by exact H1.
  destruct (step_total c s Hs T Hf Hc len _ _ d k split HS Kk H2) as (d' & E); [rewrite <- H2; apply zeros_low; exact Kk|apply lt_iff; exact H3|exact H4|exact H5|].
  exists d'. split; [exact E|]. apply (grown_snoc c s len keys ops d k split d' HG H1 H2 H3 H4 (fun e => proj1 (H5 e)) E).
Qed.
Theorem grown_answers len keys ops d : grown c s len keys ops d ->
  (forall k, bytes k -> le (repeat 0 len) k -> le k (repeat 255 len) -> exists b, point_query c d k = Ok b) /\
  (forall i l r, bytes l -> bytes r -> suited i (FixedLength len) l r -> le (repeat 0 len) l -> le l r -> le r (repeat 255 len) -> exists b, range_query i c d l r = Ok b).
Proof.
  intros HG. destruct (grown_stem c s Hs T Hf _ _ _ _ HG) as [HS _]. pose proof (stem_valid _ _ _ _ _ _ HS) as HV. pose proof HS as (_ & S2 & S3 & S4 & _).
  assert (Hr : forall l r, bytes l -> bytes r -> le (repeat 0 len) l -> le l r -> le r (repeat 255 len) -> exists b, range_query false c d l r = Ok b).
  { intros l r Bl Br L1 L2 L3. apply le_iff in L1, L2, L3. pose proof (valid_sorted _ _ _ HV) as Hso.
    destruct (placed _ l Hso (v_some _ _ _ HV)) as [a st B Et H|st B Et|A pk st nk st' B Et G1 G2|H].
    - exfalso. rewrite Et in S3. cbn [hd_key] in S3. congruence.
    - unfold range_query. rewrite Et, seek_first. cbn [peek snd bind]. rewrite key_le_iff, L2. eexists; reflexivity.
    - destruct (range_query_spec c s Hs d A pk st nk st' B l r (v_size _ _ _ HV) Et (v_gap _ _ _ HV) Bl Br G1 G2 L2) as (b & Eb & _). eauto.
    - exfalso. destruct (d_tree d) as [|y B] eqn:E; [congruence|]. destruct (last_key_in y B) as (z & Hz & Ez). specialize (H z Hz). rewrite Ez, S4 in H.
      rewrite (lt_nlt_trans _ _ _ H L2) in L3. discriminate. }
  split.
  - intros k Bk L1 L2. rewrite (grown_one_key junk s Hs len keys ops d HG false k Bk ltac:(intros Hd; discriminate)). apply Hr; auto. left. reflexivity.
  - intros i l r Bl Br HSu L1 L2 L3. destruct i; [|apply Hr; auto]. rewrite (grown_builds_agree junk s Hs len keys ops d HG l r Bl Br HSu). apply Hr; auto.
Qed.
Theorem short_grown len keys ops d : 8 * Z.of_nat len + s <= 53 -> loadable (FixedLength len) keys ->
  Forall (fun o => bytes (fst o) /\ length (fst o) = len /\ lt (fst o) (repeat 255 len)) ops ->
  (forall d0, load c s (FixedLength len) keys = Ok d0 -> counted c d0 ops) -> grow c s len keys ops = Ok d -> grown c s len keys ops d.
Proof.
  intros Hsh HL HO HC E. split; [exact HL|]. split; [|exact E]. intros d0 E0. destruct (load_stem c s Hs T Hf len keys d0 HL E0) as [S0 _].
  apply (short_within c s Hs T Hf Hc len ops Hsh d0 S0 HO (HC d0 E0)).
Qed.
Theorem short_keys len keys ops d : 8 * Z.of_nat len + s <= 53 -> loadable (FixedLength len) keys ->
  Forall (fun o => bytes (fst o) /\ length (fst o) = len /\ lt (fst o) (repeat 255 len)) ops ->
  (forall d0, load c s (FixedLength len) keys = Ok d0 -> counted c d0 ops) -> grow c s len keys ops = Ok d ->
  forall k, In k keys \/ In k (map fst ops) -> point_query c d k = Ok true /\
    forall int_opt l r, bytes l -> bytes r -> suited int_opt (FixedLength len) l r -> le l k -> le k r -> range_query int_opt c d l r = Ok true.
Proof.
  intros Hsh HL HO HC E k Hk. pose proof (short_grown len keys ops d Hsh HL HO HC E) as HG. split; [apply (grown_point junk s Hs _ _ _ _ HG); exact Hk|].
  intros i l r Bl Br HSu Ll Lr. apply (grown_range junk s Hs _ _ _ _ HG i l r k); auto.
Qed.
End M.

(** * a decision procedure for the examples *)
Definition stands_forb (a : key) (st : store) (k : key) : bool :=
  is_partial_key st && (length a <=? length k)%nat && (let n := (8 * length a - Z.to_nat (get_invalid_bits st))%nat in top n a =? top n k).
Lemma stands_forb_ok a st k : stands_forb a st k = true -> stands_for a st k.
Proof.
  intros H. unfold stands_forb in H. apply andb_true_iff in H as [H H3]. apply andb_true_iff in H as [H1 H2]. split; [exact H1|]. split; [apply Nat.leb_le; exact H2|apply Z.eqb_eq; exact H3].
Qed.
Definition splittableb (len : nat) (d : diva) (k : key) : bool :=
  (fix go (t : tree) := match t with
     | (a, st) :: ((b, _) :: _) as rest =>
         (if leb a k && ltb k b then stands_forb a st k ||
            forallb (fun n => let n := Z.of_nat n in
              let lo := top (8 * len) a in let hi := top (8 * len) b in let x := top (8 * len) k / 2 ^ n * 2 ^ n in
              if (n =? 0) || (510 * 2 ^ n <? hi - lo) then
                negb (x =? lo) && (if lo <? x then (3 * get_elem_count st * (hi - lo) <=? 2 ^ 20 * (x - lo)) && (3 * get_elem_count st * (hi - lo) <=? 2 ^ 20 * (hi - x)) else true)
              else true) (seq 0 (8 * len + 1))
          else true) && go rest
     | _ => true
     end) (d_tree d).
Fixpoint splits_fitb (c : cfg) (len : nat) (d : diva) (ops : list (key * bool)) : bool :=
  match ops with
  | [] => true
  | (k, split) :: rest => forallb bytesb (boundaries d) && (if split then splittableb len d k else true) && match insert c d k split with Ok d' => splits_fitb c len d' rest | _ => true end
  end.
Lemma splittableb_ok len d k : Forall bytes (boundaries d) -> splittableb len d k = true -> splittable len d k.
Proof.
  intros HB H A a st b st' B E Ha Hb. unfold splittableb in H.
  set (go := fix go (t : tree) := _) in H.
  assert (Bab : bytes a /\ bytes b).
  { unfold boundaries in HB. rewrite E, map_app in HB. apply Forall_app in HB as [_ HB]. inversion HB as [|? ? B1 B2]; subst. inversion B2; subst. auto. }
  assert (Hin : go ((a, st) :: (b, st') :: B) = true).
  { rewrite E in H. clear E HB. induction A as [|[x sx] A IH]; [exact H|]. apply IH. cbn [app] in H. destruct (A ++ (a, st) :: (b, st') :: B) as [|[y sy] t] eqn:Et; [destruct A; discriminate|].
    cbn [go] in H. apply andb_true_iff in H as [_ H]. exact H. }
  cbn [go] in Hin. apply andb_true_iff in Hin as [Hin _].
  assert (E1 : leb a k = true). { unfold leb. destruct (list_eq_dec Z.eq_dec a k) as [|Ne]; [reflexivity|]. destruct Ha as [->|Ha]; [congruence|exact Ha]. }
  rewrite E1, Hb in Hin. cbn [andb] in Hin. apply orb_true_iff in Hin as [Hin|Hin]; [left; apply stands_forb_ok; exact Hin|right]. rewrite forallb_forall in Hin.
  intros n H0. cbv zeta. intros Hw. pose proof (top_small (8 * len) a (proj1 Bab)) as Ta. pose proof (top_small (8 * len) b (proj2 Bab)) as Tb.
  assert (Hn : n <= Z.of_nat (8 * len)).
  { destruct Hw as [->|Hw]; [lia|]. destruct (Z.le_gt_cases n (Z.of_nat (8 * len))) as [|Hgt]; [assumption|]. pose proof (pow2_le_mono (Z.of_nat (8 * len)) n ltac:(lia)). lia. }
  specialize (Hin (Z.to_nat n)). rewrite in_seq in Hin. specialize (Hin ltac:(lia)). cbv beta zeta in Hin. rewrite Z2Nat.id in Hin by lia.
  replace ((n =? 0) || (510 * 2 ^ n <? top (8 * len) b - top (8 * len) a)) with true in Hin by (symmetry; apply orb_true_iff; rewrite Z.eqb_eq, Z.ltb_lt; exact Hw).
  apply andb_true_iff in Hin as [H1 H2]. apply negb_true_iff, Z.eqb_neq in H1. split; [exact H1|]. intros Hlt.
  replace (top (8 * len) a <? top (8 * len) k / 2 ^ n * 2 ^ n) with true in H2 by (symmetry; apply Z.ltb_lt; exact Hlt).
  apply andb_true_iff in H2 as [A1 A2]. apply Z.leb_le in A1, A2. split; assumption.
Qed.
Lemma splits_fitb_ok c len : forall ops d, splits_fitb c len d ops = true -> splits_fit c len d ops.
Proof.
  induction ops as [|[k b] ops IH]; intros d H; [exact I|]. cbn [splits_fitb] in H. cbn [splits_fit]. apply andb_true_iff in H as [H H3]. apply andb_true_iff in H as [H1 H2].
  assert (HB : Forall bytes (boundaries d)). { rewrite forallb_forall in H1. rewrite Forall_forall. intros x Hx. apply bytesb_ok, H1, Hx. }
  split; [intros ->; apply splittableb_ok; assumption|]. intros d' E. rewrite E in H3. apply IH. exact H3.
Qed.

Fixpoint countedb (c : cfg) (d : diva) (ops : list (key * bool)) : bool :=
  match ops with
  | [] => true
  | (k, split) :: rest => forallb (fun e => get_elem_count (snd e) + 1 <? 2 ^ 20) (d_tree d) && match insert c d k split with Ok d' => countedb c d' rest | _ => true end
  end.
Lemma countedb_ok c : forall ops d, countedb c d ops = true -> counted c d ops.
Proof.
  induction ops as [|[k b] ops IH]; intros d H; [exact I|]. cbn [countedb] in H. cbn [counted]. apply andb_true_iff in H as [H1 H2]. split.
  - unfold counters_free. rewrite Forall_forall. rewrite forallb_forall in H1. intros e He. specialize (H1 e He). cbv beta in H1. lia.
  - intros d' E. rewrite E in H2. apply IH. exact H2.
Qed.
