(** The tables of the default load factor satisfy [tables_ok]. *)
From Coq Require Import ZArith List Bool Lia.
From Verif Require Import Base Util Store Tables Spec.
Import ListNotations.
Open Scope Z_scope.

Definition checks (c : cfg) : bool :=
  (0 <? c_size c 0) &&
  forallb (fun k => let g := Z.of_nat k in c_size c g <? c_size c (g + 1)) (seq 0 255) &&
  (0 <? c_exc c) && (c_exc c <=? c_size c 0) &&
  forallb (fun k => let g := Z.of_nat k in (0 <=? c_scal c g) && (c_scal c g <? 2 ^ 35)) (seq 0 256) &&
  forallb (fun k => let i := Z.of_nat k in (0 <=? c_impl c i) && (c_impl c i <=? 2 ^ 16)) (seq 0 513) &&
  (2 ^ 20 <=? c_size c 253) && (2 ^ 15 <=? c_scal c grow_sep) && (c_scal c grow_sep <? 2 ^ 27) &&
  (Z.shiftr (c_scal c grow_sep * 2 ^ 20) scale_shift <=? c_size c 249) && (1023 <=? c_size c grow_sep) &&
  (c_size c 255 <? 2 ^ 32).

Lemma forallb_seq f n : forallb f (seq 0 n) = true -> forall g, 0 <= g < Z.of_nat n -> f (Z.to_nat g) = true.
Proof. intros H g Hg. rewrite forallb_forall in H. apply H. apply in_seq. lia. Qed.

Lemma checks_ok c : checks c = true -> tables_ok c.
Proof.
  unfold checks. rewrite !andb_true_iff. intros (((((((((((H1 & H2) & H3) & H4) & H5) & H6) & H7) & H8) & H9) & H10) & H11) & H12).
  pose proof (forallb_seq _ _ H2) as K2. pose proof (forallb_seq _ _ H5) as K5. pose proof (forallb_seq _ _ H6) as K6. cbv zeta beta in K2, K5, K6.
  assert (S : forall g, 0 <= g < 256 -> 0 <= c_scal c g < 2 ^ 35).
  { intros g Hg. specialize (K5 g ltac:(lia)). rewrite Z2Nat.id in K5 by lia. lia. }
  assert (I : forall i, 0 <= i <= 512 -> 0 <= c_impl c i <= 2 ^ 16).
  { intros i Hi. specialize (K6 i ltac:(lia)). rewrite Z2Nat.id in K6 by lia. lia. }
  constructor; try lia.
  - intros g Hg. specialize (K2 g ltac:(lia)). rewrite Z2Nat.id in K2 by lia. lia.
  - intros g Hg. apply S. lia.
  - intros i Hi. apply I. lia.
  - intros g i Hg Hi. specialize (S g Hg). specialize (I i Hi). nia.
Qed.

(** The check does not look at [c_junk] and [c_strict]. *)
Lemma checks_lf95 : checks (setup lf95 0 false) = true.
Proof. vm_compute. reflexivity. Qed.
Theorem tables_ok_lf95 junk strict : tables_ok (setup lf95 junk strict).
Proof.
  destruct (checks_ok _ checks_lf95) as [A1 A2 A3 A4 A5 A6 A7 A8 A9 A10 A11].
  constructor; assumption.
Qed.

From Verif Require Import Bits.
(** ** How evenly the preferred slots are spread *)
Definition spread_checks (c : cfg) : bool :=
  forallb (fun k => let g := Z.of_nat k in (0 <=? c_scal c g) && (c_scal c g <? 2 ^ 32) && (0 <? c_size c g) && (c_size c g =? c_scal c g / 32)) (seq 0 256) &&
  forallb (fun k => let i := Z.of_nat k in (0 <=? c_impl c i) && (c_impl c i * (i + 512) <=? 2 ^ 25) && (2 ^ 25 <? (c_impl c i + 1) * (i + 512))) (seq 0 513).
Lemma spread_ok c : spread_checks c = true -> forall total g p, 512 <= total <= 1024 -> 0 <= g < 256 -> 0 <= p < total ->
  exists sc, implicit_scalar c total = Ok sc /\
    mapped_pos c p g sc * total <= p * c_size c g + total /\
    p * c_size c g <= (mapped_pos c p g sc + c_size c g / 2 ^ 15 + 2) * total.
Proof.
  unfold spread_checks. rewrite andb_true_iff. intros [H1 H2]. pose proof (forallb_seq _ _ H1) as K1. pose proof (forallb_seq _ _ H2) as K2. cbv zeta beta in K1, K2. clear H1 H2.
  intros total g p Ht Hg Hp. specialize (K1 g ltac:(lia)). specialize (K2 (total - 512) ltac:(lia)). rewrite Z2Nat.id in K1, K2 by lia.
  rewrite !andb_true_iff, !Z.leb_le, !Z.ltb_lt in K1. rewrite Z.eqb_eq in K1. destruct K1 as (((A1 & A2) & A3) & A4).
  rewrite !andb_true_iff, !Z.leb_le, !Z.ltb_lt in K2. destruct K2 as ((B1 & B2) & B3). replace (total - 512 + 512) with total in * by lia.
  exists (c_impl c (total - 512)). split.
  { unfold implicit_scalar. change (target_size / 2) with 512. cbv zeta. destruct (Z.leb_spec 0 (total - 512)); [|lia]. destruct (Z.leb_spec (total - 512) 512); [|lia]. reflexivity. }
  set (S := c_size c g) in *. set (x := c_scal c g) in *. set (y := c_impl c (total - 512)) in *. unfold mapped_pos. fold S x.
  change (scale_shift + scale_implicit_shift) with 30. rewrite Z.shiftr_div_pow2 by lia.
  assert (P0 : 0 <= p * x * y) by (apply Z.mul_nonneg_nonneg; [apply Z.mul_nonneg_nonneg; lia|lia]).
  assert (P1 : p * x * y * total <= p * x * 2 ^ 25).
  { rewrite <- (Z.mul_assoc (p * x)). apply Z.mul_le_mono_nonneg_l; [apply Z.mul_nonneg_nonneg; lia|lia]. }
  assert (P1' : p * x * 2 ^ 25 <= p * x * y * total + p * x * total).
  { replace (p * x * y * total + p * x * total) with (p * x * ((y + 1) * total)) by ring. apply Z.mul_le_mono_nonneg_l; [apply Z.mul_nonneg_nonneg; lia|lia]. }
  assert (P2 : p * x * y < 2 ^ 57).
  { assert (p * x * y * total <= total * x * 2 ^ 25) by (etransitivity; [exact P1|]; apply Z.mul_le_mono_nonneg_r; [lia|apply Z.mul_le_mono_nonneg_r; lia]).
    assert (p * x * y <= x * 2 ^ 25) by nia. lia. }
  rewrite u64_small by (split; [exact P0|lia]). set (q := p * x * y / 2 ^ 30).
  pose proof (Z.div_mod (p * x * y) (2 ^ 30) ltac:(lia)) as Dq. pose proof (Z.mod_pos_bound (p * x * y) (2 ^ 30) ltac:(lia)) as Bq. fold q in Dq.
  assert (Q1 : q < 2 ^ 27) by lia. assert (Q0 : 0 <= q) by lia. rewrite u32_small by lia.
  pose proof (Z.div_mod x 32 ltac:(lia)) as Dx. pose proof (Z.mod_pos_bound x 32 ltac:(lia)) as Bx. rewrite <- A4 in Dx.
  pose proof (Z.div_mod S (2 ^ 15) ltac:(lia)) as DS. pose proof (Z.mod_pos_bound S (2 ^ 15) ltac:(lia)) as BS. set (e := S / 2 ^ 15) in *.
  assert (Q2 : q * total * 2 ^ 30 <= p * x * y * total).
  { replace (q * total * 2 ^ 30) with (2 ^ 30 * q * total) by ring. apply Z.mul_le_mono_nonneg_r; lia. }
  assert (Q3 : p * x <= p * (32 * (S + 1))) by (apply Z.mul_le_mono_nonneg_l; lia).
  assert (Q4 : p * (32 * S) <= p * x) by (apply Z.mul_le_mono_nonneg_l; lia).
  split.
  - assert (Z.min (S - 1) q * total <= q * total) by (apply Z.mul_le_mono_nonneg_r; lia). lia.
  - destruct (Z.min_spec (S - 1) q) as [[_ ->]|[_ ->]].
    + assert (p * S <= total * S) by (apply Z.mul_le_mono_nonneg_r; lia).
      assert (0 <= e) by (apply Z.div_pos; lia). assert (0 <= (e + 1) * total) by (apply Z.mul_nonneg_nonneg; lia). lia.
    + assert (Q5 : p * x * y * total <= (q + 1) * 2 ^ 30 * total) by (apply Z.mul_le_mono_nonneg_r; lia).
      assert (Q6 : p * x <= 1024 * (32 * (S + 1))) by (etransitivity; [exact Q3|]; apply Z.mul_le_mono_nonneg_r; lia).
      assert (Q7 : p * x * total <= 2 ^ 30 * (e + 1) * total) by (apply Z.mul_le_mono_nonneg_r; lia).
      lia.
Qed.
Lemma spread_lf95 : spread_checks (setup lf95 0 false) = true.
Proof. vm_compute. reflexivity. Qed.
Theorem spread junk strict : forall total g p, 512 <= total <= 1024 -> 0 <= g < 256 -> 0 <= p < total ->
  let c := setup lf95 junk strict in
  exists sc, implicit_scalar c total = Ok sc /\
    mapped_pos c p g sc * total <= p * c_size c g + total /\
    p * c_size c g <= (mapped_pos c p g sc + c_size c g / 2 ^ 15 + 2) * total.
Proof. exact (spread_ok _ spread_lf95). Qed.
