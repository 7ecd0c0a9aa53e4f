(** The portable select finds the right bit. *)
From Coq Require Import ZArith List Bool Lia.
From Coq Require Import ZifyBool ZifyNat.
From Verif Require Import Base Util Bits Words SpecBlock Broadword.
Import ListNotations.
Open Scope Z_scope.

(** a word as a list of bytes, least significant first *)
Fixpoint val (l : list Z) : Z := match l with [] => 0 | b :: r => b + 256 * val r end.
Definition bytes8 (l : list Z) : Prop := Forall (fun b => 0 <= b < 256) l.
Lemma val_range l : bytes8 l -> 0 <= val l < 256 ^ Z.of_nat (length l).
Proof.
  induction l as [|b l IH]; intros H; [cbn; lia|]. inversion H; subst. specialize (IH ltac:(assumption)). cbn [val length]. rewrite Nat2Z.inj_succ, Z.pow_succ_r by lia. lia.
Qed.
Fixpoint digits (n : nat) (x : Z) : list Z := match n with O => [] | S m => x mod 256 :: digits m (x / 256) end.
Lemma digits_len n x : length (digits n x) = n.
Proof. revert x. induction n as [|n IH]; intros x; cbn; [reflexivity|]. rewrite IH. reflexivity. Qed.
Lemma digits_bytes n x : bytes8 (digits n x).
Proof. revert x. induction n as [|n IH]; intros x; cbn; constructor; [apply Z.mod_pos_bound; lia|apply IH]. Qed.
Lemma digits_val n x : 0 <= x < 256 ^ Z.of_nat n -> val (digits n x) = x.
Proof.
  revert x. induction n as [|n IH]; intros x Hx.
  - cbn in *. lia.
  - rewrite Nat2Z.inj_succ, Z.pow_succ_r in Hx by lia. cbn [digits val]. rewrite IH.
    + pose proof (Z.div_mod x 256). lia.
    + split; [apply Z.div_pos; lia|apply Z.div_lt_upper_bound; lia].
Qed.

(** bitwise operations byte by byte *)
Lemma split8 b r i : 0 <= b < 256 -> 0 <= i -> Z.testbit (b + 256 * r) i = if i <? 8 then Z.testbit b i else Z.testbit r (i - 8).
Proof.
  intros Hb Hi. change 256 with (2 ^ 8). replace (b + 2 ^ 8 * r) with (Z.lor b (Z.shiftl r 8)).
  - rewrite Z.lor_spec. destruct (Z.ltb_spec i 8).
    + rewrite Z.shiftl_spec_low by lia. apply orb_false_r.
    + rewrite Z.shiftl_spec by lia. rewrite (testbit_lt_pow b 8 i) by lia. reflexivity.
  - rewrite Z.shiftl_mul_pow2 by lia. rewrite Z.mul_comm. rewrite <- Z.lxor_lor; [rewrite <- Z.add_nocarry_lxor; [ring|]|].
    all: apply Z.bits_inj'; intros j Hj; rewrite Z.land_spec, Z.bits_0; destruct (Z.ltb_spec j 8);
      [rewrite Z.mul_comm, Z.mul_pow2_bits_low by lia; apply andb_false_r|rewrite (testbit_lt_pow b 8 j) by lia; reflexivity].
Qed.
Lemma byte_and a b : 0 <= a < 256 -> 0 <= Z.land a b < 256.
Proof.
  intros Ha. change 256 with (2 ^ 8). apply bits_lt_pow; [lia|]. intros i Hi. rewrite Z.land_spec, (testbit_lt_pow a 8 i) by lia. reflexivity.
Qed.
Lemma land8 a r b q : 0 <= a < 256 -> 0 <= b < 256 -> Z.land (a + 256 * r) (b + 256 * q) = Z.land a b + 256 * Z.land r q.
Proof.
  intros Ha Hb. apply Z.bits_inj'. intros i Hi. rewrite Z.land_spec, !split8 by (try apply byte_and; lia). rewrite !Z.land_spec. destruct (i <? 8); reflexivity.
Qed.
Lemma byte_or a b : 0 <= a < 256 -> 0 <= b < 256 -> 0 <= Z.lor a b < 256.
Proof.
  intros Ha Hb. change 256 with (2 ^ 8). apply bits_lt_pow; [lia|]. intros i Hi. rewrite Z.lor_spec, (testbit_lt_pow a 8 i), (testbit_lt_pow b 8 i) by lia. reflexivity.
Qed.
Lemma lor8 a r b q : 0 <= a < 256 -> 0 <= b < 256 -> Z.lor (a + 256 * r) (b + 256 * q) = Z.lor a b + 256 * Z.lor r q.
Proof.
  intros Ha Hb. apply Z.bits_inj'. intros i Hi. rewrite Z.lor_spec, !split8 by (try apply byte_or; lia). rewrite !Z.lor_spec. destruct (i <? 8); reflexivity.
Qed.
Fixpoint zip (f : Z -> Z -> Z) (l m : list Z) : list Z := match l, m with a :: l, b :: m => f a b :: zip f l m | _, _ => [] end.
Lemma land_val l m : bytes8 l -> bytes8 m -> length l = length m -> Z.land (val l) (val m) = val (zip Z.land l m).
Proof.
  revert m. induction l as [|a l IH]; intros [|b m] Hl Hm HE; try discriminate; [reflexivity|]. inversion Hl; inversion Hm; subst. cbn [val zip].
  rewrite land8, IH by (auto; lia). reflexivity.
Qed.
Lemma lor_val l m : bytes8 l -> bytes8 m -> length l = length m -> Z.lor (val l) (val m) = val (zip Z.lor l m).
Proof.
  revert m. induction l as [|a l IH]; intros [|b m] Hl Hm HE; try discriminate; [reflexivity|]. inversion Hl; inversion Hm; subst. cbn [val zip].
  rewrite lor8, IH by (auto; lia). reflexivity.
Qed.
(** facts about all bytes are checked one by one *)
Lemma all_bytes (P : Z -> bool) : forallb P (map Z.of_nat (seq 0 256)) = true -> forall b, 0 <= b < 256 -> P b = true.
Proof.
  intros H b Hb. rewrite forallb_forall in H. apply H. rewrite <- (Z2Nat.id b) by lia. apply in_map. apply in_seq. lia.
Qed.

(** number of ones of a byte *)
Definition pc (b : Z) : Z := count (Z.testbit b) 0 8.
Definition f1 (b : Z) : Z := b - Z.land b 170 / 2.
Definition f2 (b : Z) : Z := Z.land b 51 + Z.land b 204 / 4.
Definition f3 (b : Z) : Z := b mod 16 + b / 16.
Lemma byte_steps b : 0 <= b < 256 ->
  Z.land b 170 = 2 * (Z.land b 170 / 2) /\ 0 <= f1 b < 256 /\ Z.land (f1 b) 204 = 4 * (Z.land (f1 b) 204 / 4) /\
  0 <= f2 (f1 b) < 256 /\ f2 (f1 b) mod 16 <= 4 /\ f2 (f1 b) / 16 <= 4 /\ f3 (f2 (f1 b)) = pc b /\ 0 <= pc b <= 8.
Proof.
  intros Hb. pose proof (all_bytes (fun b => (Z.land b 170 =? 2 * (Z.land b 170 / 2)) && (0 <=? f1 b) && (f1 b <? 256) && (Z.land (f1 b) 204 =? 4 * (Z.land (f1 b) 204 / 4)) &&
    (0 <=? f2 (f1 b)) && (f2 (f1 b) <? 256) && (f2 (f1 b) mod 16 <=? 4) && (f2 (f1 b) / 16 <=? 4) && (f3 (f2 (f1 b)) =? pc b) && (0 <=? pc b) && (pc b <=? 8))
    ltac:(vm_compute; reflexivity) b Hb) as H. cbv beta in H.
  repeat (apply andb_true_iff in H as [H ?]). repeat split; try (apply Z.eqb_eq; assumption); try (apply Z.leb_le; assumption); try (apply Z.ltb_lt; assumption).
Qed.
Lemma val_map2 (f g h : Z -> Z) (op : Z -> Z -> Z) l : (forall x y z w, op (x + 256 * y) (z + 256 * w) = op x z + 256 * op y w) -> op 0 0 = 0 ->
  (forall b, In b l -> h b = op (f b) (g b)) -> val (map h l) = op (val (map f l)) (val (map g l)).
Proof.
  intros Hop H0 H. induction l as [|b l IH]; cbn [map val]; [auto|]. rewrite Hop, IH, H; auto; [left; reflexivity|]. intros x Hx. apply H. right. exact Hx.
Qed.
Lemma val_scale (f : Z -> Z) d l : val (map (fun b => d * f b) l) = d * val (map f l).
Proof. induction l as [|b l IH]; cbn [map val]; lia. Qed.
Lemma land_mask m l : bytes8 l -> 0 <= m < 256 -> Z.land (val l) (val (repeat m (length l))) = val (map (fun b => Z.land b m) l).
Proof.
  intros Hl Hm. induction l as [|b l IH]; [reflexivity|]. inversion Hl; subst. cbn [length repeat val map]. rewrite land8, IH by (auto; lia). reflexivity.
Qed.
Lemma map_bytes (f : Z -> Z) l : bytes8 l -> (forall b, 0 <= b < 256 -> 0 <= f b < 256) -> bytes8 (map f l).
Proof. intros Hl Hf. unfold bytes8 in *. rewrite Forall_forall in *. intros x Hx. apply in_map_iff in Hx as (b & <- & Hb). apply Hf. apply Hl. exact Hb. Qed.
Lemma val_ext (f g : Z -> Z) l : (forall b, In b l -> f b = g b) -> val (map f l) = val (map g l).
Proof. intros H. f_equal. apply map_ext_in. exact H. Qed.
Lemma in_byte l b : bytes8 l -> In b l -> 0 <= b < 256.
Proof. intros Hl Hb. unfold bytes8 in Hl. rewrite Forall_forall in Hl. apply Hl. exact Hb. Qed.
Lemma step1 l : bytes8 l -> val l - Z.shiftr (Z.land (val l) (val (repeat 170 (length l)))) 1 = val (map f1 l).
Proof.
  intros Hl. rewrite land_mask by (auto; lia).
  rewrite (val_ext (fun b => Z.land b 170) (fun b => 2 * (Z.land b 170 / 2))).
  - rewrite val_scale, Z.shiftr_div_pow2 by lia. change (2 ^ 1) with 2. rewrite Z.mul_comm, Z.div_mul by lia.
    symmetry. rewrite <- (map_id l) at 2. apply val_map2; [intros; ring|reflexivity|]. intros b Hb. reflexivity.
  - intros b Hb. apply byte_steps. eapply in_byte; eassumption.
Qed.
Lemma step2 l : bytes8 l -> (forall b, In b l -> Z.land b 204 = 4 * (Z.land b 204 / 4)) ->
  Z.land (val l) (val (repeat 51 (length l))) + Z.shiftr (Z.land (val l) (val (repeat 204 (length l)))) 2 = val (map f2 l).
Proof.
  intros Hl H. rewrite !land_mask by (auto; lia).
  rewrite (val_ext (fun b => Z.land b 204) (fun b => 4 * (Z.land b 204 / 4))) by exact H.
  rewrite val_scale, Z.shiftr_div_pow2 by lia. change (2 ^ 2) with 4. rewrite Z.mul_comm, Z.div_mul by lia.
  symmetry. apply val_map2; [intros; ring|reflexivity|]. intros b Hb. reflexivity.
Qed.
Lemma mod16 b r : (b + 256 * r) mod 16 = b mod 16.
Proof. replace (b + 256 * r) with (b + 16 * r * 16) by ring. apply Z.mod_add. lia. Qed.
Lemma step3 l : bytes8 l -> (forall b, In b l -> b mod 16 <= 4 /\ b / 16 <= 4) ->
  Z.land (val l + val l / 16) (val (repeat 15 (length l))) = val (map f3 l).
Proof.
  induction l as [|b l IH]; intros Hl H; [reflexivity|]. inversion Hl; subst. cbn [val length repeat map].
  destruct (H b ltac:(left; reflexivity)) as [B1 B2]. pose proof (val_range l ltac:(assumption)) as HV.
  assert (HR : val l mod 16 <= 4).
  { destruct l as [|b' l']; [cbn; lia|]. cbn [val]. rewrite mod16. apply (H b'). right. left. reflexivity. }
  pose proof (Z.mod_pos_bound (val l) 16 ltac:(lia)). pose proof (Z.mod_pos_bound b 16 ltac:(lia)).
  pose proof (Z.div_mod (val l) 16 ltac:(lia)) as D. pose proof (Z.div_mod b 16 ltac:(lia)) as Db.
  assert (Ed : (b + 256 * val l) / 16 = b / 16 + 16 * val l).
  { replace (b + 256 * val l) with (b + 16 * val l * 16) by ring. apply Z.div_add. lia. }
  rewrite Ed. replace (b + 256 * val l + (b / 16 + 16 * val l)) with ((b + b / 16 + 16 * (val l mod 16)) + 256 * (val l + val l / 16)) by lia.
  rewrite land8 by lia. rewrite IH; auto; [|intros x Hx; apply H; right; exact Hx]. f_equal.
  change 15 with (Z.ones 4). rewrite Z.land_ones by lia. change (2 ^ 4) with 16. unfold f3.
  replace (b + b / 16 + 16 * (val l mod 16)) with ((b mod 16 + b / 16) + (b / 16 + val l mod 16) * 16) by lia.
  rewrite Z.mod_add by lia. apply Z.mod_small. pose proof (Z.div_pos b 16). lia.
Qed.

(** prefix sums *)
Fixpoint sum (l : list Z) : Z := match l with [] => 0 | a :: r => a + sum r end.
Fixpoint psums (acc : Z) (l : list Z) : list Z := match l with [] => [] | b :: r => (acc + b) :: psums (acc + b) r end.
Definition small (l : list Z) : Prop := Forall (fun b => 0 <= b <= 8) l.
Lemma psums_len acc l : length (psums acc l) = length l.
Proof. revert acc. induction l as [|b l IH]; intros acc; cbn; auto. Qed.
Lemma psums_range l : forall acc, small l -> 0 <= acc -> Forall (fun q => acc <= q <= acc + 8 * Z.of_nat (length l)) (psums acc l).
Proof.
  induction l as [|b l IH]; intros acc Hl Ha; cbn [psums length]; constructor; inversion Hl; subst; [lia|].
  eapply Forall_impl; [|apply IH; [assumption|lia]]. cbv beta. intros q Hq. lia.
Qed.
Lemma psums_nth l : forall n acc, (n <= length l)%nat -> nth n (acc :: psums acc l) 0 = acc + sum (firstn n l).
Proof.
  induction l as [|b l IH]; intros [|n] acc Hn; cbn [nth firstn sum psums length] in *; try lia.
  rewrite <- Z.add_assoc || idtac. specialize (IH n (acc + b) ltac:(lia)). cbn [nth] in IH. destruct n as [|n]; cbn [nth] in *; lia.
Qed.
(** the number of prefix sums up to [k] *)
Fixpoint upto (k : Z) (l : list Z) : nat := match l with [] => O | q :: r => if q <=? k then S (upto k r) else upto k r end.
Lemma upto_none k l acc : small l -> k < acc -> upto k (psums acc l) = O.
Proof.
  revert acc. induction l as [|b l IH]; intros acc Hl Ha; cbn [psums upto]; [reflexivity|]. inversion Hl; subst. destruct (Z.leb_spec (acc + b) k); [lia|]. apply IH; [assumption|lia].
Qed.
Lemma upto_spec k l : small l -> forall acc, acc <= k -> k < acc + sum l ->
  let n := upto k (psums acc l) in (n < length l)%nat /\ acc + sum (firstn n l) <= k /\ k < acc + sum (firstn n l) + nth n l 0.
Proof.
  intros Hl. induction l as [|b l IH]; intros acc H1 H2; cbn [sum] in H2; [lia|]. inversion Hl; subst. cbn [psums upto length]. destruct (Z.leb_spec (acc + b) k).
  - destruct (IH ltac:(assumption) (acc + b) ltac:(lia) ltac:(lia)) as (K1 & K2 & K3). cbn [firstn sum nth]. lia.
  - rewrite upto_none by (auto; lia). cbn [firstn sum nth]. lia.
Qed.
(** multiplying by 0x01..01 *)
Lemma sums_mul l : length l = 8%nat -> small l -> u64 (val l * ones_step8) = val (psums 0 l).
Proof.
  intros Hlen Hl. destruct l as [|a0 [|a1 [|a2 [|a3 [|a4 [|a5 [|a6 [|a7 [|? ?]]]]]]]]]; try discriminate.
  unfold small in Hl. repeat match goal with H : Forall _ (_ :: _) |- _ => inversion H; clear H; subst end.
  cbn [val psums]. unfold u64, low. rewrite Z.land_ones by lia. symmetry.
  apply (Z.mod_unique_pos _ (2 ^ 64) ((a1+a2+a3+a4+a5+a6+a7) + 256 * ((a2+a3+a4+a5+a6+a7) + 256 * ((a3+a4+a5+a6+a7) + 256 * ((a4+a5+a6+a7) + 256 * ((a5+a6+a7) + 256 * ((a6+a7) + 256 * a7))))))).
  - change (2 ^ 64) with 18446744073709551616. lia.
  - change (2 ^ 64) with 18446744073709551616. unfold ones_step8. lia.
Qed.
(** ones of a word *)
Lemma count_val l n : bytes8 l -> (n <= length l)%nat -> count (Z.testbit (val l)) 0 (8 * Z.of_nat n) = sum (map pc (firstn n l)).
Proof.
  revert n. induction l as [|b l IH]; intros [|n] Hl Hn; cbn [firstn map sum length] in *; try (apply count_nil; lia); try lia. inversion Hl; subst.
  rewrite (count_split _ 0 8) by lia. cbn [val]. rewrite (count_ext _ (Z.testbit b) 0 8).
  - fold (pc b). f_equal. rewrite <- (IH n) by (auto; lia). rewrite (count_ext (Z.testbit (b + 256 * val l)) (fun i => Z.testbit (val l) (i + -8)) 8).
    + rewrite count_shift. f_equal; lia.
    + intros i Hi. rewrite split8 by lia. destruct (Z.ltb_spec i 8); [lia|]. reflexivity.
  - intros i Hi. rewrite split8 by lia. destruct (Z.ltb_spec i 8); [reflexivity|lia].
Qed.
Lemma bit_val l n i : bytes8 l -> (n < length l)%nat -> 0 <= i < 8 -> Z.testbit (val l) (8 * Z.of_nat n + i) = Z.testbit (nth n l 0) i.
Proof.
  revert n. induction l as [|b l IH]; intros [|n] Hl Hn Hi; cbn [length nth val] in *; try lia; inversion Hl; subst; rewrite split8 by lia.
  - destruct (Z.ltb_spec (8 * Z.of_nat 0 + i) 8); [f_equal; lia|lia].
  - destruct (Z.ltb_spec (8 * Z.of_nat (S n) + i) 8); [lia|]. rewrite <- IH by (auto; lia). f_equal. lia.
Qed.
Lemma byte_val l n : bytes8 l -> (n < length l)%nat -> Z.land (Z.shiftr (val l) (8 * Z.of_nat n)) 255 = nth n l 0.
Proof.
  intros Hl Hn. assert (Hb : 0 <= nth n l 0 < 256) by (eapply in_byte; [exact Hl|apply nth_In; exact Hn]).
  apply Z.bits_inj'. intros i Hi. change 255 with (Z.ones 8). rewrite Z.land_spec, ones_testbit, Z.shiftr_spec by lia. destruct (Z.ltb_spec i 8).
  - rewrite andb_true_r. rewrite <- bit_val by (auto; lia). f_equal. lia.
  - rewrite andb_false_r. change 256 with (2 ^ 8) in Hb. rewrite (testbit_lt_pow _ 8 i) by lia. reflexivity.
Qed.

(** comparison of all prefix sums with [k] at once *)
Lemma geq_bytes k P : 0 <= k < 64 -> Forall (fun q => 0 <= q <= 64) P ->
  Z.land (val (repeat (k + 128) (length P)) - val P) (val (repeat 128 (length P))) = val (map (fun q => if q <=? k then 128 else 0) P) /\
  0 <= val (repeat (k + 128) (length P)) - val P < 256 ^ Z.of_nat (length P).
Proof.
  intros Hk HP. assert (E : val (repeat (k + 128) (length P)) - val P = val (map (fun q => k + 128 - q) P)).
  { symmetry. transitivity (val (map (fun _ => k + 128) P) - val (map (fun q => q) P)).
    - apply val_map2; [intros; ring|reflexivity|reflexivity].
    - rewrite map_id. do 2 f_equal. clear. induction P as [|q P IH]; [reflexivity|]. cbn. rewrite IH. reflexivity. }
  assert (HB : bytes8 (map (fun q => k + 128 - q) P)).
  { unfold bytes8. rewrite Forall_forall in *. intros x Hx. apply in_map_iff in Hx as (q & <- & Hq). specialize (HP q Hq). lia. }
  rewrite E. split.
  - rewrite <- (map_length (fun q => k + 128 - q) P). rewrite land_mask by (auto; lia). rewrite map_map. apply val_ext. intros q Hq. rewrite Forall_forall in HP. specialize (HP q Hq).
    pose proof (all_bytes (fun b => Z.land b 128 =? (if 128 <=? b then 128 else 0)) ltac:(vm_compute; reflexivity) (k + 128 - q) ltac:(lia)) as H. cbv beta in H.
    apply Z.eqb_eq in H. rewrite H. destruct (Z.leb_spec 128 (k + 128 - q)), (Z.leb_spec q k); try reflexivity; lia.
  - rewrite <- (map_length (fun q => k + 128 - q) P). apply val_range. exact HB.
Qed.
Lemma geq_count k P : length P = 8%nat -> popcount (val (map (fun q => if q <=? k then 128 else 0) P)) = Z.of_nat (upto k P).
Proof.
  intros HL. set (f := fun q => if q <=? k then 128 else 0).
  assert (HB : bytes8 (map f P)). { unfold bytes8. apply Forall_forall. intros x Hx. apply in_map_iff in Hx as (q & <- & _). unfold f. destruct (q <=? k); lia. }
  pose proof (val_range _ HB) as HR. rewrite map_length, HL in HR. change (256 ^ Z.of_nat 8) with (2 ^ 64) in HR.
  rewrite (popcount_count _ 64) by lia. replace 64 with (8 * Z.of_nat 8) by reflexivity. rewrite <- HL, <- (map_length f P). rewrite count_val by (auto; lia). rewrite firstn_all.
  clear. induction P as [|q P IH]; [reflexivity|]. cbn [map sum upto]. rewrite IH. unfold f at 1. destruct (q <=? k); [change (pc 128) with 1|change (pc 0) with 0]; lia.
Qed.
Lemma table b r : 0 <= b < 256 -> 0 <= r < pc b -> exists e, nth (Z.to_nat (Z.lor b (Z.shiftl r 8))) select_in_byte 0 = e /\ 0 <= e < 8 /\
  Z.testbit b e = true /\ count (Z.testbit b) 0 e = r /\ 0 <= Z.lor b (Z.shiftl r 8) < 2048.
Proof.
  intros Hb Hr. eexists. split; [reflexivity|].
  pose proof (all_bytes (fun b => forallb (fun r => (pc b <=? r) || (let i := Z.lor b (Z.shiftl r 8) in let e := nth (Z.to_nat i) select_in_byte 0 in
     (0 <=? e) && (e <? 8) && Z.testbit b e && (count (Z.testbit b) 0 e =? r) && (0 <=? i) && (i <? 2048))) [0;1;2;3;4;5;6;7]) ltac:(vm_compute; reflexivity) b Hb) as H.
  cbv beta in H. rewrite forallb_forall in H. destruct (byte_steps b Hb) as (_ & _ & _ & _ & _ & _ & _ & Hp).
  assert (Hin : In r [0;1;2;3;4;5;6;7]) by (cbn [In]; lia). specialize (H r Hin). apply orb_true_iff in H as [H|H]; [apply Z.leb_le in H; lia|]. cbv zeta in H.
  repeat (apply andb_true_iff in H as [H ?]). repeat split; try (apply Z.leb_le; assumption); try (apply Z.ltb_lt; assumption); try (apply Z.eqb_eq; assumption). assumption.
Qed.
Lemma pow64 : 256 ^ 8 = 2 ^ 64.
Proof. reflexivity. Qed.
Lemma u64_id x : 0 <= x < 2 ^ 64 -> u64 x = x.
Proof. intros H. apply u64_small. exact H. Qed.
Lemma val_repeat k n : val (repeat k n) = k * val (repeat 1 n).
Proof. induction n as [|n IH]; cbn [repeat val]; [lia|]. rewrite IH. lia. Qed.

Theorem select64_spec x k : 0 <= x < 2 ^ 64 -> 0 <= k -> k < count (Z.testbit x) 0 64 ->
  exists e, select64 x k = Ok e /\ 0 <= e < 64 /\ Z.testbit x e = true /\ count (Z.testbit x) 0 e = k.
Proof.
  intros Hx Hk0 Hk. set (l := digits 8 x).
  assert (HL : length l = 8%nat) by apply digits_len. assert (HB : bytes8 l) by apply digits_bytes.
  assert (EV : val l = x) by (apply digits_val; exact Hx). clearbody l. subst x.
  pose proof (count_range (Z.testbit (val l)) 0 64 ltac:(lia)) as HC.
  unfold select64. rewrite (popcount_count _ 64) by lia. destruct (Z.leb_spec (count (Z.testbit (val l)) 0 64) k); [lia|]. cbv zeta.
  change (u64 (10 * ones_step4)) with (val (repeat 170 8)). change (u64 (3 * ones_step4)) with (val (repeat 51 8)). change (u64 (15 * ones_step8)) with (val (repeat 15 8)).
  change msbs_step8 with (val (repeat 128 8)).
  assert (HB1 : bytes8 (map f1 l)) by (apply map_bytes; [exact HB|]; intros b Hb; apply byte_steps; exact Hb).
  assert (HB2 : bytes8 (map f2 (map f1 l))) by (rewrite map_map; apply map_bytes; [exact HB|]; intros b Hb; apply (byte_steps b Hb)).
  assert (E1 : val l - Z.shiftr (Z.land (val l) (val (repeat 170 8))) 1 = val (map f1 l)) by (rewrite <- step1 by exact HB; rewrite HL; reflexivity).
  rewrite E1. rewrite (u64_id (val (map f1 l))).
  2: { pose proof (val_range _ HB1) as R. rewrite map_length, HL in R. exact R. }
  assert (E2 : Z.land (val (map f1 l)) (val (repeat 51 8)) + Z.land (Z.shiftr (val (map f1 l)) 2) (val (repeat 51 8)) = val (map f2 (map f1 l))).
  { rewrite <- step2; [|exact HB1|].
    - rewrite map_length, HL. f_equal. change (val (repeat 204 8)) with (Z.shiftl (val (repeat 51 8)) 2). rewrite Z.shiftr_land, Z.shiftr_shiftl_l by lia. rewrite Z.shiftl_0_r. reflexivity.
    - intros b Hb. apply in_map_iff in Hb as (b' & <- & Hb). apply byte_steps. exact (in_byte _ _ HB Hb). }
  rewrite E2. rewrite (u64_id (val (map f2 (map f1 l)))).
  2: { pose proof (val_range _ HB2) as R. rewrite !map_length, HL in R. exact R. }
  assert (HN : forall b, In b (map f2 (map f1 l)) -> b mod 16 <= 4 /\ b / 16 <= 4 /\ 0 <= b < 256).
  { intros b Hb. rewrite map_map in Hb. apply in_map_iff in Hb as (b' & <- & Hb). pose proof (byte_steps b' (in_byte _ _ HB Hb)). tauto. }
  assert (E3 : Z.land (u64 (val (map f2 (map f1 l)) + Z.shiftr (val (map f2 (map f1 l))) 4)) (val (repeat 15 8)) = val (map pc l)).
  { rewrite Z.shiftr_div_pow2 by lia. change (2 ^ 4) with 16. rewrite u64_id.
    - transitivity (val (map f3 (map f2 (map f1 l)))).
      + rewrite <- step3; [rewrite !map_length, HL; reflexivity|exact HB2|]. intros b Hb. destruct (HN b Hb) as (N1 & N2 & _). auto.
      + rewrite !map_map. apply val_ext. intros b Hb. apply byte_steps. exact (in_byte _ _ HB Hb).
    - assert (HM : val (map f2 (map f1 l)) <= val (repeat 68 8)).
      { assert (HM : forall b, In b (map f2 (map f1 l)) -> b <= 68). { intros b Hb. destruct (HN b Hb) as (N1 & N2 & N3). pose proof (Z.div_mod b 16). lia. }
        assert (HLL : length (map f2 (map f1 l)) = 8%nat) by (rewrite !map_length; exact HL). rewrite <- HLL. revert HM. clear. induction (map f2 (map f1 l)) as [|b m IH]; intros HM; cbn [length repeat val]; [lia|].
        pose proof (HM b ltac:(left; reflexivity)). specialize (IH ltac:(intros y Hy; apply HM; right; exact Hy)). lia. }
      pose proof (val_range _ HB2) as R. pose proof (Z.div_le_upper_bound (val (map f2 (map f1 l))) 16 (val (map f2 (map f1 l))) ltac:(lia) ltac:(lia)).
      pose proof (Z.div_pos (val (map f2 (map f1 l))) 16 ltac:(lia) ltac:(lia)).
      change (val (repeat 68 8)) with 4919131752989213764 in HM. change (2 ^ 64) with 18446744073709551616. lia. }
  rewrite E3. clear E2 E3 HN HB1 HB2.
  assert (HS : small (map pc l)). { unfold small. apply Forall_forall. intros y Hy. apply in_map_iff in Hy as (b & <- & Hb). apply byte_steps. exact (in_byte _ _ HB Hb). }
  assert (HPL : length (map pc l) = 8%nat) by (rewrite map_length; exact HL).
  rewrite sums_mul by assumption. set (P := psums 0 (map pc l)).
  assert (HP8 : length P = 8%nat) by (unfold P; rewrite psums_len; exact HPL).
  assert (HPr : Forall (fun q => 0 <= q <= 64) P). { pose proof (psums_range (map pc l) 0 HS ltac:(lia)) as H1. rewrite HPL in H1. exact H1. }
  assert (EK : Z.lor (u64 (k * ones_step8)) (val (repeat 128 8)) = val (repeat (k + 128) 8)).
  { change ones_step8 with (val (repeat 1 8)). rewrite <- val_repeat.
    assert (HBk : bytes8 (repeat k 8)) by (apply Forall_forall; intros y Hy; apply repeat_spec in Hy; lia).
    rewrite u64_id by (apply (val_range _ HBk)). rewrite lor_val; [|exact HBk|repeat constructor; lia|reflexivity].
    assert (Hlo : Z.lor k 128 = k + 128).
    { pose proof (all_bytes (fun b => (128 <=? b) || (Z.lor b 128 =? b + 128)) ltac:(vm_compute; reflexivity) k ltac:(lia)) as H1. cbv beta in H1. lia. }
    cbn [repeat zip]. rewrite !Hlo. reflexivity. }
  rewrite EK. destruct (geq_bytes k P ltac:(lia) HPr) as [G1 G2]. rewrite HP8 in G1, G2. rewrite u64_id by exact G2. rewrite G1.
  rewrite geq_count by exact HP8.
  assert (Hsum : sum (map pc l) = count (Z.testbit (val l)) 0 64).
  { pose proof (count_val l 8 HB ltac:(lia)) as H1. rewrite <- HL, firstn_all, HL in H1. symmetry. exact H1. }
  destruct (upto_spec k (map pc l) HS 0 ltac:(lia) ltac:(lia)) as (U1 & U2 & U3). fold P in U1, U2, U3. set (n := upto k P) in *. rewrite HPL in U1.
  destruct (Z.leb_spec 64 (Z.of_nat n * 8)); [lia|].
  assert (EPre : Z.land (Z.shiftr (u64 (Z.shiftl (val P) 8)) (Z.of_nat n * 8)) 255 = sum (firstn n (map pc l))).
  { transitivity (nth n (0 :: P) 0).
    - assert (HB0 : bytes8 (0 :: P)). { constructor; [lia|]. eapply Forall_impl; [|exact HPr]. cbv beta. intros; lia. }
      rewrite <- (byte_val (0 :: P) n HB0) by (cbn [length]; lia). cbn [val]. rewrite Z.add_0_l.
      apply Z.bits_inj'. intros i Hi. change 255 with (Z.ones 8). rewrite !Z.land_spec, ones_testbit by lia. destruct (Z.ltb_spec i 8); [|rewrite !andb_false_r; reflexivity].
      f_equal. rewrite !Z.shiftr_spec by lia. unfold u64. replace (256 * val P) with (Z.shiftl (val P) 8) by (rewrite Z.shiftl_mul_pow2 by lia; change (2 ^ 8) with 256; lia). unfold low. rewrite Z.land_spec, ones_testbit by lia.
      destruct (Z.ltb_spec (i + Z.of_nat n * 8) 64); [rewrite andb_true_r; f_equal; lia|lia].
    - unfold P. rewrite psums_nth by lia. lia. }
  rewrite EPre. rewrite (u64_id (k - sum (firstn n (map pc l)))).
  2: { rewrite Z.add_0_l in U2. assert (Hs0 : 0 <= sum (firstn n (map pc l))).
       { rewrite firstn_map. rewrite <- count_val by (auto; lia). apply count_range. lia. }
       change (2 ^ 64) with 18446744073709551616. lia. }
  rewrite Z.add_0_l in U2, U3. set (r := k - sum (firstn n (map pc l))) in *.
  replace (Z.of_nat n * 8) with (8 * Z.of_nat n) by lia. change 0xFF with 255. rewrite byte_val by (auto; lia). set (b := nth n l 0) in *.
  assert (Hb : 0 <= b < 256) by (eapply in_byte; [exact HB|apply nth_In; lia]).
  assert (Hpc : nth n (map pc l) 0 = pc b). { rewrite (nth_indep _ 0 (pc 0)) by lia. apply map_nth. }
  rewrite Hpc in U3. destruct (table b r Hb ltac:(lia)) as (e & Ee & He & Ht & Hc & Hi).
  pose proof (byte_steps b Hb) as (_ & _ & _ & _ & _ & _ & _ & Hpb).
  rewrite (u64_id (Z.shiftl r 8)). 2: { rewrite Z.shiftl_mul_pow2 by lia. change (2 ^ 8) with 256. change (2 ^ 64) with 18446744073709551616. lia. }
  destruct (Z.ltb_spec (Z.lor b (Z.shiftl r 8)) 2048); [|lia]. rewrite Ee.
  exists (8 * Z.of_nat n + e). split; [f_equal; apply u64_id; change (2 ^ 64) with 18446744073709551616; lia|]. split; [lia|].
  rewrite bit_val by (auto; lia). split; [exact Ht|].
  rewrite (count_split _ 0 (8 * Z.of_nat n)) by lia. rewrite count_val by (auto; lia). rewrite <- firstn_map.
  rewrite (count_ext _ (fun i => Z.testbit b (i + - (8 * Z.of_nat n)))).
  - rewrite count_shift. replace (8 * Z.of_nat n + - (8 * Z.of_nat n)) with 0 by lia. replace (8 * Z.of_nat n + e + - (8 * Z.of_nat n)) with e by lia. rewrite Hc. unfold r. lia.
  - intros i Hi2. replace i with (8 * Z.of_nat n + (i - 8 * Z.of_nat n)) at 1 by lia. rewrite bit_val by (auto; lia). f_equal.
Qed.
Lemma pdep_none k mask n : 0 <= k -> forall i j, 0 <= j -> j + count (Z.testbit mask) i (i + Z.of_nat n) <= k -> pdep_from n i j (Z.shiftl 1 k) mask = 0.
Proof.
  intros Hk. induction n as [|n IH]; intros i j Hj H; cbn [pdep_from]; [reflexivity|]. rewrite Nat2Z.inj_succ in H. rewrite count_cons in H by lia.
  replace (i + Z.succ (Z.of_nat n)) with (i + 1 + Z.of_nat n) in H by lia. pose proof (count_range (Z.testbit mask) (i + 1) (i + 1 + Z.of_nat n) ltac:(lia)).
  destruct (Z.testbit mask i) eqn:E; cbn [Z.b2z] in H.
  - rewrite IH by lia. rewrite shiftl1_testbit by lia. destruct (Z.eqb_spec j k); [lia|]. replace (k =? j) with false by lia. reflexivity.
  - apply IH; lia.
Qed.
(** ** the statements of Properties.v *)
Theorem select_found x k : 0 <= x < 2 ^ 64 -> 0 <= k < ones_below x 64 ->
  exists e, (e < 64)%nat /\ Z.testbit x (Z.of_nat e) = true /\ ones_below x e = k /\ select64 x k = Ok (Z.of_nat e) /\ bit_select x k = Z.of_nat e.
Proof.
  intros Hx Hk. rewrite ones_below_count in Hk. destruct (select64_spec x k Hx ltac:(lia) ltac:(apply Hk)) as (e & E & He & Ht & Hc).
  exists (Z.to_nat e). rewrite Z2Nat.id by lia. split; [lia|]. split; [exact Ht|]. rewrite ones_below_count, Z2Nat.id by lia. split; [exact Hc|]. split; [exact E|].
  rewrite <- (Z2Nat.id e) by lia. apply select_spec; [lia|rewrite Z2Nat.id by lia; exact Ht|]. rewrite ones_below_count, Z2Nat.id by lia. exact Hc.
Qed.
Theorem select_missing x k : 0 <= x < 2 ^ 64 -> ones_below x 64 <= k -> select64 x k = Ok 64 /\ (k < 64 -> bit_select x k = 64).
Proof.
  intros Hx Hk. rewrite ones_below_count in Hk. change (Z.of_nat 64) with 64 in Hk. split.
  - unfold select64. rewrite (popcount_count x 64) by lia. destruct (Z.leb_spec (count (Z.testbit x) 0 64) k); [reflexivity|lia].
  - intros Hk2. pose proof (count_range (Z.testbit x) 0 64 ltac:(lia)). unfold bit_select, pdep. rewrite pdep_none; [reflexivity|lia|lia|exact Hk].
Qed.
