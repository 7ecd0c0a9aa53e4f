(** ShrinkInfixSize: a block of the default capacity keeps every element, cut to
    the new width. *)
From Coq Require Import ZArith List Bool Lia Sorted.
From Coq Require Import ZifyBool ZifyNat.
From Verif Require Import Base Util Store Bits View Cells Lowbit StoreFind StoreInsert StoreQuery Layout StoreList Spec StoreRep.
Import ListNotations.
Open Scope Z_scope.

(** the new value of a slot that loses its [d] lowest bits *)
Definition cut (d x : Z) : Z := Z.lor (Z.shiftr x d) (if tzcnt x <? d then 1 else 0).

Lemma tz_unique x t k : 0 <= t -> 0 <= k -> x = 2 ^ t * (2 * k + 1) -> tzcnt x = t.
Proof.
  intros Ht Hk E. pose proof (Z.pow_pos_nonneg 2 t ltac:(lia) ltac:(lia)). apply tzcnt_unique; try nia.
  - rewrite E, Z.mul_comm, <- Z.shiftl_mul_pow2, Z.shiftl_spec, Z.sub_diag by lia. apply Z.testbit_odd_0.
  - intros i Hi. rewrite E, Z.mul_comm, <- Z.shiftl_mul_pow2, Z.shiftl_spec by lia. apply Z.testbit_neg_r. lia.
Qed.
(** the two cases *)
Lemma cut_cases d x : 0 <= d -> 0 < x < 2 ^ 64 ->
  (exists t k, 0 <= t /\ 0 <= k /\ x = 2 ^ d * (2 ^ t * (2 * k + 1)) /\ lowbit x = 2 ^ d * 2 ^ t /\ cut d x = 2 ^ t * (2 * k + 1) /\ lowbit (cut d x) = 2 ^ t) \/
  (exists t m k, 0 <= t /\ 1 <= m /\ 0 <= k /\ d = t + m /\ x = 2 ^ t * (2 * k + 1) /\ lowbit x = 2 ^ t /\ cut d x = 2 * (k / 2 ^ m) + 1 /\ lowbit (cut d x) = 1).
Proof.
  intros Hd Hx. destruct (tz_decomp x ltac:(lia)) as (k & Hk & E). pose proof (lowbit_pow x Hx) as El. unfold cut.
  destruct (tzcnt_spec x ltac:(lia)) as (Ht & _). set (t := tzcnt x) in *. clearbody t. destruct (Z.ltb_spec t d).
  - right. exists t, (d - t), k. split; [exact Ht|]. split; [lia|]. split; [lia|]. split; [lia|]. split; [exact E|]. split; [exact El|].
    assert (E2 : Z.lor (Z.shiftr x d) 1 = 2 * (k / 2 ^ (d - t)) + 1).
    { assert (0 <= Z.shiftr x d) by (apply Z.shiftr_nonneg; lia).
      assert (L1 : forall y, 0 <= y -> Z.lor y 1 = 2 * (y / 2) + 1).
      { clear. intros y Hy. apply Z.bits_inj'. intros j Hj. rewrite Z.lor_spec. destruct (Z.eq_dec j 0) as [->|Hn].
        - rewrite Z.testbit_odd_0. destruct (Z.testbit y 0); reflexivity.
        - replace j with (Z.succ (j - 1)) by lia. rewrite Z.testbit_odd_succ by lia.
          rewrite <- Z.div2_div, Z.div2_spec, Z.shiftr_spec by lia. replace (Z.succ (j - 1)) with (j - 1 + 1) by lia.
          rewrite (Z.bits_above_log2 1) by (simpl; lia). apply orb_false_r. }
      rewrite L1 by assumption. f_equal. f_equal. rewrite Z.shiftr_div_pow2 by lia.
      replace d with (t + (d - t)) at 1 by lia. rewrite Z.pow_add_r by lia.
      pose proof (Z.pow_pos_nonneg 2 t ltac:(lia) ltac:(lia)). pose proof (Z.pow_pos_nonneg 2 (d - t) ltac:(lia) ltac:(lia)).
      rewrite E at 1. rewrite Z.div_mul_cancel_l by lia. rewrite Z.div_div by lia. rewrite (Z.mul_comm (2 ^ (d - t)) 2). rewrite <- Z.div_div by lia.
      f_equal. replace (2 * k + 1) with (1 + k * 2) by lia. rewrite Z.div_add by lia. reflexivity. }
    rewrite E2. split; [reflexivity|]. apply lowbit_odd.
    + pose proof (Z.pow_pos_nonneg 2 t ltac:(lia) ltac:(lia)). pose proof (Z.pow_pos_nonneg 2 (d - t) ltac:(lia) ltac:(lia)).
      assert (k / 2 ^ (d - t) <= k) by (apply Z.div_le_upper_bound; nia). pose proof (Z.div_pos k (2 ^ (d - t)) ltac:(lia) ltac:(lia)). nia.
    + rewrite Z.odd_add, Z.odd_mul. reflexivity.
  - left. exists (t - d), k. pose proof (Z.pow_pos_nonneg 2 d ltac:(lia) ltac:(lia)). pose proof (Z.pow_pos_nonneg 2 (t - d) ltac:(lia) ltac:(lia)).
    assert (Ep : 2 ^ t = 2 ^ d * 2 ^ (t - d)) by (rewrite <- Z.pow_add_r by lia; f_equal; lia).
    assert (Ex : x = 2 ^ d * (2 ^ (t - d) * (2 * k + 1))) by (rewrite E, Ep; lia).
    assert (E2 : Z.lor (Z.shiftr x d) 0 = 2 ^ (t - d) * (2 * k + 1)).
    { rewrite Z.lor_0_r, Z.shiftr_div_pow2 by lia. rewrite Ex at 1. rewrite Z.mul_comm. apply Z.div_mul. lia. }
    rewrite E2. split; [lia|]. split; [lia|]. split; [exact Ex|]. split; [lia|]. split; [reflexivity|].
    apply lowbit_unique; [lia| |exists k; reflexivity]. nia.
Qed.
Lemma cut_range s d x : 0 <= d < s -> s <= 64 -> 0 < x < 2 ^ s -> 0 < cut d x < 2 ^ (s - d).
Proof.
  intros Hd Hs Hx. pose proof (pow2_le_mono s 64 ltac:(lia)). assert (Ep : 2 ^ s = 2 ^ d * 2 ^ (s - d)) by (rewrite <- Z.pow_add_r by lia; f_equal; lia).
  pose proof (Z.pow_pos_nonneg 2 d ltac:(lia) ltac:(lia)). pose proof (Z.pow_pos_nonneg 2 (s - d) ltac:(lia) ltac:(lia)).
  destruct (cut_cases d x ltac:(lia) ltac:(lia)) as [(t & k & Ht & Hk & E & _ & -> & _)|(t & m & k & Ht & Hm & Hk & Ed & E & _ & -> & _)].
  - pose proof (Z.pow_pos_nonneg 2 t ltac:(lia) ltac:(lia)). nia.
  - pose proof (Z.pow_pos_nonneg 2 m ltac:(lia) ltac:(lia)). pose proof (Z.pow_pos_nonneg 2 t ltac:(lia) ltac:(lia)).
    pose proof (Z.div_pos k (2 ^ m) ltac:(lia) ltac:(lia)). split; [lia|].
    assert (E1 : 2 ^ (s - d) = 2 * 2 ^ (s - d - 1)) by (rewrite <- Z.pow_succ_r by lia; f_equal; lia).
    assert (k / 2 ^ m < 2 ^ (s - d - 1)); [|lia]. apply Z.div_lt_upper_bound; [lia|]. assert (E3 : 2 ^ d = 2 ^ t * 2 ^ m) by (rewrite <- Z.pow_add_r by lia; f_equal; lia). rewrite E1, E3 in Ep.
    pose proof (Z.pow_pos_nonneg 2 (s - d - 1) ltac:(lia) ltac:(lia)). set (a := 2 ^ t) in *. set (b := 2 ^ m) in *. set (w := 2 ^ (s - d - 1)) in *. assert (a * (2 * k + 1) < a * (2 * (b * w))) by lia. nia.
Qed.
Lemma cut_base d x : 0 <= d -> 0 < x < 2 ^ 64 -> lbase (cut d x) = 2 * (lbase x / 2 ^ (d + 1)).
Proof.
  intros Hd Hx. unfold lbase. rewrite Z.pow_add_r by lia. change (2 ^ 1) with 2. pose proof (Z.pow_pos_nonneg 2 d ltac:(lia) ltac:(lia)).
  destruct (cut_cases d x ltac:(lia) ltac:(lia)) as [(t & k & Ht & Hk & E & -> & -> & ->)|(t & m & k & Ht & Hm & Hk & -> & E & -> & -> & ->)].
  - replace (x - 2 ^ d * 2 ^ t) with ((2 ^ t * k) * (2 ^ d * 2)) by (rewrite E; lia). rewrite Z.div_mul by lia. lia.
  - pose proof (Z.pow_pos_nonneg 2 m ltac:(lia) ltac:(lia)). pose proof (Z.pow_pos_nonneg 2 t ltac:(lia) ltac:(lia)).
    replace (x - 2 ^ t) with ((2 ^ t * 2) * k) by (rewrite E; lia). rewrite Z.pow_add_r by lia. replace (2 ^ t * 2 ^ m * 2) with ((2 ^ t * 2) * 2 ^ m) by lia.
    rewrite Z.div_mul_cancel_l by lia. lia.
Qed.
Lemma cut_top d x : 0 <= d -> 0 < x < 2 ^ 64 -> (x + lowbit x - 1) / 2 ^ d <= cut d x + lowbit (cut d x) - 1.
Proof.
  intros Hd Hx. pose proof (Z.pow_pos_nonneg 2 d ltac:(lia) ltac:(lia)).
  destruct (cut_cases d x ltac:(lia) ltac:(lia)) as [(t & k & Ht & Hk & E & -> & -> & ->)|(t & m & k & Ht & Hm & Hk & Ed & E & -> & -> & ->)].
  - apply Z.lt_succ_r. apply Z.div_lt_upper_bound; [lia|]. rewrite E. nia.
  - pose proof (Z.pow_pos_nonneg 2 m ltac:(lia) ltac:(lia)). pose proof (Z.pow_pos_nonneg 2 t ltac:(lia) ltac:(lia)).
    apply Z.lt_succ_r. apply Z.div_lt_upper_bound; [lia|]. rewrite E, Ed, Z.pow_add_r by lia.
    pose proof (Z.div_mod k (2 ^ m) ltac:(lia)). pose proof (Z.mod_pos_bound k (2 ^ m) ltac:(lia)). nia.
Qed.
(** whatever an element covered, the cut element covers *)
Lemma cut_hit d l r x : 0 <= d -> 0 < x < 2 ^ 64 -> hit l r x -> hit (l / 2 ^ d) (r / 2 ^ d) (cut d x).
Proof.
  intros Hd Hx [H1 H2]. pose proof (Z.pow_pos_nonneg 2 d ltac:(lia) ltac:(lia)). split.
  - rewrite cut_base by assumption. rewrite Z.pow_add_r by lia. change (2 ^ 1) with 2. rewrite <- Z.div_div by lia.
    pose proof (Z.div_le_mono _ _ (2 ^ d) ltac:(lia) H1). pose proof (Z.div_mod (lbase x / 2 ^ d) 2 ltac:(lia)). pose proof (Z.mod_pos_bound (lbase x / 2 ^ d) 2 ltac:(lia)). lia.
  - pose proof (cut_top d x Hd Hx). pose proof (Z.div_le_mono _ _ (2 ^ d) ltac:(lia) H2). lia.
Qed.
Lemma cut_mono d x y : 0 <= d -> 0 < x < 2 ^ 64 -> 0 < y < 2 ^ 64 -> lbase x <= lbase y -> lbase (cut d x) <= lbase (cut d y).
Proof.
  intros Hd Hx Hy H. rewrite !cut_base by assumption. pose proof (Z.pow_pos_nonneg 2 (d + 1) ltac:(lia) ltac:(lia)).
  pose proof (Z.div_le_mono _ _ (2 ^ (d + 1)) ltac:(lia) H). lia.
Qed.
Lemma tz_jn s p x : 1 <= s <= 53 -> 0 <= p < 1024 -> 0 < x < 2 ^ s -> tzcnt (jn s (p, x)) = tzcnt x.
Proof.
  intros Hs Hp Hx. unfold jn. cbn [fst snd]. destruct (tz_decomp x ltac:(lia)) as (k & Hk & E). destruct (tzcnt_spec x ltac:(lia)) as (Ht & _). set (t := tzcnt x) in *.
  assert (Hts : t < s). { destruct (Z.lt_ge_cases t s); [assumption|]. pose proof (Z.pow_le_mono_r 2 s t ltac:(lia) ltac:(lia)). pose proof (Z.pow_pos_nonneg 2 t ltac:(lia) ltac:(lia)). nia. }
  apply (tz_unique _ t (k + p * 2 ^ (s - t - 1))); [lia| |].
  - pose proof (Z.pow_pos_nonneg 2 (s - t - 1) ltac:(lia) ltac:(lia)). nia.
  - assert (Ep : 2 ^ s = 2 ^ t * (2 * 2 ^ (s - t - 1))) by (rewrite <- Z.pow_succ_r, <- Z.pow_add_r by lia; f_equal; lia). rewrite E, Ep. lia.
Qed.
Lemma cut_jn s d p x : 1 <= s <= 53 -> 0 <= d < s -> 0 <= p < 1024 -> 0 < x < 2 ^ s -> cut d (jn s (p, x)) = jn (s - d) (p, cut d x).
Proof.
  intros Hs Hd Hp Hx. unfold cut. rewrite tz_jn by assumption. unfold jn. cbn [fst snd].
  assert (Ep : 2 ^ s = 2 ^ d * 2 ^ (s - d)) by (rewrite <- Z.pow_add_r by lia; f_equal; lia).
  pose proof (Z.pow_pos_nonneg 2 d ltac:(lia) ltac:(lia)). pose proof (Z.pow_pos_nonneg 2 (s - d) ltac:(lia) ltac:(lia)).
  rewrite !Z.shiftr_div_pow2 by lia. replace (p * 2 ^ s + x) with (x + p * 2 ^ (s - d) * 2 ^ d) by (rewrite Ep; lia). rewrite Z.div_add by lia.
  destruct (tzcnt x <? d); [|rewrite !Z.lor_0_r; lia].
  assert (L1 : forall y, 0 <= y -> Z.lor y 1 = 2 * (y / 2) + 1).
  { clear. intros y Hy. apply Z.bits_inj'. intros j Hj. rewrite Z.lor_spec. destruct (Z.eq_dec j 0) as [->|Hn].
    - rewrite Z.testbit_odd_0. destruct (Z.testbit y 0); reflexivity.
    - replace j with (Z.succ (j - 1)) by lia. rewrite Z.testbit_odd_succ by lia.
      rewrite <- Z.div2_div, Z.div2_spec, Z.shiftr_spec by lia. replace (Z.succ (j - 1)) with (j - 1 + 1) by lia.
      rewrite (Z.bits_above_log2 1) by (simpl; lia). apply orb_false_r. }
  pose proof (Z.div_pos x (2 ^ d) ltac:(lia) ltac:(lia)). rewrite !L1 by nia.
  assert (E1 : 2 ^ (s - d) = 2 ^ (s - d - 1) * 2) by (rewrite Z.mul_comm, <- Z.pow_succ_r by lia; f_equal; lia). rewrite E1, Z.mul_assoc, Z.div_add by lia. lia.
Qed.

Section S.
Variable c : cfg.
Hypothesis T : tables_ok c.

(** the copied bitmaps *)
Definition copied (S : Z) (st ns : store) : Prop :=
  (forall j, 0 <= j < 1088 + S -> tb ns j = true -> tb st j = true) /\
  (S mod 8 <> 0 -> forall j, 0 <= j < 1088 + S -> tb ns j = tb st j) /\
  (forall j, 1088 + S <= j < 64 * wc ns -> tb ns j = false).
Lemma copy_wp S st ns0 (Q : store -> Prop) : 0 < S -> 1088 + S + 7 <= limit c st -> 1088 + S + 7 <= limit c ns0 ->
  (forall j, 0 <= j < 64 * wc ns0 -> tb ns0 j = false) ->
  (forall ns, same ns0 ns -> copied S st ns -> Q ns) ->
  wp (let total := 64 + target_size + S in
      let nbytes := (total + 7) / 8 in
      let* bits := rd c st 0 (8 * nbytes) in
      let* ns1 := wr c ns0 0 (8 * nbytes) bits in
      let* last := rd c ns1 (8 * (nbytes - 1)) 8 in
      wr c ns1 (8 * (nbytes - 1)) 8 (Z.land last (bitmask (total mod 8)))) Q.
Proof.
  intros HS Hl1 Hl2 Hz HQ. unfold target_size. replace (64 + 1024 + S) with (1088 + S) by lia. cbv zeta.
  set (n := (1088 + S + 7) / 8). assert (Hn : 8 * n <= 1088 + S + 7 < 8 * n + 8) by (unfold n; pose proof (Z.div_mod (1088 + S + 7) 8 ltac:(lia)); pose proof (Z.mod_pos_bound (1088 + S + 7) 8 ltac:(lia)); lia).
  apply wp_bind, rd_wp; [lia|lia|]. apply wp_bind, wr_wp; [lia|lia|lia|]. intros n1 Hs1 H1.
  apply wp_bind, rd_wp; [lia|rewrite (same_limit c _ _ Hs1); lia|]. apply wr_wp; [lia|lia|rewrite (same_limit c _ _ Hs1); lia|]. intros n2 Hs2 H2.
  assert (Hb : forall j, 0 <= j -> tb n2 j = if j <? 8 * (n - 1) then tb st j else if j <? 8 * n then (j - 8 * (n - 1) <? (1088 + S) mod 8) && tb st j else tb ns0 j).
  { intros j Hj. rewrite H2 by lia. pose proof (Z.mod_pos_bound (1088 + S) 8 ltac:(lia)) as Hm8.
    assert (H1' : tb n1 j = if j <? 8 * n then tb st j else tb ns0 j).
    { rewrite H1 by lia. destruct (Z.leb_spec 0 j); [|lia]. cbn [andb]. replace (j <? 0 + 8 * n) with (j <? 8 * n) by lia. destruct (Z.ltb_spec j (8 * n)); [|reflexivity].
      rewrite rd_testbit by lia. replace (j - 0 <? 8 * n) with true by lia. cbn [andb]. f_equal. lia. }
    destruct (Z.ltb_spec j (8 * (n - 1))).
    - replace (8 * (n - 1) <=? j) with false by lia. cbn [andb]. rewrite H1'. replace (j <? 8 * n) with true by lia. reflexivity.
    - replace (8 * (n - 1) <=? j) with true by lia. cbn [andb]. replace (j <? 8 * (n - 1) + 8) with (j <? 8 * n) by lia. destruct (Z.ltb_spec j (8 * n)); [|rewrite H1'; replace (j <? 8 * n) with false by lia; reflexivity].
      rewrite Z.land_spec, rd_testbit by lia. replace (j - 8 * (n - 1) <? 8) with true by lia. cbn [andb]. replace (8 * (n - 1) + (j - 8 * (n - 1))) with j by lia.
      rewrite H1'. unfold bitmask. rewrite ones_testbit by lia. replace (j <? 8 * n) with true by lia. apply andb_comm. }
  assert (Hm : (1088 + S) mod 8 = S mod 8) by (replace (1088 + S) with (S + 136 * 8) by lia; apply Z.mod_add; lia).
  assert (Hsame : same ns0 n2) by (eapply same_trans; eassumption).
  apply HQ; [exact Hsame|]. split; [|split].
  - intros j Hj. rewrite Hb by lia. destruct (Z.ltb_spec j (8 * (n - 1))); [auto|]. destruct (Z.ltb_spec j (8 * n)); [|lia]. rewrite andb_true_iff. tauto.
  - intros H8 j Hj. rewrite Hb by lia. destruct (Z.ltb_spec j (8 * (n - 1))); [reflexivity|]. destruct (Z.ltb_spec j (8 * n)); [|lia].
    pose proof (Z.div_mod (1088 + S) 8 ltac:(lia)). pose proof (Z.mod_pos_bound (1088 + S) 8 ltac:(lia)). replace (j - 8 * (n - 1) <? (1088 + S) mod 8) with true; [reflexivity|]. lia.
  - intros j Hj. assert (Ew : wc n2 = wc ns0) by (destruct Hsame as (_ & -> & _); reflexivity). rewrite Ew in Hj. rewrite Hb by lia.
    destruct (Z.ltb_spec j (8 * (n - 1))); [lia|]. destruct (Z.ltb_spec j (8 * n)); [|apply Hz; lia].
    pose proof (Z.div_mod (1088 + S) 8 ltac:(lia)). pose proof (Z.mod_pos_bound (1088 + S) 8 ltac:(lia)). replace (j - 8 * (n - 1) <? (1088 + S) mod 8) with false; [reflexivity|]. lia.
Qed.

Definition cut0 (d x : Z) : Z := if x =? 0 then 0 else cut d x.
Definition cutc (d : Z) (cl : cellf) : cellf := fun i => match cl i with Some (p, x) => Some (p, cut d x) | None => None end.
Lemma cutc_full d cl i : full (cutc d cl) i <-> full cl i.
Proof. unfold full, cutc. destruct (cl i) as [[p x]|]; split; congruence. Qed.
Lemma cutc_run d cl p i : in_run (cutc d cl) p i = in_run cl p i.
Proof. unfold in_run, cutc. destruct (cl i) as [[q x]|]; reflexivity. Qed.
Lemma cutc_re d cl i : re_of (cutc d cl) i = re_of cl i.
Proof. unfold re_of. unfold cutc at 1. destruct (cl i) as [[q x]|]; [|reflexivity]. rewrite cutc_run. reflexivity. Qed.
Lemma cutc_content d cl n : forall a, cont (cutc d cl) a n = map (fun e => (fst e, cut d (snd e))) (cont cl a n).
Proof.
  induction n as [|n IH]; intros a; [reflexivity|]. cbn [cont]. rewrite map_app, IH. f_equal. unfold cutc. destruct (cl a) as [[p x]|]; reflexivity.
Qed.
Lemma cutc_wf s S m d cl : 1 <= s <= 53 -> 0 <= d < s -> wf s S m cl -> wf (s - d) S m (cutc d cl).
Proof.
  intros Hs Hd HW. pose proof (pow2_le_mono s 64 ltac:(lia)) as Hp64.
  assert (Hsome : forall i p y, cutc d cl i = Some (p, y) -> exists x, cl i = Some (p, x) /\ y = cut d x /\ 0 <= i < S /\ 0 <= p < 1024 /\ 0 < x < 2 ^ s).
  { intros i p y E. unfold cutc in E. destruct (cl i) as [[q x]|] eqn:Ei; [|discriminate]. injection E as <- <-. exists x. destruct (w_dom _ _ _ _ HW _ _ _ Ei) as (D1 & D2 & D3). auto. }
  constructor.
  - intros i p y E. destruct (Hsome i p y E) as (x & E1 & -> & D1 & D2 & D3). split; [exact D1|]. split; [exact D2|]. apply cut_range; lia.
  - intros i j p y q z Hij Ei Ej. destruct (Hsome _ _ _ Ei) as (x & E1 & -> & D1 & D2 & D3). destruct (Hsome _ _ _ Ej) as (x' & E1' & -> & D1' & D2' & D3').
    destruct (w_mono _ _ _ _ HW i j p x q x' Hij E1 E1') as [Hlt|[He Hle]]; [left; exact Hlt|right]. split; [exact He|]. apply cut_mono; lia.
  - intros i p y E. destruct (Hsome i p y E) as (x & E1 & _). destruct (w_place _ _ _ _ HW i p x E1) as [[H1 H2]|[H1 H2]]; [left|right]; (split; [exact H1|]); intros j Hj; apply cutc_full; auto.
Qed.
Lemma V_zero s S u w o r st : V c s S u w o r (fun _ => 0) 0 0 st -> (forall p, 0 <= p < 1024 -> o p = false) -> (forall i, 0 <= i < S -> r i = false) ->
  forall j, 0 <= j < 1088 + S -> tb st j = false.
Proof.
  intros [] Ho Hr j Hj. assert (j < 32 \/ 32 <= j < 64 \/ 64 <= j < 1088 \/ 1088 <= j) as [H|[H|[H|H]]] by lia.
  - unfold tb. transitivity (Z.testbit (low 32 (mem st)) j); [rewrite low_testbit by lia; replace (j <? 32) with true by lia; reflexivity|]. rewrite V_p0. apply Z.bits_0.
  - unfold tb. transitivity (Z.testbit (low 32 (Z.shiftr (mem st) 32)) (j - 32)).
    + rewrite low_testbit, Z.shiftr_spec by lia. replace (j - 32 <? 32) with true by lia. cbn [andb]. f_equal. lia.
    + rewrite V_p1. apply Z.bits_0.
  - replace j with (64 + (j - 64)) by lia. rewrite V_occ by lia. apply Ho. lia.
  - replace j with (1088 + (j - 1088)) by lia. rewrite V_re by lia. apply Hr. lia.
Qed.

Theorem shrink_store_rep s s' ti st L (Q : store -> Prop) : fits c s' -> 1 <= s' <= s -> rep c s ti true st L ->
  (get_size_grade st = grow_sep /\ c_size c grow_sep mod 8 <> 0 \/ L = []) ->
  (forall st', rep c s' ti true st' (map (cut (s - s')) L) -> status st' = status st -> Q st') ->
  wp (shrink_store c s s' st) Q.
Proof.
  intros Hf Hs' HR Hcase HQ. destruct HR as (u & o & r & v & a0 & a1 & cl & scalar & els & Hi & Hu & HG & Hcont & HL & Hc).
  pose proof (g_s _ _ _ _ _ _ _ _ _ _ _ _ _ HG) as Hs. pose proof (g_V _ _ _ _ _ _ _ _ _ _ _ _ _ HG) as HV. pose proof (g_wf _ _ _ _ _ _ _ _ _ _ _ _ _ HG) as HW.
  pose proof (g_ag _ _ _ _ _ _ _ _ _ _ _ _ _ HG) as HA. pose proof (grade_range u) as Hg. pose proof (size_pos c T (st_grade u) Hg) as HS.
  set (g := st_grade u) in *. set (S := c_size c g) in *. set (d := s - s'). replace s' with (s - d) in * by lia. assert (Hd : 0 <= d < s) by lia. clearbody d.
  pose proof (V_slots _ _ _ _ _ _ _ _ _ _ _ HV) as Esl. pose proof (V_status _ _ _ _ _ _ _ _ _ _ _ HV) as Est. pose proof (V_owned _ _ _ _ _ _ _ _ _ _ _ HV) as Eow.
  pose proof (V_fits _ _ _ _ _ _ _ _ _ _ _ HV) as Hfit.
  unfold shrink_store. rewrite Esl. cbv zeta. replace (s - (s - d)) with d in * by lia.
  set (ns0 := new_store c S (s - d) grow_sep).
  assert (Hz0 : forall j, 0 <= j < 64 * wc ns0 -> tb ns0 j = false).
  { intros j Hj. unfold tb, ns0, new_store, set_size_grade, with_status. simpl. rewrite Z.shiftl_spec by lia. apply Z.testbit_neg_r. unfold ns0, new_store, set_size_grade, with_status in Hj. simpl in Hj. lia. }
  assert (Hwc0 : wc ns0 = ptr_word_count S (s - d)) by reflexivity.
  assert (Hl0 : 1088 + S + 7 <= limit c ns0).
  { unfold limit. rewrite Hwc0. pose proof (Hf g Hg) as Hfg. fold S in Hfg. pose proof (Z.div_mod (1088 + S + S * (s - d)) 8 ltac:(lia)). pose proof (Z.mod_pos_bound (1088 + S + S * (s - d)) 8 ltac:(lia)). nia. }
  assert (Hl : 1088 + S + 7 <= limit c st).
  { unfold addr in Hfit. pose proof (Z.div_mod (1088 + S + S * s) 8 ltac:(lia)). pose proof (Z.mod_pos_bound (1088 + S + S * s) 8 ltac:(lia)). nia. }
  match goal with |- wp ?X _ => enough (HX : wp (let* ns2 := (let total := 64 + target_size + S in let nbytes := (total + 7) / 8 in
      let* bits := rd c st 0 (8 * nbytes) in let* ns1 := wr c ns0 0 (8 * nbytes) bits in let* last := rd c ns1 (8 * (nbytes - 1)) 8 in
      wr c ns1 (8 * (nbytes - 1)) 8 (Z.land last (bitmask (total mod 8)))) in
      let* ns3 := forz (Z.to_nat S) 0 (fun i ns => let* old := get_slot c s st i in if old =? 0 then Ok ns else set_slot c (s - d) ns i (Z.lor (Z.shiftr old d) (if s - d + lowbit_pos old <? s then 1 else 0))) ns2 in
      let* _ := free_block st in Ok (mkstore (status st) (wc ns3) (mem ns3) (owned ns3))) Q) end.
  { revert HX. cbv zeta. clear. destruct (rd c st 0 _); cbn [bind]; auto. destruct (wr c ns0 0 _ _); cbn [bind]; auto. destruct (rd c _ _ 8); cbn [bind]; auto. }
  apply wp_bind. apply copy_wp; auto. intros ns2 Hs2 (C1 & C2 & C3).
  assert (Ew2 : wc ns2 = ptr_word_count S (s - d)) by (destruct Hs2 as (_ & -> & _); exact Hwc0).
  assert (Eo2 : owned ns2 = true) by (destruct Hs2 as (_ & _ & ->); reflexivity).
  assert (Est2 : status ns2 = ugrade 0 grow_sep) by (destruct Hs2 as (-> & _); reflexivity).
  set (f := fun (i : Z) (ns : store) => let* old := get_slot c s st i in if old =? 0 then Ok ns else set_slot c (s - d) ns i (Z.lor (Z.shiftr old d) (if s - d + lowbit_pos old <? s then 1 else 0))).
  assert (Hv : forall i, 0 <= i < S -> v i = sl_of cl i) by (intros i Hi2; apply (a_sl _ _ _ _ _ _ _ HA); exact Hi2).
  assert (Hend : 1088 + S + S * (s - d) <= 64 * wc ns2).
  { rewrite Ew2. unfold ptr_word_count, target_size. pose proof (Z.div_mod (1024 + S * (s - d + 1) + 63) 64 ltac:(lia)). pose proof (Z.mod_pos_bound (1024 + S * (s - d + 1) + 63) 64 ltac:(lia)). nia. }
  assert (Hfin : forall cl' o' r' v' ns3, V c (s - d) S u true o' r' v' a0 a1 ns3 -> wf (s - d) S (fun p => mapped_pos c p g scalar) cl' -> agree S cl' o' r' v' a0 a1 ->
    map (jn (s - d)) (content cl' 0 S) = map (cut d) L -> Z.of_nat (length (content cl' 0 S)) = Z.of_nat (length els) -> status ns3 = status st -> Q ns3).
  { intros cl' o' r' v' ns3 HV3 HW3 HA3 EL Hlen E3. apply HQ; [|exact E3]. exists u, o', r', v', a0, a1, cl', scalar, (content cl' 0 S).
    split; [exact Hi|]. split; [exact Hu|]. split.
    { constructor; [exact HV3|exact HW3|exact HA3|exact (g_mr _ _ _ _ _ _ _ _ _ _ _ _ _ HG)|exact (g_mm _ _ _ _ _ _ _ _ _ _ _ _ _ HG)|lia]. }
    split; [reflexivity|]. split; [symmetry; exact EL|]. fold g. lia. }
  apply wp_bind. destruct Hcase as [[Hgr H8]|Hnil].
  - (* default capacity *)
    assert (Eg : g = grow_sep) by (unfold get_size_grade in Hgr; rewrite Est in Hgr; exact Hgr).
    specialize (C2 ltac:(unfold S; rewrite Eg; exact H8)).
    destruct (ugrade_spec 0 grow_sep ltac:(lia) ltac:(lia)) as (_ & _ & Eg2 & _).
    assert (HV2 : V c (s - d) S (ugrade 0 grow_sep) true o r (fun _ => 0) a0 a1 ns2).
    { destruct HV. constructor; auto; try lia.
      - unfold slots, get_size_grade. rewrite Est2. fold (st_grade (ugrade 0 grow_sep)). rewrite Eg2. unfold S. rewrite Eg. reflexivity.
      - unfold addr, limit. rewrite Ew2. apply (Hf g Hg).
      - intros p Hp. rewrite C2 by lia. apply V_occ. exact Hp.
      - intros i Hi2. rewrite C2 by lia. apply V_re. exact Hi2.
      - intros i Hi2. apply Z.bits_inj'. intros j Hj. rewrite Z.bits_0, rd_testbit by (unfold addr; nia). destruct (Z.ltb_spec j (s - d)); [|reflexivity]. cbn [andb]. apply C3. unfold addr. nia.
      - rewrite <- V_p0. apply Z.bits_inj'. intros j Hj. rewrite !low_testbit by lia. destruct (Z.ltb_spec j 32); [|reflexivity]. cbn [andb]. apply (C2 j). lia.
      - rewrite <- V_p1. apply Z.bits_inj'. intros j Hj. rewrite !low_testbit, !Z.shiftr_spec by lia. destruct (Z.ltb_spec j 32); [|reflexivity]. cbn [andb]. apply (C2 (j + 32)). lia. }
    apply (wp_forz (fun i ns => V c (s - d) S (ugrade 0 grow_sep) true o r (fun j => if j <? i then cut0 d (v j) else 0) a0 a1 ns)).
    + apply (V_ext _ _ _ _ _ _ _ _ _ _ o r (fun j => if j <? 0 then cut0 d (v j) else 0) a0 a1 _ HV2); auto. intros i Hi2. replace (i <? 0) with false by lia. reflexivity.
    + intros i ns Hi2 HVi. unfold f. apply wp_bind. apply (get_slot_at _ _ _ _ _ _ _ _ _ _ _ _ _ HV); [lia|].
      rewrite Hv by lia. assert (Hx : sl_of cl i = 0 \/ 0 < sl_of cl i < 2 ^ s).
      { unfold sl_of. destruct (cl i) as [[p x]|] eqn:Ei; [right; apply (w_dom _ _ _ _ HW _ _ _ Ei)|left; reflexivity]. }
      destruct (Z.eqb_spec (sl_of cl i) 0) as [E0|E0].
      * cbn [wp]. apply (V_ext _ _ _ _ _ _ _ _ _ _ o r (fun j => if j <? i + 1 then cut0 d (v j) else 0) a0 a1 _ HVi); auto. intros j Hj.
        destruct (Z.eq_dec j i) as [->|Hne]; [|replace (j <? i + 1) with (j <? i) by lia; reflexivity].
        replace (i <? i) with false by lia. replace (i <? i + 1) with true by lia. rewrite Hv by lia. rewrite E0. reflexivity.
      * unfold lowbit_pos. replace (s - d + tzcnt (sl_of cl i) <? s) with (tzcnt (sl_of cl i) <? d) by lia. fold (cut d (sl_of cl i)).
        apply (set_slot_wp _ _ _ _ _ _ _ _ _ _ _ _ _ _ HVi); [lia|pose proof (cut_range s d (sl_of cl i) Hd ltac:(lia) ltac:(lia)); lia|].
        intros ns' HV'. apply (V_ext _ _ _ _ _ _ _ _ _ _ o r (fun j => if j <? i + 1 then cut0 d (v j) else 0) a0 a1 _ HV'); auto. intros j Hj. unfold updz.
        destruct (Z.eqb_spec j i) as [->|Hne]; [|replace (j <? i + 1) with (j <? i) by lia; reflexivity].
        replace (i <? i + 1) with true by lia. rewrite Hv by lia. unfold cut0. replace (sl_of cl i =? 0) with false by lia. reflexivity.
    + intros ns3 HV3. rewrite Z2Nat.id in HV3 by lia. apply wp_bind. unfold free_block. rewrite Eow. cbn [wp].
      apply (Hfin (cutc d cl) o r (fun j => cut0 d (v j))).
      * destruct HV3. constructor; auto; cbn [owned wc mem status]; try lia.
        -- intros i Hi2. rewrite V_sl by lia. replace (i <? 0 + S) with true by lia. reflexivity.
      * apply cutc_wf; auto.
      * destruct HA. constructor; auto.
        -- intros p Hp. rewrite a_occ by exact Hp. split; intros (i & Hi2); exists i; rewrite cutc_run in *; exact Hi2.
        -- intros i Hi2. rewrite cutc_re. apply a_re. exact Hi2.
        -- intros i Hi2. rewrite a_sl by exact Hi2. unfold sl_of, cutc. destruct (cl i) as [[p x]|] eqn:Ei; [|reflexivity].
           destruct (w_dom _ _ _ _ HW _ _ _ Ei) as (_ & _ & D3). unfold cut0. replace (x =? 0) with false by lia. reflexivity.
      * unfold content. rewrite cutc_content. fold (content cl 0 S). rewrite Hcont, HL, !map_map. apply map_ext_in. intros [p x] Hin. cbn [fst snd].
        rewrite <- Hcont in Hin. apply content_in in Hin as (i & _ & Ei). destruct (w_dom _ _ _ _ HW _ _ _ Ei) as (_ & D2 & D3). symmetry. apply cut_jn; lia.
      * unfold content. rewrite cutc_content, map_length. fold (content cl 0 S). rewrite Hcont. reflexivity.
      * reflexivity.
  - (* no elements *)
    assert (Hels : els = []) by (rewrite HL in Hnil; destruct els; [reflexivity|discriminate]). rewrite Hels in *.
    assert (Hnone : forall i, cl i = None).
    { intros i. destruct (cl i) as [[p x]|] eqn:Ei; [|reflexivity]. exfalso. destruct (w_dom _ _ _ _ HW _ _ _ Ei) as (D1 & _).
      assert (In (p, x) (content cl 0 S)) by (apply content_in; exists i; auto). rewrite Hcont in H. destruct H. }
    assert (Hsl : forall i, sl_of cl i = 0) by (intros i; unfold sl_of; rewrite Hnone; reflexivity).
    assert (Ho : forall p, 0 <= p < 1024 -> o p = false).
    { intros p Hp. destruct (o p) eqn:E; [|reflexivity]. apply (a_occ _ _ _ _ _ _ _ HA) in E as (i & Hi2); [|exact Hp]. unfold in_run in Hi2. rewrite Hnone in Hi2. discriminate. }
    assert (Hr : forall i, 0 <= i < S -> r i = false).
    { intros i Hi2. rewrite (a_re _ _ _ _ _ _ _ HA) by exact Hi2. unfold re_of. rewrite Hnone. reflexivity. }
    assert (E0 : a0 = 0) by (rewrite (a_p0 _ _ _ _ _ _ _ HA); apply count_false; intros; apply Ho; lia).
    assert (E1 : a1 = 0) by (rewrite (a_p1 _ _ _ _ _ _ _ HA); apply count_false; intros; apply Hr; lia).
    assert (Hst : forall j, 0 <= j < 1088 + S -> tb st j = false).
    { apply (V_zero s S u true o r st); auto. rewrite E0, E1 in HV. apply (V_ext _ _ _ _ _ _ _ _ _ _ o r (fun _ => 0) 0 0 _ HV); auto. intros i Hi2. rewrite Hv by exact Hi2. apply Hsl. }
    apply (wp_forz (fun _ ns => ns = ns2)); [reflexivity| |].
    + intros i ns Hi2 ->. unfold f. apply wp_bind. apply (get_slot_at _ _ _ _ _ _ _ _ _ _ _ _ _ HV); [lia|]. rewrite Hv, Hsl by lia. reflexivity.
    + intros ns -> . apply wp_bind. unfold free_block. rewrite Eow. cbn [wp].
      assert (HB : blank c (s - d) (c_size c g) u true (mkstore (status st) (wc ns2) (mem ns2) (owned ns2))).
      { apply blank_intro; auto; try lia. cbn [wc]. intros j Hj. change (tb ns2 j = false). destruct (Z.lt_ge_cases j (1088 + S)); [|apply C3; lia].
        destruct (tb ns2 j) eqn:E; [|reflexivity]. rewrite <- (Hst j) by lia. symmetry. apply C1; [lia|exact E]. }
      unfold blank in HB. fold S in HB. rewrite E0, E1 in *.
      apply (Hfin cl _ _ _ _ HB); [| | | |reflexivity].
      * constructor; intros; rewrite Hnone in *; discriminate.
      * constructor; try (intros; unfold re_of, sl_of; rewrite ?Hnone; reflexivity).
        -- intros p Hp. split; [discriminate|]. intros (i & Hi2). unfold in_run in Hi2. rewrite Hnone in Hi2. discriminate.
        -- symmetry. apply count_false. reflexivity.
      * rewrite Hcont, Hnil. reflexivity.
      * rewrite Hcont. reflexivity.
Qed.
End S.
