(** Proof library: weakest preconditions for the outcome monad, bit-level facts
    about words and memory. *)
From Coq Require Import ZArith List Bool Lia.
From Coq Require Import ZifyBool ZifyNat.
From Verif Require Import Base Util Store.
Import ListNotations.
Open Scope Z_scope.

Global Arguments Z.mul : simpl never.
Global Arguments Z.add : simpl never.
Global Arguments Z.sub : simpl never.
Global Arguments Z.pow : simpl never.
Global Arguments Z.div : simpl never.
Global Arguments Z.modulo : simpl never.
Global Arguments Z.quot : simpl never.
Global Arguments Z.rem : simpl never.
Global Arguments Z.shiftl : simpl never.
Global Arguments Z.shiftr : simpl never.
Global Arguments Z.land : simpl never.
Global Arguments Z.lor : simpl never.
Global Arguments Z.ldiff : simpl never.
Global Arguments Z.ones : simpl never.
Global Arguments Z.testbit : simpl never.
Global Arguments Z.of_nat : simpl never.
Global Arguments Z.to_nat : simpl never.
Global Arguments Z.eqb : simpl never.
Global Arguments Z.leb : simpl never.
Global Arguments Z.ltb : simpl never.

(** ** Weakest preconditions *)
Definition wp {A} (m : res A) (Q : A -> Prop) : Prop :=
  match m with Ok a => Q a | _ => False end.

Lemma wp_ok {A} (a : A) (Q : A -> Prop) : Q a -> wp (Ok a) Q.
Proof. exact (fun x => x). Qed.
Lemma wp_bind {A B} (m : res A) (f : A -> res B) (Q : B -> Prop) :
  wp m (fun a => wp (f a) Q) -> wp (bind m f) Q.
Proof. destruct m; simpl; auto. Qed.
Lemma wp_mono {A} (m : res A) (P Q : A -> Prop) :
  wp m P -> (forall a, P a -> Q a) -> wp m Q.
Proof. destruct m; simpl; auto. Qed.
Lemma wp_exists {A} (m : res A) (Q : A -> Prop) :
  wp m Q <-> exists a, m = Ok a /\ Q a.
Proof.
  split.
  - destruct m; simpl; intros H; try contradiction. eauto.
  - intros (a & -> & H). exact H.
Qed.
Lemma wp_eq {A} (m : res A) (a : A) (Q : A -> Prop) : m = Ok a -> Q a -> wp m Q.
Proof. intros ->. auto. Qed.
Lemma wp_inv {A} (m : res A) (a : A) (Q : A -> Prop) : wp m Q -> m = Ok a -> Q a.
Proof. intros H ->. exact H. Qed.

Lemma wp_loop {A B} (I : A -> Prop) (meas : A -> Z) (Q : B -> Prop) (body : A -> res (A + B)) :
  (forall s, I s ->
     wp (body s) (fun r => match r with
                           | inl s' => I s' /\ 0 <= meas s' < meas s
                           | inr b => Q b end)) ->
  forall fuel s, I s -> 0 <= meas s < Z.of_nat fuel -> wp (loop fuel body s) Q.
Proof.
  intros Hb fuel. induction fuel as [|n IH]; intros s Hs Hm; [lia|].
  cbn [loop]. specialize (Hb s Hs). destruct (body s) as [[s'|b]| |]; simpl in Hb; try contradiction.
  - apply IH; [tauto | lia].
  - exact Hb.
Qed.

Lemma wp_forz {A} (I : Z -> A -> Prop) (body : Z -> A -> res A) (n : nat) :
  forall a s (Q : A -> Prop),
  I a s ->
  (forall i s, a <= i < a + Z.of_nat n -> I i s -> wp (body i s) (I (i + 1))) ->
  (forall s, I (a + Z.of_nat n) s -> Q s) ->
  wp (forz n a body s) Q.
Proof.
  induction n as [|n IH]; intros a s Q H0 Hstep HQ.
  - simpl. apply HQ. replace (a + Z.of_nat 0) with a by lia. exact H0.
  - cbn [forz]. apply wp_bind. eapply wp_mono.
    + apply Hstep; [lia | exact H0].
    + intros s' Hs'. apply IH.
      * exact Hs'.
      * intros i t Hi. apply Hstep. lia.
      * intros t Ht. apply HQ. replace (a + Z.of_nat (S n)) with (a + 1 + Z.of_nat n) by lia. exact Ht.
Qed.

(** ** Words *)
Lemma low_testbit n x i : 0 <= n -> Z.testbit (low n x) i = (i <? n) && Z.testbit x i.
Proof.
  intros Hn. unfold low. rewrite Z.land_spec.
  destruct (Z.ltb_spec i 0) as [H|H].
  - rewrite !(Z.testbit_neg_r _ i) by lia. destruct (i <? n); reflexivity.
  - rewrite Z.testbit_ones_nonneg by lia. rewrite andb_comm. reflexivity.
Qed.
Lemma low_mod n x : 0 <= n -> low n x = x mod 2 ^ n.
Proof. intros. unfold low. apply Z.land_ones. auto. Qed.
Lemma low_range n x : 0 <= n -> 0 <= low n x < 2 ^ n.
Proof. intros. rewrite low_mod by auto. apply Z.mod_pos_bound. apply Z.pow_pos_nonneg; lia. Qed.
Lemma low_small n x : 0 <= x < 2 ^ n -> low n x = x.
Proof.
  intros H. destruct (Z.ltb_spec n 0).
  - rewrite Z.pow_neg_r in H by lia. lia.
  - rewrite low_mod by lia. apply Z.mod_small. auto.
Qed.
Lemma u64_mod x : u64 x = x mod 2 ^ 64. Proof. apply low_mod. lia. Qed.
Lemma u32_mod x : u32 x = x mod 2 ^ 32. Proof. apply low_mod. lia. Qed.
Lemma u64_small x : 0 <= x < 2 ^ 64 -> u64 x = x. Proof. apply low_small. Qed.
Lemma u32_small x : 0 <= x < 2 ^ 32 -> u32 x = x. Proof. apply low_small. Qed.

Lemma testbit_lt_pow x n i : 0 <= x < 2 ^ n -> n <= i -> Z.testbit x i = false.
Proof.
  intros Hx Hi.
  destruct (Z.ltb_spec n 0).
  { rewrite Z.pow_neg_r in Hx by lia. lia. }
  destruct (Z.eq_dec x 0) as [->|]; [apply Z.testbit_0_l|].
  apply Z.bits_above_log2; [lia|]. assert (Z.log2 x < n) by (apply Z.log2_lt_pow2; lia). lia.
Qed.

Lemma bits_lt_pow x n : 0 <= n -> (forall i, n <= i -> Z.testbit x i = false) -> 0 <= x < 2 ^ n.
Proof.
  intros Hn H. assert (x = low n x) as ->.
  { apply Z.bits_inj'. intros i Hi. rewrite low_testbit by lia.
    destruct (Z.ltb_spec i n); [reflexivity|]. rewrite H by lia. reflexivity. }
  apply low_range. auto.
Qed.

Lemma shiftl1_testbit n i : 0 <= n -> Z.testbit (Z.shiftl 1 n) i = (i =? n).
Proof.
  intros. rewrite Z.shiftl_1_l. destruct (Z.eqb_spec i n) as [->|Hne].
  - apply Z.pow2_bits_true. auto.
  - apply Z.pow2_bits_false. auto.
Qed.

Lemma ones_testbit n i : 0 <= n -> 0 <= i -> Z.testbit (Z.ones n) i = (i <? n).
Proof. intros. apply Z.testbit_ones_nonneg; auto. Qed.

(** ** Memory *)
Definition tb (st : store) (j : Z) : bool := Z.testbit (mem st) j.
Definition same (st st' : store) : Prop :=
  status st' = status st /\ wc st' = wc st /\ owned st' = owned st.
Lemma same_refl st : same st st. Proof. repeat split. Qed.
Lemma same_trans a b d : same a b -> same b d -> same a d.
Proof. unfold same. intuition congruence. Qed.
Lemma same_limit c a b : same a b -> limit c b = limit c a.
Proof. unfold same, limit. intros (_ & -> & _). reflexivity. Qed.
Lemma same_slots c a b : same a b -> slots c b = slots c a.
Proof. unfold same, slots, get_size_grade. intros (-> & _). reflexivity. Qed.
Lemma same_with_mem st m : same st (with_mem st m). Proof. repeat split. Qed.

Lemma rd_wp c st a n (Q : Z -> Prop) :
  0 <= a -> a + n <= limit c st ->
  Q (low n (Z.shiftr (mem st) a)) -> wp (rd c st a n) Q.
Proof.
  intros Ha Hl HQ. unfold rd.
  destruct (Z.leb_spec 0 a); [|lia]. destruct (Z.leb_spec (a + n) (limit c st)); [|lia].
  exact HQ.
Qed.

Lemma rd_testbit st a n i : 0 <= n -> 0 <= i -> 0 <= a ->
  Z.testbit (low n (Z.shiftr (mem st) a)) i = (i <? n) && tb st (a + i).
Proof.
  intros. rewrite low_testbit by auto. rewrite Z.shiftr_spec by auto.
  rewrite Z.add_comm. reflexivity.
Qed.

Lemma wr_testbit (m : Z) a n v j :
  0 <= a -> 0 <= n -> 0 <= j ->
  Z.testbit (Z.lor (Z.ldiff m (Z.shiftl (Z.ones n) a)) (Z.shiftl (low n v) a)) j =
  if (a <=? j) && (j <? a + n) then Z.testbit v (j - a) else Z.testbit m j.
Proof.
  intros. rewrite Z.lor_spec, Z.ldiff_spec.
  destruct (Z.leb_spec a j).
  - rewrite !Z.shiftl_spec by lia. rewrite low_testbit by lia.
    rewrite ones_testbit by lia.
    destruct (Z.ltb_spec (j - a) n), (Z.ltb_spec j (a + n)); simpl; try (exfalso; lia).
    + rewrite andb_false_r. reflexivity.
    + rewrite andb_true_r, orb_false_r. reflexivity.
  - rewrite !Z.shiftl_spec_low by lia. simpl. rewrite andb_true_r, orb_false_r. reflexivity.
Qed.

Lemma wr_wp c st a n v (Q : store -> Prop) :
  0 <= a -> 0 <= n -> a + n <= limit c st ->
  (forall st', same st st' ->
     (forall j, 0 <= j -> tb st' j = if (a <=? j) && (j <? a + n) then Z.testbit v (j - a) else tb st j) ->
     Q st') ->
  wp (wr c st a n v) Q.
Proof.
  intros Ha Hn Hl HQ. unfold wr.
  destruct (Z.leb_spec 0 a); [|lia]. destruct (Z.leb_spec (a + n) (limit c st)); [|lia].
  simpl. apply HQ; [apply same_with_mem|]. intros j Hj. unfold tb. simpl. apply wr_testbit; auto.
Qed.

Lemma rdw_wp c st i (Q : Z -> Prop) :
  0 <= i -> 64 * i + 64 <= limit c st ->
  Q (low 64 (Z.shiftr (mem st) (64 * i))) -> wp (rdw c st i) Q.
Proof. intros. unfold rdw. apply rd_wp; auto; lia. Qed.

(** the word read at index [i] *)
Definition word (st : store) (i : Z) : Z := low 64 (Z.shiftr (mem st) (64 * i)).
Lemma word_testbit st i k : 0 <= i -> 0 <= k ->
  Z.testbit (word st i) k = (k <? 64) && tb st (64 * i + k).
Proof. intros. unfold word. apply rd_testbit; lia. Qed.
Lemma word_range st i : 0 <= word st i < 2 ^ 64.
Proof. apply low_range. lia. Qed.

(** ** Single bits *)
Lemma div_mod_64 p : p = 64 * (p / 64) + p mod 64 /\ 0 <= p mod 64 < 64.
Proof. split. apply Z.div_mod; lia. apply Z.mod_pos_bound; lia. Qed.

Lemma set_bit_wp c st base pos (Q : store -> Prop) :
  0 <= base -> 0 <= pos -> 64 * (base + pos / 64) + 64 <= limit c st ->
  (forall st', same st st' ->
     (forall j, 0 <= j -> tb st' j = (j =? 64 * base + pos) || tb st j) -> Q st') ->
  wp (set_bit c st base pos) Q.
Proof.
  intros Hb Hp Hl HQ. unfold set_bit.
  pose proof (div_mod_64 pos) as [Hd Hm]. assert (0 <= pos / 64) by (apply Z.div_pos; lia).
  apply wp_bind. apply rdw_wp; [lia|lia|]. fold (word st (base + pos / 64)).
  unfold wrw. apply wr_wp; [lia|lia|lia|].
  intros st' Hs Hj. apply HQ; [exact Hs|]. intros j Hj0. rewrite Hj by lia.
  remember (64 * (base + pos / 64)) as a eqn:Ha.
  destruct (Z.leb_spec a j), (Z.ltb_spec j (a + 64)); simpl.
  - rewrite Z.lor_spec, word_testbit, shiftl1_testbit by lia.
    rewrite <- ?Ha. replace (a + (j - a)) with j by lia.
    destruct (Z.ltb_spec (j - a) 64); [|lia]. simpl. rewrite orb_comm. f_equal.
    destruct (Z.eqb_spec (j - a) (pos mod 64)), (Z.eqb_spec j (64 * base + pos)); lia.
  - destruct (Z.eqb_spec j (64 * base + pos)); [lia|reflexivity].
  - destruct (Z.eqb_spec j (64 * base + pos)); [lia|reflexivity].
  - destruct (Z.eqb_spec j (64 * base + pos)); [lia|reflexivity].
Qed.

Lemma reset_bit_wp c st base pos (Q : store -> Prop) :
  0 <= base -> 0 <= pos -> 64 * (base + pos / 64) + 64 <= limit c st ->
  (forall st', same st st' ->
     (forall j, 0 <= j -> tb st' j = negb (j =? 64 * base + pos) && tb st j) -> Q st') ->
  wp (reset_bit c st base pos) Q.
Proof.
  intros Hb Hp Hl HQ. unfold reset_bit.
  pose proof (div_mod_64 pos) as [Hd Hm]. assert (0 <= pos / 64) by (apply Z.div_pos; lia).
  apply wp_bind. apply rdw_wp; [lia|lia|]. fold (word st (base + pos / 64)).
  unfold wrw. apply wr_wp; [lia|lia|lia|].
  intros st' Hs Hj. apply HQ; [exact Hs|]. intros j Hj0. rewrite Hj by lia.
  remember (64 * (base + pos / 64)) as a eqn:Ha.
  destruct (Z.leb_spec a j), (Z.ltb_spec j (a + 64)); simpl.
  - rewrite Z.ldiff_spec, word_testbit, shiftl1_testbit by lia.
    rewrite <- ?Ha. replace (a + (j - a)) with j by lia.
    destruct (Z.ltb_spec (j - a) 64); [|lia]. simpl. rewrite andb_comm. f_equal. f_equal.
    destruct (Z.eqb_spec (j - a) (pos mod 64)), (Z.eqb_spec j (64 * base + pos)); lia.
  - destruct (Z.eqb_spec j (64 * base + pos)); [lia|reflexivity].
  - destruct (Z.eqb_spec j (64 * base + pos)); [lia|reflexivity].
  - destruct (Z.eqb_spec j (64 * base + pos)); [lia|reflexivity].
Qed.

Lemma land_1 x : Z.land x 1 = Z.b2z (Z.testbit x 0).
Proof.
  change 1 with (Z.ones 1). rewrite Z.land_ones by lia. change (2 ^ 1) with 2.
  rewrite <- Z.bit0_mod. reflexivity.
Qed.

Lemma get_bit_wp c st base pos (Q : Z -> Prop) :
  0 <= base -> 0 <= pos -> 64 * (base + pos / 64) + 64 <= limit c st ->
  Q (Z.b2z (tb st (64 * base + pos))) ->
  wp (get_bit c st base pos) Q.
Proof.
  intros Hb Hp Hl HQ. unfold get_bit.
  pose proof (div_mod_64 pos) as [Hd Hm]. assert (0 <= pos / 64) by (apply Z.div_pos; lia).
  apply wp_bind. apply rdw_wp; [lia|lia|]. fold (word st (base + pos / 64)).
  simpl. rewrite land_1, Z.shiftr_spec, word_testbit by lia.
  destruct (Z.ltb_spec (0 + pos mod 64) 64); [|lia]. simpl.
  replace (64 * (base + pos / 64) + (0 + pos mod 64)) with (64 * base + pos) by lia. exact HQ.
Qed.

(** ** Counting *)
Fixpoint cnt (f : Z -> bool) (a : Z) (n : nat) : Z :=
  match n with O => 0 | S m => Z.b2z (f a) + cnt f (a + 1) m end.
(** number of [i] in [[a, b)] with [f i] *)
Definition count (f : Z -> bool) (a b : Z) : Z := cnt f a (Z.to_nat (b - a)).

Lemma cnt_ext f g n : forall a, (forall i, a <= i < a + Z.of_nat n -> f i = g i) -> cnt f a n = cnt g a n.
Proof.
  induction n; intros a H; simpl; [reflexivity|]. rewrite H by lia. f_equal.
  apply IHn. intros. apply H. lia.
Qed.
Lemma cnt_app f n m : forall a, cnt f a (n + m) = cnt f a n + cnt f (a + Z.of_nat n) m.
Proof.
  induction n; intros a.
  - cbn [Nat.add cnt]. replace (a + Z.of_nat 0) with a by lia. lia.
  - cbn [Nat.add cnt]. rewrite IHn. replace (a + 1 + Z.of_nat n) with (a + Z.of_nat (S n)) by lia. lia.
Qed.
Lemma cnt_range f n : forall a, 0 <= cnt f a n <= Z.of_nat n.
Proof. induction n; intros a; simpl; [lia|]. specialize (IHn (a + 1)). destruct (f a); simpl; lia. Qed.
Lemma cnt_shift f n d : forall a, cnt (fun i => f (i + d)) a n = cnt f (a + d) n.
Proof. induction n; intros a; simpl; [reflexivity|]. f_equal. rewrite IHn. f_equal. lia. Qed.

Lemma cnt_false n : forall a, cnt (fun _ => false) a n = 0.
Proof. induction n; intros; simpl; [reflexivity|]. rewrite IHn. reflexivity. Qed.

Lemma count_ext f g a b : (forall i, a <= i < b -> f i = g i) -> count f a b = count g a b.
Proof. intros H. apply cnt_ext. intros. apply H. lia. Qed.
Lemma count_split f a b d : a <= b <= d -> count f a d = count f a b + count f b d.
Proof.
  intros. unfold count. replace (Z.to_nat (d - a)) with (Z.to_nat (b - a) + Z.to_nat (d - b))%nat by lia.
  rewrite cnt_app. do 2 f_equal. lia.
Qed.
Lemma count_nil f a b : b <= a -> count f a b = 0.
Proof. intros. unfold count. replace (Z.to_nat (b - a)) with O by lia. reflexivity. Qed.
Lemma count_one f a : count f a (a + 1) = Z.b2z (f a).
Proof. unfold count. replace (Z.to_nat (a + 1 - a)) with 1%nat by lia. simpl. lia. Qed.
Lemma count_range f a b : a <= b -> 0 <= count f a b <= b - a.
Proof. intros. unfold count. pose proof (cnt_range f (Z.to_nat (b - a)) a). lia. Qed.
Lemma count_shift f a b d : count (fun i => f (i + d)) a b = count f (a + d) (b + d).
Proof. unfold count. rewrite cnt_shift. f_equal. lia. Qed.
Lemma count_false f a b : (forall i, a <= i < b -> f i = false) -> count f a b = 0.
Proof.
  intros H. destruct (Z.leb_spec b a); [apply count_nil; auto|].
  rewrite (count_ext f (fun _ => false)) by auto. apply cnt_false.
Qed.
Lemma count_snoc f a b : a <= b -> count f a (b + 1) = count f a b + Z.b2z (f b).
Proof. intros. rewrite (count_split f a b (b + 1)) by lia. rewrite count_one. reflexivity. Qed.
Lemma count_cons f a b : a < b -> count f a b = Z.b2z (f a) + count f (a + 1) b.
Proof. intros. rewrite (count_split f a (a + 1) b) by lia. rewrite count_one. reflexivity. Qed.
Lemma count_mono f a b d : a <= b <= d -> count f a b <= count f a d.
Proof. intros. rewrite (count_split f a b d) by lia. pose proof (count_range f b d). lia. Qed.

(** ** popcount, tzcnt, lzcnt *)
Lemma pos_pop_cnt p : forall n, Zpos p < 2 ^ Z.of_nat n -> pos_pop p = cnt (Z.testbit (Zpos p)) 0 n.
Proof.
  induction p as [p IH|p IH|]; intros n Hn.
  - destruct n as [|n]; [simpl in Hn; lia|]. cbn [pos_pop cnt].
    rewrite (IH n).
    + rewrite (cnt_ext (Z.testbit (Zpos p)) (fun i => Z.testbit (Zpos (xI p)) (i + 1))).
      * rewrite cnt_shift. reflexivity.
      * intros i Hi. rewrite Pos2Z.inj_xI.
        replace (i + 1) with (Z.succ i) by lia. rewrite Z.testbit_odd_succ by lia. reflexivity.
    + rewrite Nat2Z.inj_succ, Z.pow_succ_r in Hn by lia. lia.
  - destruct n as [|n]; [simpl in Hn; lia|]. cbn [pos_pop cnt].
    rewrite (IH n).
    + rewrite (cnt_ext (Z.testbit (Zpos p)) (fun i => Z.testbit (Zpos (xO p)) (i + 1))).
      * rewrite cnt_shift. reflexivity.
      * intros i Hi. rewrite Pos2Z.inj_xO.
        replace (i + 1) with (Z.succ i) by lia. rewrite Z.testbit_even_succ by lia. reflexivity.
    + rewrite Nat2Z.inj_succ, Z.pow_succ_r in Hn by lia. lia.
  - destruct n as [|n]; [simpl in Hn; lia|]. cbn [pos_pop cnt].
    rewrite (cnt_ext _ (fun _ => false)).
    + rewrite cnt_false. reflexivity.
    + intros i Hi. apply (testbit_lt_pow 1 1 i); lia.
Qed.
Lemma popcount_count x n : 0 <= n -> 0 <= x < 2 ^ n -> popcount x = count (Z.testbit x) 0 n.
Proof.
  intros Hn Hx. destruct x as [|p|p]; [| |lia].
  - symmetry. apply count_false. intros. apply Z.testbit_0_l.
  - unfold count. cbn [popcount]. rewrite Z.sub_0_r. apply pos_pop_cnt. rewrite Z2Nat.id by lia. lia.
Qed.

Lemma pos_tz_spec p : 0 <= pos_tz p /\ Z.testbit (Zpos p) (pos_tz p) = true /\
  (forall i, 0 <= i < pos_tz p -> Z.testbit (Zpos p) i = false).
Proof.
  induction p as [p IH|p IH|]; cbn [pos_tz].
  - repeat split; try lia.
  - destruct IH as (H0 & H1 & H2). split; [lia|]. split.
    + replace (1 + pos_tz p) with (Z.succ (pos_tz p)) by lia. rewrite Pos2Z.inj_xO, Z.testbit_even_succ by lia. exact H1.
    + intros i Hi. rewrite Pos2Z.inj_xO. destruct (Z.eq_dec i 0) as [->|]; [apply Z.testbit_even_0|].
      replace i with (Z.succ (i - 1)) by lia. rewrite Z.testbit_even_succ by lia. apply H2. lia.
  - repeat split; try lia.
Qed.
Lemma tzcnt_spec x : 0 < x ->
  0 <= tzcnt x /\ Z.testbit x (tzcnt x) = true /\ (forall i, 0 <= i < tzcnt x -> Z.testbit x i = false).
Proof. destruct x; try lia. intros _. apply pos_tz_spec. Qed.
Lemma tzcnt_unique x k : 0 <= x -> 0 <= k -> Z.testbit x k = true ->
  (forall i, 0 <= i < k -> Z.testbit x i = false) -> tzcnt x = k.
Proof.
  intros Hx Hk Hb Hl. assert (0 < x).
  { destruct (Z.eq_dec x 0) as [->|]; [rewrite Z.testbit_0_l in Hb; discriminate|lia]. }
  destruct (tzcnt_spec x H) as (H0 & H1 & H2).
  destruct (Z.lt_trichotomy (tzcnt x) k) as [Hlt|[E|Hgt]]; auto.
  - rewrite Hl in H1 by lia. discriminate.
  - rewrite H2 in Hb by lia. discriminate.
Qed.
Lemma tzcnt_range x : 0 <= x < 2 ^ 64 -> 0 <= tzcnt x <= 64.
Proof.
  intros Hx. destruct (Z.eq_dec x 0) as [->|]; [simpl; lia|].
  destruct (tzcnt_spec x) as (H0 & H1 & _); [lia|]. split; [lia|].
  destruct (Z.leb_spec (tzcnt x) 64); auto. rewrite (testbit_lt_pow x 64) in H1 by lia. discriminate.
Qed.
Lemma tzcnt_lt x : 0 < x < 2 ^ 64 -> 0 <= tzcnt x < 64.
Proof.
  intros Hx. destruct (tzcnt_spec x) as (H0 & H1 & _); [lia|]. split; [lia|].
  destruct (Z.ltb_spec (tzcnt x) 64); auto. rewrite (testbit_lt_pow x 64) in H1 by lia. discriminate.
Qed.

Lemma nonzero_bit x : 0 < x -> exists i, 0 <= i /\ Z.testbit x i = true.
Proof. intros H. exists (tzcnt x). destruct (tzcnt_spec x H) as (H0 & H1 & _). auto. Qed.
Lemma zero_bits x : 0 <= x -> (forall i, 0 <= i -> Z.testbit x i = false) -> x = 0.
Proof. intros _ H. apply Z.bits_inj'. intros. rewrite H, Z.testbit_0_l by auto. reflexivity. Qed.

Lemma highbit_pos_spec x : 0 < x < 2 ^ 64 ->
  0 <= highbit_pos x < 64 /\ Z.testbit x (highbit_pos x) = true /\
  (forall i, highbit_pos x < i -> Z.testbit x i = false).
Proof.
  intros Hx. unfold highbit_pos, lzcnt. destruct (Z.eqb_spec x 0); [lia|].
  replace (64 - (63 - Z.log2 x) - 1) with (Z.log2 x) by lia.
  assert (Z.log2 x < 64) by (apply Z.log2_lt_pow2; lia).
  pose proof (Z.log2_nonneg x). split; [lia|]. split.
  - apply Z.bit_log2. lia.
  - intros i Hi. apply Z.bits_above_log2; lia.
Qed.
Lemma highbit_pos_0 : highbit_pos 0 = -1. Proof. reflexivity. Qed.

(** ** rank and select in a word *)
Lemma bit_rank_count x i : 0 <= x < 2 ^ 64 -> 0 <= i <= 64 -> bit_rank x i = count (Z.testbit x) 0 i.
Proof.
  intros Hx Hi. unfold bit_rank, bitmask.
  change (Z.land x (Z.ones i)) with (low i x).
  rewrite (popcount_count _ i) by (try apply low_range; lia).
  apply count_ext. intros j Hj. rewrite low_testbit by lia. destruct (Z.ltb_spec j i); [reflexivity|lia].
Qed.

(** [pdep_from] with a single source bit [k0] left deposits it at the
    [(k0 - k)]-th set bit at or above [i]. *)
Lemma pdep_from_spec n : forall i k k0 mask e, 0 <= i -> 0 <= k <= k0 ->
  i <= e < i + Z.of_nat n -> Z.testbit mask e = true -> count (Z.testbit mask) i e = k0 - k ->
  pdep_from n i k (Z.shiftl 1 k0) mask = Z.shiftl 1 e.
Proof.
  induction n as [|n IH]; intros i k k0 mask e Hi Hk He Hb Hc; [lia|].
  cbn [pdep_from].
  destruct (Z.testbit mask i) eqn:E.
  - rewrite shiftl1_testbit by lia. destruct (Z.eqb_spec k k0) as [->|Hne].
    + assert (e = i) as ->.
      { destruct (Z.eq_dec e i); auto. rewrite count_cons, E in Hc by lia. simpl in Hc.
        pose proof (count_range (Z.testbit mask) (i + 1) e). lia. }
      assert (forall m j k1, k0 < k1 -> 0 <= j -> pdep_from m j k1 (Z.shiftl 1 k0) mask = 0) as Hz.
      { induction m as [|m IHm]; intros j k1 Hk1 Hj; [reflexivity|]. cbn [pdep_from].
        destruct (Z.testbit mask j).
        - rewrite shiftl1_testbit by lia. destruct (Z.eqb_spec k1 k0); [lia|]. rewrite IHm by lia. reflexivity.
        - apply IHm; lia. }
      rewrite Hz by lia. lia.
    + assert (e <> i). { intros ->. rewrite count_nil in Hc by lia. lia. }
      rewrite (IH (i + 1) (k + 1) k0 mask e); try lia; auto.
      rewrite count_cons, E in Hc by lia. simpl in Hc. lia.
  - assert (e <> i) by congruence.
    rewrite (IH (i + 1) k k0 mask e); try lia; auto.
    rewrite count_cons, E in Hc by lia. simpl in Hc. lia.
Qed.
Lemma tzcnt_pow2 e : 0 <= e -> tzcnt (Z.shiftl 1 e) = e.
Proof.
  intros. apply tzcnt_unique; auto.
  - apply Z.shiftl_nonneg. lia.
  - rewrite shiftl1_testbit, Z.eqb_refl by lia. reflexivity.
  - intros i Hi. rewrite shiftl1_testbit by lia. destruct (Z.eqb_spec i e); [lia|reflexivity].
Qed.
Lemma bit_select_spec x k e : 0 <= k -> 0 <= e < 64 -> Z.testbit x e = true ->
  count (Z.testbit x) 0 e = k -> bit_select x k = e.
Proof.
  intros Hk He Hb Hc. unfold bit_select, pdep. rewrite (pdep_from_spec 64 0 0 k x e); try lia; auto.
  apply tzcnt_pow2. lia.
Qed.
