(** The comparison functions on keys: they are the lexicographic order, and they
    agree with the order of the zero-padded bit strings. *)
From Coq Require Import ZArith List Bool Lia.
From Coq Require Import ZifyBool ZifyNat.
From Verif Require Import Base Util Store Bits Key KeyBits.
Import ListNotations.
Open Scope Z_scope.

Lemma klen_cons x a : klen (x :: a) = klen a + 1.
Proof. unfold klen. cbn [length]. lia. Qed.
Lemma key_lt_nil_l b : key_lt [] b = match b with [] => false | _ => true end.
Proof. destruct b; reflexivity. Qed.
Lemma key_lt_nil_r a : key_lt a [] = false.
Proof.
  unfold key_lt. rewrite Nat.min_0_r. replace (memcmp 0 a []) with Eq by (destruct a; reflexivity).
  unfold klen. cbn [length]. destruct (Z.ltb_spec (Z.of_nat (length a)) (Z.of_nat 0)); [lia|reflexivity].
Qed.
Lemma key_lt_cons x a y b : key_lt (x :: a) (y :: b) = match x ?= y with Lt => true | Eq => key_lt a b | Gt => false end.
Proof.
  unfold key_lt. cbn [length Nat.min memcmp]. destruct (x ?= y); try reflexivity.
  destruct (memcmp (Nat.min (length a) (length b)) a b); try reflexivity. rewrite !klen_cons.
  destruct (Z.ltb_spec (klen a + 1) (klen b + 1)), (Z.ltb_spec (klen a) (klen b)); auto; exfalso; lia.
Qed.
Lemma key_eq_nil b : key_eq [] b = match b with [] => true | _ => false end.
Proof. destruct b; [reflexivity|]. unfold key_eq, klen. cbn [length]. destruct (Z.eqb_spec (Z.of_nat 0) (Z.of_nat (S (length b)))); [lia|reflexivity]. Qed.
Lemma key_eq_cons x a y b : key_eq (x :: a) (y :: b) = (x =? y) && key_eq a b.
Proof.
  unfold key_eq. cbn [length Nat.min memcmp]. rewrite !klen_cons.
  replace (klen a + 1 =? klen b + 1) with (klen a =? klen b) by (destruct (Z.eqb_spec (klen a) (klen b)), (Z.eqb_spec (klen a + 1) (klen b + 1)); auto; lia).
  destruct (Z.compare_spec x y) as [->|Hl|Hl].
  - rewrite Z.eqb_refl. reflexivity.
  - destruct (Z.eqb_spec x y); [lia|]. rewrite andb_false_r. reflexivity.
  - destruct (Z.eqb_spec x y); [lia|]. rewrite andb_false_r. reflexivity.
Qed.
Lemma key_eq_iff a b : key_eq a b = true <-> a = b.
Proof.
  revert b. induction a as [|x a IH]; intros [|y b].
  - split; reflexivity.
  - rewrite key_eq_nil. split; discriminate.
  - unfold key_eq. rewrite klen_cons. unfold klen. cbn [length]. destruct (Z.eqb_spec (Z.of_nat (length a) + 1) (Z.of_nat 0)); [lia|]. cbn [andb]. split; discriminate.
  - rewrite key_eq_cons, andb_true_iff, IH, Z.eqb_eq. split; [intros [-> ->]; reflexivity|intros E; inversion E; auto].
Qed.
Lemma key_eq_refl a : key_eq a a = true.
Proof. apply key_eq_iff. reflexivity. Qed.
Lemma key_lt_irrefl a : key_lt a a = false.
Proof. induction a as [|x a IH]; [reflexivity|]. rewrite key_lt_cons, Z.compare_refl. exact IH. Qed.
Lemma key_lt_trans a b d : key_lt a b = true -> key_lt b d = true -> key_lt a d = true.
Proof.
  revert b d. induction a as [|x a IH]; intros [|y b] [|z d]; rewrite ?key_lt_nil_l, ?key_lt_nil_r, ?key_lt_cons; auto; try discriminate.
  destruct (Z.compare_spec x y), (Z.compare_spec y z), (Z.compare_spec x z); try discriminate; try lia; auto. apply IH.
Qed.
Lemma key_lt_total a b : key_lt a b = true \/ a = b \/ key_lt b a = true.
Proof.
  revert b. induction a as [|x a IH]; intros [|y b]; rewrite ?key_lt_nil_l, ?key_lt_nil_r, ?key_lt_cons; auto.
  destruct (Z.compare_spec x y) as [->|H|H]; auto.
  - rewrite Z.compare_refl. destruct (IH b) as [E|[->|E]]; auto.
  - right. right. destruct (Z.compare_spec y x); auto; lia.
Qed.
Lemma key_le_iff a b : key_le a b = negb (key_lt b a).
Proof.
  revert b. induction a as [|x a IH]; intros [|y b].
  - reflexivity.
  - unfold key_le, klen. cbn [length Nat.min memcmp]. rewrite key_lt_nil_r. destruct (Z.leb_spec (Z.of_nat 0) (Z.of_nat (S (length b)))); [reflexivity|lia].
  - rewrite key_lt_nil_l. unfold key_le, klen. cbn [length Nat.min memcmp].
    destruct (Z.leb_spec (Z.of_nat (S (length a))) (Z.of_nat 0)); [lia|reflexivity].
  - rewrite key_lt_cons. assert (E : key_le (x :: a) (y :: b) = match x ?= y with Lt => true | Eq => key_le a b | Gt => false end).
    { unfold key_le. cbn [length Nat.min memcmp]. destruct (x ?= y); try reflexivity.
      destruct (memcmp (Nat.min (length a) (length b)) a b); try reflexivity. rewrite !klen_cons.
      destruct (Z.leb_spec (klen a + 1) (klen b + 1)), (Z.leb_spec (klen a) (klen b)); auto; exfalso; lia. }
    rewrite E, IH. rewrite (Z.compare_antisym y x). destruct (y ?= x); reflexivity.
Qed.
Lemma key_lt_asym a b : key_lt a b = true -> key_lt b a = false.
Proof.
  intros H. destruct (key_lt b a) eqn:E; auto. pose proof (key_lt_trans _ _ _ H E). rewrite key_lt_irrefl in *. discriminate.
Qed.
Lemma key_lt_neq a b : key_lt a b = true -> key_eq a b = false.
Proof. intros H. destruct (key_eq a b) eqn:E; auto. apply key_eq_iff in E. subst. rewrite key_lt_irrefl in H. discriminate. Qed.
Lemma key_eq_sym a b : key_eq a b = key_eq b a.
Proof.
  destruct (key_eq a b) eqn:E1, (key_eq b a) eqn:E2; auto.
  - apply key_eq_iff in E1. subst. rewrite key_eq_refl in E2. discriminate.
  - apply key_eq_iff in E2. subst. rewrite key_eq_refl in E1. discriminate.
Qed.
Lemma nlt_cases a b : key_lt a b = false -> a = b \/ key_lt b a = true.
Proof. intros H. destruct (key_lt_total a b) as [E|[E|E]]; auto. congruence. Qed.
Lemma nlt_lt_trans a b d : key_lt b a = false -> key_lt b d = true -> key_lt a d = true.
Proof. intros H1 H2. destruct (nlt_cases _ _ H1) as [->|H]; auto. eapply key_lt_trans; eauto. Qed.
Lemma lt_nlt_trans a b d : key_lt a b = true -> key_lt d b = false -> key_lt a d = true.
Proof. intros H1 H2. destruct (nlt_cases _ _ H2) as [->|H]; auto. eapply key_lt_trans; eauto. Qed.

(** ** padded order *)
Lemma byte_cons x a i : 0 <= i -> byte (x :: a) (i + 1) = byte a i.
Proof. intros. unfold byte. replace (Z.to_nat (i + 1)) with (S (Z.to_nat i)) by lia. reflexivity. Qed.
Lemma kbit_cons x a i : 0 <= i -> kbit (x :: a) (8 + i) = kbit a i.
Proof.
  intros. unfold kbit. replace (8 + i) with (i + 1 * 8) by lia. rewrite Z.div_add, Z.mod_add by lia.
  rewrite byte_cons by (apply Z.div_pos; lia). reflexivity.
Qed.
Lemma pre_cons n x a : kok (x :: a) -> 0 <= n -> pre (8 + n) (x :: a) = x * 2 ^ n + pre n a.
Proof.
  intros Hk Hn. rewrite pre_split by lia. f_equal.
  - f_equal. unfold pre. change 0 with (8 * 0). rewrite sl_byte by (auto; lia). reflexivity.
  - apply sl_ext; auto. intros i Hi. simpl. apply kbit_cons. lia.
Qed.
Lemma pre_nil n : 0 <= n -> pre n [] = 0.
Proof.
  intros. unfold pre. apply Z.bits_inj'. intros j Hj. rewrite sl_testbit, Z.bits_0 by lia.
  destruct (Z.ltb_spec j n); [|reflexivity]. simpl. apply kbit_out. unfold klen. simpl. lia.
Qed.
Lemma ple_large N a b : (forall n, N <= n -> 0 <= n -> pre n a <= pre n b) -> ple a b.
Proof. intros H n Hn. apply (pre_le_mono n (Z.max n N)); [lia|]. apply H; lia. Qed.
Lemma ple_nil b : ple [] b.
Proof. intros n Hn. rewrite pre_nil by lia. apply pre_range. lia. Qed.
Lemma ple_cons_eq x a b : kok (x :: a) -> kok (x :: b) -> ple a b -> ple (x :: a) (x :: b).
Proof.
  intros Ha Hb H. apply (ple_large 8). intros n Hn _. replace n with (8 + (n - 8)) by lia. rewrite !pre_cons by (auto; lia).
  specialize (H (n - 8) ltac:(lia)). lia.
Qed.
Lemma plt_cons_lt x a y b : kok (x :: a) -> kok (y :: b) -> x < y -> plt (x :: a) (y :: b).
Proof.
  intros Ha Hb H. exists 8. split; [lia|]. change 8 with (8 + 0). rewrite !pre_cons by (auto; lia). change (pre 0 a) with 0. change (pre 0 b) with 0. lia.
Qed.
Lemma plt_cons_eq x a b : kok (x :: a) -> kok (x :: b) -> plt a b -> plt (x :: a) (x :: b).
Proof.
  intros Ha Hb (n & Hn & H). exists (8 + n). split; [lia|]. rewrite !pre_cons by (auto; lia). lia.
Qed.
Lemma kok_cons x a : kok (x :: a) -> 0 <= x < 256 /\ kok a.
Proof. intros H. inversion H; auto. Qed.
Lemma key_lt_ple a b : kok a -> kok b -> key_lt a b = true -> ple a b.
Proof.
  revert b. induction a as [|x a IH]; intros [|y b] Ha Hb; rewrite ?key_lt_nil_l, ?key_lt_nil_r, ?key_lt_cons; try discriminate.
  - intros _. apply ple_nil.
  - destruct (kok_cons _ _ Ha), (kok_cons _ _ Hb). destruct (Z.compare_spec x y) as [->|Hl|Hl]; try discriminate; intros E.
    + apply ple_cons_eq; auto.
    + apply plt_ple. apply plt_cons_lt; auto.
Qed.
Lemma nlt_ple a b : kok a -> kok b -> key_lt b a = false -> ple a b.
Proof.
  intros Ha Hb H. destruct (nlt_cases _ _ H) as [->|E]; [apply ple_refl|apply key_lt_ple; auto].
Qed.
Lemma plt_key_lt a b : kok a -> kok b -> plt a b -> key_lt a b = true.
Proof.
  intros Ha Hb H. destruct (key_lt a b) eqn:E; auto. exfalso. apply (plt_not_ple a b H). apply nlt_ple; auto.
Qed.
Lemma key_lt_plt a b : kok a -> kok b -> length a = length b -> key_lt a b = true -> plt a b.
Proof.
  revert b. induction a as [|x a IH]; intros [|y b] Ha Hb Hl; simpl in Hl; try discriminate.
  destruct (kok_cons _ _ Ha), (kok_cons _ _ Hb). rewrite key_lt_cons. destruct (Z.compare_spec x y) as [->|H3|H3]; try discriminate; intros E.
  - apply plt_cons_eq; auto.
  - apply plt_cons_lt; auto.
Qed.
