(** The byte sets of the nodes of the index: bitmin, bitmax and the bitmap. *)
From Coq Require Import ZArith List Bool Lia Arith.
From Verif Require Import Base Key KeyOrder Wormhole.
Import ListNotations.
Open Scope Z_scope.

(** the node stands for the set [T] of bytes *)
Definition bits_ok (x : meta) (T : Z -> Prop) : Prop :=
  (forall b, T b -> 0 <= b < 256) /\
  ((m_min x = FO /\ m_max x = FO /\ forall b, ~ T b)
   \/ (m_min x = m_max x /\ m_min x < FO /\ forall b, T b <-> b = m_min x)
   \/ (m_min x < m_max x /\ m_max x < FO /\ T (m_min x) /\ T (m_max x)
       /\ (forall b, T b -> m_min x <= b <= m_max x)
       /\ forall b, 0 <= b < 256 -> (Z.testbit (m_bits x) b = true <-> T b))).

Lemma bits_ok_ext x T T' : (forall b, T b <-> T' b) -> bits_ok x T -> bits_ok x T'.
Proof.
  intros E [H1 H2]. split; [intros b Hb; apply H1, E, Hb|].
  destruct H2 as [(A & B & C)|[(A & B & C)|(A & B & C & D & F & G)]].
  - left. repeat split; auto. intros b Hb. apply (C b), E, Hb.
  - right. left. repeat split; auto; intros; [apply C, E; auto|apply E, C; auto].
  - right. right. repeat split; auto; try (apply E; auto); intros; try (apply F, E; auto); try (apply E, G; auto); apply G; auto; apply E; auto.
Qed.
(** fields other than the byte set do not matter *)
Lemma bits_ok_same x y T : m_min x = m_min y -> m_max x = m_max y -> m_bits x = m_bits y -> bits_ok x T -> bits_ok y T.
Proof. unfold bits_ok. intros -> -> ->. auto. Qed.

Lemma bm_test_ok x T b : bits_ok x T -> 0 <= b < 256 -> (bm_test x b = true <-> T b).
Proof.
  intros [_ [(A & B & C)|[(A & B & C)|(A & B & C & D & F & G)]]] Hb; unfold bm_test.
  - rewrite A, B. rewrite Z.eqb_refl. unfold FO in *. split; [intros E; lia|intros E; destruct (C b E)].
  - rewrite A, Z.eqb_refl. rewrite C. rewrite <- A. lia.
  - destruct (Z.eqb_spec (m_min x) (m_max x)); [lia|]. apply G. exact Hb.
Qed.

Lemma setbit_ok bits id b : 0 <= id -> 0 <= b -> Z.testbit (Z.setbit bits id) b = true <-> Z.testbit bits b = true \/ b = id.
Proof.
  intros H1 H2. rewrite Z.setbit_eqb by exact H1. destruct (Z.eqb_spec id b) as [->|E]; cbn [orb]; [tauto|].
  split; [tauto|]. intros [G|G]; [exact G|lia].
Qed.
Lemma clearbit_ok bits id b : 0 <= id -> 0 <= b -> Z.testbit (Z.clearbit bits id) b = true <-> Z.testbit bits b = true /\ b <> id.
Proof.
  intros H1 H2. rewrite Z.clearbit_eqb by exact H1. destruct (Z.eqb_spec id b) as [->|E]; cbn [negb]; rewrite ?andb_false_r, ?andb_true_r.
  - split; [discriminate|intros [_ G]; congruence].
  - split; [intros G; split; [exact G|congruence]|tauto].
Qed.

Lemma bm_set_helper_ok x T id : bits_ok x T -> 0 <= id < 256 -> bits_ok (bm_set_helper x id) (fun b => T b \/ b = id).
Proof.
  intros [H0 H] Hid. unfold bm_set_helper. split; [intros b [Hb|Hb]; [apply H0; exact Hb|lia]|].
  destruct H as [(A & B & C)|[(A & B & C)|(A & B & C & D & F & G)]].
  - rewrite A, B, Z.ltb_irrefl. unfold FO in *. destruct (Z.eqb_spec id 256); [lia|]. change (256 =? 256) with true. cbv iota. right. left.
    cbn [m_min m_max]. split; [reflexivity|]. split; [lia|]. intros b. split; [intros [K|K]; [destruct (C b K)|exact K]|tauto].
  - rewrite A, Z.ltb_irrefl. unfold FO in *. destruct (Z.eqb_spec id (m_max x)) as [E|E].
    { right. left. split; [exact A|]. split; [exact B|]. intros b. split; [intros [K|K]; [apply C; exact K|lia]|intros K; left; apply C; exact K]. }
    destruct (Z.eqb_spec (m_max x) 256); [lia|]. right. right. pose proof (H0 (m_min x) (proj2 (C _) eq_refl)) as Hm.
    unfold bm_set, expand. cbn [m_min m_max m_bits].
    assert (forall b, 0 <= b -> Z.testbit (Z.setbit 0 (m_min x)) b = true <-> b = m_min x) as HT.
    { intros b Hb. rewrite setbit_ok by lia. rewrite Z.testbit_0_l. split; [intros [?|?]; [discriminate|assumption]|tauto]. }
    destruct (Z.testbit (Z.setbit 0 (m_min x)) id) eqn:Et; [apply HT in Et; lia|]. cbn [m_min m_max m_bits]. unfold FO.
    destruct (Z.eqb_spec (m_max x) 256); [lia|]. cbn [orb].
    assert (forall b, 0 <= b < 256 -> Z.testbit (Z.setbit (Z.setbit 0 (m_min x)) id) b = true <-> T b \/ b = id) as HB.
    { intros b Hb. rewrite setbit_ok by lia. rewrite HT by lia. rewrite C. reflexivity. }
    destruct (Z.ltb_spec id (m_min x)) as [L1|L1], (Z.ltb_spec (m_max x) id) as [L2|L2]; try lia.
    + split; [lia|]. split; [lia|]. split; [right; reflexivity|]. split; [left; apply C; lia|]. split; [|exact HB].
      intros b [K|K]; [apply C in K|]; lia.
    + split; [lia|]. split; [lia|]. split; [left; apply C; lia|]. split; [right; reflexivity|]. split; [|exact HB].
      intros b [K|K]; [apply C in K|]; lia.
  - destruct (Z.ltb_spec (m_min x) (m_max x)); [|lia]. unfold bm_set. destruct (Z.testbit (m_bits x) id) eqn:Et.
    { right. right. apply G in Et; [|exact Hid]. split; [exact A|]. split; [exact B|]. split; [left; exact C|]. split; [left; exact D|].
      split; [intros b [K|K]; [apply F; exact K|subst; apply F; exact Et]|]. intros b Hb. split; [intros K; left; apply G; auto|].
      intros [K|K]; [apply G; auto|subst; apply G; auto]. }
    right. right. cbn [m_min m_max m_bits]. unfold FO in *. destruct (Z.eqb_spec (m_max x) 256); [lia|]. cbn [orb].
    assert (id <> m_min x /\ id <> m_max x) as [N1 N2]. { split; intros ->; apply not_true_iff_false in Et; apply Et, G; auto. }
    pose proof (H0 _ C). pose proof (H0 _ D).
    assert (forall b, 0 <= b < 256 -> Z.testbit (Z.setbit (m_bits x) id) b = true <-> T b \/ b = id) as HB.
    { intros b Hb. rewrite setbit_ok by lia. rewrite G by exact Hb. reflexivity. }
    destruct (Z.ltb_spec id (m_min x)) as [L1|L1], (Z.ltb_spec (m_max x) id) as [L2|L2]; try lia;
      (split; [lia|]; split; [lia|]; split; [auto|]; split; [auto|]; split; [|exact HB]; intros b [K|K]; [apply F in K|]; lia).
Qed.

Lemma scan_up_ok n bits id : 0 <= id ->
  (scan_up n bits id = FO /\ forall b, id <= b < id + Z.of_nat n -> Z.testbit bits b = false)
  \/ (id <= scan_up n bits id < id + Z.of_nat n /\ Z.testbit bits (scan_up n bits id) = true
      /\ forall b, id <= b < scan_up n bits id -> Z.testbit bits b = false).
Proof.
  revert id. induction n as [|n IH]; intros id Hid; cbn [scan_up].
  - left. split; [reflexivity|]. intros. lia.
  - destruct (Z.testbit bits id) eqn:E.
    + right. split; [lia|]. split; [exact E|]. intros. lia.
    + destruct (IH (id + 1) ltac:(lia)) as [[A B]|(A & B & C)].
      * left. split; [exact A|]. intros b Hb. destruct (Z.eq_dec b id) as [->|]; [exact E|apply B; lia].
      * right. split; [lia|]. split; [exact B|]. intros b Hb. destruct (Z.eq_dec b id) as [->|]; [exact E|apply C; lia].
Qed.
Lemma scan_down_ok n bits id : Z.of_nat n <= id ->
  (scan_down n bits id = FO /\ forall b, id - Z.of_nat n <= b < id -> Z.testbit bits b = false)
  \/ (id - Z.of_nat n <= scan_down n bits id < id /\ Z.testbit bits (scan_down n bits id) = true
      /\ forall b, scan_down n bits id < b < id -> Z.testbit bits b = false).
Proof.
  revert id. induction n as [|n IH]; intros id Hid; cbn [scan_down].
  - left. split; [reflexivity|]. intros. lia.
  - destruct (Z.testbit bits (id - 1)) eqn:E.
    + right. split; [lia|]. split; [exact E|]. intros. lia.
    + destruct (IH (id - 1) ltac:(lia)) as [[A B]|(A & B & C)].
      * left. split; [exact A|]. intros b Hb. destruct (Z.eq_dec b (id - 1)) as [->|]; [exact E|apply B; lia].
      * right. split; [lia|]. split; [exact B|]. intros b Hb. destruct (Z.eq_dec b (id - 1)) as [->|]; [exact E|apply C; lia].
Qed.

(** the highest byte of the set below [id] *)
Lemma bm_lt_ok x T id b0 : bits_ok x T -> m_min x <> m_max x -> 0 <= id < 256 -> T b0 -> b0 < id ->
  T (bm_lt x id) /\ bm_lt x id < id /\ forall b, T b -> b < id -> b <= bm_lt x id.
Proof.
  intros [H0 H] N Hid T0 L0. destruct H as [(A & B & C)|[(A & B & C)|(A & B & C & D & F & G)]]; try lia.
  unfold bm_lt. pose proof (H0 _ T0). destruct (scan_down_ok (Z.to_nat id) (m_bits x) id ltac:(lia)) as [[E1 E2]|(E1 & E2 & E3)].
  - exfalso. specialize (E2 b0 ltac:(lia)). apply not_true_iff_false in E2. apply E2, G; auto.
  - split; [apply G; [lia|exact E2]|]. split; [lia|]. intros b Tb Lb. destruct (Z.le_gt_cases b (scan_down (Z.to_nat id) (m_bits x) id)); [assumption|].
    specialize (E3 b ltac:(lia)). apply not_true_iff_false in E3. exfalso. apply E3, G; auto.
Qed.

Lemma bm_clear_helper_ok x T id : bits_ok x T -> T id -> bits_ok (bm_clear_helper x id) (fun b => T b /\ b <> id).
Proof.
  intros [H0 H] Tid. pose proof (H0 _ Tid) as Hid. unfold bm_clear_helper. split; [intros b [Hb _]; apply H0; exact Hb|].
  destruct H as [(A & B & C)|[(A & B & C)|(A & B & C & D & F & G)]].
  - destruct (C _ Tid).
  - rewrite A, Z.eqb_refl. left. cbn [m_min m_max]. repeat split; auto. intros b [Hb N]. apply C in Hb. apply C in Tid. lia.
  - destruct (Z.eqb_spec (m_min x) (m_max x)); [lia|].
    assert (forall b, 0 <= b < 256 -> Z.testbit (Z.clearbit (m_bits x) id) b = true <-> T b /\ b <> id) as HC.
    { intros b Hb. rewrite clearbit_ok by lia. rewrite G by exact Hb. reflexivity. }
    pose proof (H0 _ C) as Hmin. pose proof (H0 _ D) as Hmax.
    (* the new minimum and maximum *)
    assert (exists mn mx, bm_clear x id = mkmeta (m_lmost x) (m_rmost x) (m_lpath x) mn mx (Z.clearbit (m_bits x) id)
              /\ mn <= mx /\ mx < 256 /\ T mn /\ mn <> id /\ T mx /\ mx <> id /\ (forall b, T b /\ b <> id -> mn <= b <= mx)) as (mn & mx & E & P1 & P2 & P3 & P4 & P5 & P6 & P7).
    { unfold bm_clear. cbn [m_min m_max m_bits m_lmost m_rmost m_lpath].
      destruct (Z.eqb_spec id (m_min x)) as [E1|E1].
      - cbn [m_min m_max m_bits m_lmost m_rmost m_lpath]. destruct (Z.eqb_spec id (m_max x)) as [E2|E2]; [lia|].
        unfold bm_gt. cbn [m_bits]. unfold FO. destruct (scan_up_ok (Z.to_nat (256 - id)) (Z.clearbit (m_bits x) id) id ltac:(lia)) as [[S1 S2]|(S1 & S2 & S3)].
        + exfalso. specialize (S2 (m_max x) ltac:(lia)). apply not_true_iff_false in S2. apply S2, HC; [lia|]. auto.
        + eexists _, (m_max x). split; [reflexivity|]. apply HC in S2; [|lia]. destruct S2 as [S2 S4]. pose proof (F _ S2).
          split; [lia|]. split; [lia|]. split; [exact S2|]. split; [exact S4|]. split; [exact D|]. split; [lia|]. intros b H1. split; [|apply F; tauto].
          destruct (Z.le_gt_cases (scan_up (Z.to_nat (256 - id)) (Z.clearbit (m_bits x) id) id) b); [assumption|].
          destruct H1 as [H1 H1']. pose proof (F _ H1). specialize (S3 b ltac:(lia)). apply not_true_iff_false in S3. exfalso. apply S3, HC; [apply H0; exact H1|auto].
      - cbn [m_min m_max m_bits m_lmost m_rmost m_lpath]. destruct (Z.eqb_spec id (m_max x)) as [E2|E2].
        + unfold bm_lt. cbn [m_bits]. destruct (scan_down_ok (Z.to_nat id) (Z.clearbit (m_bits x) id) id ltac:(lia)) as [[S1 S2]|(S1 & S2 & S3)].
          * exfalso. specialize (S2 (m_min x) ltac:(lia)). apply not_true_iff_false in S2. apply S2, HC; [lia|]. auto.
          * eexists (m_min x), _. split; [reflexivity|]. apply HC in S2; [|lia]. destruct S2 as [S2 S4]. pose proof (F _ S2).
            split; [lia|]. split; [lia|]. split; [exact C|]. split; [lia|]. split; [exact S2|]. split; [exact S4|]. intros b H1. split; [apply F; tauto|].
            destruct (Z.le_gt_cases b (scan_down (Z.to_nat id) (Z.clearbit (m_bits x) id) id)); [assumption|].
            destruct H1 as [H1 H1']. pose proof (F _ H1). specialize (S3 b ltac:(lia)). apply not_true_iff_false in S3. exfalso. apply S3, HC; [apply H0; exact H1|auto].
        + exists (m_min x), (m_max x). split; [reflexivity|]. split; [lia|]. split; [exact B|]. split; [exact C|]. split; [lia|]. split; [exact D|]. split; [lia|].
          intros b [K _]. apply F. exact K. }
    rewrite E. cbn [m_min m_max m_bits m_lmost m_rmost m_lpath]. destruct (Z.eqb_spec mn mx) as [->|Ne].
    + right. left. cbn [m_min m_max]. unfold FO. split; [reflexivity|]. split; [exact P2|]. intros b. split; [intros K; pose proof (P7 b K); lia|intros ->; auto].
    + right. right. cbn [m_min m_max m_bits]. unfold FO. split; [lia|]. split; [exact P2|]. split; [auto|]. split; [auto|]. split; [exact P7|exact HC].
Qed.

Lemma bits_empty x T : bits_ok x T -> (m_min x = FO <-> forall b, ~ T b).
Proof.
  intros [H0 H]. destruct H as [(A & B & C)|[(A & B & C)|(A & B & C & D & F & G)]]; split; intros E; auto; try lia.
  - exfalso. apply (E (m_min x)), C. reflexivity.
  - exfalso. apply (E (m_min x)). exact C.
Qed.
Lemma bits_init l r p bit bits T : (forall b, T b <-> b = bit) -> 0 <= bit < 256 -> bits_ok (mkmeta l r p bit bit bits) T.
Proof.
  intros H Hb. split; [intros b Hb'; apply H in Hb'; lia|]. right. left. cbn [m_min m_max]. unfold FO. repeat split; try lia; apply H.
Qed.
Lemma bits_none l r p bits T : (forall b, ~ T b) -> bits_ok (mkmeta l r p FO FO bits) T.
Proof. intros H. split; [intros b Hb; destruct (H b Hb)|]. left. cbn [m_min m_max]. auto. Qed.
