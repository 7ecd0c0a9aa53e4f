(** Every key that no boundary stands for has an element of its own in its block. *)
From Coq Require Import ZArith List Bool Lia Permutation.
From Coq Require Import ZifyBool ZifyNat.
From Verif Require Import Base Util Store Key KeyBits KeyOrder Diva Tree StoreRep Filter Contents Match.
Import ListNotations.
Open Scope Z_scope.

Definition partb (st : store) (a k : key) : bool :=
  is_partial_key st && (klen a <=? klen k) && (pre (8 * klen a - get_invalid_bits st) a =? pre (8 * klen a - get_invalid_bits st) k).
Lemma partb_iff st a k : partb st a k = true <-> part st a k.
Proof. unfold partb, part, pfx. rewrite !andb_true_iff, Z.leb_le, Z.eqb_eq. tauto. Qed.
(** [k] lies strictly between [a] and [b], and [a] does not stand for it *)
Definition need (a : key) (st : store) (b k : key) : bool := key_lt a k && key_lt k b && negb (partb st a k).
Lemma need_iff a st b k : need a st b k = true <-> key_lt a k = true /\ key_lt k b = true /\ ~ part st a k.
Proof.
  unfold need. rewrite !andb_true_iff, negb_true_iff. pose proof (partb_iff st a k) as H. destruct (partb st a k); split; intros H'.
  - destruct H' as [_ H']. discriminate.
  - exfalso. apply H'. apply H. reflexivity.
  - split; [tauto|]. split; [tauto|]. intros Hp. apply H in Hp. discriminate.
  - tauto.
Qed.
Lemma filter_sub {A} (f g : A -> bool) l : (forall x, In x l -> g x = true -> f x = true) -> filter g l = filter g (filter f l).
Proof.
  induction l as [|x l IH]; intros H; [reflexivity|]. cbn [filter]. rewrite IH by (intros y Hy; apply H; right; exact Hy). specialize (H x (or_introl eq_refl)).
  destruct (f x) eqn:Ef; cbn [filter]; destruct (g x) eqn:Eg; try reflexivity. specialize (H eq_refl). discriminate.
Qed.

Section F.
Variable c : cfg.
Variable s : Z.
Hypothesis Hs : 1 <= s <= 46.
Notation inf := (inf c s).
Notation gcov := (gcov c s).

Definition at_inf (a b : key) (k : key) (x : Z) : Prop := hit (inf a b k) (inf a b k) x.
Definition mat (ks : list key) (a : key) (st : store) (b : key) : Prop :=
  forall L, get_infix_list c s st = Ok L -> matched (at_inf a b) (filter (need a st b) ks) L.
Definition heldt (ks : list key) (t : tree) : Prop := adj (mat ks) t.

Lemma mat_far k ks a st b : need a st b k = false -> mat (k :: ks) a st b <-> mat ks a st b.
Proof. intros E. unfold mat. cbn [filter]. rewrite E. tauto. Qed.
Lemma mat_perm ks ks' a st b : Permutation ks ks' -> mat ks a st b -> mat ks' a st b.
Proof. intros HP H L E. apply (matched_left _ (filter (need a st b) ks)); [|apply H; exact E]. clear -HP. induction HP; cbn [filter]; repeat (destruct (need _ _ _ _)); try constructor; auto. etransitivity; eassumption. Qed.
Lemma mat_tail k ks a st b : mat (k :: ks) a st b -> mat ks a st b.
Proof. intros H L E. specialize (H L E). cbn [filter] in H. destruct (need a st b k); [|exact H]. apply (matched_tail _ _ _ _ H). Qed.
Lemma heldt_perm ks ks' t : Permutation ks ks' -> heldt ks t -> heldt ks' t.
Proof. intros HP. apply adj_mono. intros a st b. apply mat_perm. exact HP. Qed.

(** a key above (below) all the blocks *)
Lemma far_above k ks A x st : sorted (A ++ [(x, st)]) -> key_lt k x = false -> heldt (k :: ks) (A ++ [(x, st)]) <-> heldt ks (A ++ [(x, st)]).
Proof.
  intros Hso Hk. assert (Hn : forall A1 a sa b wb B1, A ++ [(x, st)] = A1 ++ (a, sa) :: (b, wb) :: B1 -> need a sa b k = false).
  { intros A1 a sa b wb B1 E. unfold need. assert (Hb : key_lt k b = false); [|rewrite Hb, andb_false_r; reflexivity].
    destruct (key_lt k b) eqn:E1; [|reflexivity]. assert (Hbx : key_lt x b = false).
    { assert (El : last_key (A ++ [(x, st)]) = x) by (rewrite last_app_cons; reflexivity). rewrite E in El, Hso.
      change ((a, sa) :: (b, wb) :: B1) with ([(a, sa)] ++ (b, wb) :: B1) in El, Hso. rewrite app_assoc, last_app_cons in El. rewrite app_assoc in Hso. apply sorted_tail in Hso. rewrite <- El. apply (sorted_last _ _ Hso). }
    rewrite (lt_nlt_trans _ _ _ E1 Hbx) in Hk. discriminate. }
  unfold heldt. rewrite !adj_iff. split; intros H A1 a sa b wb B1 E; specialize (H A1 a sa b wb B1 E); apply (mat_far k ks a sa b (Hn _ _ _ _ _ _ E)); exact H.
Qed.
Lemma far_below k ks x st B : sorted ((x, st) :: B) -> key_lt x k = false -> heldt (k :: ks) ((x, st) :: B) <-> heldt ks ((x, st) :: B).
Proof.
  intros Hso Hk. assert (Hn : forall A1 a sa b wb B1, (x, st) :: B = A1 ++ (a, sa) :: (b, wb) :: B1 -> need a sa b k = false).
  { intros A1 a sa b wb B1 E. unfold need. assert (Ha : key_lt a k = false); [|rewrite Ha; reflexivity].
    destruct A1 as [|y A1]; cbn [app] in E; [inversion E; subst; exact Hk|]. assert (E2 : B = A1 ++ (a, sa) :: (b, wb) :: B1) by (inversion E; reflexivity).
    destruct (key_lt a k) eqn:E3; [|reflexivity]. pose proof (sorted_below _ _ Hso (a, sa) ltac:(rewrite E2; apply in_or_app; right; left; reflexivity)) as Hb. cbn [fst] in Hb.
    rewrite (key_lt_trans _ _ _ Hb E3) in Hk. discriminate. }
  unfold heldt. rewrite !adj_iff. split; intros H A1 a sa b wb B1 E; specialize (H A1 a sa b wb B1 E); apply (mat_far k ks a sa b (Hn _ _ _ _ _ _ E)); exact H.
Qed.
Lemma heldt_at ks A a st b st' B : heldt ks (A ++ (a, st) :: (b, st') :: B) -> mat ks a st b.
Proof. intros H. apply adj_app in H as [_ H]. apply H. Qed.

(** the block that [k] belongs to is replaced by the blocks [M] *)
Lemma held_put k ks A0 pk st M nk st' B0 : sorted (A0 ++ (pk, st) :: (nk, st') :: B0) -> key_lt k pk = false -> key_lt k nk = true ->
  heldt ks (A0 ++ (pk, st) :: (nk, st') :: B0) -> (exists st2 M', M = (pk, st2) :: M') -> heldt (k :: ks) (M ++ [(nk, st')]) -> heldt (k :: ks) (A0 ++ M ++ (nk, st') :: B0).
Proof.
  intros Hso H1 H2 H (st2 & M' & ->) HM. unfold heldt in *. apply adj_app in H as [Ha Hb]. rewrite adj_cons in Hb. cbn [app]. unfold sorted in Hso. apply adj_app in Hso as [So1 So2]. rewrite adj_cons in So2.
  apply adj_app. split.
  - apply (adj_last _ _ _ st). apply far_above; [exact So1|exact H1|exact Ha].
  - change (adj (mat (k :: ks)) (((pk, st2) :: M') ++ (nk, st') :: B0)). apply adj_app. split; [exact HM|]. apply far_below; [apply So2|apply key_lt_asym; exact H2|apply Hb].
Qed.
(** what is held is covered *)
Lemma held_cov ks t k : adj (gapok c s) t -> t <> [] -> heldt ks t -> In k ks -> key_lt k (hd_key t) = false -> key_lt k (last_key t) = true -> covt gcov t k.
Proof.
  intros Ha Hne HH Hin H1 H2. pose proof (gapok_sorted c s _ Ha) as Hso. destruct (find_gap _ _ Hso Hne H1 H2) as (A & pk & st & nk & st' & B & E & G1 & G2).
  rewrite E in *. pose proof (heldt_at _ _ _ _ _ _ _ HH) as HM. pose proof (Filter.adj_at _ _ _ _ _ _ _ _ Ha) as (K1 & K2 & K3 & K4 & L & K5). pose proof (rep_list _ _ _ _ _ _ K5) as EL.
  apply covt_app. right. rewrite covt_cons. destruct (nlt_cases _ _ G1) as [->|G3]; [left; reflexivity|]. right. left. split; [exact G3|]. split; [exact G2|].
  destruct (partb st pk k) eqn:Ep; [left; apply partb_iff; exact Ep|]. right.
  assert (Hn : need pk st nk k = true) by (unfold need; rewrite G3, G2, Ep; reflexivity).
  destruct (matched_in _ _ _ k (HM L EL) (proj2 (filter_In _ _ _) (conj Hin Hn))) as (x & Hx & Hh). exists L, x. auto.
Qed.
End F.
