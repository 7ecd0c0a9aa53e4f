(** Histories of one block: it behaves as an ordered list. *)
From Coq Require Import ZArith List Bool Lia Sorting.Sorted Permutation.
From Coq Require Import ZifyBool ZifyNat.
From Verif Require Import Base Util Store Tables Bits Lowbit Cells StoreFind StoreInsert StoreQuery Layout StoreList Spec StoreRep StoreDelete SpecBlock Claims.
Import ListNotations.
Open Scope Z_scope.

Section Block.
Context (c : cfg) (s : Z).
Hypothesis Hs : 1 <= s <= 53.
Hypothesis T : tables_ok c.
Hypothesis Hf : fits c s.

Lemma put_split x : forall A B, Forall (fun y => start y <= start x) A -> Forall (fun y => start x < start y) B -> put_in x (A ++ B) = A ++ x :: B.
Proof.
  induction A as [|a A IH]; intros B HA HB; cbn [app put_in].
  - destruct B as [|b B]; [reflexivity|]. inversion HB; subst. cbn [put_in]. destruct (Z.ltb_spec (start x) (start b)); [reflexivity|lia].
  - inversion HA; subst. destruct (Z.ltb_spec (start x) (start a)); [lia|]. rewrite IH; auto.
Qed.
Lemma put_ins x L L' : element s x -> infs s L -> infs s L' -> ins x L L' -> L' = put_in x L.
Proof.
  intros Hx HL HL' (A & B & -> & -> & HB). apply ordered_infs in HL' as [E' O']; [|exact Hs]. unfold ordered in O'.
  apply Forall_app in E' as [EA EB]. inversion EB as [|? ? _ EB']; subst. symmetry. apply put_split.
  - apply Forall_forall. intros y Hy. clear -O' Hy. induction A as [|a A IH]; [destruct Hy|]. cbn [app] in O'. inversion O' as [|? ? S F]; subst.
    destruct Hy as [->|Hy]; [|apply IH; assumption]. rewrite Forall_forall in F. apply F. apply in_or_app. right. left. reflexivity.
  - rewrite Forall_forall in *. intros y Hy. rewrite !start_lbase; [apply HB; exact Hy| |].
    + pose proof (element_pos s y Hs (EB' y Hy)). lia.
    + pose proof (element_pos s x Hs Hx). lia.
Qed.
Lemma taken_dels x L L' : element s x -> infs s L -> dels x L L' -> taken x L L'.
Proof.
  intros Hx HL (A & y & B & -> & -> & Hy & HB). apply element_pos in Hx; [|exact Hs]. apply ordered_infs in HL as [E' _]; [|exact Hs].
  apply Forall_app in E' as [EA EB]. inversion EB as [|? ? Ey EB']; subst. exists A, y, B. split; [reflexivity|]. split; [reflexivity|].
  split; [apply covers_hit; [apply (element_pos s); assumption|lia|exact Hy]|]. rewrite Forall_forall in *. intros z Hz Hc. apply (HB z Hz).
  apply covers_hit; [apply (element_pos s); auto|lia|exact Hc].
Qed.
Lemma delete_raw_run ti st L x : rep c s ti true st L -> element s x -> Z.odd x = true -> (exists y, In y L /\ covers y x) ->
  (forall st1, delete_block c s st ti = Ok st1 -> ~ crammed c s st1 ti) ->
  exists st' L', delete_raw c s st x ti = Ok st' /\ rep c s ti true st' L' /\ dels x L L' /\ flags st' = flags st.
Proof.
  intros HR Hx Ho (y & Hy & Hc) Hcr. pose proof (rep_infs _ _ _ _ _ _ HR) as [_ HI]. rewrite Forall_forall in HI.
  assert (H : wp (delete_raw c s st x ti) (fun st' => exists L', rep c s ti true st' L' /\ dels x L L' /\ flags st' = flags st)).
  { apply (delete_raw_rep c T s ti st L x); [exact Hf|exact HR|apply Hx|exact Ho|exact Hcr| |intros st1 L1 R1 D1 F1; exists L1; auto].
    exists y. split; [exact Hy|]. apply (covers_hit y x); [apply (element_pos s); [exact Hs|apply HI; exact Hy]|destruct Hx as [Hx _]; lia|exact Hc]. }
  apply wp_exists in H as (st' & E & L' & H1 & H2 & H3). eauto 8.
Qed.

Lemma block_op_rep ti st L o : rep c s ti true st L -> lawful_ops c s ti st L [o] ->
  exists st' L', block_op c s st o ti = Ok st' /\ rep c s ti true st' L' /\ list_ops L [o] L' /\ flags st' = flags st.
Proof.
  intros HR [H _]. pose proof (rep_infs _ _ _ _ _ _ HR) as HI. destruct o as [x|x]; cbn [block_op list_ops].
  - destruct H as (H1 & H2 & H3). destruct (insert_raw_run c T s ti st L x Hf HR (proj1 H1) H2 H3) as (st1 & L1 & E1 & R1 & I1 & F1).
    exists st1, L1. split; [exact E1|]. split; [exact R1|]. split; [|exact F1]. apply put_ins; auto. apply (rep_infs _ _ _ _ _ _ R1).
  - destruct H as (H1 & H2 & H3 & H4). destruct (delete_raw_run ti st L x HR H1 H2 H3 H4) as (st1 & L1 & E1 & R1 & I1 & F1).
    exists st1, L1. split; [exact E1|]. split; [exact R1|]. split; [|exact F1]. exists L1. split; [apply taken_dels; auto|reflexivity].
Qed.
Lemma list_ops_cons o ops L L1 L' : list_ops L [o] L1 -> list_ops L1 ops L' -> list_ops L (o :: ops) L'.
Proof.
  destruct o as [x|x]; cbn [list_ops]; [intros ->; auto|]. intros (L2 & H & ->) H2. eauto.
Qed.
Lemma block_ops_rep ti ops : forall st L, rep c s ti true st L -> lawful_ops c s ti st L ops ->
  exists st' L', block_ops c s st ops ti = Ok st' /\ rep c s ti true st' L' /\ list_ops L ops L' /\ flags st' = flags st.
Proof.
  induction ops as [|o ops IH]; intros st L HR HA.
  - exists st, L. repeat split; auto.
  - cbn [lawful_ops] in HA. destruct HA as [H1 H2]. destruct (block_op_rep ti st L o HR) as (st1 & L1 & E1 & R1 & P1 & F1).
    { cbn [lawful_ops]. auto. }
    destruct (IH st1 L1 R1 (H2 _ _ E1 P1)) as (st2 & L2 & E2 & R2 & P2 & F2). exists st2, L2. cbn [block_ops]. rewrite E1. cbn [bind].
    split; [exact E2|]. split; [exact R2|]. split; [eapply list_ops_cons; eassumption|congruence].
Qed.
Theorem block_history ti L ops st0 : 512 <= ti <= 1024 -> Forall (element s) L -> ordered L -> Z.of_nat (length L) < 2 ^ 20 ->
  alloc_with_list c s L ti = Ok st0 -> lawful_ops c s ti st0 L ops ->
  exists st L', block_ops c s st0 ops ti = Ok st /\ list_ops L ops L' /\
    get_infix_list c s st = Ok L' /\ Forall (element s) L' /\ ordered L' /\ get_elem_count st = Z.of_nat (length L') /\ Z.of_nat (length L') <= c_size c (get_size_grade st) /\
    (forall y, 0 <= y < 1024 * 2 ^ s -> exists b, point_query_store c s st y ti = Ok b /\ (b = true <-> exists x, In x L' /\ covers x y)) /\
    (forall y z, 0 <= y <= z -> z < 1024 * 2 ^ s -> exists b, range_query_store c s st y z = Ok b /\
       (b = true <-> exists x w, In x L' /\ y <= w <= z /\ covers x w)).
Proof.
  intros Ht HL HO Hn E0 HA. destruct (implicit_some c ti Ht) as (sc & Hi).
  assert (H : wp (alloc_with_list c s L ti) (fun st => rep c s ti true st L)).
  { apply (alloc_rep c T s L ti sc); [exact Hf|exact Hs|exact Hi|apply ordered_infs; auto|lia|auto]. }
  rewrite E0 in H. cbn [wp] in H. destruct (block_ops_rep ti ops st0 L H HA) as (st & L' & E & R & P & _). exists st, L'.
  split; [exact E|]. split; [exact P|]. split; [apply (rep_list _ _ _ _ _ _ R)|].
  pose proof (rep_infs _ _ _ _ _ _ R) as HI. pose proof HI as HI2. apply ordered_infs in HI2 as [E' O']; [|exact Hs]. split; [exact E'|]. split; [exact O'|].
  destruct (rep_count _ T _ _ _ _ _ R) as (C1 & _ & _ & C4 & _). split; [exact C1|]. split; [exact C4|].
  assert (Hpos : forall x, In x L' -> 0 < x < 2 ^ 63). { intros x Hx. apply (element_pos s); [exact Hs|]. rewrite Forall_forall in E'. auto. }
  split.
  - intros y Hy. assert (Hw : wp (point_query_store c s st y ti) (fun b => b = true <-> exists x, In x L' /\ hit y y x)).
    { apply (rep_point c s ti true st L'); auto. }
    apply wp_exists in Hw as (b & Eb & Hb). exists b. split; [exact Eb|]. rewrite Hb. split; intros (x & Hx & Hh); exists x; (split; [exact Hx|]); apply covers_hit; auto; lia.
  - intros y z Hy Hz. assert (Hw : wp (range_query_store c s st y z) (fun b => b = true <-> exists x, In x L' /\ hit y z x)).
    { apply (rep_range c s ti true st L'); auto. }
    apply wp_exists in Hw as (b & Eb & Hb). exists b. split; [exact Eb|]. rewrite Hb. split.
    + intros (x & Hx & Hh). exists x, (Z.max y (lbase x)). split; [exact Hx|]. pose proof (Hpos x Hx).
      destruct (lowbit_facts x ltac:(lia)) as (F1 & F2 & _). unfold hit, lbase in *. split; [lia|]. apply covers_hit; [lia|lia|]. unfold hit, lbase. lia.
    + intros (x & w & Hx & Hw & Hc). exists x. split; [exact Hx|]. apply covers_hit in Hc; [|auto|lia]. unfold hit in *. lia.
Qed.
End Block.

(** ** a check that a block history is lawful, for the examples *)
Definition coversb (x y : Z) : bool := let b := Z.land x (- x) in (x - b <=? y) && (y <=? x + b - 1).
Lemma coversb_ok x y : 0 < x < 2 ^ 63 -> 0 <= y -> (coversb x y = true <-> covers x y).
Proof.
  intros Hx Hy. rewrite covers_hit by assumption. unfold coversb, hit, lbase. rewrite <- lowbit_land by lia. rewrite andb_true_iff, !Z.leb_le. reflexivity.
Qed.
Lemma taken_unique x L L1 L2 : taken x L L1 -> taken x L L2 -> L1 = L2.
Proof.
  intros (A & y & B & -> & -> & Hy & HB) (A' & y' & B' & E & -> & Hy' & HB').
  assert (HE : forall (A A' : list Z) y y' B B', A ++ y :: B = A' ++ y' :: B' -> (length B < length B')%nat -> In y B').
  { clear. intros A A' y y' B B' E HL. assert (HA : (length A' < length A)%nat).
    { apply (f_equal (@length Z)) in E. rewrite !app_length in E. cbn [length] in E. lia. }
    revert A' E HA. induction A as [|a A IH]; intros A' E HA; [cbn in HA; lia|]. destruct A' as [|a' A'].
    - cbn [app] in E. injection E as <- <-. apply in_or_app. right. left. reflexivity.
    - cbn [app] in E. injection E as <- E. cbn [length] in HA. apply (IH A' E). lia. }
  rewrite Forall_forall in *. destruct (Nat.lt_trichotomy (length B) (length B')) as [H|[H|H]].
  - exfalso. apply (HB' y); [|exact Hy]. apply (HE A A' y y' B B' E H).
  - assert (HA : length A = length A'). { apply (f_equal (@length Z)) in E. rewrite !app_length in E. cbn [length] in E. lia. }
    revert E. clear -HA. intros E. revert A' HA E. induction A as [|a A IH]; intros [|a' A'] HA E; try discriminate.
    + cbn [app] in *. congruence.
    + cbn [app] in *. injection E as <- E. f_equal. apply IH; [cbn in HA; lia|exact E].
  - exfalso. apply (HB y'); [|exact Hy']. apply (HE A' A y' y B' B (eq_sym E) H).
Qed.
(** remove the last covering element, [None] if there is none *)
Fixpoint takeb (x : Z) (L : list Z) : option (list Z) :=
  match L with
  | [] => None
  | y :: r => match takeb x r with Some r' => Some (y :: r') | None => if coversb y x then Some r else None end
  end.
Lemma takeb_none x L : Forall (fun y => 0 < y < 2 ^ 63) L -> 0 <= x -> takeb x L = None -> Forall (fun z => ~ covers z x) L.
Proof.
  intros HL Hx. induction L as [|y L IH]; intros E; constructor; inversion HL; subst; cbn [takeb] in E; destruct (takeb x L); try discriminate.
  - destruct (coversb y x) eqn:Ec; [discriminate|]. intros Hc. apply coversb_ok in Hc; auto. congruence.
  - auto.
Qed.
Lemma takeb_ok x L L' : Forall (fun y => 0 < y < 2 ^ 63) L -> 0 <= x -> takeb x L = Some L' -> taken x L L'.
Proof.
  intros HL Hx. revert L'. induction L as [|y L IH]; intros L' E; [discriminate|]. inversion HL; subst. cbn [takeb] in E. destruct (takeb x L) as [L1|] eqn:E1.
  - injection E as <-. destruct (IH ltac:(assumption) L1 eq_refl) as (A & z & B & -> & -> & H1' & H2'). exists (y :: A), z, B. auto.
  - destruct (coversb y x) eqn:Ec; [|discriminate]. injection E as <-. exists [], y, L. split; [reflexivity|]. split; [reflexivity|].
    split; [apply coversb_ok; auto|]. apply takeb_none; auto.
Qed.
Definition elementb (s x : Z) : bool := (0 <=? x) && (x <? 1024 * 2 ^ s) && negb (x mod 2 ^ s =? 0).
Fixpoint lawful_opsb (c : cfg) (s total : Z) (st : store) (L : list Z) (ops : list bop) : bool :=
  match ops with
  | [] => true
  | o :: rest =>
      match o with
      | Put x => elementb s x && Z.odd x && (Z.of_nat (length L) + 1 <? 2 ^ 20) &&
          match block_op c s st o total with Ok st' => lawful_opsb c s total st' (put_in x L) rest | _ => true end
      | Take x => elementb s x && Z.odd x &&
          match delete_block c s st total with Ok st1 => match get_slot c s st1 (slots c st1 - 1) with Ok 0 => true | _ => false end | _ => true end &&
          match takeb x L with
          | Some L' => match block_op c s st o total with Ok st' => lawful_opsb c s total st' L' rest | _ => true end
          | None => false
          end
      end
  end.
Lemma elementb_ok s x : elementb s x = true -> element s x.
Proof. unfold elementb, element. rewrite !andb_true_iff, negb_true_iff, Z.eqb_neq. lia. Qed.
Lemma taken_incl x L L' : taken x L L' -> incl L' L.
Proof. intros (A & y & B & -> & -> & _) z Hz. apply in_app_or in Hz as [Hz|Hz]; apply in_or_app; [left|right; right]; exact Hz. Qed.
Lemma put_incl x L : incl (put_in x L) (x :: L).
Proof.
  induction L as [|y L IH]; cbn [put_in]; [apply incl_refl|]. destruct (start x <? start y); [apply incl_refl|].
  intros z [->|Hz]; [right; left; reflexivity|]. destruct (IH z Hz) as [->|H]; [left; reflexivity|right; right; exact H].
Qed.
Lemma lawful_opsb_ok c s total ops : 1 <= s <= 53 -> forall st L, Forall (element s) L -> lawful_opsb c s total st L ops = true -> lawful_ops c s total st L ops.
Proof.
  intros Hs. induction ops as [|o ops IH]; intros st L HL H; [exact I|].
  assert (HP : Forall (fun y => 0 < y < 2 ^ 63) L) by (eapply Forall_impl; [|exact HL]; intros y; apply element_pos; exact Hs).
  cbn [lawful_opsb lawful_ops] in *. destruct o as [x|x].
  - apply andb_true_iff in H as [H H3]. apply andb_true_iff in H as [H H2]. apply andb_true_iff in H as [H H1]. apply elementb_ok in H. split; [split; [exact H|split; [assumption|lia]]|].
    intros st' L' E HE. rewrite E in *. cbn [list_ops] in HE. subst L'. apply IH; [|assumption].
    eapply incl_Forall; [apply put_incl|]. constructor; assumption.
  - apply andb_true_iff in H as [H H3]. apply andb_true_iff in H as [H H2]. apply andb_true_iff in H as [H H1]. apply elementb_ok in H.
    destruct (takeb x L) as [L1|] eqn:ET; [|discriminate]. apply takeb_ok in ET; [|exact HP|apply H]. split.
    + split; [exact H|]. split; [exact H1|]. split.
      * destruct ET as (A & y & B & -> & _ & Hc & _). exists y. split; [apply in_or_app; right; left; reflexivity|exact Hc].
      * intros st1 E1. rewrite E1 in H2. intros (i & q & scalar & Hi & _ & Hfull & _). destruct (get_slot c s st1 (slots c st1 - 1)) as [v| |] eqn:E; try discriminate.
        apply (Hfull (slots c st1 - 1)); [lia|]. rewrite E. destruct v; [reflexivity|discriminate|discriminate].
    + intros st' L' E (L2 & HT & ->). rewrite E in H3. assert (L2 = L1) by (eapply taken_unique; eassumption). subst L2. apply IH; [|exact H3].
      eapply incl_Forall; [eapply taken_incl; exact ET|exact HL].
Qed.
