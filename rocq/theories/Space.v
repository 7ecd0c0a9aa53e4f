(** How many slots and words a block has: what every operation does to the status
    word and to the allocated size of a block.  Nothing is assumed about the
    content of the blocks; only runs that return are looked at. *)
From Coq Require Import ZArith List Bool Lia Permutation.
From Verif Require Import Base Util Store Tables Key Diva Bits StoreInsert Spec StoreList StoreRep TablesProofs KeyOrder Tree SpecFilter Bulk.
Import ListNotations.
Open Scope Z_scope.

Definition pc {A} (m : res A) (Q : A -> Prop) : Prop := match m with Ok a => Q a | _ => True end.
Lemma pc_seq {A B} (m : res A) (f : A -> res B) (P : A -> Prop) (Q : B -> Prop) :
  pc m P -> (forall a, P a -> pc (f a) Q) -> pc (bind m f) Q.
Proof. destruct m; simpl; auto. Qed.
Lemma pc_skip {A B} (m : res A) (f : A -> res B) (Q : B -> Prop) : (forall a, m = Ok a -> pc (f a) Q) -> pc (bind m f) Q.
Proof. destruct m; simpl; auto. Qed.
Lemma pc_use {A} (m : res A) (Q : A -> Prop) a : pc m Q -> m = Ok a -> Q a.
Proof. intros H ->. exact H. Qed.
Lemma pc_mono {A} (m : res A) (P Q : A -> Prop) : pc m P -> (forall a, P a -> Q a) -> pc m Q.
Proof. destruct m; simpl; auto. Qed.
Lemma pc_loop {A B} (I : A -> Prop) (body : A -> res (A + B)) (Q : B -> Prop) n :
  (forall s, I s -> pc (body s) (fun x => match x with inl s' => I s' | inr b => Q b end)) -> forall s, I s -> pc (loop n body s) Q.
Proof.
  intros Hb. induction n as [|n IH]; intros s Hs; [exact Logic.I|]. cbn [loop]. specialize (Hb s Hs). destruct (body s) as [[s'|b]| |]; simpl in *; auto.
Qed.
Lemma pc_forz {A} (I : A -> Prop) (body : Z -> A -> res A) n : (forall i s, I s -> pc (body i s) I) -> forall a s, I s -> pc (forz n a body s) I.
Proof.
  intros Hb. induction n as [|n IH]; intros a s Hs; [exact Hs|]. cbn [forz]. apply (pc_seq _ _ I); auto.
Qed.

Section Space.
Variable c : cfg.

(** same status word and same allocated size *)
Definition sim (st st' : store) : Prop := status st' = status st /\ wc st' = wc st.
Lemma sim_refl st : sim st st.
Proof. split; reflexivity. Qed.
Lemma sim_trans a b d : sim a b -> sim b d -> sim a d.
Proof. unfold sim. intros [] []. split; congruence. Qed.

Lemma wr_sim st0 st a n v : sim st0 st -> pc (wr c st a n v) (sim st0).
Proof. intros H. unfold wr. destruct ((0 <=? a) && (a + n <=? limit c st)); [|exact I]. exact H. Qed.

Ltac keep st0 := repeat match goal with
  | |- pc (bind ?m _) _ => match type of m with
                           | res store => apply (pc_seq m _ (sim st0)); [|intros ? ?]
                           | _ => apply pc_skip; intros ? _
                           end
  | |- pc (wr _ _ _ _ _) (sim _) => apply wr_sim
  | |- pc (wrw _ _ _ _) (sim _) => apply wr_sim
  | |- pc (Ok _) (sim _) => unfold pc
  | |- pc (if ?b then _ else _) _ => destruct b
  | |- pc (let '(_, _) := ?p in _) _ => destruct p
  | |- pc UB _ => exact I
  | |- pc Fuel _ => exact I
  | |- sim st0 st0 => apply sim_refl
  | H : ?P |- ?P => exact H
  end.

Lemma add_popcnt_sim st0 st k d : sim st0 st -> pc (add_popcnt c st k d) (sim st0).
Proof. intros H. unfold add_popcnt. keep st0. Qed.
Lemma set_bit_sim st0 st b p : sim st0 st -> pc (set_bit c st b p) (sim st0).
Proof. intros H. unfold set_bit. keep st0. Qed.
Lemma reset_bit_sim st0 st b p : sim st0 st -> pc (reset_bit c st b p) (sim st0).
Proof. intros H. unfold reset_bit. keep st0. Qed.
Lemma set_slot_sim st0 w st p v : sim st0 st -> pc (set_slot c w st p v) (sim st0).
Proof. intros H. unfold set_slot. keep st0. Qed.

Lemma shr_sim st0 st b l r n : sim st0 st -> pc (shift_bitmap_right c st b l r n) (sim st0).
Proof.
  intros H. unfold shift_bitmap_right. apply (pc_seq _ _ (sim st0)).
  - apply (pc_loop (fun x => sim st0 (fst x))); [|exact H]. intros [st1 x] H1. simpl in H1. unfold shift_right_move. keep st0; exact H1.
  - intros st1 H1. apply (pc_loop (fun x => sim st0 (fst x))); [|exact H1]. intros [st2 x] H2. simpl in H2. unfold shift_right_erase. keep st0; exact H2.
Qed.
Lemma shl_sim st0 st b l r n : sim st0 st -> pc (shift_bitmap_left c st b l r n) (sim st0).
Proof.
  intros H. unfold shift_bitmap_left. apply (pc_seq _ _ (sim st0)).
  - apply (pc_loop (fun x => sim st0 (fst x))); [|exact H]. intros [st1 x] H1. simpl in H1. unfold shift_left_move. keep st0; exact H1.
  - intros st1 H1. apply (pc_loop (fun x => sim st0 (fst x))); [|exact H1]. intros [st2 x] H2. simpl in H2. unfold shift_left_erase. keep st0; exact H2.
Qed.

Ltac kept st0 := repeat (keep st0; match goal with
  | |- pc (add_popcnt _ _ _ _) (sim _) => apply add_popcnt_sim
  | |- pc (set_bit _ _ _ _) (sim _) => apply set_bit_sim
  | |- pc (reset_bit _ _ _ _) (sim _) => apply reset_bit_sim
  | |- pc (set_slot _ _ _ _ _) (sim _) => apply set_slot_sim
  | |- pc (shift_slots_right _ _ _ _ _ _) (sim _) => apply shr_sim
  | |- pc (shift_slots_left _ _ _ _ _ _) (sim _) => apply shl_sim
  | |- pc (shift_runends_right _ _ _ _ _) (sim _) => apply shr_sim
  | |- pc (shift_runends_left _ _ _ _ _) (sim _) => apply shl_sim
  end); keep st0.

Lemma write_run_sim st0 s n : forall j l st, sim st0 st -> pc (write_run c s n j l st) (fun x => sim st0 (fst x)).
Proof.
  induction n as [|n IH]; intros j l st H; cbn [write_run]; [exact H|]. destruct l as [|x rest]; [exact I|].
  apply (pc_seq _ _ (sim st0)); [apply set_bit_sim, H|]. intros st1 H1. apply (pc_seq _ _ (sim st0)); [apply set_slot_sim, H1|]. intros st2 H2. apply IH, H2.
Qed.
Lemma write_runs_sim st0 s runs : forall l st, sim st0 st -> pc (write_runs c s runs l st) (sim st0).
Proof.
  induction runs as [|[a b] t IH]; intros l st H; cbn [write_runs]; [exact H|].
  apply (pc_seq _ _ _ _ (write_run_sim st0 s _ a l st H)). intros [st1 rest] H1. cbn [fst] in H1.
  apply (pc_seq _ _ (sim st0)); [apply set_bit_sim, H1|]. intros st2 H2. apply IH, H2.
Qed.
Lemma load_popcnts_sim st0 st : sim st0 st -> pc (load_popcnts c st) (sim st0).
Proof.
  intros H. unfold load_popcnts. apply pc_forz; [|exact H]. intros i st1 H1. kept st0.
Qed.
Lemma load_list_status s st l ti z : pc (load_list c s st l ti z) (sim (set_elem_count st (Z.of_nat (length l)))).
Proof.
  unfold load_list. apply pc_skip. intros scalar _. apply (pc_seq _ _ (sim st)).
  - destruct z; [apply wr_sim|]; apply sim_refl.
  - intros st1 [E1 E2].
    assert (S0 : sim (set_elem_count st (Z.of_nat (length l))) (set_elem_count st1 (Z.of_nat (length l)))) by (unfold sim, set_elem_count; simpl; rewrite E1, E2; split; reflexivity).
    destruct l as [|x l']; [exact S0|]. eapply pc_seq; [apply write_runs_sim, S0|]. intros st2 H2. apply load_popcnts_sim, H2.
Qed.

(** ** one block *)
Section Block.
Variable s : Z.
(** the grade, the element count and the status word of a block in shape, and the
    bound on its grade *)
Definition trim (g n : Z) : Prop := g <= 55 \/ c_size c (g - 2) <= n.
Definition slim (st : store) : Prop :=
  0 <= status st < 2 ^ 32 /\ wc st = ptr_word_count (slots c st) s /\ trim (get_size_grade st) (get_elem_count st).

Lemma count_range st : 0 <= get_elem_count st < 2 ^ 20.
Proof. change (get_elem_count st) with (st_count (status st)). rewrite st_count_mod. apply Z.mod_pos_bound. lia. Qed.
Lemma grade_rng st : 0 <= get_size_grade st < 256.
Proof. apply (grade_range (status st)). Qed.

Lemma new_store_status n g : 0 <= g < 256 ->
  let st := new_store c n s g in 0 <= status st < 2 ^ 32 /\ wc st = ptr_word_count n s /\ get_size_grade st = g /\ get_elem_count st = 0.
Proof.
  intros Hg st. pose proof (ugrade_spec 0 g ltac:(lia) ltac:(lia)) as (A & B & C & _).
  change (status st) with (ugrade 0 g). change (get_size_grade st) with (st_grade (ugrade 0 g)). change (get_elem_count st) with (st_count (ugrade 0 g)).
  split; [exact A|]. split; [reflexivity|]. split; [exact C|]. rewrite B. reflexivity.
Qed.

Lemma load_new g l ti : 0 <= g < 256 -> Z.of_nat (length l) < 2 ^ 20 ->
  pc (load_list c s (new_store c (c_size c g) s g) l ti false)
     (fun st => 0 <= status st < 2 ^ 32 /\ wc st = ptr_word_count (slots c st) s /\ get_size_grade st = g /\ get_elem_count st = Z.of_nat (length l)).
Proof.
  intros Hg Hl. eapply pc_mono; [apply load_list_status|]. intros st [E1 E2].
  destruct (new_store_status (c_size c g) g Hg) as (A & B & C & _). set (st0 := new_store c (c_size c g) s g) in *.
  pose proof (ucount_spec (status st0) (Z.of_nat (length l)) A ltac:(lia)) as (U1 & U2 & U3 & _).
  change (status (set_elem_count st0 (Z.of_nat (length l)))) with (ucount (status st0) (Z.of_nat (length l))) in E1.
  change (wc (set_elem_count st0 (Z.of_nat (length l)))) with (wc st0) in E2.
  assert (G : get_size_grade st = g). { change (get_size_grade st) with (st_grade (status st)). rewrite E1, U3. exact C. }
  split; [rewrite E1; exact U1|]. split; [unfold slots; rewrite G, E2; exact B|]. split; [exact G|].
  change (get_elem_count st) with (st_count (status st)). rewrite E1. exact U2.
Qed.

Hypothesis T : tables_ok c.
Hypothesis tight : forall g, 56 <= g < 256 -> Z.shiftr (c_scal c grow_sep * (c_size c (g - 2) - 1)) scale_shift <= c_size c (g - 1).

Lemma size_lt g h : 0 <= g < h -> h < 256 -> c_size c g < c_size c h.
Proof.
  intros Hg Hh. replace h with (g + Z.of_nat (Z.to_nat (h - g))) in * by lia. assert (1 <= Z.to_nat (h - g))%nat by lia. revert Hh. generalize dependent (Z.to_nat (h - g)).
  induction n as [|n IH]; intros; [exfalso; lia|]. pose proof (t_incr c T (g + Z.of_nat n) ltac:(lia)).
  replace (g + Z.of_nat (S n)) with (g + Z.of_nat n + 1) by lia. destruct n as [|n]; [simpl in *; rewrite Z.add_0_r in *; lia|]. specialize (IH ltac:(lia) ltac:(lia) ltac:(lia)). lia.
Qed.
Lemma size_le g h : 0 <= g <= h -> h < 256 -> c_size c g <= c_size c h.
Proof. intros. destruct (Z.eq_dec g h); [subst; lia|]. pose proof (size_lt g h ltac:(lia) ltac:(lia)). lia. Qed.

Lemma alloc_slim l ti : Z.of_nat (length l) < 2 ^ 20 -> pc (alloc_with_list c s l ti) (fun st => slim st /\ get_elem_count st = Z.of_nat (length l)).
Proof.
  intros Hl. unfold alloc_with_list. set (n := Z.of_nat (length l)) in *.
  pose proof (t_sep c T) as Hsep.
  assert (Hm : 0 <= c_scal c grow_sep * n < 2 ^ 64) by nia. rewrite (u64_small _ Hm).
  assert (Hs : 0 <= Z.shiftr (c_scal c grow_sep * n) scale_shift < 2 ^ 32).
  { unfold scale_shift. rewrite Z.shiftr_div_pow2 by lia. split; [apply Z.div_pos; lia|apply Z.div_lt_upper_bound; nia]. }
  rewrite (u32_small _ Hs). set (k := Z.shiftr (c_scal c grow_sep * n) scale_shift) in *.
  assert (Hk : k <= c_size c 249).
  { etransitivity; [|apply (t_last c T)]. unfold k, scale_shift. rewrite !Z.shiftr_div_pow2 by lia. apply Z.div_le_mono; nia. }
  destruct (least_grade c k ltac:(lia)) as (g & Hg & Hg1 & Hg2).
  rewrite (alloc_grade_eq c k g Hg Hg2 Hg1). cbn [bind]. destruct (g <? size_scalar_count); [|exact I].
  eapply pc_mono; [apply load_new; [lia|exact Hl]|]. intros st (S1 & S2 & S3 & S4). split; [|exact S4]. split; [exact S1|]. split; [exact S2|]. rewrite S3, S4. unfold trim.
  destruct (Z.le_gt_cases g 55); [auto|]. right. apply Z.nlt_ge. intros Hn. fold n in Hn.
  specialize (tight g ltac:(lia)). specialize (Hg2 (g - 1) ltac:(lia)).
  assert (k <= Z.shiftr (c_scal c grow_sep * (c_size c (g - 2) - 1)) scale_shift); [|lia].
  unfold k, scale_shift. rewrite !Z.shiftr_div_pow2 by lia. apply Z.div_le_mono; nia.
Qed.

Lemma resize_status st b ti : slim st -> let g := get_size_grade st + (if b : bool then 1 else -1) in 0 <= g < 256 ->
  pc (resize c s st b ti) (fun st' => 0 <= status st' < 2 ^ 32 /\ wc st' = ptr_word_count (slots c st') s /\ get_size_grade st' = g /\ get_elem_count st' = get_elem_count st).
Proof.
  intros (R & W & _) g Hg. unfold resize. apply pc_skip. intros l _. destruct (Z.eqb_spec (Z.of_nat (length l)) (get_elem_count st)) as [El|]; [|exact I].
  apply pc_skip. intros _ _. fold g.
  pose proof (count_range st) as Hc.
  pose proof (ugrade_spec (status st) g R ltac:(lia)) as (A & B & C & _).
  eapply pc_mono; [apply load_list_status|]. intros st' [E1 E2]. cbn [wc set_elem_count with_status] in E2.
  pose proof (ucount_spec (ugrade (status st) g) (Z.of_nat (length l)) A ltac:(lia)) as (U1 & U2 & U3 & _).
  change (status st' = ucount (ugrade (status st) g) (Z.of_nat (length l))) in E1.
  assert (G : get_size_grade st' = g). { change (get_size_grade st') with (st_grade (status st')). rewrite E1, U3. exact C. }
  split; [rewrite E1; exact U1|]. split; [unfold slots; rewrite G; exact E2|]. split; [exact G|].
  change (get_elem_count st') with (st_count (status st')). rewrite E1, U2. exact El.
Qed.

Lemma insert_raw_count st key ti : slim st -> get_elem_count st + 1 < 2 ^ 20 ->
  pc (insert_raw c s st key ti) (fun st' => slim st' /\ get_elem_count st' = get_elem_count st + 1).
Proof.
  intros H Hc. pose proof (count_range st) as Hcr. pose proof (grade_rng st) as Hgr. unfold insert_raw.
  set (thr := if get_size_grade st =? 0 then c_exc c else c_size c (get_size_grade st - 1)).
  apply (pc_seq _ _ (fun st1 => 0 <= status st1 < 2 ^ 32 /\ wc st1 = ptr_word_count (slots c st1) s /\ trim (get_size_grade st1) (get_elem_count st1 + 1) /\ get_elem_count st1 = get_elem_count st)).
  - destruct (Z.leb_spec thr (get_elem_count st)) as [Hle|Hlt].
    + assert (Hg : get_size_grade st < 255).
      { destruct (Z.le_gt_cases 255 (get_size_grade st)); [exfalso|lia]. unfold thr in Hle. destruct (Z.eqb_spec (get_size_grade st) 0); [lia|].
        pose proof (t_big c T). pose proof (size_le 253 (get_size_grade st - 1) ltac:(lia) ltac:(lia)). lia. }
      eapply pc_mono; [apply resize_status; [exact H|cbv zeta; lia]|]. cbv zeta. intros st1 (A & B & C & D). split; [exact A|]. split; [exact B|]. rewrite C, D. split; [|reflexivity].
      unfold trim. destruct (Z.le_gt_cases (get_size_grade st + 1) 55); [auto|right]. unfold thr in Hle. destruct (Z.eqb_spec (get_size_grade st) 0); [exfalso; lia|].
      replace (get_size_grade st + 1 - 2) with (get_size_grade st - 1) by lia. lia.
    + destruct H as (A & B & C). split; [exact A|]. split; [exact B|]. split; [|reflexivity]. destruct C; [left; lia|right; lia].
  - intros st1 (A & B & C & D). cbv zeta. apply pc_skip. intros scalar _. apply pc_skip. intros rk _. apply pc_skip. intros oc _. apply pc_skip. intros v0 _.
    apply (pc_seq _ _ (sim st1)).
    + set (g := if thr <=? get_elem_count st then _ else _). clearbody g. assert (S0 : sim st1 st1) by apply sim_refl. kept st1.
    + intros st3 S3. apply (pc_seq _ _ (sim st1)); [apply set_bit_sim, S3|]. intros st4 [E1 E2]. unfold pc.
      assert (Q : 0 <= status st4 < 2 ^ 32) by (rewrite E1; exact A).
      assert (N : get_elem_count st4 = get_elem_count st) by (unfold get_elem_count; rewrite E1; exact D).
      pose proof (status_incr (status st4) Q) as K. change (st_count (status st4)) with (get_elem_count st4) in K. rewrite N in K. specialize (K Hc) as (K1 & K2 & K3 & K4 & _).
      assert (F1 : status (update_elem_count st4 1) = status st4 + 1) by exact K1.
      assert (F2 : get_elem_count (update_elem_count st4 1) = get_elem_count st + 1) by (change (st_count (status (update_elem_count st4 1)) = get_elem_count st + 1); rewrite F1; exact K2).
      assert (F3 : get_size_grade (update_elem_count st4 1) = get_size_grade st1).
      { change (st_grade (status (update_elem_count st4 1)) = get_size_grade st1). rewrite F1, K3, E1. reflexivity. }
      split; [|exact F2]. split; [rewrite F1; lia|]. split.
      * change (wc (update_elem_count st4 1)) with (wc st4). unfold slots. rewrite F3, E2. exact B.
      * rewrite F2, F3, <- D. exact C.
Qed.

Lemma delete_raw_count st key ti : slim st -> 0 < get_elem_count st ->
  pc (delete_raw c s st key ti) (fun st' => slim st' /\ get_elem_count st' = get_elem_count st - 1).
Proof.
  intros H Hc. pose proof (count_range st) as Hcr. pose proof (grade_rng st) as Hgr. unfold delete_raw.
  set (thr := if 1 <? get_size_grade st then c_size c (get_size_grade st - 2) else c_exc c).
  apply (pc_seq _ _ (fun st1 => 0 <= status st1 < 2 ^ 32 /\ wc st1 = ptr_word_count (slots c st1) s /\ trim (get_size_grade st1) (get_elem_count st1 - 1) /\ get_elem_count st1 = get_elem_count st)).
  - destruct ((0 <? get_size_grade st) && (get_elem_count st <=? thr)) eqn:Eb.
    + eapply pc_mono; [apply resize_status; [exact H|cbv zeta; lia]|]. cbv zeta. intros st1 (A & B & C & D). split; [exact A|]. split; [exact B|]. rewrite C, D. split; [|reflexivity].
      destruct H as (_ & _ & [C1|C1]); [left; lia|]. destruct (Z.le_gt_cases (get_size_grade st) 56); [left; lia|right].
      pose proof (size_lt (get_size_grade st + -1 - 2) (get_size_grade st - 2) ltac:(lia) ltac:(lia)). lia.
    + destruct H as (A & B & C). split; [exact A|]. split; [exact B|]. split; [|reflexivity].
      destruct (Z.le_gt_cases (get_size_grade st) 55); [left; lia|right]. unfold thr in Eb. destruct (Z.ltb_spec 1 (get_size_grade st)); [|exfalso; lia]. lia.
  - intros st1 (A & B & C & D). cbv zeta. apply pc_skip. intros scalar _. apply pc_skip. intros rk _. apply pc_skip. intros re _. apply pc_skip. intros rs _.
    apply pc_skip. intros [l r] _. apply pc_skip. intros m _. apply pc_skip. intros [[fer prev_re] se0] _. apply pc_skip. intros ss _.
    set (mp := match m with Some (p, _) => p | None => rs - 1 end). clearbody mp. assert (S0 : sim st1 st1) by apply sim_refl.
    apply (pc_seq _ _ (sim st1)); [kept st1|]. intros st3 S3.
    apply (pc_seq _ _ (sim st1)); [kept st1|]. intros st4 [E1 E2]. unfold pc.
      assert (Q : 0 <= status st4 < 2 ^ 32) by (rewrite E1; exact A).
      assert (N : get_elem_count st4 = get_elem_count st) by (unfold get_elem_count; rewrite E1; exact D).
      pose proof (status_decr (status st4) Q) as K. change (st_count (status st4)) with (get_elem_count st4) in K. rewrite N in K. specialize (K Hc) as (K1 & K2 & K3 & K4 & _).
      assert (F1 : status (update_elem_count st4 (-1)) = status st4 - 1) by exact K1.
      assert (F2 : get_elem_count (update_elem_count st4 (-1)) = get_elem_count st - 1) by (change (st_count (status (update_elem_count st4 (-1))) = get_elem_count st - 1); rewrite F1; exact K2).
      assert (F3 : get_size_grade (update_elem_count st4 (-1)) = get_size_grade st1).
      { change (st_grade (status (update_elem_count st4 (-1))) = get_size_grade st1). rewrite F1, K3, E1. reflexivity. }
      split; [|exact F2]. split; [rewrite F1; lia|]. split.
      * change (wc (update_elem_count st4 (-1))) with (wc st4). unfold slots. rewrite F3, E2. exact B.
      * rewrite F2, F3, <- D. exact C.
Qed.

(** the flags do not matter *)
Lemma fields28 u u' : low 28 u = low 28 u' -> st_count u = st_count u' /\ st_grade u = st_grade u'.
Proof.
  unfold low. rewrite !Z.land_ones, !st_count_mod, !st_grade_mod by lia. intros H.
  assert (A : forall x, x mod 2 ^ 20 = (x mod 2 ^ 28) mod 2 ^ 20).
  { intros x. change (2 ^ 28) with (2 ^ 20 * 2 ^ 8). rewrite Z.rem_mul_r by lia. rewrite Z.mul_comm, Z.mod_add, Z.mod_mod by lia. reflexivity. }
  assert (B : forall x, (x / 2 ^ 20) mod 2 ^ 8 = (x mod 2 ^ 28) / 2 ^ 20).
  { intros x. change (2 ^ 28) with (2 ^ 20 * 2 ^ 8). rewrite Z.rem_mul_r by lia. rewrite Z.mul_comm, Z.div_add by lia. rewrite (Z.div_small (x mod 2 ^ 20)); [lia|]. apply Z.mod_pos_bound. lia. }
  rewrite (A u), (A u'), (B u), (B u'), H. split; reflexivity.
Qed.
Lemma slim_status st u : slim st -> 0 <= u < 2 ^ 32 -> low 28 u = low 28 (status st) ->
  slim (with_status st u) /\ get_elem_count (with_status st u) = get_elem_count st.
Proof.
  intros (A & B & C) Hu E. apply fields28 in E as [E1 E2].
  assert (G : get_size_grade (with_status st u) = get_size_grade st) by exact E2.
  assert (N : get_elem_count (with_status st u) = get_elem_count st) by exact E1.
  split; [|exact N]. split; [exact Hu|]. split; [unfold slots; rewrite G; exact B|]. rewrite G, N. exact C.
Qed.
Lemma slim_invalid st n : slim st -> slim (set_invalid_bits st n) /\ get_elem_count (set_invalid_bits st n) = get_elem_count st.
Proof.
  intros H. apply slim_status; [exact H|apply low_range; lia|]. unfold u32, low. apply Z.bits_inj'. intros i Hi.
  rewrite !Z.land_spec, Z.lor_spec, Z.ldiff_spec, !Z.shiftl_spec, !Z.testbit_ones_nonneg by lia.
  destruct (Z.ltb_spec i 28); [|rewrite !andb_false_r; reflexivity]. replace (i <? 32) with true by (symmetry; apply Z.ltb_lt; lia).
  rewrite (Z.testbit_neg_r _ (i - 28)), (Z.testbit_neg_r n) by lia. rewrite orb_false_r. cbn [negb]. rewrite !andb_true_r. reflexivity.
Qed.
Lemma slim_partial st p : slim st -> slim (set_partial_key st p) /\ get_elem_count (set_partial_key st p) = get_elem_count st.
Proof.
  intros H. pose proof H as (A & _). apply slim_status; [exact H| |].
  - apply bits_lt_pow; [lia|]. intros i Hi. destruct p; [rewrite Z.lor_spec|rewrite Z.ldiff_spec]; rewrite (testbit_lt_pow (status st) 32) by lia; [|reflexivity].
    rewrite Z.shiftl_spec by lia. rewrite (testbit_lt_pow 1 1) by lia. reflexivity.
  - unfold low. apply Z.bits_inj'. intros i Hi. rewrite !Z.land_spec, !Z.testbit_ones_nonneg by lia.
    destruct (Z.ltb_spec i 28); [|rewrite !andb_false_r; reflexivity]. f_equal.
    destruct p; [rewrite Z.lor_spec|rewrite Z.ldiff_spec]; rewrite Z.shiftl_spec, (Z.testbit_neg_r 1) by lia; cbn [negb]; [apply orb_false_r|apply andb_true_r].
Qed.
End Block.
End Space.
