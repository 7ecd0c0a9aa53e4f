(** DeleteRawFromInfixStore removes exactly one element, the last one that covers
    the key, from a block that is not crammed. *)
From Coq Require Import ZArith List Bool Lia.
From Coq Require Import ZifyBool ZifyNat.
From Verif Require Import Base Util Store Bits View Cells Lowbit StoreFind StoreInsert StoreQuery Layout StoreList Spec StoreRep DelCells.
Import ListNotations.
Open Scope Z_scope.

(** ** the parts of delete_raw *)
(** the scan to the right, diva.hpp:2421-2443 *)
Definition right_scan (c : cfg) (s : Z) (st : store) (grade scalar ip runend_pos : Z) : res (bool * Z * Z) :=
  let total := c_size c grade in
  loop (Z.to_nat (total + 2))
    (fun x : Z * Z * Z * Z =>
       let '(cur_re, cur_occ, prev_re, shift_end) := x in
       if cur_re <? total then
         let prev_re := cur_re in
         let* e := (if prev_re + 1 <? total
                    then let* v := get_slot c s st (prev_re + 1) in Ok (v =? 0)
                    else Ok false) in
         if e : bool then Ok (inr (true, prev_re, shift_end))
         else
           let* cur_re := next_runend c st cur_re in
           let* cur_occ := next_occupied c st cur_occ in
           let mp := mapped_pos c cur_occ grade scalar in
           Ok (inl (cur_re, cur_occ, prev_re,
                    if (shift_end =? -1) && (prev_re + 1 <=? mp) then prev_re else shift_end))
       else Ok (inr (false, prev_re, shift_end)))
    (runend_pos, ip, runend_pos, -1).
(** the scan to the left, diva.hpp:2444-2477 *)
Definition left_scan (c : cfg) (s : Z) (st : store) (grade scalar ip runend_pos : Z) : res Z :=
  let total := c_size c grade in
  let* cur0 := prev_runend c st runend_pos in
  let* '(cur_re, cur_occ, ss) :=
    loop (Z.to_nat (total + 2))
      (fun x : Z * Z * Z * Z =>
         let '(cur_re, cur_occ, prev_re, ss) := x in
         if 0 <=? cur_re then
           let* v := get_slot c s st (cur_re + 1) in
           let mp := mapped_pos c cur_occ grade scalar in
           if v =? 0 then
             let* f := find_empty_before c s st prev_re in
             Ok (inr (cur_re, cur_occ, if f + 1 <? mp then f + 1 else ss))
           else
             let ss := if cur_re + 1 <? mp then cur_re + 1 else ss in
             let* cur_re' := prev_runend c st cur_re in
             let* cur_occ' := prev_occupied c st cur_occ in
             Ok (inl (cur_re', cur_occ', cur_re, ss))
         else Ok (inr (cur_re, cur_occ, ss)))
      (cur0, ip, runend_pos, -1) in
  if cur_re <? 0 then
    let mp := mapped_pos c cur_occ grade scalar in
    let* f := find_empty_before c s st runend_pos in
    Ok (if u32 f <? mp then f else ss)
  else Ok ss.
(** the removal, diva.hpp:2479-2530 *)
Definition take_out (c : cfg) (s : Z) (st : store) (ip match_pos runend_pos shift_start shift_end : Z) (run_destroyed : bool) : res store :=
  let half := target_size / 2 in
  let* st3 :=
    (if shift_start =? -1 then
       let* a := (if (u32 match_pos <=? half) && (half <? shift_end + 1)
                  then let* b := get_bit c st re_base half in add_popcnt c st 1 b
                  else Ok st) in
       let* a := shift_slots_left c s a (match_pos + 1) (shift_end + 1) 1 in
       let* a := shift_runends_left c a (match_pos + 1) (shift_end + 1) 1 in
       let* a := (if match_pos =? shift_end
                  then let* a := set_slot c s a match_pos 0 in reset_bit c a re_base match_pos
                  else Ok a) in
       if run_destroyed
       then add_popcnt c a 1 (- Z.b2z (runend_pos <=? half))
       else set_bit c a re_base (runend_pos - 1)
     else
       let* a := shift_slots_right c s st shift_start match_pos 1 in
       let* a := shift_runends_right c a shift_start match_pos 1 in
       let* a := (if match_pos =? shift_start
                  then let* a := set_slot c s a match_pos 0 in
                       if run_destroyed then reset_bit c a re_base runend_pos else Ok a
                  else Ok a) in
       let* a := (if (shift_start <? half) && (half <=? match_pos)
                  then let* b := get_bit c a re_base half in add_popcnt c a 1 (- b)
                  else Ok a) in
       if run_destroyed
       then add_popcnt c a 1 (- Z.b2z (runend_pos <? half))
       else set_bit c a re_base runend_pos) in
  let* st4 :=
    (if run_destroyed
     then let* a := reset_bit c st3 occ_base ip in add_popcnt c a 0 (- Z.b2z (ip <? half))
     else Ok st3) in
  Ok (update_elem_count st4 (-1)).
(** delete_raw without the optional shrinking *)
Definition delete_tail (c : cfg) (s : Z) (st : store) (grade key total_implicit : Z) : res store :=
  let ip := Z.shiftr key s in
  let ep := Z.land key (bitmask s) in
  let* scalar := implicit_scalar c total_implicit in
  let* key_rank := rank_occupieds c st ip in
  let* runend_pos := select_runends c st key_rank in
  let* runstart_pos := run_start c s st key_rank runend_pos in
  let run_destroyed := runstart_pos =? runend_pos in
  let* '(l, r) := run_search c s st (u64 (key - 1)) (runstart_pos - 1) (runend_pos + 1) in
  let* m := run_match c s st ep runstart_pos l in
  let match_pos := match m with Some (p, _) => p | None => runstart_pos - 1 end in
  let* '(found_empty_right, prev_re, shift_end0) := right_scan c s st grade scalar ip runend_pos in
  let shift_end := if shift_end0 =? -1 then prev_re else shift_end0 in
  let* shift_start := (if found_empty_right : bool then Ok (-1) else left_scan c s st grade scalar ip runend_pos) in
  take_out c s st ip match_pos runend_pos shift_start shift_end run_destroyed.

Lemma delete_raw_tail c s st0 key ti : delete_raw c s st0 key ti =
  (let grade0 := get_size_grade st0 in
   let threshold := if 1 <? grade0 then c_size c (grade0 - 2) else c_exc c in
   let shrink := (0 <? grade0) && (get_elem_count st0 <=? threshold) in
   let* st := (if shrink then resize c s st0 false ti else Ok st0) in
   delete_tail c s st (if shrink then grade0 - 1 else grade0) key ti).
Proof. reflexivity. Qed.

Section Delete.
Context {c : cfg} {s S : Z} {m : Z -> Z} {u : Z} {w : bool} {o r : Z -> bool} {v : Z -> Z}
  {a0 a1 : Z} {cl : cellf} {st : store}.
Hypothesis G : good c s S m u w o r v a0 a1 cl st.
Variables (p a b : Z).
Hypothesis Hp : 0 <= p < 1024.
Hypothesis Hab : 0 <= a <= b.
Hypothesis Hin : forall i, a <= i <= b -> in_run cl p i = true.
Hypothesis Hout : forall i, in_run cl p i = true -> a <= i <= b.

Let HV := g_V _ _ _ _ _ _ _ _ _ _ _ _ _ G.
Let HW := g_wf _ _ _ _ _ _ _ _ _ _ _ _ _ G.
Let HA := g_ag _ _ _ _ _ _ _ _ _ _ _ _ _ G.
Let HS := V_S _ _ _ _ _ _ _ _ _ _ _ HV.

Lemma re_at i : 0 <= i < S -> r i = re_of cl i.
Proof. apply (a_re _ _ _ _ _ _ _ HA). Qed.
Lemma run_cell i : a <= i <= b -> exists y, cl i = Some (p, y).
Proof. intros Hi. apply in_run_iff. apply Hin. exact Hi. Qed.
Lemma b_lt : b < S.
Proof. destruct (run_cell b ltac:(lia)) as (y & E). pose proof (w_dom _ _ _ _ HW _ _ _ E). lia. Qed.

(** the same run continues as long as there is no runend *)
Lemma run_cont q y i j : cl i = Some (q, y) -> i <= j -> (forall k, i <= k < j -> k < S -> r k = false) -> j < S ->
  exists z, cl j = Some (q, z).
Proof.
  intros E Hij Hz HjS. pose proof (w_dom _ _ _ _ HW _ _ _ E) as (Hi & _).
  assert (H : forall n : nat, i + Z.of_nat n <= j -> exists z, cl (i + Z.of_nat n) = Some (q, z)).
  { induction n as [|n IH]; intros Hn; [rewrite Z.add_0_r; eauto|].
    destruct (IH ltac:(lia)) as (z & Ez). specialize (Hz (i + Z.of_nat n) ltac:(lia) ltac:(lia)). rewrite re_at in Hz by lia.
    destruct (re_next _ _ _ _ Ez Hz) as (z' & Ez'). exists z'. rewrite <- Ez'. f_equal. lia. }
  specialize (H (Z.to_nat (j - i)) ltac:(lia)). rewrite Z2Nat.id in H by lia. replace (i + (j - i)) with j in H by lia. exact H.
Qed.

(** the next run after a runend *)
Lemma next_run e q y q' y' : cl e = Some (q, y) -> r e = true -> cl (e + 1) = Some (q', y') -> q < q' /\ forall t, q < t < q' -> o t = false.
Proof.
  intros E Hr E'. pose proof (w_dom _ _ _ _ HW _ _ _ E) as (He & Hq & _). pose proof (w_dom _ _ _ _ HW _ _ _ E') as (He' & Hq' & _).
  pose proof (run_le s S m _ e (e + 1) _ _ _ _ HW ltac:(lia) E E') as Hle.
  rewrite re_at in Hr by lia. unfold re_of in Hr. rewrite E in Hr. unfold in_run in Hr. rewrite E' in Hr.
  split; [lia|]. intros t Ht. destruct (o t) eqn:Eo; auto. exfalso.
  apply (a_occ _ _ _ _ _ _ _ HA t ltac:(lia)) in Eo as (k & Hk). apply in_run_iff in Hk as (z & Ek).
  destruct (Z.leb_spec k e).
  - pose proof (run_le s S m _ k e _ _ _ _ HW ltac:(lia) Ek E). lia.
  - pose proof (run_le s S m _ (e + 1) k _ _ _ _ HW ltac:(lia) E' Ek). lia.
Qed.

(** ** scanning to the right *)
(** [E] is a good last place of a shift to the left *)
Definition rightok (E : Z) : Prop :=
  b <= E < S /\ (forall i, b <= i <= E -> full cl i) /\ r E = true /\
  (forall i q y, b < i <= E -> cl i = Some (q, y) -> m q < i) /\
  (forall i q y, E < i -> cl i = Some (q, y) -> m q <= i -> E < m q).

Lemma re_b : r b = true.
Proof. rewrite re_at by (pose proof b_lt; lia). apply (extent_re cl p a b Hin Hout ltac:(lia)). Qed.
Lemma re_in i : a <= i < b -> r i = false.
Proof. intros Hi. rewrite re_at by (pose proof b_lt; lia). apply (extent_re cl p a b Hin Hout ltac:(lia)). exact Hi. Qed.
Lemma full_of i q y : cl i = Some (q, y) -> full cl i.
Proof. unfold full. congruence. Qed.

Variables (grade scalar : Z).
Hypothesis Hsz : c_size c grade = S.
Hypothesis Hmp : forall q, 0 <= q < 1024 -> mapped_pos c q grade scalar = m q.

Lemma right_scan_wp (Q : bool * Z * Z -> Prop) :
  (forall (found : bool) prev se, rightok (if se =? -1 then prev else se) ->
     (if found then exists k, b < k < S /\ cl k = None else forall i, b <= i < S -> full cl i) -> Q (found, prev, se)) ->
  wp (right_scan c s st grade scalar p b) Q.
Proof.
  intros HQ. unfold right_scan. rewrite Hsz. pose proof b_lt as HbS.
  destruct (run_cell b ltac:(lia)) as (yb & Eb).
  apply (wp_loop (fun x : Z * Z * Z * Z => let '(cur, occ, prev, se) := x in
     (cur < S -> b <= cur /\ (forall i, b <= i <= cur -> full cl i) /\ (exists y, cl cur = Some (occ, y)) /\ r cur = true) /\
     (S <= cur -> prev = S - 1 /\ (forall i, b <= i < S -> full cl i) /\ r (S - 1) = true) /\
     (se = -1 -> forall i q y, b < i -> i <= cur -> cl i = Some (q, y) -> m q < i) /\
     (se <> -1 -> rightok se))
    (fun x => let '(cur, occ, prev, se) := x in Z.max 0 (S - cur))).
  - intros [[[cur occ] prev] se] (H1 & H2 & H3 & H4). destruct (Z.ltb_spec cur S) as [Hc|Hc].
    + destruct (H1 Hc) as (Hbc & Hf & (y & Ey) & Hre). clear H1 H2. pose proof (w_dom _ _ _ _ HW _ _ _ Ey) as (_ & Hocc & _).
      apply wp_bind.
      assert (Hcell : wp (if cur + 1 <? S then let* v0 := get_slot c s st (cur + 1) in Ok (v0 =? 0) else Ok false)
                (fun e : bool => e = true <-> cur + 1 < S /\ cl (cur + 1) = None)).
      { destruct (Z.ltb_spec (cur + 1) S) as [H|H]; [|simpl; split; [discriminate|lia]]. apply wp_bind.
        apply (get_slot_at _ _ _ _ _ _ _ _ _ _ _ _ _ HV); [lia|]. simpl. rewrite <- (sl_zero G) by lia. split; [intros E; split; [exact H|lia]|intros [_ E]; lia]. }
      apply wp_exists in Hcell as (e & -> & He). simpl. destruct e; simpl.
      * destruct (proj1 He eq_refl) as [Hc1 Hn]. apply HQ.
        -- destruct (Z.eqb_spec se (-1)) as [Ese|Ese]; [|apply H4; exact Ese].
           split; [lia|]. split; [exact Hf|]. split; [exact Hre|]. split; [intros i q z Hi; apply H3; [exact Ese|lia|lia]|].
           intros i q z Hi E Hm. destruct (w_place _ _ _ _ HW _ _ _ E) as [[_ Hff]|[? _]]; [|lia].
           destruct (Z.ltb_spec cur (m q)); auto. exfalso. assert (i <> cur + 1) by (intros ->; congruence). apply (Hff (cur + 1)); [lia|exact Hn].
        -- exists (cur + 1). split; [lia|exact Hn].
      * assert (Hne : cur + 1 < S -> full cl (cur + 1)).
        { intros H E. assert (false = true) by (apply He; split; [exact H|exact E]). discriminate. }
        apply wp_bind. apply (next_runend_wp _ _ _ _ _ _ _ _ _ _ _ _ _ HV); [lia|]. intros e2 He2 He2S Hz2 Ht2.
        apply wp_bind. apply (next_occupied_wp _ _ _ _ _ _ _ _ _ _ _ _ _ HV); [lia|]. intros q2 Hq2 Hq2S Hzo Hto. simpl.
        split; [|lia]. destruct (Z.ltb_spec (cur + 1) S) as [Hc1|Hc1].
        -- destruct (full_some _ _ (Hne Hc1)) as (q' & y' & E').
           destruct (next_run _ _ _ _ _ Ey Hre E') as [Hlt Hno]. pose proof (w_dom _ _ _ _ HW _ _ _ E') as (_ & Hq' & _).
           assert (Ho' : o q' = true). { apply (a_occ _ _ _ _ _ _ _ HA q' Hq'). exists (cur + 1). apply in_run_iff. eauto. }
           assert (q2 = q').
           { destruct (Z.lt_trichotomy q2 q') as [H|[H|H]]; auto; exfalso.
             - rewrite Hno in Hto by lia. discriminate Hto. lia.
             - rewrite Hzo in Ho' by lia. discriminate. }
           subst q2. rewrite Hmp by lia.
           assert (HeS : e2 < S).
           { destruct (run_extent s S m cl q' HW ltac:(exists (cur + 1); apply in_run_iff; eauto)) as (x1 & x2 & Hx & Hx2 & Hxi & Hxo).
             destruct (extent_re cl q' x1 x2 Hxi Hxo ltac:(lia)) as [Hr _]. rewrite <- re_at in Hr by lia.
             assert (x1 <= cur + 1 <= x2) by (apply Hxo; apply in_run_iff; eauto).
             destruct (Z.ltb_spec e2 S); auto. rewrite Hz2 in Hr by lia. discriminate. }
           assert (Hrun : forall i, cur < i <= e2 -> exists z, cl i = Some (q', z)).
           { intros i Hi. apply (run_cont q' y' (cur + 1) i E'); [lia| |lia]. intros k Hk HkS. apply Hz2; lia. }
           assert (Hstep : b <= e2 /\ (forall i, b <= i <= e2 -> full cl i) /\ (exists z, cl e2 = Some (q', z)) /\ r e2 = true).
           { split; [lia|]. split; [|split; [apply Hrun; lia|apply Ht2; lia]].
             intros i Hi. destruct (Z.leb_spec i cur); [apply Hf; lia|]. destruct (Hrun i ltac:(lia)) as (z & Ez). exact (full_of _ _ _ Ez). }
           split; [intros _; exact Hstep|]. split; [lia|].
           destruct (Z.eqb_spec se (-1)) as [Ese|Ese]; simpl.
           ++ destruct (Z.leb_spec (cur + 1) (m q')) as [Hm|Hm].
              ** split; [intros; exfalso; lia|]. intros _. split; [lia|]. split; [exact Hf|]. split; [exact Hre|].
                 split; [intros i q z Hi; apply H3; [exact Ese|lia|lia]|].
                 intros i q z Hi Ei _. pose proof (run_le s S m _ (cur + 1) i _ _ _ _ HW ltac:(lia) E' Ei) as Hle.
                 pose proof (w_dom _ _ _ _ HW _ _ _ Ei) as (_ & Hqq & _).
                 pose proof (g_mm _ _ _ _ _ _ _ _ _ _ _ _ _ G q' q ltac:(lia) ltac:(lia)). lia.
              ** split; [|intros; exfalso; lia]. intros _ i q z Hi Hi2 Ei. destruct (Z.leb_spec i cur); [apply (H3 Ese i q z); auto|].
                 destruct (Hrun i ltac:(lia)) as (z' & Ez'). rewrite Ei in Ez'. injection Ez' as -> _. lia.
           ++ split; [intros; exfalso; lia|]. intros _. apply H4. exact Ese.
        -- (* the last slot ends a run *)
           assert (cur = S - 1) by lia. subst cur.
           assert (Hfull : forall i, b <= i < S -> full cl i) by (intros i Hi; apply Hf; lia).
           split; [intros; exfalso; lia|]. split; [intros _; split; [reflexivity|split; [exact Hfull|exact Hre]]|].
           assert (Hok : se = -1 -> rightok (S - 1)).
           { intros Ese. split; [lia|]. split; [exact Hf|]. split; [exact Hre|]. split; [intros i q z Hi; apply H3; [exact Ese|lia|lia]|].
             intros i q z Hi Ei. pose proof (w_dom _ _ _ _ HW _ _ _ Ei). lia. }
           destruct (Z.eqb_spec se (-1)) as [Ese|Ese]; simpl.
           ++ destruct (S - 1 + 1 <=? mapped_pos c q2 grade scalar).
              ** split; [intros; exfalso; lia|]. intros _. apply Hok. exact Ese.
              ** split; [|intros; exfalso; lia]. intros _ i q z Hi Hi2 Ei. pose proof (w_dom _ _ _ _ HW _ _ _ Ei). apply (H3 Ese i q z); auto. lia.
           ++ split; [intros; exfalso; lia|]. intros _. apply H4. exact Ese.
    + destruct (H2 Hc) as (-> & Hf & Hre). simpl. apply HQ; [|exact Hf].
      destruct (Z.eqb_spec se (-1)) as [Ese|Ese]; [|apply H4; exact Ese].
      split; [lia|]. split; [intros i Hi; apply Hf; lia|]. split; [exact Hre|].
      split; [intros i q z Hi; apply H3; [exact Ese|lia|lia]|]. intros i q z Hi Ei. pose proof (w_dom _ _ _ _ HW _ _ _ Ei). lia.
  - split; [|split; [|split]].
    + intros _. split; [lia|]. split; [|split; [eauto|exact re_b]]. intros i Hi. replace i with b by lia. exact (full_of _ _ _ Eb).
    + intros; exfalso; lia.
    + intros _ i q y Hi Hi2. exfalso; lia.
    + intros; exfalso; lia.
  - lia.
Qed.

(** ** scanning to the left *)
(** the block is not crammed: its used slots are not exactly the last ones with the
    first of them at home, and it is not full with the first slot used by a
    displaced element *)
Definition uncrammed : Prop := forall i q y, 0 <= i -> (forall j, 0 <= j < i -> cl j = None) -> (forall j, i <= j < S -> full cl j) ->
  cl i = Some (q, y) -> if i =? 0 then m q = 0 else m q <> i.

(** [t] is a good first place of a shift to the right *)
Definition leftok (t : Z) : Prop :=
  0 <= t <= a /\ (forall i, t <= i <= b -> full cl i) /\
  (forall q, in_run cl q (t - 1) = true -> in_run cl q t = false) /\
  (forall i q y, t <= i -> cl i = Some (q, y) -> t < m q) /\
  (forall i q y, i < t -> cl i = Some (q, y) -> m q <= i).
(** nothing up to the run is displaced to the left *)
Definition allhome : Prop := forall i q y, i <= b -> cl i = Some (q, y) -> m q <= i.

Lemma start_later t q y : cl t = Some (q, y) -> t < m q -> forall i q' y', t <= i -> cl i = Some (q', y') -> t < m q'.
Proof.
  intros E Hm i q' y' Hi E'. pose proof (run_le s S m _ t i _ _ _ _ HW Hi E E') as Hle.
  pose proof (w_dom _ _ _ _ HW _ _ _ E) as (_ & Hq & _). pose proof (w_dom _ _ _ _ HW _ _ _ E') as (_ & Hq' & _).
  pose proof (g_mm _ _ _ _ _ _ _ _ _ _ _ _ _ G q q' ltac:(lia) ltac:(lia)). lia.
Qed.
Lemma before_empty f i q y : 0 <= f < S -> cl f = None -> i < f -> cl i = Some (q, y) -> m q <= i.
Proof.
  intros Hf Hn Hi E. destruct (w_place _ _ _ _ HW _ _ _ E) as [[? _]|[_ Hff]]; [lia|]. exfalso. apply (Hff f); [lia|exact Hn].
Qed.
Lemma re_start k : -1 <= k -> (0 <= k -> r k = true) -> forall q, in_run cl q (k + 1 - 1) = true -> in_run cl q (k + 1) = false.
Proof.
  intros Hk Hr q Hq. replace (k + 1 - 1) with k in Hq by lia. apply in_run_iff in Hq as (y & E).
  pose proof (w_dom _ _ _ _ HW _ _ _ E) as (Hk' & _). specialize (Hr ltac:(lia)). rewrite re_at in Hr by lia.
  unfold re_of in Hr. rewrite E in Hr. lia.
Qed.

Lemma left_scan_wp (Q : Z -> Prop) : (forall i, b <= i < S -> full cl i) -> uncrammed -> S < 2 ^ 32 ->
  (allhome -> Q (-1)) ->
  (forall ss t, leftok t -> ss = t \/ (ss = t - 1 /\ 0 <= ss /\ cl ss = None) -> Q ss) ->
  wp (left_scan c s st grade scalar p b) Q.
Proof.
  intros Hfb Hnc HS32 HQ1 HQ2. unfold left_scan. rewrite Hsz. pose proof b_lt as HbS.
  destruct (run_cell b ltac:(lia)) as (yb & Eb).
  apply wp_bind. apply (prev_runend_wp _ _ _ _ _ _ _ _ _ _ _ _ _ HV); [lia|]. intros cur0 Hcur0 Hz0 Hr0.
  (* what is known of a shift start found so far, all places above [prev] being looked at *)
  set (D := fun ss prev => (ss = -1 -> forall i q y, prev < i <= b -> cl i = Some (q, y) -> m q <= i) /\
     (ss <> -1 -> prev < ss <= a /\ (forall q, in_run cl q (ss - 1) = true -> in_run cl q ss = false) /\
        (forall i q y, ss <= i -> cl i = Some (q, y) -> ss < m q) /\
        (forall i q y, prev < i < ss -> cl i = Some (q, y) -> m q <= i))).
  assert (Dstep : forall ss prev occ t, D ss prev -> 0 <= t <= prev -> t <= a -> (forall i, t <= i <= prev -> exists z, cl i = Some (occ, z)) ->
     (forall q, in_run cl q (t - 1) = true -> in_run cl q t = false) -> D (if t <? m occ then t else ss) (t - 1)).
  { intros ss prev occ t [D1 D2] Ht Hta Hr Hs. destruct (Hr t ltac:(lia)) as (z & E). destruct (Z.ltb_spec t (m occ)) as [Hm|Hm].
    - split; [intros; exfalso; lia|]. intros _. split; [lia|]. split; [exact Hs|]. split; [exact (start_later t occ z E Hm)|]. intros; exfalso; lia.
    - assert (Hlow : forall i q y, t - 1 < i <= prev -> cl i = Some (q, y) -> m q <= i).
      { intros i q y Hi Ei. destruct (Hr i ltac:(lia)) as (z' & E'). rewrite Ei in E'. injection E' as -> _. lia. }
      split.
      + intros Ess i q y Hi Ei. destruct (Z.leb_spec i prev); [apply (Hlow i q y); [lia|exact Ei]|apply (D1 Ess i q y); [lia|exact Ei]].
      + intros Ess. destruct (D2 Ess) as (E1 & E2 & E3 & E4). split; [lia|]. split; [exact E2|]. split; [exact E3|].
        intros i q y Hi Ei. destruct (Z.leb_spec i prev); [apply (Hlow i q y); [lia|exact Ei]|apply (E4 i q y); [lia|exact Ei]]. }
  assert (Dend : forall ss f, D ss f -> (forall i q y, i <= f -> cl i = Some (q, y) -> m q <= i) -> -1 <= f -> (forall i, f < i <= b -> full cl i) -> Q ss).
  { intros ss f [D1 D2] Hlow Hf Hfu. destruct (Z.eq_dec ss (-1)) as [Ess|Ess].
    - rewrite Ess. apply HQ1. intros i q y Hi Ei. destruct (Z.leb_spec i f); [apply (Hlow i q y); auto|apply (D1 Ess i q y); [lia|exact Ei]].
    - destruct (D2 Ess) as (E1 & E2 & E3 & E4). apply (HQ2 ss ss); [|left; reflexivity]. split; [lia|]. split; [intros i Hi; apply Hfu; lia|].
      split; [exact E2|]. split; [exact E3|]. intros i q y Hi Ei. destruct (Z.leb_spec i f); [apply (Hlow i q y); auto|apply (E4 i q y); [lia|exact Ei]]. }
  apply wp_bind.
  apply (wp_loop (fun x : Z * Z * Z * Z => let '(cur, occ, prev, ss) := x in
     -1 <= cur < prev /\ prev <= b /\ (forall i, cur < i < prev -> r i = false) /\ (0 <= cur -> r cur = true) /\
     (forall i, prev <= i <= b -> full cl i) /\ (exists y, cl prev = Some (occ, y)) /\ (prev < b -> prev < a) /\ D ss prev)
    (fun x => let '(cur, occ, prev, ss) := x in cur + 1)).
  - intros [[[cur occ] prev] ss] (H1 & H2 & H3 & H4 & H5 & (y & Ey) & H6 & H7).
    pose proof (w_dom _ _ _ _ HW _ _ _ Ey) as (Hprev & Hocc & _).
    assert (Hrun : forall k, cur < k <= prev -> full cl k -> exists z, cl k = Some (occ, z)).
    { intros k Hk Hfk. destruct (full_some _ _ Hfk) as (q & z & E). pose proof (w_dom _ _ _ _ HW _ _ _ E) as (HkS & _).
      destruct (run_cont q z k prev E ltac:(lia)) as (z' & E'); [intros j Hj _; apply H3; lia|lia|].
      rewrite Ey in E'. injection E' as <- _. eauto. }
    assert (Hemp : forall f, f < b -> (0 <= f -> cl f = None) -> -1 <= f -> f < a).
    { intros f Hfb' Hn Hf. destruct (Z.ltb_spec f a); auto. destruct (run_cell f ltac:(lia)) as (z & E). rewrite Hn in E by lia. discriminate. }
    destruct (Z.leb_spec 0 cur) as [Hc|Hc].
    + assert (Hca : cur < a). { destruct (Z.ltb_spec cur a); auto. rewrite re_in in H4 by lia. discriminate H4; lia. }
      apply wp_bind. apply (get_slot_at _ _ _ _ _ _ _ _ _ _ _ _ _ HV); [lia|]. rewrite Hmp by lia.
      destruct (Z.eqb_spec (v (cur + 1)) 0) as [Ev|Ev].
      * apply (sl_zero G) in Ev; [|lia]. apply wp_bind. apply (find_empty_before_wp G); [exact (full_of _ _ _ Ey)|].
        intros f Hf Hff Hfn. simpl. destruct (Z.ltb_spec cur 0); [exfalso; lia|]. simpl.
        assert (cur + 1 <= f). { destruct (Z.leb_spec (cur + 1) f); auto. exfalso. apply (Hff (cur + 1)); [lia|exact Ev]. }
        assert (Hfa : f < a) by (apply Hemp; [lia|exact Hfn|lia]).
        apply (Dend _ f).
        -- assert (HD : D (if f + 1 <? m occ then f + 1 else ss) (f + 1 - 1)); [|replace (f + 1 - 1) with f in HD by lia; exact HD].
           apply (Dstep ss prev occ (f + 1)); [exact H7|lia|lia| |].
           ++ intros i Hi. apply Hrun; [lia|]. apply Hff. lia.
           ++ intros q Hq. replace (f + 1 - 1) with f in Hq by lia. unfold in_run in Hq. rewrite Hfn in Hq by lia. discriminate.
        -- intros i q z Hi Ei. destruct (Z.eq_dec i f) as [->|]; [rewrite Hfn in Ei by lia; discriminate|].
           apply (before_empty f i q z); [lia|apply Hfn; lia|lia|exact Ei].
        -- lia.
        -- intros i Hi. destruct (Z.leb_spec i prev); [apply Hff; lia|apply H5; lia].
      * assert (Hf1 : full cl (cur + 1)). { intros E. apply Ev. apply (sl_zero G); [lia|exact E]. }
        destruct (Hrun (cur + 1) ltac:(lia) Hf1) as (z1 & E1).
        assert (Hall : forall i, cur + 1 <= i <= prev -> exists z, cl i = Some (occ, z)).
        { intros i Hi. apply (run_cont occ z1 (cur + 1) i E1); [lia| |lia]. intros k Hk _. apply H3. lia. }
        assert (Hrc : r cur = true) by (apply H4; lia).
        assert (Hfc : full cl cur) by (apply re_full; rewrite <- re_at by lia; exact Hrc).
        destruct (full_some _ _ Hfc) as (q & z & Ec).
        destruct (next_run _ _ _ _ _ Ec Hrc E1) as [Hlt Hno]. pose proof (w_dom _ _ _ _ HW _ _ _ Ec) as (_ & Hq & _).
        apply wp_bind. apply (prev_runend_wp _ _ _ _ _ _ _ _ _ _ _ _ _ HV); [lia|]. intros e2 He2 Hz2 Ht2.
        apply wp_bind. apply (prev_occupied_wp _ _ _ _ _ _ _ _ _ _ _ _ _ HV); [lia|]. intros q2 Hq2 Hzo Hto. simpl.
        assert (Ho : o q = true). { apply (a_occ _ _ _ _ _ _ _ HA q Hq). exists cur. apply in_run_iff. eauto. }
        assert (q2 = q).
        { destruct (Z.lt_trichotomy q2 q) as [H|[H|H]]; auto; exfalso.
          - rewrite Hzo in Ho by lia. discriminate.
          - rewrite Hno in Hto by lia. discriminate Hto. lia. }
        subst q2. split; [|lia]. split; [lia|]. split; [lia|]. split; [exact Hz2|]. split; [exact Ht2|].
        split. { intros i Hi. destruct (Z.eq_dec i cur) as [->|]; [exact Hfc|]. destruct (Z.leb_spec i prev); [|apply H5; lia].
                 destruct (Hall i ltac:(lia)) as (z' & Ez'). exact (full_of _ _ _ Ez'). }
        split; [eauto|]. split; [auto|]. assert (HD : D (if cur + 1 <? m occ then cur + 1 else ss) (cur + 1 - 1)); [|replace (cur + 1 - 1) with cur in HD by lia; exact HD].
        apply (Dstep ss prev occ (cur + 1)); [exact H7|lia|lia|exact Hall|]. apply re_start; [lia|exact H4].
    + simpl. destruct (Z.ltb_spec cur 0); [|exfalso; lia]. rewrite Hmp by lia. assert (Ecur : cur = -1) by lia. subst cur.
      apply wp_bind. apply (find_empty_before_wp G); [exact (full_of _ _ _ Eb)|].
      intros f Hf Hff Hfn. simpl.
      assert (Hfa : f < a) by (apply Hemp; [lia|exact Hfn|lia]).
      assert (Hfp : f < prev). { destruct (Z.ltb_spec f prev); auto. exfalso. apply (H5 f); [lia|apply Hfn; lia]. }
      assert (Hall : forall i, f + 1 <= i <= prev -> exists z, cl i = Some (occ, z)) by (intros i Hi; apply Hrun; [lia|apply Hff; lia]).
      assert (Hbelow : forall j, j <= f -> cl j = None).
      { intros j Hj. destruct (cl j) as [[q z]|] eqn:Ej; auto. exfalso. pose proof (w_dom _ _ _ _ HW _ _ _ Ej).
        destruct (run_cont q z j f Ej ltac:(lia)) as (z' & E'); [intros k Hk _; apply H3; lia|lia|]. rewrite Hfn in E' by lia. discriminate. }
      destruct (Hall (f + 1) ltac:(lia)) as (z1 & E1). pose proof (w_dom _ _ _ _ HW _ _ _ E1) as (Hf1 & _).
      pose proof (g_mr _ _ _ _ _ _ _ _ _ _ _ _ _ G occ Hocc) as Hmr.
      assert (Hup : forall j, f + 1 <= j < S -> full cl j).
      { intros j Hj. destruct (Z.leb_spec j b); [apply Hff; lia|apply Hfb; lia]. }
      pose proof (Hnc (f + 1) occ z1 ltac:(lia) ltac:(intros; apply Hbelow; lia) Hup E1) as Hcr.
      destruct (Z.eqb_spec (f + 1) 0) as [Ef|Ef].
      * assert (f = -1) by lia. subst f. change (u32 (-1)) with (2 ^ 32 - 1).
        destruct (Z.ltb_spec (2 ^ 32 - 1) (m occ)); [exfalso; lia|].
        apply (Dend ss (-1)); [|intros i q z Hi Ei; rewrite Hbelow in Ei by lia; discriminate|lia|exact Hff].
        pose proof (Dstep ss prev occ 0 H7 ltac:(lia) ltac:(lia) Hall) as HD. rewrite Hcr in HD. simpl in HD. apply HD.
        intros q Hq. unfold in_run in Hq. rewrite Hbelow in Hq by lia. discriminate.
      * rewrite u32_small by lia.
        assert (Hgt : f < m occ).
        { destruct (w_place _ _ _ _ HW _ _ _ E1) as [[Hm' Hff']|[? _]]; [|lia]. destruct (Z.ltb_spec f (m occ)); auto. exfalso.
          apply (Hff' f); [lia|apply Hfn; lia]. }
        destruct (Z.ltb_spec f (m occ)); [|exfalso; lia].
        apply (HQ2 f (f + 1)).
        -- split; [lia|]. split; [intros i Hi; apply Hff; lia|].
           split; [intros q Hq; replace (f + 1 - 1) with f in Hq by lia; unfold in_run in Hq; rewrite Hfn in Hq by lia; discriminate|].
           split; [apply (start_later (f + 1) occ z1 E1); lia|]. intros i q z Hi Ei. rewrite Hbelow in Ei by lia. discriminate.
        -- right. split; [lia|]. split; [lia|apply Hfn; lia].
  - split; [lia|]. split; [lia|]. split; [exact Hz0|]. split; [exact Hr0|]. split; [intros i Hi; replace i with b by lia; exact (full_of _ _ _ Eb)|].
    split; [eauto|]. split; [lia|]. split; [intros; exfalso; lia|]. intros; exfalso; lia.
  - lia.
Qed.

(** ** the removal *)
Variable l : Z.
Hypothesis Hl : a <= l <= b.

Definition removed (cl' : cellf) : Prop :=
  wf s S m cl' /\
  (forall q, (exists i, in_run cl' q i = true) <-> (exists i, in_run cl q i = true) /\ ~ (q = p /\ a = b)) /\
  content cl' 0 S = content cl 0 l ++ content cl (l + 1) S.
Definition occ_after : Z -> bool := if a =? b then updb o p false else o.

Lemma occ_p : o p = true.
Proof. apply (a_occ _ _ _ _ _ _ _ HA p Hp). exists a. apply Hin. lia. Qed.
Lemma p0_del : u32 (a0 + - Z.b2z (p <? 512)) = count (updb o p false) 0 512.
Proof.
  rewrite count_updb, (a_p0 _ _ _ _ _ _ _ HA), occ_p. pose proof (count_range o 0 512 ltac:(lia)).
  destruct (Z.leb_spec 0 p); [|exfalso; lia]. simpl. destruct (Z.ltb_spec p 512); simpl; [|rewrite u32_small; lia].
  assert (0 < count o 0 512).
  { rewrite (count_split o 0 p 512), (count_cons o p 512) by lia. rewrite occ_p. pose proof (count_range o 0 p ltac:(lia)). pose proof (count_range o (p + 1) 512 ltac:(lia)). simpl. lia. }
  rewrite u32_small; lia.
Qed.

Lemma finish_del r' v' a1' cl' st3 (Q : store -> Prop) :
  V c s S u w o r' v' a0 a1' st3 -> removed cl' ->
  (forall i, 0 <= i < S -> r' i = re_of cl' i) -> (forall i, 0 <= i < S -> v' i = sl_of cl' i) ->
  a1' = count r' 0 (Z.min 512 S) -> 0 <= u < 2 ^ 32 -> 0 < st_count u ->
  (forall st', good c s S m (u - 1) w occ_after r' v' (count occ_after 0 512) a1' cl' st' -> Q st') ->
  wp (let* st4 := (if a =? b then let* x := reset_bit c st3 occ_base p in add_popcnt c x 0 (- Z.b2z (p <? 512)) else Ok st3) in
      Ok (update_elem_count st4 (-1))) Q.
Proof.
  intros HV3 (Hwf & Hocc & _) Hr Hv Ha1 Hu Hc HQ. destruct (status_decr u Hu Hc) as (E1 & E2 & E3 & E4 & _).
  assert (Hend : forall st4, V c s S u w occ_after r' v' (count occ_after 0 512) a1' st4 -> Q (update_elem_count st4 (-1))).
  { intros st4 HV4. apply HQ. unfold update_elem_count. rewrite (V_status _ _ _ _ _ _ _ _ _ _ _ HV4). rewrite E1. constructor.
    - apply (V_with_status _ _ _ _ _ _ _ _ _ _ _ _ HV4 E3).
    - exact Hwf.
    - constructor; auto. intros q Hq. rewrite Hocc. unfold occ_after. rewrite <- (a_occ _ _ _ _ _ _ _ HA q Hq).
      destruct (Z.eqb_spec a b); [unfold updb; destruct (Z.eqb_spec q p)|]; split; try tauto; try discriminate;
      try (intros [_ Hn]; exfalso; apply Hn; split; assumption); intros Ho; (split; [exact Ho|]; lia).
    - exact (g_mr _ _ _ _ _ _ _ _ _ _ _ _ _ G).
    - exact (g_mm _ _ _ _ _ _ _ _ _ _ _ _ _ G).
    - exact (g_s _ _ _ _ _ _ _ _ _ _ _ _ _ G). }
  unfold occ_after in *. apply wp_bind. destruct (Z.eqb_spec a b).
  - apply wp_bind. apply (reset_occ_wp _ _ _ _ _ _ _ _ _ _ _ _ _ HV3 Hp). intros st4 HV4.
    apply (add_popcnt0_wp _ _ _ _ _ _ _ _ _ _ _ _ _ HV4). intros st5 HV5. rewrite p0_del in HV5. simpl. apply Hend. exact HV5.
  - simpl. apply Hend. apply (V_ext _ _ _ _ _ _ _ _ _ _ _ _ _ _ _ _ HV3); auto. exact (a_p0 _ _ _ _ _ _ _ HA).
Qed.

Lemma re_l : r l = (l =? b).
Proof.
  destruct (Z.eqb_spec l b) as [->|]; [exact re_b|]. apply re_in. lia.
Qed.
Lemma a1_range' : 0 <= a1 <= 512.
Proof. exact (a1_range G 1 eq_refl). Qed.

(** *** to the left *)
Definition re_left (e : Z) : Z -> bool := if a =? b then dl r l e false else updb (dl r l e false) (b - 1) true.
Lemma dl_b1 e : b <= e -> a < b -> dl r l e false (b - 1) = negb (l =? b).
Proof.
  intros He Hlt. destruct (dl_cases r l e false (b - 1)) as [[? E]|[[? E]|[? E]]]; try lia; rewrite E.
  - replace (b - 1 + 1) with b by lia. rewrite re_b. lia.
  - rewrite re_in by lia. lia.
Qed.
Lemma dl_ext (f g : Z -> bool) e i : 0 <= l <= e -> e < S -> 0 <= i < S -> (forall j, 0 <= j < S -> f j = g j) -> dl f l e false i = dl g l e false i.
Proof.
  intros Hle HeS Hi Hfg. destruct (dl_cases f l e false i) as [[? E]|[[? E]|[? E]]]; try lia; rewrite E;
  destruct (dl_cases g l e false i) as [[? E']|[[? E']|[? E']]]; try lia; rewrite E'; auto; apply Hfg; lia.
Qed.
Lemma re_left_cells e i : rightok e -> 0 <= i < S -> re_left e i = re_of (dl cl l e None) i.
Proof.
  intros (He & _ & Hre & _) Hi. rewrite (re_dl s S m cl p a b l HW Hin Hout Hl e i); [|lia|lia|rewrite <- re_at by lia; exact Hre|lia|lia].
  assert (Hx : forall j, 0 <= j < S -> dl r l e false j = dl (re_of cl) l e false j) by (intros j Hj; apply dl_ext; [lia|lia|exact Hj|exact re_at]).
  unfold re_left. destruct (a =? b); [apply Hx; exact Hi|]. unfold updb. destruct (i =? b - 1); [reflexivity|apply Hx; exact Hi].
Qed.
Lemma re_left_count e d1 d2 : rightok e ->
  d1 = (if (l <=? 512) && (512 <=? e) then Z.b2z (r 512) else 0) ->
  d2 = (if a =? b then - Z.b2z (b <=? 512) else 0) ->
  a1 + d1 + d2 = count (re_left e) 0 (Z.min 512 S).
Proof.
  intros (He & _ & Hre & _) -> ->. pose proof b_lt. unfold re_left.
  assert (Hd : count (dl r l e false) 0 (Z.min 512 S) = a1 - (if l <? Z.min 512 S then Z.b2z (r l) else 0) + (if (l <? Z.min 512 S) && (Z.min 512 S <=? e) then Z.b2z (r (Z.min 512 S)) else 0)).
  { rewrite count_dl by lia. rewrite (a_p1 _ _ _ _ _ _ _ HA). reflexivity. }
  assert (H512 : l = 512 -> r 512 = (l =? b)) by (intros <-; exact re_l). rewrite re_l in Hd.
  destruct (Z.eqb_spec a b) as [E|E].
  - assert (l = b) by lia. rewrite Hd. rewrite H0 in *. rewrite Z.eqb_refl. simpl.
    destruct (Z.leb_spec 512 e).
    + replace (Z.min 512 S) with 512 by lia. destruct (Z.leb_spec b 512), (Z.ltb_spec b 512), (Z.leb_spec 512 e); simpl; lia.
    + destruct (Z.leb_spec b 512), (Z.ltb_spec b (Z.min 512 S)), (Z.leb_spec (Z.min 512 S) e); simpl; lia.
  - rewrite count_updb, Hd, dl_b1 by lia.
    destruct (Z.leb_spec 0 (b - 1)); [|exfalso; lia]. simpl.
    destruct (Z.leb_spec 512 e).
    + replace (Z.min 512 S) with 512 by lia.
      destruct (Z.eqb_spec l b) as [Elb|Elb]; simpl;
      destruct (Z.leb_spec l 512), (Z.ltb_spec l 512), (Z.leb_spec 512 e), (Z.ltb_spec (b - 1) 512); simpl; try lia; rewrite H512 by lia;
      destruct (Z.eqb_spec l b); simpl; lia.
    + destruct (Z.eqb_spec l b) as [Elb|Elb]; simpl;
      destruct (Z.leb_spec l 512), (Z.ltb_spec l (Z.min 512 S)), (Z.leb_spec (Z.min 512 S) e), (Z.ltb_spec (b - 1) (Z.min 512 S)); simpl; lia.
Qed.
Lemma removed_left e : rightok e -> allhome -> removed (dl cl l e None).
Proof.
  intros (He & Hfu & Hre & Hri & Haf) Hah. split; [|split].
  - destruct (run_cell a ltac:(lia)) as (ya & Ea). pose proof (Hah a p ya ltac:(lia) Ea) as Hma.
    apply wf_dl; auto; try lia.
    + intros i Hi. destruct (Z.leb_spec b i); [apply Hfu; lia|]. destruct (run_cell i ltac:(lia)) as (y & E). exact (full_of _ _ _ E).
    + intros i q y Hi E. destruct (Z.leb_spec i b); [|apply (Hri i q y); [lia|exact E]].
      destruct (run_cell i ltac:(lia)) as (z & E'). rewrite E in E'. injection E' as -> _. lia.
    + intros i q y Hi E. apply (Hah i q y); [lia|exact E].
  - intros q. apply (occ_dl cl p a b l Hin Hout Hl e q). lia.
  - apply content_dl; lia.
Qed.

(** *** to the right *)
Definition re_right (ss : Z) : Z -> bool := if a =? b then dr r ss l false else updb (dr r ss l false) b true.
Lemma dr_b ss : ss <= a -> a < b -> dr r ss l false b = negb (l =? b).
Proof.
  intros He Hlt. destruct (dr_cases r ss l false b) as [[? E]|[[? E]|[? E]]]; try lia; rewrite E.
  - rewrite re_in by lia. lia.
  - rewrite re_b. lia.
Qed.
Lemma dr_pred {A} (f : Z -> A) t z i : t <= l -> f (t - 1) = z -> dr f (t - 1) l z i = dr f t l z i.
Proof.
  intros Ht E. destruct (dr_cases f (t - 1) l z i) as [[? E1]|[[? E1]|[? E1]]]; try lia; rewrite E1;
  destruct (dr_cases f t l z i) as [[? E2]|[[? E2]|[? E2]]]; try lia; rewrite E2; auto; subst; auto.
Qed.
Lemma dr_ext {A} (f g : Z -> A) z t i : 0 <= t <= l -> 0 <= i < S -> (forall j, 0 <= j < S -> f j = g j) -> dr f t l z i = dr g t l z i.
Proof.
  intros Hle Hi Hfg. destruct (dr_cases f t l z i) as [[? E]|[[? E]|[? E]]]; try lia; rewrite E;
  destruct (dr_cases g t l z i) as [[? E']|[[? E']|[? E']]]; try lia; rewrite E'; auto; apply Hfg; lia.
Qed.
Definition startat (ss t : Z) : Prop := ss = t \/ (ss = t - 1 /\ 0 <= ss /\ cl ss = None).
Lemma start_dr {A} (f : Z -> A) z ss t i : startat ss t -> t <= l -> (cl ss = None -> f ss = z) -> dr f ss l z i = dr f t l z i.
Proof. intros [->|(E & H0 & Hn)] Ht Hz; [reflexivity|]. rewrite E in *. apply dr_pred; auto. Qed.

Lemma re_right_cells ss t i : leftok t -> startat ss t -> 0 <= i < S -> re_right ss i = re_of (dr cl t l None) i.
Proof.
  intros (Ht & Hfu & Hst & _) Hss Hi. pose proof b_lt.
  rewrite (re_dr s S m cl p a b l HW Hin Hout Hl t i); [|lia|lia|intros j Hj; apply Hfu; lia|exact Hst|lia].
  assert (Hx : forall j, 0 <= j < S -> dr r ss l false j = dr (re_of cl) t l false j).
  { intros j Hj. rewrite (start_dr r false ss t j Hss ltac:(lia)).
    - apply dr_ext; [lia|exact Hj|exact re_at].
    - intros Hn. destruct Hss as [->|(E & H0 & _)]; [exfalso; apply (Hfu t); [lia|exact Hn]|]. rewrite re_at by lia. unfold re_of. rewrite Hn. reflexivity. }
  unfold re_right. destruct (a =? b); [apply Hx; exact Hi|]. unfold updb. destruct (i =? b); [reflexivity|apply Hx; exact Hi].
Qed.
Lemma re_right_count ss d1 d2 : 0 <= ss <= a ->
  d1 = (if (ss <? 512) && (512 <=? l) then Z.b2z (r 511) else 0) ->
  d2 = (if a =? b then Z.b2z (b <? 512) else 0) ->
  a1 - d1 - d2 = count (re_right ss) 0 (Z.min 512 S).
Proof.
  intros Hs -> ->. pose proof b_lt. unfold re_right.
  assert (Hd : count (dr r ss l false) 0 (Z.min 512 S) = a1 - (if l <? Z.min 512 S then Z.b2z (r l) else 0) - (if (ss <? Z.min 512 S) && (Z.min 512 S <=? l) then Z.b2z (r (Z.min 512 S - 1)) else 0)).
  { rewrite count_dr by lia. rewrite (a_p1 _ _ _ _ _ _ _ HA). reflexivity. }
  rewrite re_l in Hd.
  destruct (Z.leb_spec 512 l).
  - replace (Z.min 512 S) with 512 in * by lia. replace (512 - 1) with 511 in Hd by lia.
    destruct (Z.ltb_spec l 512); [exfalso; lia|]. destruct (Z.leb_spec 512 l); [|exfalso; lia]. rewrite andb_true_r in *.
    destruct (Z.eqb_spec a b).
    + rewrite Hd. destruct (Z.ltb_spec b 512); [exfalso; lia|]. destruct (ss <? 512); simpl; lia.
    + rewrite count_updb, Hd, dr_b by lia. destruct (Z.leb_spec 0 b); [|exfalso; lia]. destruct (Z.ltb_spec b 512); [exfalso; lia|]. destruct (ss <? 512); simpl; lia.
  - destruct (Z.leb_spec (Z.min 512 S) l); [exfalso; lia|]. rewrite !andb_false_r in *. destruct (Z.ltb_spec l (Z.min 512 S)); [|exfalso; lia].
    destruct (Z.eqb_spec a b).
    + rewrite Hd. destruct (Z.ltb_spec b 512), (Z.eqb_spec l b); try (exfalso; lia). simpl. lia.
    + rewrite count_updb, Hd, dr_b by lia. destruct (Z.leb_spec 0 b); [|exfalso; lia]. simpl.
      destruct (Z.eqb_spec l b); simpl; destruct (Z.ltb_spec b (Z.min 512 S)); lia.
Qed.
Lemma removed_right t : leftok t -> removed (dr cl t l None).
Proof.
  intros (Ht & Hfu & Hst & Haf & Hlo). pose proof b_lt. split; [|split].
  - apply wf_dr; auto; try lia.
    + intros i Hi. apply Hfu. lia.
  - intros q. apply (occ_dr cl p a b l Hin Hout Hl t q). lia.
  - apply content_dr; lia.
Qed.

Lemma take_out_wp ss e (Q : store -> Prop) : rightok e -> S < 2 ^ 32 ->
  (ss = -1 /\ allhome) \/ (0 <= ss /\ exists t, leftok t /\ startat ss t) ->
  0 <= u < 2 ^ 32 -> 0 < st_count u ->
  (forall st' o' r' v' a0' a1' cl', good c s S m (u - 1) w o' r' v' a0' a1' cl' st' -> removed cl' -> Q st') ->
  wp (take_out c s st p l b ss e (a =? b)) Q.
Proof.
  intros He HS32 Hss Hu Hc HQ. unfold take_out. change (target_size / 2) with 512. pose proof b_lt as HbS.
  pose proof He as (He1 & _). pose proof a1_range' as Ha1.
  assert (Hfin : forall r' v' a1' cl' st3, V c s S u w o r' v' a0 a1' st3 -> removed cl' ->
     (forall i, 0 <= i < S -> r' i = re_of cl' i) -> (forall i, 0 <= i < S -> v' i = sl_of cl' i) -> a1' = count r' 0 (Z.min 512 S) ->
     wp (let* st4 := (if a =? b then let* x := reset_bit c st3 occ_base p in add_popcnt c x 0 (- Z.b2z (p <? 512)) else Ok st3) in
      Ok (update_elem_count st4 (-1))) Q).
  { intros r' v' a1' cl' st3 H1 H2 H3 H4 H5. apply (finish_del r' v' a1' cl' st3 Q H1 H2 H3 H4 H5 Hu Hc). intros st' HG. apply (HQ _ _ _ _ _ _ _ HG H2). }
  clear HQ. apply wp_bind. destruct Hss as [[-> Hah]|[Hss0 (t & Ht & Hst)]].
  - (* to the left *)
    simpl (-1 =? -1). cbv iota. rewrite u32_small by lia. replace (512 <? e + 1) with (512 <=? e) by lia.
    set (d1 := if (l <=? 512) && (512 <=? e) then Z.b2z (r 512) else 0).
    assert (Hd1 : 0 <= d1 <= 1) by (unfold d1; destruct (_ && _); [destruct (r 512); simpl; lia|lia]).
    apply wp_bind.
    assert (Hpop : forall Q' : store -> Prop, (forall st1, V c s S u w o r v a0 (a1 + d1) st1 -> Q' st1) ->
       wp (if (l <=? 512) && (512 <=? e) then let* b0 := get_bit c st re_base 512 in add_popcnt c st 1 b0 else Ok st) Q').
    { intros Q' HQ'. unfold d1 in *. destruct ((l <=? 512) && (512 <=? e)) eqn:Ec.
      - apply wp_bind. apply (get_re_wp _ _ _ _ _ _ _ _ _ _ _ _ _ HV); [lia|].
        apply (add_popcnt1_wp _ _ _ _ _ _ _ _ _ _ _ _ _ HV). intros st1 HV1. rewrite u32_small in HV1 by lia. apply HQ'. exact HV1.
      - simpl. apply HQ'. rewrite Z.add_0_r. exact HV. }
    apply Hpop. clear Hpop. intros st1 HV1.
    apply wp_bind. apply (shift_slots_left_wp _ _ _ _ _ _ _ _ _ _ _ _ _ _ HV1); [lia|lia|]. intros st2 HV2.
    apply wp_bind. apply (shift_runends_left_wp _ _ _ _ _ _ _ _ _ _ _ _ _ _ HV2); [lia|lia|]. intros st3 HV3.
    assert (HV3' : V c s S u w o (dl r l e false) (dl v l e 0) a0 (a1 + d1) st3).
    { apply (V_ext _ _ _ _ _ _ _ _ _ _ _ _ _ _ _ _ HV3); auto; intros; apply shl_dl. }
    clear HV3. apply wp_bind.
    assert (Hclr : forall Q' : store -> Prop, (forall st4, V c s S u w o (dl r l e false) (dl v l e 0) a0 (a1 + d1) st4 -> Q' st4) ->
       wp (if l =? e then let* a2 := set_slot c s st3 l 0 in reset_bit c a2 re_base l else Ok st3) Q').
    { intros Q' HQ'. destruct (Z.eqb_spec l e) as [Ele|]; [|simpl; apply HQ'; exact HV3'].
      apply wp_bind. apply (set_slot_wp _ _ _ _ _ _ _ _ _ _ _ _ _ _ HV3'); [lia|pose proof (pow_s G); lia|]. intros st4 HV4.
      apply (reset_re_wp _ _ _ _ _ _ _ _ _ _ _ _ _ HV4); [lia|]. intros st5 HV5. apply HQ'.
      apply (V_ext _ _ _ _ _ _ _ _ _ _ _ _ _ _ _ _ HV5); auto; intros i Hi; unfold updb, updz; destruct (Z.eqb_spec i l); auto; subst;
      unfold dl; rewrite Z.eqb_refl; reflexivity. }
    apply Hclr. clear Hclr. intros st4 HV4.
    pose proof (removed_left e He Hah) as Hrem.
    pose proof (re_left_count e d1 (if a =? b then - Z.b2z (b <=? 512) else 0) He eq_refl eq_refl) as Hcnt.
    pose proof (count_range (re_left e) 0 (Z.min 512 S) ltac:(lia)) as Hcr.
    assert (Hend : forall st5, V c s S u w o (re_left e) (dl v l e 0) a0 (count (re_left e) 0 (Z.min 512 S)) st5 ->
       wp (let* st6 := (if a =? b then let* x := reset_bit c st5 occ_base p in add_popcnt c x 0 (- Z.b2z (p <? 512)) else Ok st5) in
           Ok (update_elem_count st6 (-1))) Q).
    { intros st5 HV5. apply (Hfin _ _ _ (dl cl l e None) st5 HV5 Hrem); [intros; apply re_left_cells; auto| |reflexivity].
      apply sl_dl; [exact (a_sl _ _ _ _ _ _ _ HA)|lia|lia]. }
    destruct (Z.eqb_spec a b) as [Eab|Eab].
    + apply (add_popcnt1_wp _ _ _ _ _ _ _ _ _ _ _ _ _ HV4). intros st5 HV5. rewrite Hcnt, u32_small in HV5 by lia. apply Hend.
      unfold re_left. rewrite (proj2 (Z.eqb_eq a b) Eab). unfold re_left in HV5. rewrite (proj2 (Z.eqb_eq a b) Eab) in HV5. exact HV5.
    + apply (set_re_wp _ _ _ _ _ _ _ _ _ _ _ _ _ HV4); [lia|]. intros st5 HV5. apply Hend. rewrite <- Hcnt, Z.add_0_r.
      unfold re_left. rewrite (proj2 (Z.eqb_neq a b) Eab). exact HV5.
  - (* to the right *)
    assert (Hssa : 0 <= ss <= a) by (destruct Ht as (Ht & _); destruct Hst as [->|(-> & ? & _)]; lia).
    destruct (Z.eqb_spec ss (-1)); [exfalso; lia|].
    apply wp_bind. apply (shift_slots_right_wp _ _ _ _ _ _ _ _ _ _ _ _ _ _ HV); [lia|lia|]. intros st1 HV1.
    apply wp_bind. apply (shift_runends_right_wp _ _ _ _ _ _ _ _ _ _ _ _ _ _ HV1); [lia|lia|]. intros st2 HV2.
    change (shr r ss l false) with (dr r ss l false) in HV2. change (shr v ss l 0) with (dr v ss l 0) in HV2.
    apply wp_bind.
    assert (Hclr : forall Q' : store -> Prop, (forall st4, V c s S u w o (dr r ss l false) (dr v ss l 0) a0 a1 st4 -> Q' st4) ->
       wp (if l =? ss then let* a2 := set_slot c s st2 l 0 in if a =? b then reset_bit c a2 re_base b else Ok a2 else Ok st2) Q').
    { intros Q' HQ'. destruct (Z.eqb_spec l ss) as [Els|]; [|simpl; apply HQ'; exact HV2].
      apply wp_bind. apply (set_slot_wp _ _ _ _ _ _ _ _ _ _ _ _ _ _ HV2); [lia|pose proof (pow_s G); lia|]. intros st4 HV4.
      assert (HV4' : V c s S u w o (dr r ss l false) (dr v ss l 0) a0 a1 st4).
      { apply (V_ext _ _ _ _ _ _ _ _ _ _ _ _ _ _ _ _ HV4); auto; intros i Hi. unfold updz. destruct (Z.eqb_spec i l); auto. subst.
        unfold dr. rewrite Z.eqb_refl; reflexivity. }
      destruct (Z.eqb_spec a b) as [Eab|Eab]; [|simpl; apply HQ'; exact HV4'].
      apply (reset_re_wp _ _ _ _ _ _ _ _ _ _ _ _ _ HV4'); [lia|]. intros st5 HV5. apply HQ'.
      apply (V_ext _ _ _ _ _ _ _ _ _ _ _ _ _ _ _ _ HV5); auto; intros i Hi. unfold updb. destruct (Z.eqb_spec i b); auto.
      unfold dr. destruct (Z.eqb_spec i ss); [reflexivity|exfalso; lia]. }
    apply Hclr. clear Hclr. intros st3 HV3.
    set (d1 := if (ss <? 512) && (512 <=? l) then Z.b2z (r 511) else 0).
    pose proof (re_right_count ss d1 (if a =? b then Z.b2z (b <? 512) else 0) Hssa eq_refl eq_refl) as Hcnt.
    pose proof (count_range (re_right ss) 0 (Z.min 512 S) ltac:(lia)) as Hcr.
    assert (Hd1 : 0 <= d1) by (unfold d1; destruct (_ && _); [destruct (r 511); simpl; lia|lia]).
    assert (Hd2 : 0 <= (if a =? b then Z.b2z (b <? 512) else 0)) by (destruct (a =? b); [destruct (b <? 512); simpl; lia|lia]).
    apply wp_bind.
    assert (Hpop : forall Q' : store -> Prop, (forall st4, V c s S u w o (dr r ss l false) (dr v ss l 0) a0 (a1 - d1) st4 -> Q' st4) ->
       wp (if (ss <? 512) && (512 <=? l) then let* b0 := get_bit c st3 re_base 512 in add_popcnt c st3 1 (- b0) else Ok st3) Q').
    { intros Q' HQ'. unfold d1 in *. destruct ((ss <? 512) && (512 <=? l)) eqn:Ec.
      - apply wp_bind. apply (get_re_wp _ _ _ _ _ _ _ _ _ _ _ _ _ HV3); [lia|].
        assert (E511 : dr r ss l false 512 = r 511).
        { destruct (dr_cases r ss l false 512) as [[? E]|[[? E]|[? E]]]; try lia. rewrite E. reflexivity. }
        rewrite E511. apply (add_popcnt1_wp _ _ _ _ _ _ _ _ _ _ _ _ _ HV3). intros st4 HV4.
        replace (a1 + - Z.b2z (r 511)) with (a1 - Z.b2z (r 511)) in HV4 by lia. rewrite u32_small in HV4 by lia. apply HQ'. exact HV4.
      - simpl. apply HQ'. rewrite Z.sub_0_r. exact HV3. }
    apply Hpop. clear Hpop. intros st4 HV4.
    pose proof (removed_right t Ht) as Hrem.
    assert (Hend : forall st5, V c s S u w o (re_right ss) (dr v ss l 0) a0 (count (re_right ss) 0 (Z.min 512 S)) st5 ->
       wp (let* st6 := (if a =? b then let* x := reset_bit c st5 occ_base p in add_popcnt c x 0 (- Z.b2z (p <? 512)) else Ok st5) in
           Ok (update_elem_count st6 (-1))) Q).
    { intros st5 HV5. apply (Hfin _ _ _ (dr cl t l None) st5 HV5 Hrem); [intros; apply re_right_cells; auto| |reflexivity].
      intros i Hi. pose proof Ht as (Ht1 & Hfu & _). rewrite (start_dr v 0 ss t i Hst ltac:(lia)).
      - apply (sl_dr cl v t l S); [exact (a_sl _ _ _ _ _ _ _ HA)|lia|lia|exact Hi].
      - intros Hn. apply (sl_zero G); [lia|exact Hn]. }
    destruct (Z.eqb_spec a b) as [Eab|Eab].
    + apply (add_popcnt1_wp _ _ _ _ _ _ _ _ _ _ _ _ _ HV4). intros st5 HV5.
      replace (a1 - d1 + - Z.b2z (b <? 512)) with (a1 - d1 - Z.b2z (b <? 512)) in HV5 by lia. rewrite Hcnt, u32_small in HV5 by lia. apply Hend.
      unfold re_right. rewrite (proj2 (Z.eqb_eq a b) Eab). unfold re_right in HV5. rewrite (proj2 (Z.eqb_eq a b) Eab) in HV5. exact HV5.
    + apply (set_re_wp _ _ _ _ _ _ _ _ _ _ _ _ _ HV4); [lia|]. intros st5 HV5. apply Hend. rewrite <- Hcnt, Z.sub_0_r.
      unfold re_right. rewrite (proj2 (Z.eqb_neq a b) Eab). exact HV5.
Qed.
End Delete.

(** ** the element to remove *)
Lemma lbase_even x : 0 < x < 2 ^ 64 -> exists k, lbase x = 2 * k.
Proof. intros Hx. destruct (lowbit_facts x Hx) as (H1 & k & Hk & E). exists (lowbit x * k). unfold lbase. nia. Qed.

Section Match.
Context {c : cfg} {s S : Z} {m : Z -> Z} {u : Z} {w : bool} {o r : Z -> bool} {v : Z -> Z}
  {a0 a1 : Z} {cl : cellf} {st : store}.
Hypothesis G : good c s S m u w o r v a0 a1 cl st.
Let HV := g_V _ _ _ _ _ _ _ _ _ _ _ _ _ G.
Let HW := g_wf _ _ _ _ _ _ _ _ _ _ _ _ _ G.
Let HA := g_ag _ _ _ _ _ _ _ _ _ _ _ _ _ G.

Definition covs (x y : Z) : Prop := lbase y <= x <= y + lowbit y - 1.

Lemma run_match_wp p a b x k (Q : option (Z * Z) -> Prop) : 0 <= a -> (forall i, a <= i <= b -> in_run cl p i = true) ->
  0 <= x -> a <= k <= b + 1 ->
  (forall i, a <= i < k -> covs x (v i) -> (forall j, i < j < k -> ~ covs x (v j)) -> Q (Some (i, v i))) ->
  ((forall i, a <= i < k -> ~ covs x (v i)) -> Q None) ->
  wp (run_match c s st x a (k - 1)) Q.
Proof.
  intros Ha Hin Hx Hk HQ1 HQ2. unfold run_match. pose proof (pow_s G) as Hps.
  apply (wp_loop (fun j => a - 1 <= j < k /\ forall i, j < i < k -> ~ covs x (v i)) (fun j => j - a + 1)).
  - intros j [Hj Hz]. destruct (Z.leb_spec a j).
    + pose proof (Hin j ltac:(lia)) as Hi. apply in_run_iff in Hi as (y & E). destruct (sl_val G _ _ _ E) as (Ev & HjS & _ & Hy).
      apply wp_bind. apply (get_slot_at _ _ _ _ _ _ _ _ _ _ _ _ _ HV); [lia|]. rewrite Z.eqb_sym. rewrite match_interval by lia.
      destruct ((v j - lowbit (v j) <=? x) && (x <=? v j + lowbit (v j) - 1)) eqn:Ec.
      * simpl. apply HQ1; [lia|unfold covs, lbase; lia|]. intros i Hi. apply Hz. lia.
      * simpl. split; [|lia]. split; [lia|]. intros i Hi. destruct (Z.eq_dec i j) as [->|]; [unfold covs, lbase; lia|apply Hz; lia].
    + simpl. apply HQ2. intros i Hi. apply Hz. lia.
  - split; [lia|]. intros; exfalso; lia.
  - lia.
Qed.

Theorem delete_tail_wp p x key ti scalar grade (Q : store -> Prop) : 0 <= p < 1024 -> 0 < x < 2 ^ s -> Z.odd x = true ->
  key = p * 2 ^ s + x -> Z.shiftr key s = p -> Z.land key (bitmask s) = x ->
  implicit_scalar c ti = Ok scalar -> c_size c grade = S -> (forall q, 0 <= q < 1024 -> mapped_pos c q grade scalar = m q) ->
  0 <= u < 2 ^ 32 -> 0 < st_count u -> S < 2 ^ 32 -> @uncrammed S m cl ->
  (exists i y, cl i = Some (p, y) /\ covs x y) ->
  (forall st' o' r' v' a0' a1' cl' l y, good c s S m (u - 1) w o' r' v' a0' a1' cl' st' ->
     0 <= l < S -> cl l = Some (p, y) -> covs x y -> (forall j z, l < j -> cl j = Some (p, z) -> ~ covs x z) ->
     content cl' 0 S = content cl 0 l ++ content cl (l + 1) S -> Q st') ->
  wp (delete_tail c s st grade key ti) Q.
Proof.
  intros Hp Hx Hodd Ekey Eip Eep Hsc Hsz Hmp Hu Hcnt HS32 Hnc (i0 & y0 & E0 & Hc0) HQ.
  pose proof (pow_s G) as Hps.
  destruct (run_extent s S m cl p HW ltac:(exists i0; apply in_run_iff; eauto)) as (a & b & Hab & HbS & Hin & Hout).
  unfold delete_tail. rewrite Eip, Eep, Hsc. cbn [bind].
  apply wp_bind. apply (rank_wp G); [exact Hp|].
  apply wp_bind. apply (select_wp G p a b); [exact Hp|lia|exact Hin|exact Hout|].
  apply wp_bind. apply (run_start_wp G p a b); [exact Hp|lia|exact Hin|exact Hout|].
  assert (Hkey : 0 <= key - 1 < 2 ^ 64) by (pose proof (g_s _ _ _ _ _ _ _ _ _ _ _ _ _ G); nia).
  rewrite u64_small by exact Hkey.
  apply wp_bind. apply (run_search_wp G p a b); [lia|exact Hin|]. intros k Hk Hlo Hhi.
  assert (Hbeyond : forall j, k <= j <= b -> ~ covs x (v j)).
  { intros j Hj [H1 H2]. specialize (Hhi j Hj). pose proof (Hin j ltac:(lia)) as Hi. apply in_run_iff in Hi as (y & E).
    destruct (sl_val G _ _ _ E) as (Ev & HjS & _ & Hy). destruct (lbase_even (v j) ltac:(lia)) as (h & Eh).
    assert (x <= key) by nia. assert (lbase (v j) = x) by lia. rewrite H0 in Eh. rewrite Eh in Hodd. rewrite Z.odd_mul in Hodd. discriminate. }
  apply wp_bind. apply (run_match_wp p a b x k); [lia|exact Hin|lia|exact Hk| |].
  2:{ intros Hnone. exfalso. pose proof (Hout i0 ltac:(apply in_run_iff; eauto)) as Hi0. destruct (sl_val G _ _ _ E0) as (Ev & _). rewrite <- Ev in Hc0.
      destruct (Z.ltb_spec i0 k); [apply (Hnone i0); [lia|exact Hc0]|apply (Hbeyond i0); [lia|exact Hc0]]. }
  intros l Hl Hcl Hlast. cbv beta iota.
  pose proof (Hin l ltac:(lia)) as Hil. apply in_run_iff in Hil as (y & El). destruct (sl_val G _ _ _ El) as (Evl & HlS & _ & Hyl).
  apply wp_bind. apply (right_scan_wp G p a b Hab Hin Hout grade scalar Hsz Hmp). intros found prev se Hro Hfound.
  set (e := if se =? -1 then prev else se) in *.
  assert (Hgo : forall ss, (ss = -1 /\ @allhome m cl b) \/ (0 <= ss /\ exists t, @leftok m cl a b t /\ @startat cl ss t) ->
     wp (take_out c s st p l b ss e (a =? b)) Q).
  { intros ss Hss. apply (take_out_wp G p a b Hp Hab Hin Hout grade scalar Hsz Hmp l ltac:(lia) ss e Q Hro HS32 Hss Hu Hcnt).
    intros st' o' r' v' a0' a1' cl' HG (_ & _ & Hct). apply (HQ st' o' r' v' a0' a1' cl' l y HG HlS El); [rewrite <- Evl; exact Hcl| |exact Hct].
    intros j z Hj Ej. destruct (sl_val G _ _ _ Ej) as (Evj & _). rewrite <- Evj.
    pose proof (Hout j ltac:(apply in_run_iff; eauto)). destruct (Z.ltb_spec j k); [apply Hlast; lia|apply Hbeyond; lia]. }
  apply wp_bind. destruct found.
  - cbn [wp]. apply Hgo. left. split; [reflexivity|]. destruct Hfound as (e0 & He0 & Hn0). intros i q z Hi E.
    destruct (w_place _ _ _ _ HW _ _ _ E) as [[? _]|[_ Hff]]; [lia|]. exfalso. apply (Hff e0); [lia|exact Hn0].
  - apply (left_scan_wp G p a b Hab Hin Hout grade scalar Hsz Hmp); [exact Hfound|exact Hnc|exact HS32| |].
    + intros Hah. apply Hgo. left. split; [reflexivity|exact Hah].
    + intros ss t Ht Hst. apply Hgo. right. destruct Ht as (Ht0 & Ht'). split; [destruct Hst as [->|(_ & ? & _)]; lia|].
      exists t. split; [exact (conj Ht0 Ht')|exact Hst].
Qed.

Lemma not_crammed scalar ti : implicit_scalar c ti = Ok scalar -> (forall q, 0 <= q < 1024 -> mapped_pos c q (get_size_grade st) scalar = m q) ->
  ~ crammed c s st ti -> @uncrammed S m cl.
Proof.
  intros Hsc Hmp Hnc i q y Hi Hbelow Hup E. pose proof (w_dom _ _ _ _ HW _ _ _ E) as (HiS & Hq & _).
  assert (Hslot : forall j, 0 <= j < S -> get_slot c s st j = Ok (v j)).
  { intros j Hj. assert (H : wp (get_slot c s st j) (fun z => z = v j)) by (apply (get_slot_at _ _ _ _ _ _ _ _ _ _ _ _ _ HV); [lia|reflexivity]).
    apply wp_exists in H as (z & -> & ->). reflexivity. }
  assert (Hbit : forall j, 0 <= j < 1024 -> get_bit c st occ_base j = Ok (Z.b2z (o j))).
  { intros j Hj. assert (H : wp (get_bit c st occ_base j) (fun z => z = Z.b2z (o j))) by (apply (get_occ_wp _ _ _ _ _ _ _ _ _ _ _ _ _ HV); [lia|reflexivity]).
    apply wp_exists in H as (z & -> & ->). reflexivity. }
  pose proof (g_mr _ _ _ _ _ _ _ _ _ _ _ _ _ G q Hq) as Hmr.
  assert (Hc : ~ ((0 < i /\ m q = i) \/ (i = 0 /\ 0 < m q))).
  { intros H. apply Hnc. exists i, q, scalar. rewrite (V_slots _ _ _ _ _ _ _ _ _ _ _ HV). split; [exact HiS|].
    split; [intros j Hj; rewrite Hslot by lia; f_equal; apply (sl_zero G); [lia|apply Hbelow; lia]|].
    split; [intros j Hj; rewrite Hslot by lia; intros [= E0]; apply (sl_zero G) in E0; [apply (Hup j); [lia|exact E0]|lia]|].
    split; [exact Hq|]. rewrite Hbit by lia.
    split. { assert (o q = true) as -> by (apply (a_occ _ _ _ _ _ _ _ HA q Hq); exists i; apply in_run_iff; eauto). reflexivity. }
    split.
    { intros q' Hq'. rewrite Hbit by lia. destruct (o q') eqn:Eo; [|reflexivity]. exfalso.
      apply (a_occ _ _ _ _ _ _ _ HA q' ltac:(lia)) in Eo as (j & Hj). apply in_run_iff in Hj as (z & Ej).
      pose proof (w_dom _ _ _ _ HW _ _ _ Ej) as (HjS & _).
      destruct (Z.ltb_spec j i); [rewrite Hbelow in Ej by lia; discriminate|].
      pose proof (run_le s S m _ i j _ _ _ _ HW ltac:(lia) E Ej). lia. }
    split; [exact Hsc|]. cbv zeta. rewrite Hmp by lia. exact H. }
  destruct (Z.eqb_spec i 0); [lia|]. lia.
Qed.
End Match.

(** ** deletion from a represented list *)
(** the last element that covers [key] is taken out *)
Definition dels (key : Z) (L L' : list Z) : Prop :=
  exists A y B, L = A ++ y :: B /\ L' = A ++ B /\ hit key key y /\ Forall (fun z => ~ hit key key z) B.

Section Rep.
Variable c : cfg.
Hypothesis T : tables_ok c.

Lemma hit_cell s p x q y : 1 <= s <= 53 -> 0 <= p < 1024 -> 0 <= q < 1024 -> 0 < y < 2 ^ s -> 0 <= x < 2 ^ s ->
  y + lowbit y - 1 < 2 ^ s ->
  hit (p * 2 ^ s + x) (p * 2 ^ s + x) (jn s (q, y)) <-> q = p /\ covs x y.
Proof.
  intros Hs Hp Hq Hy Hx E3. pose proof (Z.pow_pos_nonneg 2 s ltac:(lia) ltac:(lia)) as Hps.
  destruct (jn_facts s (q, y) Hs ltac:(simpl; lia) ltac:(simpl; lia)) as (A1 & A2 & A3 & A4 & A5 & A6 & A7).
  unfold hit, covs. rewrite A5, A4. cbn [fst snd] in *. unfold jn. cbn [fst snd].
  unfold lbase in *.
  split; [intros [H1 H2]; assert (q = p) by nia; subst q; split; [reflexivity|lia]|intros [-> H]; lia].
Qed.

Lemma delete_tail_rep s ti st L key (Q : store -> Prop) : rep c s ti true st L -> 0 <= key < 1024 * 2 ^ s -> Z.odd key = true ->
  ~ crammed c s st ti -> (exists y, In y L /\ hit key key y) ->
  (forall st' L', rep c s ti true st' L' -> dels key L L' -> flags st' = flags st -> Q st') ->
  wp (delete_tail c s st (get_size_grade st) key ti) Q.
Proof.
  intros HR Hk Hodd Hcr (y & Hy & Hhit) HQ. pose proof HR as (u & o & r & v & a0 & a1 & cl & scalar & els & Hi & Hu & HG & Hcont & HLe & Hc).
  destruct (rep_s _ _ _ _ _ _ HR) as [Hs _].
  pose proof (g_V _ _ _ _ _ _ _ _ _ _ _ _ _ HG) as HV. pose proof (g_wf _ _ _ _ _ _ _ _ _ _ _ _ _ HG) as HW.
  pose proof (V_status _ _ _ _ _ _ _ _ _ _ _ HV) as Es.
  assert (Eg : get_size_grade st = st_grade u) by (unfold get_size_grade; rewrite Es; reflexivity).
  pose proof (grade_range u) as Hgr. set (g := st_grade u) in *. pose proof (size_pos c T g Hgr) as HS.
  pose proof (Z.pow_pos_nonneg 2 s ltac:(lia) ltac:(lia)) as Hps.
  destruct (split_key key s ltac:(lia) ltac:(lia)) as (Ek & Hep & Hip0).
  set (p := Z.shiftr key s) in *. set (x := Z.land key (bitmask s)) in *.
  assert (Hp : 0 <= p < 1024) by nia.
  assert (Hxo : Z.odd x = true).
  { rewrite <- Hodd, Ek. rewrite Z.odd_add, Z.odd_mul. replace (Z.odd (2 ^ s)) with false; [rewrite andb_false_r, xorb_false_l; reflexivity|].
    replace s with (1 + (s - 1)) by lia. rewrite Z.pow_add_r by lia. rewrite Z.odd_mul. reflexivity. }
  assert (Hx : 0 < x < 2 ^ s). { split; [|lia]. destruct (Z.eq_dec x 0) as [E|]; [rewrite E in Hxo; discriminate|lia]. }
  assert (Hcell : forall i q z, cl i = Some (q, z) -> (hit key key (jn s (q, z)) <-> q = p /\ covs x z)).
  { intros i q z E. destruct (w_dom _ _ _ _ HW _ _ _ E) as (D1 & D2 & D3). rewrite Ek. destruct (elem_low HG z ltac:(lia)) as (_ & _ & E3). apply hit_cell; lia. }
  rewrite HLe in Hy. apply in_map_iff in Hy as ([q z] & <- & Hin). rewrite <- Hcont in Hin. pose proof Hin as Hin'.
  apply content_in in Hin as (i & Hir & E). pose proof (proj1 (Hcell i q z E) Hhit) as [-> Hcv].
  assert (Hpos : 0 < st_count u).
  { rewrite Hc, <- Hcont. destruct (content cl 0 (c_size c g)); [destruct Hin'|cbn [length]; lia]. }
  destruct (status_decr u Hu Hpos) as (I1 & I2 & I3 & I4 & I5).
  rewrite Eg. apply (delete_tail_wp HG p x key ti scalar g Q Hp Hx Hxo Ek eq_refl eq_refl Hi eq_refl (fun _ _ => eq_refl) Hu Hpos).
  - pose proof (size_mono c T g 255 ltac:(lia) ltac:(lia)). pose proof (t_u32 _ T). lia.
  - apply (not_crammed HG scalar ti Hi); [intros; rewrite Eg; reflexivity|exact Hcr].
  - exists i, z. split; [exact E|exact Hcv].
  - intros st' o' r' v' a0' a1' cl' l y' HG' Hl El Hcl Hlast Hct.
    apply (HQ st' (map (jn s) (content cl' 0 (c_size c g)))).
    + eexists (u - 1), _, _, _, _, _, cl', scalar, _. rewrite I3. fold g.
      split; [exact Hi|]. split; [lia|]. split; [exact HG'|]. split; [reflexivity|]. split; [reflexivity|].
      rewrite I2, Hc, Hct, app_length, <- Hcont.
      rewrite (content_split cl 0 l (c_size c g)), (content_split cl l (l + 1) (c_size c g)) by lia. rewrite !app_length.
      unfold content at 2. replace (Z.to_nat (l + 1 - l)) with 1%nat by lia. cbn [cont]. rewrite El. cbn [app length]. lia.
    + exists (map (jn s) (content cl 0 l)), (jn s (p, y')), (map (jn s) (content cl (l + 1) (c_size c g))).
      split. { rewrite HLe, <- Hcont. rewrite (content_split cl 0 l (c_size c g)), (content_split cl l (l + 1) (c_size c g)) by lia.
        unfold content at 2. replace (Z.to_nat (l + 1 - l)) with 1%nat by lia. cbn [cont]. rewrite El. rewrite !map_app. reflexivity. }
      split; [rewrite Hct, map_app; reflexivity|]. split; [apply (Hcell l p y' El); split; [reflexivity|exact Hcl]|].
      apply Forall_forall. intros w Hw. apply in_map_iff in Hw as ([q' z'] & <- & Hw). apply content_in in Hw as (j & Hj & Ej).
      intros Hh. apply (Hcell j q' z' Ej) in Hh as [-> Hh]. apply (Hlast j z'); [lia|exact Ej|exact Hh].
    + unfold flags. rewrite (V_status _ _ _ _ _ _ _ _ _ _ _ (g_V _ _ _ _ _ _ _ _ _ _ _ _ _ HG')), Es. exact I5.
Qed.

Theorem delete_raw_rep s ti st L key (Q : store -> Prop) : fits c s -> rep c s ti true st L -> 0 <= key < 1024 * 2 ^ s -> Z.odd key = true ->
  (forall st1, delete_block c s st ti = Ok st1 -> ~ crammed c s st1 ti) -> (exists y, In y L /\ hit key key y) ->
  (forall st' L', rep c s ti true st' L' -> dels key L L' -> flags st' = flags st -> Q st') ->
  wp (delete_raw c s st key ti) Q.
Proof.
  intros Hf HR Hk Hodd Hcr Hhit HQ. rewrite delete_raw_tail.
  destruct (rep_count _ T _ _ _ _ _ HR) as (C1 & C2 & C3 & C4 & C5 & C6 & C7). cbv zeta. unfold delete_block in Hcr. rewrite C1 in *.
  set (g := get_size_grade st) in *. pose proof (t_exc _ T).
  destruct ((0 <? g) && (Z.of_nat (length L) <=? (if 1 <? g then c_size c (g - 2) else c_exc c))) eqn:Esh.
  - apply andb_true_iff in Esh as [Hg Hle]. apply Z.ltb_lt in Hg. apply Z.leb_le in Hle.
    assert (Hw : wp (resize c s st false ti) (fun st' => rep c s ti true st' L /\ flags st' = flags st /\ get_size_grade st' = g - 1)).
    { apply (resize_rep c T s ti st L false); [exact Hf|exact HR|fold g; lia| |].
      - fold g. change (g + -1) with (g - 1) || idtac. replace (g + -1) with (g - 1) by lia. destruct (Z.ltb_spec 1 g).
        + pose proof (size_mono c T (g - 2) (g - 1) ltac:(lia) ltac:(lia)). lia.
        + replace (g - 1) with 0 by lia. lia.
      - intros st' H1 H2 H3. split; [exact H1|]. split; [exact H2|]. rewrite H3. fold g. lia. }
    apply wp_exists in Hw as (st1 & E & HR1 & Hfl & Hg1). rewrite E in *. cbn [bind]. rewrite <- Hg1.
    apply (delete_tail_rep s ti st1 L); [exact HR1|exact Hk|exact Hodd|apply Hcr; reflexivity|exact Hhit|].
    intros st' L' H1 H2 H3. apply (HQ st' L'); [exact H1|exact H2|congruence].
  - cbn [bind]. apply (delete_tail_rep s ti st L); [exact HR|exact Hk|exact Hodd|apply Hcr; reflexivity|exact Hhit|exact HQ].
Qed.
End Rep.
