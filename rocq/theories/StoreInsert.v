(** InsertRawIntoInfixStore, once the block is large enough, adds exactly one
    element to the cells. *)
From Coq Require Import ZArith List Bool Lia.
From Coq Require Import ZifyBool ZifyNat.
From Verif Require Import Base Util Store Bits View Cells Lowbit StoreFind.
Import ListNotations.
Open Scope Z_scope.

(** insert_raw without the optional growth *)
Definition insert_tail (c : cfg) (s : Z) (st : store) (grade key total_implicit : Z) : res store :=
  let ip := Z.shiftr key s in
  let ep := Z.land key (bitmask s) in
  let* scalar := implicit_scalar c total_implicit in
  let half := target_size / 2 in
  let mapped := mapped_pos c ip grade scalar in
  let* key_rank := rank_occupieds c st ip in
  let* occ := get_bit c st occ_base ip in
  let* v0 := get_slot c s st mapped in
  let* st3 :=
    (if (occ =? 0) && (v0 =? 0) then
       let* a := set_slot c s st mapped ep in
       let* a := set_bit c a re_base mapped in
       let* a := add_popcnt c a 0 (Z.b2z (ip <? half)) in
       add_popcnt c a 1 (Z.b2z (mapped <? half))
     else if negb (occ =? 0) then
       let* runend_pos := select_runends c st key_rank in
       let* next_empty := find_empty_after c s st mapped in
       let* previous_empty := find_empty_before c s st mapped in
       let* pre := prev_runend c st runend_pos in
       let* '(l, r) := run_search c s st (u64 (ep - 1)) (Z.max pre previous_empty) (runend_pos + 1) in
       if next_empty <? c_size c grade then
         let* a := shift_slots_right c s st r next_empty 1 in
         let* a := shift_runends_right c a runend_pos next_empty 1 in
         let* a := (if (runend_pos <? half) && (half <=? next_empty)
                    then let* b := get_bit c a re_base half in add_popcnt c a 1 (- b)
                    else Ok a) in
         set_slot c s a r ep
       else
         let* a := shift_slots_left c s st (previous_empty + 1) r 1 in
         let* a := (if (previous_empty + 1 <=? half) && (half <? Z.min runend_pos r)
                    then let* b := get_bit c a re_base half in add_popcnt c a 1 b
                    else Ok a) in
         let* a := shift_runends_left c a (previous_empty + 1) (Z.min runend_pos r) 1 in
         set_slot c s a (r - 1) ep
     else
       let* runend_pos := (if key_rank =? 0 then Ok (-1) else select_runends c st (key_rank - 1)) in
       let* next_empty := find_empty_after c s st mapped in
       let* a :=
         (if next_empty <? c_size c grade then
            let shift_start := Z.max (runend_pos + 1) mapped in
            let* a := shift_slots_right c s st shift_start next_empty 1 in
            let* a := shift_runends_right c a shift_start next_empty 1 in
            let* a := (if (shift_start <? half) && (half <=? next_empty)
                       then let* b := get_bit c a re_base half in add_popcnt c a 1 (- b)
                       else Ok a) in
            let* a := set_slot c s a shift_start ep in
            let* a := set_bit c a re_base shift_start in
            add_popcnt c a 1 (Z.b2z (shift_start <? half))
          else
            let* previous_empty := find_empty_before c s st mapped in
            let target_pos := Z.max runend_pos previous_empty in
            let* a := shift_slots_left c s st (previous_empty + 1) (target_pos + 1) 1 in
            let* a := (if (previous_empty + 1 <=? half) && (half <? target_pos + 1)
                       then let* b := get_bit c a re_base half in add_popcnt c a 1 b
                       else Ok a) in
            let* a := shift_runends_left c a (previous_empty + 1) (target_pos + 1) 1 in
            let* a := set_slot c s a target_pos ep in
            let* a := set_bit c a re_base target_pos in
            add_popcnt c a 1 (Z.b2z (target_pos <? half))) in
       add_popcnt c a 0 (Z.b2z (ip <? half))) in
  let* st4 := set_bit c st3 occ_base ip in
  Ok (update_elem_count st4 1).

Lemma insert_raw_tail c s st0 key ti : insert_raw c s st0 key ti =
  (let grade0 := get_size_grade st0 in
   let threshold := if grade0 =? 0 then c_exc c else c_size c (grade0 - 1) in
   let grow := threshold <=? get_elem_count st0 in
   let* st := (if grow then resize c s st0 true ti else Ok st0) in
   insert_tail c s st (if grow then grade0 + 1 else grade0) key ti).
Proof. reflexivity. Qed.

(** ** The status word *)
Definition st_count (u : Z) : Z := Z.land u (bitmask 20).
Definition st_grade (u : Z) : Z := Z.land (Z.shiftr u 20) (bitmask 8).
Lemma st_count_mod u : st_count u = u mod 2 ^ 20.
Proof. unfold st_count, bitmask. apply Z.land_ones. lia. Qed.
Lemma st_grade_mod u : st_grade u = (u / 2 ^ 20) mod 2 ^ 8.
Proof. unfold st_grade, bitmask. rewrite Z.land_ones, Z.shiftr_div_pow2 by lia. reflexivity. Qed.

Lemma status_incr u : 0 <= u < 2 ^ 32 -> st_count u + 1 < 2 ^ 20 ->
  u32 (u + 1) = u + 1 /\ st_count (u + 1) = st_count u + 1 /\ st_grade (u + 1) = st_grade u /\ u + 1 < 2 ^ 32 /\
  Z.shiftr (u + 1) 28 = Z.shiftr u 28.
Proof.
  intros Hu Hc. rewrite !st_count_mod, !st_grade_mod, !Z.shiftr_div_pow2 in * by lia.
  pose proof (Z.div_mod u (2 ^ 20) ltac:(lia)). set (q := u / 2 ^ 20) in *. set (t := u mod 2 ^ 20) in *.
  assert (0 <= t) by (apply Z.mod_pos_bound; lia).
  assert (q < 2 ^ 12) by (apply Z.div_lt_upper_bound; lia).
  assert (Hq : (u + 1) / 2 ^ 20 = q) by (symmetry; apply (Z.div_unique_pos _ _ q (t + 1)); lia).
  assert (Ht : (u + 1) mod 2 ^ 20 = t + 1) by (symmetry; apply (Z.mod_unique_pos _ _ q); lia).
  rewrite Hq, Ht. split; [apply u32_small; lia|]. split; [lia|]. split; [reflexivity|]. split; [lia|].
    change (2 ^ 28) with (2 ^ 20 * 2 ^ 8). rewrite <- !Z.div_div by lia. rewrite Hq. reflexivity.
Qed.
Lemma status_decr u : 0 <= u < 2 ^ 32 -> 0 < st_count u ->
  u32 (u + -1) = u - 1 /\ st_count (u - 1) = st_count u - 1 /\ st_grade (u - 1) = st_grade u /\ 0 <= u - 1 /\
  Z.shiftr (u - 1) 28 = Z.shiftr u 28.
Proof.
  intros Hu Hc. rewrite !st_count_mod, !st_grade_mod, !Z.shiftr_div_pow2 in * by lia.
  pose proof (Z.div_mod u (2 ^ 20) ltac:(lia)). set (q := u / 2 ^ 20) in *. set (t := u mod 2 ^ 20) in *.
  assert (t < 2 ^ 20) by (apply Z.mod_pos_bound; lia).
  assert (0 <= q) by (apply Z.div_pos; lia).
  assert (Hq : (u - 1) / 2 ^ 20 = q) by (symmetry; apply (Z.div_unique_pos _ _ q (t - 1)); lia).
  assert (Ht : (u - 1) mod 2 ^ 20 = t - 1) by (symmetry; apply (Z.mod_unique_pos _ _ q); lia).
  rewrite Hq, Ht. split; [apply u32_small; lia|]. split; [lia|]. split; [reflexivity|]. split; [lia|].
    change (2 ^ 28) with (2 ^ 20 * 2 ^ 8). rewrite <- !Z.div_div by lia. rewrite Hq. reflexivity.
Qed.

Lemma V_with_status c s S u w o r v a0 a1 st u' : V c s S u w o r v a0 a1 st -> st_grade u' = st_grade u ->
  V c s S u' w o r v a0 a1 (with_status st u').
Proof.
  intros [] Hg. constructor; auto.
  unfold slots, get_size_grade in *. simpl. fold (st_grade u'). rewrite Hg. unfold st_grade. congruence.
Qed.

Lemma odd_lbase s x : 1 <= s <= 53 -> 0 < x < 2 ^ s -> Z.odd x = true -> lbase x = x - 1.
Proof.
  intros Hs Hx Ho. assert (2 ^ s <= 2 ^ 53) by (apply pow2_le_mono; lia).
  unfold lbase. rewrite lowbit_odd; auto. lia.
Qed.

Section Insert.
Context {c : cfg} {s S : Z} {m : Z -> Z} {u : Z} {w : bool} {o r : Z -> bool} {v : Z -> Z}
  {a0 a1 : Z} {cl : cellf} {st : store}.
Hypothesis G : good c s S m u w o r v a0 a1 cl st.
Variables (p x : Z).
Hypothesis Hp : 0 <= p < 1024.
Hypothesis Hx : 0 < x < 2 ^ s.
Hypothesis Hodd : Z.odd x = true.

Let HV := g_V _ _ _ _ _ _ _ _ _ _ _ _ _ G.
Let HW := g_wf _ _ _ _ _ _ _ _ _ _ _ _ _ G.
Let HA := g_ag _ _ _ _ _ _ _ _ _ _ _ _ _ G.
Let HS := V_S _ _ _ _ _ _ _ _ _ _ _ HV.

Lemma occ_in : o p = true -> exists i, in_run cl p i = true.
Proof. apply (a_occ _ _ _ _ _ _ _ HA p Hp). Qed.
Lemma occ_out : o p = false -> forall i, in_run cl p i = false.
Proof.
  intros Ho i. destruct (in_run cl p i) eqn:E; auto.
  assert (o p = true) by (apply (a_occ _ _ _ _ _ _ _ HA p Hp); eauto). congruence.
Qed.

(** what an insertion must achieve: cells [cl'] with one more element *)
(** strictly behind the new element *)
Definition safter (d : Z * Z) : Prop := p < fst d \/ (p = fst d /\ lbase x < lbase (snd d)).
Definition inserted (cl' : cellf) : Prop :=
  wf s S m cl' /\
  (forall q, (exists i, in_run cl' q i = true) <-> q = p \/ exists i, in_run cl q i = true) /\
  exists k, 0 <= k <= S /\ content cl' 0 S = content cl 0 k ++ (p, x) :: content cl k S /\
    (forall i d, k <= i -> cl i = Some d -> safter d).

Lemma safter_after d : safter d -> after p x d.
Proof. unfold safter, after. intros [H|[H1 H2]]; [left; exact H|right; split; [exact H1|lia]]. Qed.
Lemma p0_after d : d = Z.b2z (negb (o p) && (p <? 512)) -> u32 (a0 + d) = count (updb o p true) 0 512.
Proof.
  intros ->. rewrite count_updb. rewrite (a_p0 _ _ _ _ _ _ _ HA). pose proof (count_range o 0 512 ltac:(lia)).
  destruct (Z.leb_spec 0 p); [|exfalso; lia]. simpl.
  destruct (Z.ltb_spec p 512), (o p); simpl; rewrite u32_small; lia.
Qed.

Lemma finish r' v' a1' cl' st3 (Q : store -> Prop) :
  V c s S u w o r' v' (count (updb o p true) 0 512) a1' st3 -> inserted cl' ->
  (forall i, 0 <= i < S -> r' i = re_of cl' i) -> (forall i, 0 <= i < S -> v' i = sl_of cl' i) ->
  a1' = count r' 0 (Z.min 512 S) ->
  0 <= u < 2 ^ 32 -> st_count u + 1 < 2 ^ 20 ->
  (forall st', good c s S m (u + 1) w (updb o p true) r' v' (count (updb o p true) 0 512) a1' cl' st' -> Q st') ->
  wp (let* st4 := set_bit c st3 occ_base p in Ok (update_elem_count st4 1)) Q.
Proof.
  intros HV3 (Hwf & Hocc & _) Hr Hv Ha1 Hu Hc HQ.
  apply wp_bind. apply (set_occ_wp _ _ _ _ _ _ _ _ _ _ _ _ _ HV3 Hp). intros st4 HV4.
  simpl. apply HQ. unfold update_elem_count. rewrite (V_status _ _ _ _ _ _ _ _ _ _ _ HV4).
  destruct (status_incr u Hu Hc) as (E1 & E2 & E3 & E4 & _). rewrite E1.
  constructor.
  - apply (V_with_status _ _ _ _ _ _ _ _ _ _ _ _ HV4 E3).
  - exact Hwf.
  - constructor; auto. intros q Hq. rewrite Hocc. unfold updb. destruct (Z.eqb_spec q p) as [->|].
    + split; auto.
    + rewrite (a_occ _ _ _ _ _ _ _ HA q Hq). split; [auto|]. intros [?|?]; [lia|auto].
  - exact (g_mr _ _ _ _ _ _ _ _ _ _ _ _ _ G).
  - exact (g_mm _ _ _ _ _ _ _ _ _ _ _ _ _ G).
  - exact (g_s _ _ _ _ _ _ _ _ _ _ _ _ _ G).
Qed.

Lemma re_none i : cl i = None -> re_of cl i = false.
Proof. intros E. unfold re_of. rewrite E. reflexivity. Qed.

(** popcounts of the runends *)
Lemma a1_eq : a1 = count (re_of cl) 0 (Z.min 512 S).
Proof.
  rewrite (a_p1 _ _ _ _ _ _ _ HA). apply count_ext. intros i Hi. apply (a_re _ _ _ _ _ _ _ HA). lia.
Qed.
Lemma cnt_shr l e : 0 <= l <= e -> e < S -> cl e = None ->
  count (shr (re_of cl) l e false) 0 (Z.min 512 S) =
  a1 - (if (l <? 512) && (512 <=? e) then Z.b2z (re_of cl 511) else 0).
Proof.
  intros Hl He Hn. rewrite count_shr; auto; [|lia|apply re_none; auto]. rewrite <- a1_eq.
  destruct (Z.leb_spec 512 e).
  - replace (Z.min 512 S) with 512 by lia. destruct (Z.leb_spec 512 e); [|exfalso; lia]. reflexivity.
  - destruct (Z.leb_spec (Z.min 512 S) e); [exfalso; lia|]. rewrite !andb_false_r. lia.
Qed.
Lemma cnt_shl l e : 1 <= l <= e -> e <= S -> cl (l - 1) = None ->
  count (shl (re_of cl) l e false) 0 (Z.min 512 S) =
  a1 + (if (l <=? 512) && (512 <? e) then Z.b2z (re_of cl 512) else 0).
Proof.
  intros Hl He Hn. rewrite count_shl; auto; [|lia|apply re_none; auto]. rewrite <- a1_eq.
  destruct (Z.ltb_spec 512 e).
  - replace (Z.min 512 S) with 512 by lia. destruct (Z.ltb_spec 512 e); [|exfalso; lia]. reflexivity.
  - destruct (Z.ltb_spec (Z.min 512 S) e); [exfalso; lia|]. rewrite !andb_false_r. lia.
Qed.

(** ordering of the other elements around the place of the new one *)
Lemma x_base : lbase x = x - 1.
Proof. apply (odd_lbase s); auto. exact (g_s _ _ _ _ _ _ _ _ _ _ _ _ _ G). Qed.

Lemma ord_old a e k : a <= e ->
  (forall i, a <= i <= e -> in_run cl p i = true) -> (forall i, in_run cl p i = true -> a <= i <= e) ->
  a <= k <= e + 1 -> (forall i, a <= i < k -> lbase (v i) <= x - 1) -> (forall i, k <= i <= e -> x - 1 < lbase (v i)) ->
  (forall i c, i < k -> cl i = Some c -> before p x c) /\ (forall i c, k <= i -> cl i = Some c -> safter c).
Proof.
  intros Hae Hin Hout Hk Hlo Hhi. pose proof x_base.
  pose proof (Hin a ltac:(lia)) as Ha. apply in_run_iff in Ha as (xa & Ea).
  pose proof (Hin e ltac:(lia)) as He. apply in_run_iff in He as (xe & Ee). split.
  - intros i [q y] Hi E. unfold before; simpl. destruct (sl_val G _ _ _ E) as (Ev & HiS & _).
    destruct (Z.leb_spec a i).
    + specialize (Hlo i ltac:(lia)). pose proof (Hin i ltac:(lia)) as Hi'. apply in_run_iff in Hi' as (z & Ez).
      right. split; [congruence|]. rewrite Ev in Hlo. lia.
    + left. pose proof (run_le s S m _ i a _ _ _ _ HW ltac:(lia) E Ea).
      destruct (Z.eq_dec q p) as [->|]; [|lia]. assert (HX : in_run cl p i = true) by (apply in_run_iff; eauto).
      apply Hout in HX. lia.
  - intros i [q y] Hi E. unfold safter; simpl. destruct (sl_val G _ _ _ E) as (Ev & HiS & _).
    destruct (Z.leb_spec i e).
    + specialize (Hhi i ltac:(lia)). pose proof (Hin i ltac:(lia)) as Hi'. apply in_run_iff in Hi' as (z & Ez).
      right. split; [congruence|]. rewrite Ev in Hhi. lia.
    + left. pose proof (run_le s S m _ e i _ _ _ _ HW ltac:(lia) Ee E).
      destruct (Z.eq_dec q p) as [->|]; [|lia]. assert (HX : in_run cl p i = true) by (apply in_run_iff; eauto).
      apply Hout in HX. lia.
Qed.

(** *** an empty mapped slot *)
Lemma insert_here (Q : store -> Prop) : o p = false -> cl (m p) = None ->
  0 <= u < 2 ^ 32 -> st_count u + 1 < 2 ^ 20 ->
  (forall st' r' v' a1' cl', good c s S m (u + 1) w (updb o p true) r' v' (count (updb o p true) 0 512) a1' cl' st' ->
     inserted cl' -> Q st') ->
  wp (let* st3 := (let* a := set_slot c s st (m p) x in
                   let* a := set_bit c a re_base (m p) in
                   let* a := add_popcnt c a 0 (Z.b2z (p <? 512)) in
                   add_popcnt c a 1 (Z.b2z (m p <? 512))) in
      let* st4 := set_bit c st3 occ_base p in Ok (update_elem_count st4 1)) Q.
Proof.
  intros Ho Hn Hu Hc HQ. pose proof (g_mr _ _ _ _ _ _ _ _ _ _ _ _ _ G p Hp) as Hm.
  pose proof (g_mm _ _ _ _ _ _ _ _ _ _ _ _ _ G) as Hmm.
  pose proof (occ_out Ho) as Hnp.
  assert (Hb : forall i d, i < m p -> cl i = Some d -> before p x d).
  { intros i [q y] Hi E. left; simpl. pose proof (w_dom _ _ _ _ HW _ _ _ E) as (HiS & Hq & _).
    assert (q <> p). { intros ->. specialize (Hnp i). unfold in_run in Hnp. rewrite E in Hnp. lia. }
    destruct (Z.ltb_spec q p); auto. exfalso.
    specialize (Hmm p q ltac:(lia) ltac:(lia)).
    destruct (w_place _ _ _ _ HW _ _ _ E) as [[? _]|[_ Hf]]; [lia|]. apply (Hf (m p)); [lia|auto]. }
  assert (Has : forall i d, m p <= i -> cl i = Some d -> safter d).
  { intros i [q y] Hi E. left; simpl. pose proof (w_dom _ _ _ _ HW _ _ _ E) as (HiS & Hq & _).
    assert (q <> p). { intros ->. specialize (Hnp i). unfold in_run in Hnp. rewrite E in Hnp. lia. }
    destruct (Z.ltb_spec p q); auto. exfalso.
    specialize (Hmm q p ltac:(lia) ltac:(lia)).
    destruct (w_place _ _ _ _ HW _ _ _ E) as [[_ Hf]|[? _]]; [|lia]. apply (Hf (m p)); [lia|auto]. }
  assert (Ha : forall i d, m p <= i -> cl i = Some d -> after p x d) by (intros i d Hi E; apply safter_after; eauto).
  assert (Hins : inserted (shr cl (m p) (m p) (Some (p, x)))).
  { split; [|split].
    - apply wf_shr; auto; try lia. all: intros; lia.
    - intros q. apply occ_shr; [lia|auto].
    - exists (m p). split; [lia|]. split; [apply content_shr; auto; lia|exact Has]. }
  apply wp_bind.
  apply wp_bind. apply (set_slot_wp _ _ _ _ _ _ _ _ _ _ _ _ _ _ HV); [lia|lia|]. intros b1 HV1.
  apply wp_bind. apply (set_re_wp _ _ _ _ _ _ _ _ _ _ _ _ _ HV1); [lia|]. intros b2 HV2.
  apply wp_bind. apply (add_popcnt0_wp _ _ _ _ _ _ _ _ _ _ _ _ _ HV2). intros b3 HV3.
  apply (add_popcnt1_wp _ _ _ _ _ _ _ _ _ _ _ _ _ HV3). intros b4 HV4.
  rewrite p0_after in HV4 by (rewrite Ho; reflexivity).
  assert (Hre : forall i, 0 <= i < S -> re_of (shr cl (m p) (m p) (Some (p, x))) i = updb r (m p) true i).
  { intros i Hi. rewrite (re_shr_new s S m cl (m p) (m p) p x HW ltac:(lia) ltac:(lia) Hn Hnp); [| |intros j q y Hj E|lia].
    - unfold updb, shr. destruct (Z.eqb_spec i (m p)); auto. destruct (Z.ltb_spec (m p) i), (Z.leb_spec i (m p)); simpl; try (exfalso; lia);
      symmetry; apply (a_re _ _ _ _ _ _ _ HA); auto.
    - intros j Hj. exfalso; lia.
    - unfold in_run. rewrite Hn. reflexivity. }
  assert (Hcnt : u32 (a1 + Z.b2z (m p <? 512)) = count (updb r (m p) true) 0 (Z.min 512 S)).
  { rewrite count_updb, (a_p1 _ _ _ _ _ _ _ HA). rewrite (a_re _ _ _ _ _ _ _ HA), re_none by auto.
    pose proof (count_range r 0 (Z.min 512 S) ltac:(lia)).
    destruct (Z.leb_spec 0 (m p)); [|exfalso; lia]. simpl.
    destruct (Z.ltb_spec (m p) 512), (Z.ltb_spec (m p) (Z.min 512 S)); try (exfalso; lia); simpl; rewrite u32_small; lia. }
  apply (finish _ _ _ _ _ _ HV4 Hins); auto.
  - intros i Hi. symmetry. apply Hre. auto.
  - intros i Hi. unfold updz, sl_of, shr. destruct (Z.eqb_spec i (m p)); auto.
    destruct (Z.ltb_spec (m p) i), (Z.leb_spec i (m p)); simpl; try (exfalso; lia); apply (a_sl _ _ _ _ _ _ _ HA); auto.
  - intros st' Hg. apply (HQ _ _ _ _ _ Hg Hins).
Qed.

(** *** the run exists already *)
Definition old_part (mapped grade runend_pos next_empty previous_empty r : Z) : res store :=
  if next_empty <? c_size c grade then
    let* a := shift_slots_right c s st r next_empty 1 in
    let* a := shift_runends_right c a runend_pos next_empty 1 in
    let* a := (if (runend_pos <? 512) && (512 <=? next_empty)
               then let* b := get_bit c a re_base 512 in add_popcnt c a 1 (- b)
               else Ok a) in
    set_slot c s a r x
  else
    let* a := shift_slots_left c s st (previous_empty + 1) r 1 in
    let* a := (if (previous_empty + 1 <=? 512) && (512 <? Z.min runend_pos r)
               then let* b := get_bit c a re_base 512 in add_popcnt c a 1 b
               else Ok a) in
    let* a := shift_runends_left c a (previous_empty + 1) (Z.min runend_pos r) 1 in
    set_slot c s a (r - 1) x.

Definition hasroom : Prop := exists i, 0 <= i < S /\ cl i = None.

Lemma a1_range : 0 <= a1 <= 512.
Proof. rewrite a1_eq. pose proof (count_range (re_of cl) 0 (Z.min 512 S) ltac:(lia)). lia. Qed.

Lemma insert_old grade (Q : store -> Prop) : c_size c grade = S -> o p = true -> hasroom ->
  0 <= u < 2 ^ 32 -> st_count u + 1 < 2 ^ 20 ->
  (forall st' r' v' a1' cl', good c s S m (u + 1) w (updb o p true) r' v' (count (updb o p true) 0 512) a1' cl' st' ->
     inserted cl' -> Q st') ->
  wp (let* st3 :=
       (let* runend_pos := select_runends c st (count o 0 p) in
        let* next_empty := find_empty_after c s st (m p) in
        let* previous_empty := find_empty_before c s st (m p) in
        let* pre := prev_runend c st runend_pos in
        let* '(l, r) := run_search c s st (u64 (x - 1)) (Z.max pre previous_empty) (runend_pos + 1) in
        old_part (m p) grade runend_pos next_empty previous_empty r) in
      let* st4 := set_bit c st3 occ_base p in Ok (update_elem_count st4 1)) Q.
Proof.
  intros Hgr Ho (j0 & Hj0 & Hj0n) Hu Hc HQ.
  pose proof (g_mr _ _ _ _ _ _ _ _ _ _ _ _ _ G p Hp) as Hm.
  pose proof (pow_s G) as Hps.
  destruct (run_extent s S m cl p HW (occ_in Ho)) as (a & e & Hae0 & _ & Hin & Hout). assert (Hae : a <= e) by lia.
  pose proof (occ_mapped_full G p Hp Ho) as Hmf.
  pose proof (Hin a ltac:(lia)) as Ea. apply in_run_iff in Ea as (xa & Ea).
  pose proof (Hin e ltac:(lia)) as Ee. apply in_run_iff in Ee as (xe & Ee).
  destruct (w_dom _ _ _ _ HW _ _ _ Ea) as (HaS & _). destruct (w_dom _ _ _ _ HW _ _ _ Ee) as (HeS & _).
  assert (Hfe : forall i, a <= i <= e -> full cl i).
  { intros i Hi. apply Hin in Hi. apply in_run_iff in Hi as (y & E). unfold full. congruence. }
  rewrite u64_small by lia.
  apply wp_bind. apply wp_bind. apply (select_wp G p a e); auto.
  apply wp_bind. apply (find_empty_after_wp G); auto. intros ne Hne Hnef Hnen.
  apply wp_bind. apply (find_empty_before_wp G); auto. intros pe Hpe Hpef Hpen.
  apply wp_bind. apply (prev_runend_wp _ _ _ _ _ _ _ _ _ _ _ _ _ HV); [lia|]. intros pre Hpre Hpre0 Hpre1.
  (* everything between the mapped place and the run is full *)
  assert (Hpea : pe < a).
  { destruct (Z.ltb_spec pe a); auto. exfalso.
    destruct (w_place _ _ _ _ HW _ _ _ Ea) as [[Hma _]|[Ham Hf]]; [lia|].
    apply (Hf pe); [lia|]. apply Hpen; lia. }
  assert (Hfpe : forall i, pe < i <= e -> full cl i).
  { intros i Hi. destruct (Z.leb_spec i (m p)); [apply Hpef; lia|]. destruct (Z.leb_spec a i); [apply Hfe; lia|].
    destruct (w_place _ _ _ _ HW _ _ _ Ea) as [[Hma Hf]|[Ham Hf]]; apply Hf; lia. }
  assert (Hprea : pre < a).
  { destruct (Z.ltb_spec pre a); auto. exfalso. destruct (extent_re cl p a e Hin Hout Hae) as [_ Hra].
    specialize (Hpre1 ltac:(lia)). rewrite (a_re _ _ _ _ _ _ _ HA) in Hpre1 by lia. rewrite Hra in Hpre1 by lia. discriminate. }
  assert (Hmax : Z.max pre pe = a - 1).
  { destruct (Z.eq_dec (Z.max pre pe) (a - 1)); auto. exfalso.
    assert (Hf1 : full cl (a - 1)) by (apply Hfpe; lia).
    assert (Hr1 : re_of cl (a - 1) = false). { rewrite <- (a_re _ _ _ _ _ _ _ HA) by lia. apply Hpre0. lia. }
    destruct (full_some _ _ Hf1) as (q & y & Eq). destruct (re_next _ _ _ _ Eq Hr1) as (z & Ez).
    replace (a - 1 + 1) with a in Ez by lia. rewrite Ea in Ez. inversion Ez; subst q.
    assert (HX : in_run cl p (a - 1) = true) by (apply in_run_iff; eauto). apply Hout in HX. lia. }
  rewrite Hmax. apply wp_bind. apply (run_search_wp G p a e); auto. intros k Hk Hlo Hhi.
  destruct (ord_old a e k Hae Hin Hout Hk Hlo Hhi) as [Hbef Hafts].
  assert (Haft : forall i d, k <= i -> cl i = Some d -> after p x d) by (intros i d Hi E; apply safter_after; eauto).
  pose proof a1_range as Ha1r.
  assert (Hre : forall i, 0 <= i < S -> r i = re_of cl i) by exact (a_re _ _ _ _ _ _ _ HA).
  pose proof HV as HV0. rewrite <- (p0_after 0) in HQ by (rewrite Ho; reflexivity).
  unfold old_part. rewrite Hgr. destruct (Z.ltb_spec ne S) as [HneS|HneS].
  - (* shift right *)
    assert (Hen : e < ne).
    { destruct (Z.ltb_spec e ne); auto. exfalso. apply (Hfpe ne); [lia|]. apply Hnen; auto. }
    assert (Hkne : forall i, k <= i < ne -> full cl i).
    { intros i Hi. destruct (Z.leb_spec (m p) i); [apply Hnef; lia|]. apply Hpef. lia. }
    assert (Hmk : m p <= k).
    { destruct (Z.leb_spec (m p) a); [lia|]. exfalso. destruct (w_place _ _ _ _ HW _ _ _ Ea) as [[Hma Hf]|[Ham Hf]]; [lia|].
      apply (Hf ne); [lia|]. apply Hnen; auto. }
    assert (Hins : inserted (shr cl k ne (Some (p, x)))).
    { split; [|split].
      - apply wf_shr; auto; [lia|]. intros i Hi. apply Hnef; lia.
      - intros q. apply occ_shr; auto. lia.
      - exists k. split; [lia|]. split; [apply content_shr; auto; lia|exact Hafts]. }
    apply wp_bind. apply (shift_slots_right_wp _ _ _ _ _ _ _ _ _ _ _ _ _ _ HV0); [lia|lia|]. intros b1 HV1.
    apply wp_bind. apply (shift_runends_right_wp _ _ _ _ _ _ _ _ _ _ _ _ _ _ HV1); [lia|lia|]. intros b2 HV2.
    apply wp_bind.
    assert (Hrew : forall i, 0 <= i < S -> shr r e ne false i = re_of (shr cl k ne (Some (p, x))) i).
    { intros i Hi. rewrite (re_shr_old s S m cl k ne p x a e HW); auto; try lia.
      unfold shr. destruct (i =? e); auto. destruct (Z.ltb_spec e i), (Z.leb_spec i ne); simpl; apply Hre; lia. }
    assert (Hcnt : count (shr r e ne false) 0 (Z.min 512 S) =
                   a1 - (if (e <? 512) && (512 <=? ne) then Z.b2z (re_of cl 511) else 0)).
    { rewrite <- cnt_shr; auto; [|lia]. apply count_ext. intros i Hi. unfold shr. destruct (i =? e); auto.
      destruct (Z.ltb_spec e i), (Z.leb_spec i ne); simpl; apply Hre; lia. }
    pose proof (count_range (shr r e ne false) 0 (Z.min 512 S) ltac:(lia)) as Hcr.
    assert (Hend : forall st2, V c s S u w o (shr r e ne false) (shr v k ne 0) a0 (count (shr r e ne false) 0 (Z.min 512 S)) st2 ->
       wp (set_slot c s st2 k x) (fun st3 => wp (let* st4 := set_bit c st3 occ_base p in Ok (update_elem_count st4 1)) Q)).
    { intros st2 HV3. apply (set_slot_wp _ _ _ _ _ _ _ _ _ _ _ _ _ _ HV3); [lia|lia|]. intros b4 HV4.
      assert (Ea0 : a0 = count (updb o p true) 0 512).
      { rewrite <- (p0_after 0) by (rewrite Ho; reflexivity). rewrite (a_p0 _ _ _ _ _ _ _ HA).
        pose proof (count_range o 0 512 ltac:(lia)). rewrite u32_small; lia. }
      rewrite Ea0 in HV4.
      apply (finish _ _ _ _ _ _ HV4 Hins); auto.
      - intros i Hi. apply sl_shr with (S := S); auto; [exact (a_sl _ _ _ _ _ _ _ HA)|lia].
      - intros st' Hg. rewrite <- (p0_after 0) in Hg by (rewrite Ho; reflexivity). apply (HQ _ _ _ _ _ Hg Hins). }
    destruct ((e <? 512) && (512 <=? ne)) eqn:Eb.
    + apply wp_bind. apply (get_re_wp _ _ _ _ _ _ _ _ _ _ _ _ _ HV2); [lia|].
      apply (add_popcnt1_wp _ _ _ _ _ _ _ _ _ _ _ _ _ HV2). intros b3 HV3. apply Hend.
      replace (u32 (a1 + - Z.b2z (shr r e ne false 512))) with (count (shr r e ne false) 0 (Z.min 512 S)) in HV3; auto.
      rewrite Hcnt in *. unfold shr at 1.
      destruct (Z.eqb_spec 512 e); [exfalso; lia|]. destruct (Z.ltb_spec e 512), (Z.leb_spec 512 ne); try (exfalso; lia). simpl andb. cbv iota.
      change (512 - 1) with 511. rewrite Hre by lia. rewrite u32_small; lia.
    + simpl. apply Hend. rewrite Hcnt. replace (a1 - 0) with a1 by lia. exact HV2.
  - (* shift left *)
    assert (Hall : forall i, pe < i < S -> full cl i).
    { intros i Hi. destruct (Z.leb_spec i e); [apply Hfpe; lia|].
      destruct (Z.leb_spec (m p) i); [apply Hnef; lia|]. apply Hpef; lia. }
    assert (Hpe0 : 0 <= pe).
    { destruct (Z.leb_spec 0 pe); auto. exfalso. apply (Hall j0); [lia|]. auto. }
    assert (Hins : inserted (shl cl (pe + 1) k (Some (p, x)))).
    { split; [|split].
      - apply wf_shl; auto; try lia; [replace (pe + 1 - 1) with pe by lia; apply Hpen; lia|intros i Hi; apply Hall; lia].
      - intros q. apply occ_shl; [lia|]. replace (pe + 1 - 1) with pe by lia. auto.
      - exists k. split; [lia|]. split; [|exact Hafts]. apply content_shl; [lia|lia|]. replace (pe + 1 - 1) with pe by lia. auto. }
    assert (Hn1 : cl (pe + 1 - 1) = None) by (replace (pe + 1 - 1) with pe by lia; auto).
    set (t := Z.min e k) in *.
    assert (Hrew : forall i, 0 <= i < S -> shl r (pe + 1) t false i = re_of (shl cl (pe + 1) k (Some (p, x))) i).
    { intros i Hi. rewrite (re_shl_old s S m cl (pe + 1) k p x a e HW); auto; try lia.
      - fold t. unfold shl. destruct (i =? t - 1); auto. destruct (Z.leb_spec (pe + 1 - 1) i), (Z.ltb_spec i (t - 1)); simpl; apply Hre; lia.
      - intros i' Hi'. apply Hall. lia. }
    assert (Hcnt : count (shl r (pe + 1) t false) 0 (Z.min 512 S) =
                   a1 + (if (pe + 1 <=? 512) && (512 <? t) then Z.b2z (re_of cl 512) else 0)).
    { rewrite <- cnt_shl; auto; [|lia|lia]. apply count_ext. intros i Hi. unfold shl. destruct (i =? t - 1); auto.
      destruct (Z.leb_spec (pe + 1 - 1) i), (Z.ltb_spec i (t - 1)); simpl; apply Hre; lia. }
    pose proof (count_range (shl r (pe + 1) t false) 0 (Z.min 512 S) ltac:(lia)) as Hcr.
    apply wp_bind. apply (shift_slots_left_wp _ _ _ _ _ _ _ _ _ _ _ _ _ _ HV0); [lia|lia|]. intros b1 HV1.
    apply wp_bind.
    assert (Hend : forall st2, V c s S u w o r (shl v (pe + 1) k 0) a0 (count (shl r (pe + 1) t false) 0 (Z.min 512 S)) st2 ->
       wp (let* a := shift_runends_left c st2 (pe + 1) t 1 in set_slot c s a (k - 1) x)
          (fun st3 => wp (let* st4 := set_bit c st3 occ_base p in Ok (update_elem_count st4 1)) Q)).
    { intros st2 HV2. apply wp_bind.
      apply (shift_runends_left_wp _ _ _ _ _ _ _ _ _ _ _ _ _ _ HV2); [lia|lia|]. intros b3 HV3.
      apply (set_slot_wp _ _ _ _ _ _ _ _ _ _ _ _ _ _ HV3); [lia|lia|]. intros b4 HV4.
      assert (Ea0 : a0 = count (updb o p true) 0 512).
      { rewrite <- (p0_after 0) by (rewrite Ho; reflexivity). rewrite (a_p0 _ _ _ _ _ _ _ HA).
        pose proof (count_range o 0 512 ltac:(lia)). rewrite u32_small; lia. }
      rewrite Ea0 in HV4.
      apply (finish _ _ _ _ _ _ HV4 Hins); auto.
      - intros i Hi. apply sl_shl with (S := S); auto; [exact (a_sl _ _ _ _ _ _ _ HA)|lia|lia].
      - intros st' Hg. rewrite <- (p0_after 0) in Hg by (rewrite Ho; reflexivity). apply (HQ _ _ _ _ _ Hg Hins). }
    destruct ((pe + 1 <=? 512) && (512 <? t)) eqn:Eb.
    + apply wp_bind. apply (get_re_wp _ _ _ _ _ _ _ _ _ _ _ _ _ HV1); [lia|].
      apply (add_popcnt1_wp _ _ _ _ _ _ _ _ _ _ _ _ _ HV1). intros b3 HV3. apply Hend.
      rewrite Hcnt in *. rewrite Hre in HV3 by lia. rewrite u32_small in HV3 by lia. exact HV3.
    + simpl. apply Hend. rewrite Hcnt. replace (a1 + 0) with a1 by lia. exact HV1.
Qed.

(** *** a new run whose mapped place is taken *)
Definition new_part (mapped grade runend_pos next_empty : Z) : res store :=
  if next_empty <? c_size c grade then
    let shift_start := Z.max (runend_pos + 1) mapped in
    let* a := shift_slots_right c s st shift_start next_empty 1 in
    let* a := shift_runends_right c a shift_start next_empty 1 in
    let* a := (if (shift_start <? 512) && (512 <=? next_empty)
               then let* b := get_bit c a re_base 512 in add_popcnt c a 1 (- b)
               else Ok a) in
    let* a := set_slot c s a shift_start x in
    let* a := set_bit c a re_base shift_start in
    add_popcnt c a 1 (Z.b2z (shift_start <? 512))
  else
    let* previous_empty := find_empty_before c s st mapped in
    let target_pos := Z.max runend_pos previous_empty in
    let* a := shift_slots_left c s st (previous_empty + 1) (target_pos + 1) 1 in
    let* a := (if (previous_empty + 1 <=? 512) && (512 <? target_pos + 1)
               then let* b := get_bit c a re_base 512 in add_popcnt c a 1 b
               else Ok a) in
    let* a := shift_runends_left c a (previous_empty + 1) (target_pos + 1) 1 in
    let* a := set_slot c s a target_pos x in
    let* a := set_bit c a re_base target_pos in
    add_popcnt c a 1 (Z.b2z (target_pos <? 512)).

Lemma insert_new grade (Q : store -> Prop) : c_size c grade = S -> o p = false -> full cl (m p) -> hasroom ->
  0 <= u < 2 ^ 32 -> st_count u + 1 < 2 ^ 20 ->
  (forall st' r' v' a1' cl', good c s S m (u + 1) w (updb o p true) r' v' (count (updb o p true) 0 512) a1' cl' st' ->
     inserted cl' -> Q st') ->
  wp (let* st3 :=
       (let* runend_pos := (if count o 0 p =? 0 then Ok (-1) else select_runends c st (count o 0 p - 1)) in
        let* next_empty := find_empty_after c s st (m p) in
        let* a := new_part (m p) grade runend_pos next_empty in
        add_popcnt c a 0 (Z.b2z (p <? 512))) in
      let* st4 := set_bit c st3 occ_base p in Ok (update_elem_count st4 1)) Q.
Proof.
  intros Hgr Ho Hmf (j0 & Hj0 & Hj0n) Hu Hc HQ.
  pose proof (g_mr _ _ _ _ _ _ _ _ _ _ _ _ _ G p Hp) as Hm.
  pose proof (g_mm _ _ _ _ _ _ _ _ _ _ _ _ _ G) as Hmm.
  pose proof (pow_s G) as Hps. pose proof (occ_out Ho) as Hnp.
  pose proof a1_range as Ha1r.
  assert (Hre : forall i, 0 <= i < S -> r i = re_of cl i) by exact (a_re _ _ _ _ _ _ _ HA).
  assert (Hqp : forall i q y, cl i = Some (q, y) -> q <> p).
  { intros i q y E ->. specialize (Hnp i). unfold in_run in Hnp. rewrite E in Hnp. lia. }
  apply wp_bind. apply wp_bind. apply (prev_end_wp G); auto. intros rp Hrp Hbef0 Haft0 Hrpf.
  apply wp_bind. apply (find_empty_after_wp G); auto. intros ne Hne Hnef Hnen.
  assert (Hafts : forall i d, rp < i -> cl i = Some d -> safter d).
  { intros i [q y] Hi E. left; simpl. pose proof (Haft0 _ _ _ Hi E). pose proof (Hqp _ _ _ E). lia. }
  assert (Haft : forall i d, rp < i -> cl i = Some d -> after p x d) by (intros i d Hi E; apply safter_after; eauto).
  assert (Hbef : forall i d, i <= rp -> cl i = Some d -> before p x d).
  { intros i [q y] Hi E. left; simpl. apply (Hbef0 _ _ _ Hi E). }
  (* the last steps, common to both directions *)
  assert (Hend : forall cl' r' v' a1' st2, V c s S u w o r' v' a0 a1' st2 -> inserted cl' ->
     (forall i, 0 <= i < S -> r' i = re_of cl' i) -> (forall i, 0 <= i < S -> v' i = sl_of cl' i) ->
     a1' = count r' 0 (Z.min 512 S) ->
     wp (add_popcnt c st2 0 (Z.b2z (p <? 512)))
        (fun st3 => wp (let* st4 := set_bit c st3 occ_base p in Ok (update_elem_count st4 1)) Q)).
  { intros cl' r' v' a1' st2 HV2 Hins Hr Hv Ha. 
    apply (add_popcnt0_wp _ _ _ _ _ _ _ _ _ _ _ _ _ HV2). intros b HVb.
    rewrite p0_after in HVb by (rewrite Ho; reflexivity).
    apply (finish _ _ _ _ _ _ HVb Hins); auto. intros st' Hg. apply (HQ _ _ _ _ _ Hg Hins). }
  unfold new_part. rewrite Hgr. pose proof HV as HV0. apply wp_bind. destruct (Z.ltb_spec ne S) as [HneS|HneS].
  - assert (Hrn : rp < ne).
    { destruct (Z.ltb_spec rp ne); auto. exfalso. destruct (full_some _ _ (Hrpf ltac:(lia))) as (q & y & E).
      specialize (Hbef0 rp q y ltac:(lia) E). pose proof (w_dom _ _ _ _ HW _ _ _ E) as (_ & Hq & _).
      specialize (Hmm q p ltac:(lia) ltac:(lia)).
      destruct (w_place _ _ _ _ HW _ _ _ E) as [[? Hf]|[? Hf]]; [|lia]. apply (Hf ne); [lia|auto]. }
    remember (Z.max (rp + 1) (m p)) as ss eqn:Ess. cbv zeta.
    assert (Hb : forall i d, i < ss -> cl i = Some d -> before p x d).
    { intros i [q y] Hi E. destruct (Z.leb_spec i rp); [apply (Hbef i); auto|]. exfalso.
      pose proof (Haft0 i q y ltac:(lia) E). pose proof (w_dom _ _ _ _ HW _ _ _ E) as (_ & Hq & _).
      specialize (Hmm p q ltac:(lia) ltac:(lia)).
      destruct (w_place _ _ _ _ HW _ _ _ E) as [[? Hf]|[? Hf]]; [lia|]. apply (Hf ne); [lia|auto]. }
    assert (Hfs : forall i, ss <= i < ne -> full cl i) by (intros; apply Hnef; lia).
    assert (Hn : cl ne = None) by auto.
    assert (Hins : inserted (shr cl ss ne (Some (p, x)))).
    { split; [|split].
      - apply wf_shr; [exact HW|lia|lia|exact Hn|exact Hp|exact Hx|exact Hfs|exact Hb| |lia|intros i Hi; apply Hnef; lia].
        intros i d Hi E. apply (Haft i); [lia|exact E].
      - intros q. apply occ_shr; auto. lia.
      - exists ss. split; [lia|]. split; [apply content_shr; auto; lia|]. intros i d Hi E. apply (Hafts i); [lia|exact E]. }
    apply wp_bind. apply (shift_slots_right_wp _ _ _ _ _ _ _ _ _ _ _ _ _ _ HV0); [lia|lia|]. intros b1 HV1.
    apply wp_bind. apply (shift_runends_right_wp _ _ _ _ _ _ _ _ _ _ _ _ _ _ HV1); [lia|lia|]. intros b2 HV2.
    assert (Hrew : forall i, 0 <= i < S -> updb (shr r ss ne false) ss true i = re_of (shr cl ss ne (Some (p, x))) i).
    { intros i Hi. rewrite (re_shr_new s S m cl ss ne p x HW ltac:(lia) HneS Hn Hnp Hfs); [| |lia].
      - unfold updb, shr. destruct (i =? ss); auto. destruct (Z.ltb_spec ss i), (Z.leb_spec i ne); simpl; apply Hre; lia.
      - intros j q y Hj E. destruct (in_run cl q ss) eqn:Eq; auto. exfalso. apply in_run_iff in Eq as (z & Ez).
        pose proof (Hb _ _ Hj E) as B. pose proof (Haft ss _ ltac:(lia) Ez) as A. pose proof (Hqp _ _ _ E).
        unfold before, after in *; simpl in *. lia. }
    assert (Hcnt : count (shr r ss ne false) 0 (Z.min 512 S) =
                   a1 - (if (ss <? 512) && (512 <=? ne) then Z.b2z (re_of cl 511) else 0)).
    { rewrite <- cnt_shr; auto; [|lia]. apply count_ext. intros i Hi. unfold shr. destruct (i =? ss); auto.
      destruct (Z.ltb_spec ss i), (Z.leb_spec i ne); simpl; apply Hre; lia. }
    pose proof (count_range (shr r ss ne false) 0 (Z.min 512 S) ltac:(lia)) as Hcr.
    apply wp_bind.
    assert (Hend1 : forall st2, V c s S u w o (shr r ss ne false) (shr v ss ne 0) a0 (count (shr r ss ne false) 0 (Z.min 512 S)) st2 ->
       wp (let* a := set_slot c s st2 ss x in let* a := set_bit c a re_base ss in add_popcnt c a 1 (Z.b2z (ss <? 512)))
          (fun st2 => wp (add_popcnt c st2 0 (Z.b2z (p <? 512)))
             (fun st3 => wp (let* st4 := set_bit c st3 occ_base p in Ok (update_elem_count st4 1)) Q))).
    { intros st2 HV3. apply wp_bind. apply (set_slot_wp _ _ _ _ _ _ _ _ _ _ _ _ _ _ HV3); [lia|lia|]. intros b4 HV4.
      apply wp_bind. apply (set_re_wp _ _ _ _ _ _ _ _ _ _ _ _ _ HV4); [lia|]. intros b5 HV5.
      apply (add_popcnt1_wp _ _ _ _ _ _ _ _ _ _ _ _ _ HV5). intros b6 HV6.
      apply (Hend _ _ _ _ _ HV6 Hins Hrew).
      - intros i Hi. apply sl_shr with (S := S); auto; [exact (a_sl _ _ _ _ _ _ _ HA)|lia].
      - rewrite count_updb. unfold shr at 3. rewrite Z.eqb_refl.
        destruct (Z.leb_spec 0 ss); [|exfalso; lia]. simpl andb.
        destruct (Z.ltb_spec ss 512), (Z.ltb_spec ss (Z.min 512 S)); try (exfalso; lia); simpl Z.b2z; rewrite u32_small; lia. }
    destruct ((ss <? 512) && (512 <=? ne)) eqn:Eb.
    + apply wp_bind. apply (get_re_wp _ _ _ _ _ _ _ _ _ _ _ _ _ HV2); [lia|].
      apply (add_popcnt1_wp _ _ _ _ _ _ _ _ _ _ _ _ _ HV2). intros b3 HV3. apply Hend1.
      replace (u32 (a1 + - Z.b2z (shr r ss ne false 512))) with (count (shr r ss ne false) 0 (Z.min 512 S)) in HV3; auto.
      rewrite Hcnt in *. unfold shr at 1.
      destruct (Z.eqb_spec 512 ss); [exfalso; lia|]. destruct (Z.ltb_spec ss 512), (Z.leb_spec 512 ne); try (exfalso; lia). simpl andb. cbv iota.
      change (512 - 1) with 511. rewrite Hre by lia. rewrite u32_small; lia.
    + simpl. apply Hend1. rewrite Hcnt. replace (a1 - 0) with a1 by lia. exact HV2.
  - apply wp_bind. apply (find_empty_before_wp G); auto. intros pe Hpe Hpef Hpen.
    assert (Hall : forall i, pe < i < S -> full cl i).
    { intros i Hi. destruct (Z.leb_spec (m p) i); [apply Hnef; lia|]. apply Hpef; lia. }
    assert (Hpe0 : 0 <= pe).
    { destruct (Z.leb_spec 0 pe); auto. exfalso. apply (Hall j0); [lia|]. auto. }
    remember (Z.max rp pe) as t eqn:Et. cbv zeta.
    assert (Hn1 : cl (pe + 1 - 1) = None) by (replace (pe + 1 - 1) with pe by lia; auto).
    assert (Hb : forall i d, i < t + 1 -> cl i = Some d -> before p x d).
    { intros i [q y] Hi E. destruct (Z.leb_spec i rp); [apply (Hbef i); auto|]. exfalso.
      pose proof (Haft0 i q y ltac:(lia) E). pose proof (w_dom _ _ _ _ HW _ _ _ E) as (_ & Hq & _).
      specialize (Hmm p q ltac:(lia) ltac:(lia)).
      destruct (w_place _ _ _ _ HW _ _ _ E) as [[? Hf]|[? Hf]]; [lia|]. apply (Hf pe); [lia|auto]. }
    assert (Hins : inserted (shl cl (pe + 1) (t + 1) (Some (p, x)))).
    { split; [|split].
      - apply wf_shl; [exact HW|lia|lia|exact Hn1|exact Hp|exact Hx|intros i Hi; apply Hall; lia|exact Hb| |lia].
        intros i d Hi E. apply (Haft i); [lia|exact E].
      - intros q. apply occ_shl; [lia|]. auto.
      - exists (t + 1). split; [lia|]. split; [apply content_shl; [lia|lia|auto]|]. intros i d Hi E. apply (Hafts i); [lia|exact E]. }
    assert (Hrew : forall i, 0 <= i < S -> updb (shl r (pe + 1) (t + 1) false) t true i = re_of (shl cl (pe + 1) (t + 1) (Some (p, x))) i).
    { intros i Hi. rewrite (re_shl_new s S m cl (pe + 1) (t + 1) p x HW ltac:(lia) ltac:(lia) Hn1 Hnp); [| | |lia].
      - replace (t + 1 - 1) with t by lia. unfold updb, shl. replace (t + 1 - 1) with t by lia.
        destruct (i =? t); auto. destruct (Z.leb_spec (pe + 1 - 1) i), (Z.ltb_spec i t); simpl; apply Hre; lia.
      - intros j Hj. apply Hall. lia.
      - intros j q y Hj E. destruct (in_run cl q (t + 1)) eqn:Eq; auto. exfalso. apply in_run_iff in Eq as (z & Ez).
        pose proof (Hb _ _ Hj E) as B. pose proof (Haft (t + 1) _ ltac:(lia) Ez) as A. pose proof (Hqp _ _ _ E).
        unfold before, after in *; simpl in *. lia. }
    assert (Hcnt : count (shl r (pe + 1) (t + 1) false) 0 (Z.min 512 S) =
                   a1 + (if (pe + 1 <=? 512) && (512 <? t + 1) then Z.b2z (re_of cl 512) else 0)).
    { rewrite <- cnt_shl; auto; [|lia|lia]. apply count_ext. intros i Hi. unfold shl. destruct (i =? t + 1 - 1); auto.
      destruct (Z.leb_spec (pe + 1 - 1) i), (Z.ltb_spec i (t + 1 - 1)); simpl; apply Hre; lia. }
    pose proof (count_range (shl r (pe + 1) (t + 1) false) 0 (Z.min 512 S) ltac:(lia)) as Hcr.
    apply wp_bind. apply (shift_slots_left_wp _ _ _ _ _ _ _ _ _ _ _ _ _ _ HV0); [lia|lia|]. intros b1 HV1.
    apply wp_bind.
    assert (Hend1 : forall st2, V c s S u w o r (shl v (pe + 1) (t + 1) 0) a0 (count (shl r (pe + 1) (t + 1) false) 0 (Z.min 512 S)) st2 ->
       wp (let* a := shift_runends_left c st2 (pe + 1) (t + 1) 1 in
           let* a := set_slot c s a t x in let* a := set_bit c a re_base t in add_popcnt c a 1 (Z.b2z (t <? 512)))
          (fun st2 => wp (add_popcnt c st2 0 (Z.b2z (p <? 512)))
             (fun st3 => wp (let* st4 := set_bit c st3 occ_base p in Ok (update_elem_count st4 1)) Q))).
    { intros st2 HV2. apply wp_bind.
      apply (shift_runends_left_wp _ _ _ _ _ _ _ _ _ _ _ _ _ _ HV2); [lia|lia|]. intros b3 HV3.
      apply wp_bind. apply (set_slot_wp _ _ _ _ _ _ _ _ _ _ _ _ _ _ HV3); [lia|lia|]. intros b4 HV4.
      apply wp_bind. apply (set_re_wp _ _ _ _ _ _ _ _ _ _ _ _ _ HV4); [lia|]. intros b5 HV5.
      apply (add_popcnt1_wp _ _ _ _ _ _ _ _ _ _ _ _ _ HV5). intros b6 HV6.
      apply (Hend _ _ _ _ _ HV6 Hins Hrew).
      - intros i Hi. rewrite <- (sl_shl S m cl v (pe + 1) (t + 1) p x) by (auto; try exact (a_sl _ _ _ _ _ _ _ HA); lia).
        replace (t + 1 - 1) with t by lia. reflexivity.
      - rewrite count_updb. unfold shl at 3. replace (t + 1 - 1) with t by lia. rewrite Z.eqb_refl.
        destruct (Z.leb_spec 0 t); [|exfalso; lia]. simpl andb.
        destruct (Z.ltb_spec t 512), (Z.ltb_spec t (Z.min 512 S)); try (exfalso; lia); simpl Z.b2z; rewrite u32_small; lia. }
    destruct ((pe + 1 <=? 512) && (512 <? t + 1)) eqn:Eb.
    + apply wp_bind. apply (get_re_wp _ _ _ _ _ _ _ _ _ _ _ _ _ HV1); [lia|].
      apply (add_popcnt1_wp _ _ _ _ _ _ _ _ _ _ _ _ _ HV1). intros b3 HV3. apply Hend1.
      rewrite Hcnt in *. rewrite Hre in HV3 by lia. rewrite u32_small in HV3 by lia. exact HV3.
    + simpl. apply Hend1. rewrite Hcnt. replace (a1 + 0) with a1 by lia. exact HV1.
Qed.

Lemma insert_tail_wp key ti scalar grade (Q : store -> Prop) : c_size c grade = S -> hasroom ->
  Z.shiftr key s = p -> Z.land key (bitmask s) = x -> implicit_scalar c ti = Ok scalar ->
  mapped_pos c p grade scalar = m p ->
  0 <= u < 2 ^ 32 -> st_count u + 1 < 2 ^ 20 ->
  (forall st' r' v' a1' cl', good c s S m (u + 1) w (updb o p true) r' v' (count (updb o p true) 0 512) a1' cl' st' ->
     inserted cl' -> Q st') ->
  wp (insert_tail c s st grade key ti) Q.
Proof.
  intros Hgr Hroom Ep Ex Esc Em Hu Hc HQ. unfold insert_tail. rewrite Ep, Ex, Esc. cbv zeta. simpl (bind (Ok scalar) _).
  change (target_size / 2) with 512. rewrite Em.
  pose proof (g_mr _ _ _ _ _ _ _ _ _ _ _ _ _ G p Hp) as Hm.
  apply wp_bind. apply (rank_wp G); auto.
  apply wp_bind. apply (get_occ_wp _ _ _ _ _ _ _ _ _ _ _ _ _ HV Hp).
  apply wp_bind. apply (get_slot_wp _ _ _ _ _ _ _ _ _ _ _ _ _ HV); [lia|]. intros v0 _ Hv0.
  specialize (Hv0 ltac:(lia)).
  assert (Hz : v0 =? 0 = true <-> cl (m p) = None).
  { rewrite <- (sl_zero G) by lia. subst v0. apply Z.eqb_eq. }
  destruct (o p) eqn:Ho; simpl (Z.b2z _); simpl (_ =? 0); simpl andb; cbv iota.
  - apply (insert_old grade); auto.
  - destruct (v0 =? 0).
    + apply insert_here; auto. apply Hz. reflexivity.
    + apply (insert_new grade); auto. destruct (full_dec cl (m p)) as [|E]; auto.
      apply Hz in E. discriminate.
Qed.
End Insert.
