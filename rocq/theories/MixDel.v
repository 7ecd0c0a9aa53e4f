(** Deletions in filters with split blocks: a deletion that leaves the boundaries alone
    loses no other key. *)
From Coq Require Import ZArith List Bool Lia Sorting.Sorted Permutation.
From Coq Require Import ZifyBool ZifyNat.
From Verif Require Import Base Util Store Bits View Cells Lowbit Key KeyBits KeyOrder RangeInt Diva Tree StoreRep StoreDelete StoreMatch Spec SpecFilter Filter Hist Contents
  Match Held SplitList SplitKeys Split SplitHist.
Import ListNotations.
Open Scope Z_scope.

Section G.
Variable c : cfg.
Variable s : Z.
Hypothesis Hs : 1 <= s <= 46.
Hypothesis T : tables_ok c.
Hypothesis Hf : fits c s.
Notation inf := (inf c s).
Notation gapx := (gapx c s).
Notation stem := (stem c s).
Notation at_inf := (at_inf c s).
Notation mat := (mat c s).
Notation heldt := (heldt c s).

(** a merge takes a boundary away *)
Lemma merge_moves d A mk str B d' : sorted (A ++ (mk, str) :: B) -> d_tree d = A ++ (mk, str) :: B -> delete_merge c d (rev A, (mk, str) :: B) = Ok d' ->
  map fst (d_tree d') <> map fst (d_tree d).
Proof.
  intros Hso Et H. unfold delete_merge in H. cbn [peek snd bind skip1] in H. destruct B as [|[rk sr] B]; [discriminate|]. cbn [bind] in H.
  destruct A as [|[lk stl] A _] using rev_ind; [discriminate|]. rewrite rev_unit in H. cbn [skip1_rev peek snd bind] in H.
  apply bind_ok in H as ([[a1 a2] a3] & _ & H). apply bind_ok in H as (ll & _ & H). apply bind_ok in H as (lr & _ & H). destruct (negb _); [discriminate|].
  do 7 (apply bind_ok in H as (? & _ & H)). injection H as <-. unfold with_tree. cbn [d_tree].
  pose proof (sorted_app_below _ _ _ Hso) as Hb. rewrite Et, del_hit by exact Hb. rewrite <- app_assoc in Hso |- *. cbn [app] in Hso |- *.
  rewrite put_hit by (apply (sorted_app_below _ _ _ Hso)). intros E. apply (f_equal (@length key)) in E. rewrite !map_length, !app_length in E. cbn [length] in E. lia.
Qed.

Lemma elem_small x : elem s x -> small x.
Proof.
  intros [V1 V2]. split; [exact V1|]. assert (1024 * 2 ^ s <= 2 ^ 64) by (change 1024 with (2 ^ 10); rewrite <- Z.pow_add_r by lia; apply pow2_le_mono; lia). lia.
Qed.

(** one block *)
Lemma block_del len pk st nk k ks L L' st2 :
  gapx len pk st nk -> rep c s (tot c pk nk) true st L -> rep c s (tot c pk nk) true st2 L' -> flags st2 = flags st ->
  kok k -> (forall k', In k' ks -> kok k' /\ len <= klen k') -> len <= klen k -> key_lt k pk = false -> key_lt k nk = true ->
  (is_partial_key st = true -> forall A y B, L = A ++ y :: B -> hit (Z.lor (inf pk nk k) 1) (Z.lor (inf pk nk k) 1) y -> Forall (fun z => ~ hit (Z.lor (inf pk nk k) 1) (Z.lor (inf pk nk k) 1) z) B -> 8 * klen pk - get_invalid_bits st <= qof c pk nk + s - lowbit_pos y - 1) ->
  (pk = k -> is_partial_key st = true) ->
  dels (Z.lor (inf pk nk k) 1) L L' -> mat (k :: ks) pk st nk -> gapx len pk st2 nk /\ mat ks pk st2 nk.
Proof.
  intros ((K1 & K2 & K3 & K4 & _) & Hord & Hl) R1 R2 Hfl Kk Hks Hkl H1 H2 Hlong Hpk (A & y & B & EL & EL' & Hhit & HB) HM.
  pose proof (rep_list _ _ _ _ _ _ R1) as G1. pose proof (rep_list _ _ _ _ _ _ R2) as G2. destruct (Hord L G1) as [O1 O2].
  destruct (flags_part _ _ Hfl) as [F1 F2].
  split.
  { split; [|split; [|exact Hl]].
    - split; [exact K1|]. split; [exact K2|]. split; [exact K3|]. split; [apply (flags_part_ok st); auto|]. exists L'. exact R2.
    - intros L1 E1. rewrite G2 in E1. injection E1 as <-. rewrite EL in O1, O2. rewrite EL'. destruct (ss_app _ _ _ O1) as (S1 & S2 & S3). inversion S2 as [|? ? S4 S5]; subst. split.
      + apply ss_app_intro; [exact S1|exact S4|]. intros a b Ha Hb. apply S3; [exact Ha|right; exact Hb].
      + apply Forall_app in O2 as [Q1 Q2]. inversion Q2; subst. apply Forall_app. auto. }
  destruct (seg_ex c pk nk K1 K2 K3) as (sh & ig & z & HS). destruct (seg_tot _ _ _ _ _ _ HS) as [_ Hq].
  pose proof (nlt_ple _ _ K1 Kk H1) as P1. pose proof (key_lt_ple _ _ Kk K2 H2) as P2. destruct (inf_range c s Hs _ _ _ _ _ k HS P1 P2) as (I1 & I2 & I3).
  pose proof (infs_elem s Hs L (rep_infs _ _ _ _ _ _ R1)) as HE. rewrite Forall_forall in HE.
  assert (Hy : In y L) by (rewrite EL; apply in_or_app; right; left; reflexivity). destruct (HE y Hy) as [Ey Ey2].
  assert (Hodd : forall x, In x L -> (hit (Z.lor (inf pk nk k) 1) (Z.lor (inf pk nk k) 1) x <-> hit (inf pk nk k) (inf pk nk k) x)).
  { intros x Hx. destruct (HE x Hx) as [Ex _]. apply hit_odd; [lia|lia|apply elem_small; exact Ex]. }
  assert (Hhit2 : at_inf pk nk k y) by (apply (Hodd y Hy); exact Hhit).
  assert (En : forall k', need pk st2 nk k' = need pk st nk k') by (intros k'; unfold need, partb; rewrite F1, F2; reflexivity).
  intros L1 E1. rewrite G2 in E1. injection E1 as <-. rewrite (filter_ext _ _ En). specialize (HM L G1). cbn [filter] in HM.
  assert (HP : Permutation L (y :: L')) by (rewrite EL, EL'; symmetry; apply Permutation_middle).
  destruct (need pk st nk k) eqn:Enk.
  - apply (matched_swap _ k _ L y L' HP Hhit2); [|exact HM]. intros x k' Hx Hk' Hhx Hhy.
    assert (Hxy : x = y \/ lex x y).
    { rewrite EL in Hx. apply in_app_or in Hx as [Hx|[->|Hx]]; [right|left; reflexivity|exfalso].
      - rewrite EL in O1. destruct (ss_app _ _ _ O1) as (_ & _ & S3). apply S3; [exact Hx|left; reflexivity].
      - rewrite Forall_forall in HB. apply (HB x Hx). apply Hodd; [|exact Hhx]. rewrite EL. apply in_or_app. right. right. exact Hx. }
    destruct Hxy as [->|Hxy]; [exact Hhy|]. unfold Held.at_inf, hit in *. fold (up x) in *. fold (up y) in *. destruct (HE x Hx) as [Ex _].
    pose proof (dyadic x y (elem_small x Ex) (elem_small y Ey) Hxy ltac:(lia)) as Hu. assert (lbase x <= lbase y) by (destruct Hxy; lia). lia.
  - assert (Hp : is_partial_key st = true /\ pre (8 * klen pk - get_invalid_bits st) pk = pre (8 * klen pk - get_invalid_bits st) k).
    { unfold need in Enk. rewrite H2, andb_true_r in Enk. apply andb_false_iff in Enk as [E|E].
      - destruct (nlt_cases _ _ H1) as [E2|E2]; [|congruence]. subst k. split; [apply Hpk; reflexivity|reflexivity].
      - apply negb_false_iff in E. apply partb_iff in E. destruct E as [Q1 [_ Q2]]. auto. }
    destruct Hp as [Hp1 Hp2].
    apply (matched_drop _ _ L y L' HP); [|exact HM]. intros k' Hk' Hhy. apply filter_In in Hk' as [Hk' Hn]. apply need_iff in Hn as (_ & _ & Hn). apply Hn. destruct (Hks k' Hk') as [Kk' Lk'].
    split; [exact Hp1|]. split; [lia|]. rewrite Hp2. symmetry.
    set (zp := qof c pk nk + s - lowbit_pos y - 1).
    pose proof (Hlong Hp1 A y B EL Hhit HB) as Hv. fold zp in Hv.
    assert (Ez : pre zp k' = pre zp k). { apply (cut_hit c s Hs pk nk k y zp Hq Ey Ey2 Hhit2 eq_refl). exact Hhy. }
    pose proof (invalid_range st) as Hi. assert (0 < klen pk). { pose proof (K4 Hp1) as Hne. destruct pk; [congruence|unfold klen; cbn [length]; lia]. }
    apply (pre_eq_mono _ zp); [lia|exact Ez].
Qed.

(** the element that is taken out is the longest match *)
Lemma last_hit_unique (P : Z -> Prop) A y B A1 y1 B1 : A ++ y :: B = A1 ++ y1 :: B1 -> P y -> P y1 -> Forall (fun z => ~ P z) B -> Forall (fun z => ~ P z) B1 -> y1 = y.
Proof.
  intros E H1 H2 F1 F2. rewrite Forall_forall in F1, F2. apply app_eq_app in E as (l & [[_ E]|[_ E]]).
  - destruct l as [|x l]; [cbn in E; congruence|]. cbn [app] in E. injection E as _ E. exfalso. apply (F2 y); [rewrite E; apply in_or_app; right; left; reflexivity|exact H1].
  - destruct l as [|x l]; [cbn in E; congruence|]. cbn [app] in E. injection E as _ E. exfalso. apply (F1 y1); [rewrite E; apply in_or_app; right; left; reflexivity|exact H2].
Qed.

Lemma delete_held len lo hi d ks k d' : stem len lo hi d -> 8 * len < 2 ^ 32 -> kok k -> len <= klen k -> (forall k', In k' ks -> kok k' /\ len <= klen k') ->
  key_lt k lo = false -> key_lt k hi = true -> heldt (k :: ks) (d_tree d) -> uncrammed c d k -> delete c d k = Ok d' -> map fst (d_tree d') = map fst (d_tree d) ->
  stem len lo hi d' /\ heldt ks (d_tree d') /\ last_st (d_tree d') = last_st (d_tree d) /\ (forall k', covt (gcov c s) (d_tree d') k' -> covt (gcov c s) (d_tree d) k').
Proof.
  intros HST Hlen Kk Hkl Hks Hlo Hhi HH Hun E Hbd. pose proof (stem_valid _ _ _ _ _ _ HST) as HV. pose proof (valid_sorted _ _ _ HV) as Hso. pose proof HST as (Hds & Hne & S3 & S4 & S5 & Ha).
  subst lo hi. destruct (find_gap _ _ Hso Hne Hlo Hhi) as (A & pk & st & nk & st' & B & Et & G1 & G2).
  assert (Hgo : (let* '(shared, ignore, isz, prev_implicit, total) := segment c s pk nk in
    let* e := extract_key c s k shared ignore isz in
    let deletee := infix_of s e prev_implicit in
    let* merge := (if is_partial_key st then
         let* len := longest_match c s st deletee target_size in
         Ok ((len =? 0) || (u32 (shared + ignore + isz + len - 1) <? u32 (8 * klen pk - get_invalid_bits st)))
       else Ok false) in
    if merge : bool then delete_merge c d (rev A, (pk, st) :: (nk, st') :: B)
    else let* st' := delete_raw c s st deletee total in Ok (with_tree d (put (d_tree d) pk st'))) = Ok d' /\ (pk = k -> is_partial_key st = true)).
  { unfold delete in E. rewrite Hds, Et in E. rewrite Et in Hso. destruct (nlt_cases _ _ G1) as [E1|G3].
    - subst pk. rewrite seek_hit in E by exact Hso. cbn [peek snd bind] in E. rewrite key_eq_refl in E. cbn [andb] in E. destruct (is_partial_key st) eqn:Ep; cbn [negb] in E.
      + cbn [skip1 peek snd bind skip1_rev] in E. split; [|auto]. rewrite Et. rewrite Ep in E. exact E.
      + exfalso. apply (merge_moves d A k st ((nk, st') :: B) d'); [exact Hso|exact Et| |exact Hbd]. exact E.
    - rewrite seek_q in E by (try assumption; apply key_lt_asym; assumption). cbn [peek snd bind skip1_rev] in E.
      destruct (key_eq nk k) eqn:Ee; [apply key_eq_iff in Ee; rewrite Ee, key_lt_irrefl in G2; discriminate|]. cbn [andb] in E. split; [rewrite Et; exact E|].
      intros ->. rewrite key_lt_irrefl in G3. discriminate. }
  clear E. destruct Hgo as [E Hpk].
  pose proof Ha as Ha'. rewrite Et in Ha'. apply adj_app in Ha' as [HaA HaB]. rewrite adj_cons in HaB. destruct HaB as [HG HaB]. pose proof HG as ((K1 & K2 & K3 & K4 & L & R1) & Hord & Hl).
  destruct (seg_ex c pk nk K1 K2 K3) as (sh & ig & z & HS). rewrite (segment_eq c s Hs _ _ _ _ _ HS) in E by auto. cbn [bind] in E.
  pose proof (nlt_ple _ _ K1 Kk G1) as P1. pose proof (key_lt_ple k nk Kk K2 G2) as P2.
  destruct (extract_key_seg c s Hs _ _ _ _ _ k HS K1 Kk P1 P2) as (e & Ee2 & E1 & E2). rewrite Ee2 in E. cbn [bind] in E. rewrite E2 in E.
  destruct (inf_range c s Hs _ _ _ _ _ k HS P1 P2) as (I1 & I2 & I3). destruct (lor1_range (inf pk nk k) ltac:(lia)) as [V1 V2].
  assert (V4 : Z.lor (inf pk nk k) 1 < 1024 * 2 ^ s).
  { rewrite lor1 by lia. pose proof (Z.div_mod (inf pk nk k) 2 ltac:(lia)). pose proof (Z.mod_pos_bound (inf pk nk k) 2 ltac:(lia)).
    replace s with (1 + (s - 1)) in * by lia. rewrite Z.pow_add_r in * by lia. change (2 ^ 1) with 2 in *. lia. }
  set (x := Z.lor (inf pk nk k) 1) in *. pose proof (sg_q _ _ _ _ _ _ HS) as Eq. rewrite <- Eq in E.
  pose proof (longest_match_rep c T s _ st L x R1 ltac:(lia) V2) as Hw. apply wp_exists in Hw as (n & En & Hn). rewrite En in E. cbn [bind] in E.
  set (mg := if is_partial_key st then Ok _ else Ok false) in E.
  assert (Hmg : exists b, mg = Ok b /\ (b = true -> False) /\ (is_partial_key st = true -> n <> 0 /\ u32 (8 * klen pk - get_invalid_bits st) <= u32 (qof c pk nk + n - 1))).
  { subst mg. destruct (is_partial_key st) eqn:Ep.
    - eexists. split; [reflexivity|]. cbn [bind] in E. split.
      + intros Hb. rewrite Hb in E. rewrite Et in Hso. apply (merge_moves d A pk st ((nk, st') :: B) d' Hso Et E Hbd).
      + intros _. destruct ((n =? 0) || _) eqn:Eb in E; [exfalso; rewrite Et in Hso; apply (merge_moves d A pk st ((nk, st') :: B) d' Hso Et E Hbd)|]. lia.
    - exists false. split; [reflexivity|]. split; [discriminate|discriminate]. }
  destruct Hmg as (b & Eb & Hb & Hpart). rewrite Eb in E. cbn [bind] in E. destruct b; [exfalso; apply Hb; reflexivity|]. clear mg Eb Hb.
  pose proof (heldt_at _ _ _ _ _ _ _ _ _ (eq_rect _ (heldt (k :: ks)) HH _ Et)) as HM.
  assert (Hex : exists y, In y L /\ hit x x y).
  { destruct Hn as [[-> Hno]|(A1 & y1 & B1 & -> & Hh1 & _)]; [|exists y1; split; [apply in_or_app; right; left; reflexivity|exact Hh1]].
    specialize (HM L (rep_list _ _ _ _ _ _ R1)). cbn [filter] in HM. destruct (need pk st nk k) eqn:Enk.
    - destruct (matched_in _ _ _ k HM (or_introl eq_refl)) as (y & Hy & Hh). exists y. split; [exact Hy|].
      pose proof (infs_elem s Hs L (rep_infs _ _ _ _ _ _ R1)) as HE. rewrite Forall_forall in HE. apply hit_odd; [lia|lia|apply elem_small; apply (HE y Hy)|exact Hh].
    - exfalso. assert (Hp : is_partial_key st = true).
      { unfold need in Enk. rewrite G2, andb_true_r in Enk. apply andb_false_iff in Enk as [E0|E0].
        - destruct (nlt_cases _ _ G1) as [E3|E3]; [|congruence]. apply Hpk. symmetry. exact E3 || exact E3.
        - apply negb_false_iff in E0. apply partb_iff in E0. apply E0. }
      destruct (Hpart Hp) as [H0 _]. apply H0. reflexivity. }
  assert (Hw : wp (delete_raw c s st x (tot c pk nk)) (fun st2 => exists L', rep c s (tot c pk nk) true st2 L' /\ dels x L L' /\ flags st2 = flags st)).
  { apply (delete_raw_rep c T s (tot c pk nk) st L); [exact Hf|exact R1|lia|exact V2| |exact Hex|eauto].
    intros st1 Est1. rewrite <- Hds in Est1 |- *. eapply (Hun A pk st nk st' B); [exact Et|apply le_iff; exact G1|apply lt_iff; exact G2| |exact Est1].
    rewrite Hds. apply (segment_eq c s Hs _ _ _ _ _ HS); auto. }
  apply wp_exists in Hw as (st2 & Ed & L' & R2 & Hdel & Hfl). rewrite Ed in E. cbn [bind] in E. injection E as <-. unfold with_tree in *. cbn [d_tree] in *.
  pose proof Hso as Hso'. rewrite Et in Hso'. assert (Ep : put (d_tree d) pk st2 = A ++ (pk, st2) :: (nk, st') :: B) by (rewrite Et; apply put_hit; apply (sorted_app_below _ _ _ Hso')).
  destruct (block_del len pk st nk k ks L L' st2 HG R1 R2 Hfl Kk Hks Hkl G1 G2) as [HG2 HM2]; auto.
  { intros Hp A0 y B0 EL Hhit HB. destruct (Hpart Hp) as [Hn0 Hle].
    assert (Eny : n = s - lowbit_pos y).
    { destruct Hn as [[E0 _]|(A1 & y1 & B1 & EL1 & Hh1 & HB1 & ->)]; [congruence|]. f_equal. f_equal. rewrite EL in EL1. apply (last_hit_unique (fun v => hit x x v) A0 y B0 A1 y1 B1 EL1); assumption. }
    pose proof (invalid_range st) as Hi. assert (0 < klen pk). { pose proof (K4 Hp) as Hne2. destruct pk; [congruence|unfold klen; cbn [length]; lia]. }
    assert (Eu : u32 (8 * klen pk - get_invalid_bits st) = 8 * klen pk - get_invalid_bits st) by (rewrite u32_mod; apply Z.mod_small; lia).
    rewrite Eu in Hle. destruct (seg_tot _ _ _ _ _ _ HS) as [_ Hq]. assert (Hy : In y L) by (rewrite EL; apply in_or_app; right; left; reflexivity).
    assert (0 <= s - lowbit_pos y).
    { pose proof (infs_elem s Hs L (rep_infs _ _ _ _ _ _ R1)) as HE. rewrite Forall_forall in HE. destruct (HE y Hy) as [Ey Ey2].
      assert (Hh2 : hit (inf pk nk k) (inf pk nk k) y) by (apply (hit_odd (inf pk nk k) (inf pk nk k) y); [lia|lia|apply elem_small; exact Ey|exact Hhit]).
      destruct (cut_form c s Hs pk nk y _ Ey Ey2 eq_refl) as (t & m & C1 & C2 & C3 & _). lia. }
    assert (u32 (qof c pk nk + n - 1) <= qof c pk nk + n - 1) by (rewrite u32_mod; apply Z.mod_le; lia). lia. }
  rewrite Ep. split; [|split; [|split]].
  - split; [exact Hds|]. cbn [d_tree]. split; [destruct A; discriminate|]. split; [rewrite Et; destruct A; reflexivity|].
    split; [rewrite Et; change ((pk, st2) :: (nk, st') :: B) with ([(pk, st2)] ++ (nk, st') :: B); change ((pk, st) :: (nk, st') :: B) with ([(pk, st)] ++ (nk, st') :: B); rewrite !app_assoc, !last_app_cons; reflexivity|].
    split; [exact S5|]. apply adj_app. split; [apply (adj_last _ _ _ st); exact HaA|]. rewrite adj_cons. auto.
  - rewrite Et in HH. unfold Held.heldt in *. apply adj_app in HH as [HA HB2]. rewrite adj_cons in HB2. apply adj_app. split.
    + apply (adj_last _ _ _ st). eapply adj_mono; [|exact HA]. intros a sa b. apply mat_tail; assumption.
    + rewrite adj_cons. split; [exact HM2|]. eapply adj_mono; [|apply HB2]. intros a sa b. apply mat_tail; assumption.
  - rewrite Et. rewrite !last_st_app. reflexivity.
  - intros k' Hc. rewrite Et. apply covt_app in Hc. apply covt_app. rewrite !covt_cons in *. destruct Hc as [Hc|[->|[(C1 & C2 & C3)|Hc]]]; [left; apply (covt_last _ _ _ _ _ _ Hc)|right; left; reflexivity| |right; right; right; exact Hc].
    right. right. left. split; [exact C1|]. split; [exact C2|]. destruct C3 as [Hp|(L1 & y & E3 & Hy & Hh)]; [left; apply (flags_partp st2); [congruence|exact Hp]|right].
    rewrite (rep_list _ _ _ _ _ _ R2) in E3. injection E3 as <-. exists L, y. split; [apply (rep_list _ _ _ _ _ _ R1)|]. split; [|exact Hh].
    destruct Hdel as (D1 & D2 & D3 & EL & EL' & _). rewrite EL' in Hy. rewrite EL. apply in_app_or in Hy. apply in_or_app. destruct Hy as [Hy|Hy]; [left; exact Hy|right; right; exact Hy].
Qed.
(** the deletion of a key that is no boundary, behind a boundary that is not truncated, runs and leaves the boundaries *)
Lemma delete_runs len lo hi d ks k : stem len lo hi d -> kok k -> key_lt k lo = false -> key_lt k hi = true -> heldt (k :: ks) (d_tree d) -> uncrammed c d k ->
  ~ In k (map fst (d_tree d)) -> (forall A pk st nk st' B, d_tree d = A ++ (pk, st) :: (nk, st') :: B -> key_lt k pk = false -> key_lt k nk = true -> is_partial_key st = false) ->
  exists d', delete c d k = Ok d' /\ map fst (d_tree d') = map fst (d_tree d).
Proof.
  intros HST Kk Hlo Hhi HH Hun Hnb Hnp. pose proof (stem_valid _ _ _ _ _ _ HST) as HV. pose proof (valid_sorted _ _ _ HV) as Hso. pose proof HST as (Hds & Hne & S3 & S4 & S5 & Ha).
  subst lo hi. destruct (find_gap _ _ Hso Hne Hlo Hhi) as (A & pk & st & nk & st' & B & Et & G1 & G2). pose proof (Hnp A pk st nk st' B Et G1 G2) as Ep.
  destruct (nlt_cases _ _ G1) as [E1|G3]; [exfalso; apply Hnb; rewrite Et, E1, map_app; apply in_or_app; right; left; reflexivity || (rewrite <- E1; left; reflexivity)|].
  unfold delete. rewrite Hds. pose proof Hso as Hso'. rewrite Et in Hso'. assert (Esk : seek (d_tree d) k = (rev (A ++ [(pk, st)]), (nk, st') :: B)) by (rewrite Et; rewrite (seek_q A pk st nk st' B k); [rewrite rev_unit; reflexivity|exact Hso'|exact G3|apply key_lt_asym; exact G2]). rewrite Esk, rev_unit. cbn [peek snd bind skip1_rev].
  destruct (key_eq nk k) eqn:Ee; [apply key_eq_iff in Ee; rewrite Ee, key_lt_irrefl in G2; discriminate|]. cbn [andb bind].
  pose proof Ha as Ha'. rewrite Et in Ha'. apply adj_app in Ha' as [HaA HaB]. rewrite adj_cons in HaB. destruct HaB as [HG HaB]. pose proof HG as ((K1 & K2 & K3 & K4 & L & R1) & Hord & Hl).
  destruct (seg_ex c pk nk K1 K2 K3) as (sh & ig & z & HS). rewrite (segment_eq c s Hs _ _ _ _ _ HS) by auto. cbn [bind].
  pose proof (nlt_ple _ _ K1 Kk G1) as P1. pose proof (key_lt_ple k nk Kk K2 G2) as P2.
  destruct (extract_key_seg c s Hs _ _ _ _ _ k HS K1 Kk P1 P2) as (e & Ee2 & E1 & E2). rewrite Ee2. cbn [bind]. rewrite E2, Ep. cbn [bind].
  destruct (inf_range c s Hs _ _ _ _ _ k HS P1 P2) as (I1 & I2 & I3). destruct (lor1_range (inf pk nk k) ltac:(lia)) as [V1 V2].
  assert (V4 : Z.lor (inf pk nk k) 1 < 1024 * 2 ^ s).
  { rewrite lor1 by lia. pose proof (Z.div_mod (inf pk nk k) 2 ltac:(lia)). pose proof (Z.mod_pos_bound (inf pk nk k) 2 ltac:(lia)).
    replace s with (1 + (s - 1)) in * by lia. rewrite Z.pow_add_r in * by lia. change (2 ^ 1) with 2 in *. lia. }
  set (x := Z.lor (inf pk nk k) 1) in *. 
  pose proof (heldt_at _ _ _ _ _ _ _ _ _ (eq_rect _ (heldt (k :: ks)) HH _ Et)) as HM.
  assert (Hex : exists y, In y L /\ hit x x y).
  { specialize (HM L (rep_list _ _ _ _ _ _ R1)). cbn [filter] in HM. destruct (need pk st nk k) eqn:Enk.
    - destruct (matched_in _ _ _ k HM (or_introl eq_refl)) as (y & Hy & Hh). exists y. split; [exact Hy|].
      pose proof (infs_elem s Hs L (rep_infs _ _ _ _ _ _ R1)) as HE. rewrite Forall_forall in HE. apply hit_odd; [lia|lia|apply elem_small; apply (HE y Hy)|exact Hh].
    - exfalso. unfold need in Enk. rewrite G2, G3 in Enk. cbn [andb] in Enk. apply negb_false_iff in Enk. apply partb_iff in Enk. destruct Enk as [Q _]. congruence. }
  assert (Hw : wp (delete_raw c s st x (tot c pk nk)) (fun st2 => exists L', rep c s (tot c pk nk) true st2 L' /\ dels x L L' /\ flags st2 = flags st)).
  { apply (delete_raw_rep c T s (tot c pk nk) st L); [exact Hf|exact R1|lia|exact V2| |exact Hex|eauto].
    intros st1 Est1. rewrite <- Hds in Est1 |- *. eapply (Hun A pk st nk st' B); [exact Et|apply le_iff; exact G1|apply lt_iff; exact G2| |exact Est1].
    rewrite Hds. apply (segment_eq c s Hs _ _ _ _ _ HS); auto. }
  apply wp_exists in Hw as (st2 & Ed & _). rewrite Ed. cbn [bind]. eexists. split; [reflexivity|]. unfold with_tree. cbn [d_tree].
  rewrite Et. rewrite put_hit by (apply (sorted_app_below _ _ _ Hso')). rewrite !map_app. reflexivity.
Qed.
End G.
