(** What GetLongestMatchingInfixSize (diva.hpp:2534-2569) returns: the size of the last
    element that covers the key, which is the one that a deletion takes out. *)
From Coq Require Import ZArith List Bool Lia.
From Coq Require Import ZifyBool ZifyNat.
From Verif Require Import Base Util Store Bits View Cells Lowbit StoreFind StoreInsert StoreQuery Layout StoreList Spec StoreRep DelCells StoreDelete SplitList.
Import ListNotations.
Open Scope Z_scope.

Lemma lowbit_pos_eq x y : 0 < x < 2 ^ 64 -> 0 < y < 2 ^ 64 -> lowbit x = lowbit y -> lowbit_pos x = lowbit_pos y.
Proof.
  intros Hx Hy E. destruct (lowbit_form x Hx) as (t & k & Ht & _ & X1 & X2 & _). destruct (lowbit_form y Hy) as (t' & k' & Ht' & _ & Y1 & Y2 & _).
  unfold lowbit_pos. rewrite X1, Y1. rewrite X2, Y2 in E. apply (Z.pow_inj_r 2); lia.
Qed.

Section R.
Variable c : cfg.
Hypothesis T : tables_ok c.
Definition longest (s key : Z) (L : list Z) (n : Z) : Prop :=
  (n = 0 /\ Forall (fun y => ~ hit key key y) L) \/
  exists A y B, L = A ++ y :: B /\ hit key key y /\ Forall (fun z => ~ hit key key z) B /\ n = s - lowbit_pos y.

Lemma longest_match_rep s ti st L key : rep c s ti true st L -> 0 <= key < 1024 * 2 ^ s -> Z.odd key = true ->
  wp (longest_match c s st key target_size) (longest s key L).
Proof.
  intros HR Hk Hodd. pose proof HR as (u & o & r & v & a0 & a1 & cl & scalar & els & Hi & Hu & HG & Hcont & HLe & Hc).
  destruct (rep_s _ _ _ _ _ _ HR) as [Hs _].
  pose proof (g_V _ _ _ _ _ _ _ _ _ _ _ _ _ HG) as HV. pose proof (g_wf _ _ _ _ _ _ _ _ _ _ _ _ _ HG) as HW. pose proof (g_ag _ _ _ _ _ _ _ _ _ _ _ _ _ HG) as HA.
  set (g := st_grade u) in *. pose proof (grade_range u) as Hgr. fold g in Hgr. pose proof (size_pos c T g Hgr) as HS.
  pose proof (Z.pow_pos_nonneg 2 s ltac:(lia) ltac:(lia)) as Hps.
  assert (Hs53 : 2 ^ s <= 2 ^ 53) by (apply pow2_le_mono; lia). assert (H5364 : 2 ^ 53 < 2 ^ 64) by (vm_compute; reflexivity).
  destruct (split_key key s ltac:(lia) ltac:(lia)) as (Ek & Hep & Hip0). unfold longest_match.
  set (p := Z.shiftr key s) in *. set (x := Z.land key (bitmask s)) in *.
  assert (Hp : 0 <= p < 1024) by nia.
  assert (Hxo : Z.odd x = true).
  { rewrite <- Hodd, Ek. rewrite Z.odd_add, Z.odd_mul. replace (Z.odd (2 ^ s)) with false; [rewrite andb_false_r, xorb_false_l; reflexivity|].
    replace s with (1 + (s - 1)) by lia. rewrite Z.pow_add_r by lia. rewrite Z.odd_mul. reflexivity. }
  assert (Hx : 0 < x < 2 ^ s). { split; [|lia]. destruct (Z.eq_dec x 0) as [E|]; [rewrite E in Hxo; discriminate|lia]. }
  assert (Hcell : forall i q z, cl i = Some (q, z) -> (hit key key (jn s (q, z)) <-> q = p /\ covs x z)).
  { intros i q z E. destruct (w_dom _ _ _ _ HW _ _ _ E) as (D1 & D2 & D3). rewrite Ek. destruct (elem_low HG z ltac:(lia)) as (_ & _ & E3). apply hit_cell; lia. }
  assert (Hnone : (forall i z, cl i = Some (p, z) -> ~ covs x z) -> Forall (fun y => ~ hit key key y) L).
  { intros H. apply Forall_forall. intros y Hy. rewrite HLe in Hy. apply in_map_iff in Hy as ([q z] & <- & Hin). rewrite <- Hcont in Hin. apply content_in in Hin as (i & Hir & E).
    intros Hh. apply (Hcell i q z E) in Hh as [-> Hh]. apply (H i z E Hh). }
  assert (Esc : exists sc, implicit_scalar c target_size = Ok sc) by (eexists; reflexivity). destruct Esc as (sc & ->). cbn [bind].
  apply wp_bind. apply (get_occ_wp _ _ _ _ _ _ _ _ _ _ _ _ _ HV); [exact Hp|]. destruct (o p) eqn:Eo; cbn [Z.b2z Z.eqb].
  2:{ cbn [wp]. left. split; [reflexivity|]. apply Hnone. intros i z E _. assert (o p = true) by (apply (a_occ _ _ _ _ _ _ _ HA p Hp); exists i; apply in_run_iff; eauto). congruence. }
  apply (a_occ _ _ _ _ _ _ _ HA p Hp) in Eo.
  destruct (run_extent s _ _ cl p HW Eo) as (a & b & Hab & HbS & Hin & Hout).
  apply wp_bind. apply (rank_wp HG); [exact Hp|].
  apply wp_bind. apply (select_wp HG p a b); [exact Hp|lia|exact Hin|exact Hout|].
  apply wp_bind. apply (run_start_wp HG p a b); [exact Hp|lia|exact Hin|exact Hout|].
  assert (Hkey : 0 <= key - 1 < 2 ^ 64) by (assert (1024 * 2 ^ s <= 2 ^ 63) by (change (2 ^ 63) with (1024 * 2 ^ 53); pose proof (pow2_le_mono s 53 ltac:(lia)); lia); assert (2 ^ 63 < 2 ^ 64) by (vm_compute; reflexivity); nia).
  rewrite u64_small by exact Hkey.
  apply wp_bind. apply (run_search_wp HG p a b); [lia|exact Hin|]. intros k Hk2 Hlo Hhi.
  assert (Hbeyond : forall j, k <= j <= b -> ~ covs x (v j)).
  { intros j Hj [H1 H2]. specialize (Hhi j Hj). pose proof (Hin j ltac:(lia)) as Hi2. apply in_run_iff in Hi2 as (y & E).
    destruct (sl_val HG _ _ _ E) as (Ev & HjS & _ & Hy). destruct (StoreDelete.lbase_even (v j) ltac:(rewrite Ev; clear -Hy Hs53 H5364; lia)) as (h & Eh).
    assert (x <= key) by nia. assert (E1 : lbase (v j) = x) by lia. rewrite E1 in Eh. rewrite Eh in Hxo. rewrite Z.odd_mul in Hxo. discriminate. }
  apply wp_bind. apply (run_match_wp HG p a b x k); [lia|exact Hin|lia|exact Hk2| |].
  - intros l Hl Hcl Hlast. cbn [wp]. right.
    pose proof (Hin l ltac:(lia)) as Hil. apply in_run_iff in Hil as (y & El). destruct (sl_val HG _ _ _ El) as (Evl & HlS & _ & Hyl).
    exists (map (jn s) (content cl 0 l)), (jn s (p, y)), (map (jn s) (content cl (l + 1) (c_size c g))).
    split. { rewrite HLe, <- Hcont. rewrite (content_split cl 0 l (c_size c g)), (content_split cl l (l + 1) (c_size c g)) by lia.
      unfold content at 2. replace (Z.to_nat (l + 1 - l)) with 1%nat by lia. cbn [cont]. rewrite El. rewrite !map_app. reflexivity. }
    split; [apply (Hcell l p y El); split; [reflexivity|rewrite <- Evl; exact Hcl]|]. split.
    + apply Forall_forall. intros w Hw. apply in_map_iff in Hw as ([q' z'] & <- & Hw). apply content_in in Hw as (j & Hj & Ej).
      intros Hh. apply (Hcell j q' z' Ej) in Hh as [-> Hh]. destruct (sl_val HG _ _ _ Ej) as (Evj & _). rewrite <- Evj in Hh.
      pose proof (Hout j ltac:(apply in_run_iff; eauto)). destruct (Z.ltb_spec j k); [apply (Hlast j); [lia|exact Hh]|apply (Hbeyond j); [lia|exact Hh]].
    + f_equal. rewrite Evl. destruct (jn_facts s (p, y) Hs ltac:(simpl; lia) ltac:(simpl; lia)) as (A1 & A2 & A3 & A4 & A5 & A6 & A7).
      assert (H64 : 2 ^ 63 < 2 ^ 64) by (vm_compute; reflexivity). assert (2 ^ s <= 2 ^ 53) by (apply pow2_le_mono; lia). assert (2 ^ 53 < 2 ^ 64) by (vm_compute; reflexivity).
      assert (0 < jn s (p, y)) by (unfold jn; cbn [fst snd]; nia).
      apply lowbit_pos_eq; [lia|lia|]. symmetry. exact A4.
  - intros Hn. cbn [wp]. left. split; [reflexivity|]. apply Hnone. intros i z E Hh. destruct (sl_val HG _ _ _ E) as (Ev & _). rewrite <- Ev in Hh.
    pose proof (Hout i ltac:(apply in_run_iff; eauto)). destruct (Z.ltb_spec i k); [apply (Hn i); [lia|exact Hh]|apply (Hbeyond i); [lia|exact Hh]].
Qed.
End R.
