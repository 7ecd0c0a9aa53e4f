(** ShrinkInfixSize on a whole filter. *)
From Coq Require Import ZArith List Bool Lia Sorting.Sorted Permutation.
From Coq Require Import ZifyBool ZifyNat.
From Verif Require Import Base Util Store Tables Key Diva Bits Cells Lowbit StoreInsert Layout Spec StoreRep KeyBits KeyOrder Tree Filter RangeInt Contents Bulk SpecFilter SpecBlock Hist Claims DelHist DelRun DelClaims SplitKeys Split SplitHist HistClaims Shrink.
Import ListNotations.
Open Scope Z_scope.

Section S.
Variables (c : cfg) (s s' : Z).
Hypothesis Hs : 1 <= s <= 46.
Hypothesis Hs' : 1 <= s' <= s.
Hypothesis T : tables_ok c.
Hypothesis Hf : fits c s.
Hypothesis Hf' : fits c s'.
Hypothesis H8 : c_size c grow_sep mod 8 <> 0.

(** what happens to one block *)
Definition shrunk (e e' : key * store) : Prop :=
  fst e' = fst e /\ status (snd e') = status (snd e) /\
  forall ti L, rep c s ti true (snd e) L -> rep c s' ti true (snd e') (map (cut (s - s')) L).
Definition roomy (e : key * store) : Prop := get_elem_count (snd e) = 0 \/ get_size_grade (snd e) = 55.
Definition solid (e : key * store) : Prop := exists ti L, rep c s ti true (snd e) L.

Lemma shrink_one e : solid e -> roomy e -> exists st, shrink_store c s s' (snd e) = Ok st /\ shrunk e (fst e, st).
Proof.
  intros (ti & L & HR) Hro.
  assert (Hw : forall ti L, rep c s ti true (snd e) L -> wp (shrink_store c s s' (snd e)) (fun st => rep c s' ti true st (map (cut (s - s')) L) /\ status st = status (snd e))).
  { clear ti L HR. intros ti L HR. apply (shrink_store_rep c T s s' ti (snd e) L); auto. destruct Hro as [H|H]; [right|left; split; assumption].
    destruct (rep_count c T _ _ _ _ _ HR) as (C & _). destruct L; [reflexivity|]. rewrite H in C. cbn [length] in C. lia. }
  pose proof (Hw ti L HR) as H0. apply wp_exists in H0 as (st & E & _ & H2). exists st. split; [exact E|]. split; [reflexivity|]. split; [exact H2|].
  intros ti' L' HR'. specialize (Hw ti' L' HR'). rewrite E in Hw. cbn [wp snd] in *. apply Hw.
Qed.
Lemma shrink_tree t : Forall solid t -> Forall roomy t ->
  exists t', map_res (fun x : key * store => let* st := shrink_store c s s' (snd x) in Ok (fst x, st)) t = Ok t' /\ Forall2 shrunk t t'.
Proof.
  induction t as [|e t IH]; intros H1 H2; [exists []; split; [reflexivity|constructor]|]. inversion H1; subst. inversion H2; subst.
  destruct (shrink_one e) as (st & E & Hsh); auto. destruct IH as (t' & Et & HF); auto. exists ((fst e, st) :: t'). cbn [map_res]. rewrite E. cbn [bind]. rewrite Et. cbn [bind].
  split; [reflexivity|]. constructor; assumption.
Qed.
Lemma valid_solid d : valid c s d -> last_st (d_tree d) = blankst c s -> Forall solid (d_tree d).
Proof.
  intros [_ Hne Ha] Hl. revert Hne Hl Ha. induction (d_tree d) as [|[a st] t IH]; intros Hne Hl Ha; [constructor|].
  destruct t as [|[b w] t].
  - constructor; [|constructor]. unfold last_st in Hl. cbn in Hl. subst st. exists 1024, []. apply (blank_rep c s Hs T Hf 1024 (c_impl c 512) eq_refl).
  - rewrite adj_cons in Ha. destruct Ha as [(_ & _ & _ & _ & L & HR) Ha]. constructor; [exists (tot c a b), L; exact HR|].
    apply IH; [discriminate| |exact Ha]. change ((a, st) :: (b, w) :: t) with ([(a, st)] ++ (b, w) :: t) in Hl. rewrite last_st_app in Hl. exact Hl.
Qed.

(** *** the keys in the narrower blocks *)
Lemma inf_cut pk nk k : 0 <= qof c pk nk -> inf c s' pk nk k = inf c s pk nk k / 2 ^ (s - s').
Proof.
  intros Hq. unfold inf. rewrite <- (pre_div (qof c pk nk + s') (s - s')) by lia. replace (qof c pk nk + s' + (s - s')) with (qof c pk nk + s) by lia.
  assert (Ep : 2 ^ s = 2 ^ s' * 2 ^ (s - s')) by (rewrite <- Z.pow_add_r by lia; f_equal; lia).
  pose proof (Z.pow_pos_nonneg 2 (s - s') ltac:(lia) ltac:(lia)).
  replace (pre (qof c pk nk + s) k - pre (qof c pk nk) pk * 2 ^ s) with (pre (qof c pk nk + s) k + (- (pre (qof c pk nk) pk * 2 ^ s')) * 2 ^ (s - s')) by (rewrite Ep; lia).
  rewrite Z.div_add by lia. lia.
Qed.
Lemma status_flags st st' : status st' = status st -> flags st' = flags st.
Proof. unfold flags. intros ->. reflexivity. Qed.
Lemma gapok_cut pk st nk st' : shrunk (pk, st) (pk, st') -> gapok c s pk st nk -> gapok c s' pk st' nk.
Proof.
  intros (_ & Hst & HR) (K1 & K2 & K3 & K4 & L & K5). cbn [snd] in *. split; [exact K1|]. split; [exact K2|]. split; [exact K3|].
  split; [apply (flags_part_ok st); [apply status_flags; exact Hst|exact K4]|]. exists (map (cut (s - s')) L). apply HR. exact K5.
Qed.
Lemma list_cut pk st nk st' L : shrunk (pk, st) (pk, st') -> gapok c s pk st nk -> get_infix_list c s st = Ok L -> get_infix_list c s' st' = Ok (map (cut (s - s')) L).
Proof.
  intros (_ & _ & HR) (_ & _ & _ & _ & L' & K5) E. rewrite (rep_list _ _ _ _ _ _ K5) in E. injection E as <-. apply (rep_list _ _ _ _ _ _ (HR _ _ K5)).
Qed.
Lemma rcov_cut pk st nk st' l r : shrunk (pk, st) (pk, st') -> gapok c s pk st nk -> ple pk l -> ple l nk -> ple pk r -> ple r nk ->
  rcov c s pk st nk l r -> rcov c s' pk st' nk l r.
Proof.
  intros Hsh HG L1 L2 R1 R2 [Hp|(L & x & EL & Hx & Hh)]; [left; apply (flags_partp st); [apply status_flags; apply Hsh|exact Hp]|right].
  pose proof (gap_elems c s Hs _ _ _ _ _ HG EL Hx) as Hr. exists (map (cut (s - s')) L), (cut (s - s') x).
  pose proof HG as (K1 & K2 & K3 & _). destruct (seg_ex c pk nk K1 K2 K3) as (sh & ig & isz & HS). destruct (seg_tot c _ _ _ _ _ HS) as [_ Hq].
  destruct (inf_range c s Hs _ _ _ _ _ l HS L1 L2) as (I1 & _). destruct (inf_range c s Hs _ _ _ _ _ r HS R1 R2) as (I2 & _).
  destruct (inf_range c s' ltac:(lia) _ _ _ _ _ l HS L1 L2) as (J1 & _). destruct (inf_range c s' ltac:(lia) _ _ _ _ _ r HS R1 R2) as (J2 & _).
  split; [eapply list_cut; eassumption|]. split; [apply in_map; exact Hx|].
  pose proof (list_cut _ _ _ _ _ Hsh HG EL) as EL'. pose proof (gap_elems c s' ltac:(lia) _ _ _ _ _ (gapok_cut _ _ _ _ Hsh HG) EL' (in_map _ _ _ Hx)) as Hr'.
  apply hit_odd; [lia|lia|lia|]. apply (hit_odd (inf c s pk nk l) (inf c s pk nk r) x ltac:(lia) ltac:(lia) Hr) in Hh. rewrite !inf_cut by lia. apply cut_hit; [lia|exact Hr|exact Hh].
Qed.
Lemma gcov_cut pk st nk st' k : shrunk (pk, st) (pk, st') -> gapok c s pk st nk -> gcov c s pk st nk k -> gcov c s' pk st' nk k.
Proof.
  intros Hsh HG [Hp|(L & x & EL & Hx & Hh)]; [left; apply (flags_partp st); [apply status_flags; apply Hsh|exact Hp]|right].
  pose proof (gap_elems c s Hs _ _ _ _ _ HG EL Hx) as Hr. exists (map (cut (s - s')) L), (cut (s - s') x).
  pose proof HG as (K1 & K2 & K3 & _). destruct (seg_ex c pk nk K1 K2 K3) as (sh & ig & isz & HS). destruct (seg_tot c _ _ _ _ _ HS) as [_ Hq].
  split; [eapply list_cut; eassumption|]. split; [apply in_map; exact Hx|]. rewrite !inf_cut by lia. apply cut_hit; [lia|exact Hr|exact Hh].
Qed.
Lemma adj_cut t t' : Forall2 shrunk t t' -> adj (gapok c s) t -> adj (gapok c s') t'.
Proof.
  induction 1 as [|[a st] [a' st'] t t' Hsh HF IH]; intros HA; [exact I|]. pose proof (proj1 Hsh) as E. cbn [fst] in E. subst a'.
  destruct HF as [|[b w] [b' w'] t t' Hsh' HF]; [apply adj_one; exact I|]. pose proof (proj1 Hsh') as E. cbn [fst] in E. subst b'. apply adj_cons in HA as [HA1 HA2].
  rewrite adj_cons. split; [eapply gapok_cut; eassumption|exact (IH HA2)].
Qed.
Lemma covt_cut t t' k : Forall2 shrunk t t' -> adj (gapok c s) t -> covt (gcov c s) t k -> covt (gcov c s') t' k.
Proof.
  induction 1 as [|[a st] [a' st'] t t' Hsh HF IH]; intros HA HC; [destruct HC|]. pose proof (proj1 Hsh) as E. cbn [fst] in E. subst a'.
  destruct HF as [|[b w] [b' w'] t t' Hsh' HF]; [rewrite covt_one in *; exact HC|]. pose proof (proj1 Hsh') as E. cbn [fst] in E. subst b'. apply adj_cons in HA as [HA1 HA2].
  rewrite covt_cons in *. destruct HC as [HC|[(C1 & C2 & C3)|HC]]; [left; exact HC|right; left|right; right; exact (IH HA2 HC)].
  split; [exact C1|]. split; [exact C2|]. eapply gcov_cut; eassumption.
Qed.
Lemma cut_fst t t' : Forall2 shrunk t t' -> map fst t' = map fst t.
Proof. induction 1 as [|e e' t t' (E & _) HF IH]; [reflexivity|]. cbn [map]. rewrite E, IH. reflexivity. Qed.
(** [exact] survives: the cut infix of a key is its infix of the new width *)
Lemma cut_infx pk nk k : 0 <= inf c s pk nk k < 2 ^ 63 -> 0 <= qof c pk nk -> cut (s - s') (infx c s pk nk k) = infx c s' pk nk k.
Proof.
  intros Hi Hq. unfold infx. rewrite inf_cut by exact Hq. set (i := inf c s pk nk k) in *. pose proof (Z.pow_pos_nonneg 2 (s - s') ltac:(lia) ltac:(lia)).
  pose proof (lor1_range i ltac:(lia)) as [R1 R2]. pose proof (Z.div_pos i (2 ^ (s - s')) ltac:(lia) ltac:(lia)).
  assert (E0 : tzcnt (Z.lor i 1) = 0) by (apply (tz_unique _ 0 (i / 2)); [lia|pose proof (Z.div_pos i 2 ltac:(lia) ltac:(lia)); lia|rewrite lor1 by lia; lia]).
  unfold cut. rewrite E0, Z.shiftr_div_pow2 by lia. destruct (Z.ltb_spec 0 (s - s')).
  - f_equal. rewrite !lor1 by lia. assert (Ep : 2 ^ (s - s') = 2 * 2 ^ (s - s' - 1)) by (rewrite <- Z.pow_succ_r by lia; f_equal; lia). rewrite Ep.
    pose proof (Z.pow_pos_nonneg 2 (s - s' - 1) ltac:(lia) ltac:(lia)). rewrite <- !Z.div_div by lia. rewrite (Z.add_comm (2 * (i / 2))), Z.mul_comm, Z.div_add by lia. reflexivity.
  - replace (s - s') with 0 by lia. rewrite Z.lor_0_r, !Z.div_1_r. reflexivity.
Qed.
Lemma exact_cut X pk st nk st' : Forall kok X -> shrunk (pk, st) (pk, st') -> gapok c s pk st nk -> exact c s X pk st nk -> exact c s' X pk st' nk.
Proof.
  intros HX Hsh HG (Hp & L & EL & HP). split.
  - rewrite <- Hp. apply (flags_part st). apply status_flags. apply Hsh.
  - exists (map (cut (s - s')) L). split; [eapply list_cut; eassumption|]. rewrite HP, map_map.
    replace (map (fun x => cut (s - s') (infx c s pk nk x)) (filter (inside pk nk) X)) with (map (infx c s' pk nk) (filter (inside pk nk) X)); [reflexivity|].
    apply map_ext_in. intros k Hk. apply filter_In in Hk as [Hk Hin]. rewrite Forall_forall in HX. pose proof (HX k Hk) as Kk. unfold inside in Hin. apply andb_true_iff in Hin as [H1 H2]. apply negb_true_iff in H1.
    pose proof HG as (K1 & K2 & K3 & _). destruct (seg_ex c pk nk K1 K2 K3) as (sh & ig & isz & HS). destruct (seg_tot c _ _ _ _ _ HS) as [_ Hq].
    destruct (inf_range c s Hs _ _ _ _ _ k HS (nlt_ple _ _ K1 Kk H1) (key_lt_ple _ _ Kk K2 H2)) as (I1 & I2 & I3). symmetry. apply cut_infx; [|lia].
    assert (2 ^ 56 < 2 ^ 63) by (vm_compute; reflexivity). lia.
Qed.
Lemma adj_exact_cut X t t' : Forall kok X -> Forall2 shrunk t t' -> adj (gapok c s) t -> adj (exact c s X) t -> adj (exact c s' X) t'.
Proof.
  intros HX. induction 1 as [|[a st] [a' st'] t t' Hsh HF IH]; intros HA HE; [exact I|]. pose proof (proj1 Hsh) as E. cbn [fst] in E. subst a'.
  destruct HF as [|[b w] [b' w'] t t' Hsh' HF]; [apply adj_one; exact I|]. pose proof (proj1 Hsh') as E. cbn [fst] in E. subst b'. apply adj_cons in HA as [HA1 HA2]. apply adj_cons in HE as [HE1 HE2].
  rewrite adj_cons. split; [eapply exact_cut; eassumption|exact (IH HA2 HE2)].
Qed.

(** ** the filter *)
Theorem shrink_valid d : valid c s d -> last_st (d_tree d) = blankst c s -> Forall roomy (d_tree d) ->
  exists t', shrink c d s' = Ok (mkdiva s' t') /\ Forall2 shrunk (d_tree d) t' /\ valid c s' (mkdiva s' t').
Proof.
  intros HV Hl Hro. destruct (shrink_tree _ (valid_solid d HV Hl) Hro) as (t' & E & HF). exists t'.
  unfold shrink. rewrite (v_size _ _ _ HV). split.
  - pose proof (v_some _ _ _ HV) as Hne. destruct (d_tree d) as [|e t]; [congruence|]. rewrite E. reflexivity.
  - split; [exact HF|]. constructor; cbn [d_size d_tree]; [reflexivity| |].
    + pose proof (v_some _ _ _ HV) as Hne. destruct HF; [congruence|discriminate].
    + eapply adj_cut; [exact HF|]. apply (v_gap _ _ _ HV).
Qed.
Theorem shrink_inv X lo hi d : inv c s X lo hi d -> Forall kok X -> last_st (d_tree d) = blankst c s -> Forall roomy (d_tree d) ->
  exists t', shrink c d s' = Ok (mkdiva s' t') /\ Forall2 shrunk (d_tree d) t' /\ inv c s' X lo hi (mkdiva s' t').
Proof.
  intros HI HX Hl Hro. destruct (shrink_valid d (inv_valid c s _ _ _ _ HI) Hl Hro) as (t' & E & HF & HV). exists t'. split; [exact E|]. split; [exact HF|].
  destruct HI as (I1 & I2 & I3 & I4 & I5 & I6). split; [reflexivity|]. split; [exact (v_some _ _ _ HV)|]. cbn [d_tree].
  assert (HH : hd_key t' = hd_key (d_tree d) /\ last_key t' = last_key (d_tree d)).
  { clear - HF. induction HF as [|[a st] [a' st'] t t' (E & _) HF IH]; [split; reflexivity|]. cbn [fst] in E. subst a'. split; [reflexivity|]. destruct IH as [_ IH].
    destruct HF as [|[b w] [b' w'] t t' (E & _) HF]; [reflexivity|]. exact IH. }
  destruct HH as [-> ->]. split; [exact I3|]. split; [exact I4|]. split; [exact (v_gap _ _ _ HV)|]. eapply adj_exact_cut; eassumption.
Qed.
Theorem shrink_point d t' k : valid c s d -> Forall2 shrunk (d_tree d) t' -> valid c s' (mkdiva s' t') -> kok k ->
  point_query c d k = Ok true -> point_query c (mkdiva s' t') k = Ok true.
Proof.
  intros HV HF HV' Hk HT. apply (cov_point c s' ltac:(lia)); auto. cbn [d_tree]. eapply covt_cut; [exact HF|exact (v_gap _ _ _ HV)|].
  pose proof (valid_sorted _ _ _ HV) as Hso. destruct (placed _ k Hso (v_some _ _ _ HV)) as [a st B E H|st B E|A pk st nk st' B E G1 G2|H].
  - exfalso. unfold point_query in HT. rewrite E, seek_below in HT by exact H. cbn [peek snd bind skip1_rev] in HT. rewrite key_eq_sym, (key_lt_neq _ _ H) in HT. discriminate.
  - rewrite E. apply covt_hd.
  - destruct (point_query_spec c s Hs d A pk st nk st' B k (v_size _ _ _ HV) E (v_gap _ _ _ HV) Hk G1 G2) as (b & Eb & Hb). rewrite HT in Eb. injection Eb as <-. apply Hb. reflexivity.
  - exfalso. unfold point_query in HT. rewrite seek_above in HT by exact H. discriminate.
Qed.
Theorem shrink_range i d t' l r : valid c s d -> Forall2 shrunk (d_tree d) t' -> valid c s' (mkdiva s' t') -> kok l -> kok r -> int_ok i d l r -> key_lt r l = false ->
  range_query i c d l r = Ok true -> range_query i c (mkdiva s' t') l r = Ok true.
Proof.
  intros HV HF HV' Kl Kr Hi Hlr. pose proof (cut_fst _ _ HF) as Hfst.
  assert (Hi' : int_ok i (mkdiva s' t') l r) by (intros E; destruct (Hi E) as (S1 & S2 & S3); cbn [d_tree]; rewrite Hfst; auto).
  rewrite (range_query_any c s Hs i d), (range_query_any c s' ltac:(lia) i (mkdiva s' t')) by assumption. clear Hi Hi' i.
  pose proof (valid_sorted _ _ _ HV) as Hso. intros HT. destruct (placed _ l Hso (v_some _ _ _ HV)) as [a st B E H|st B E|A pk st nk st' B E G1 G2|H].
  - unfold range_query in *. cbn [d_tree]. rewrite E in *. destruct t' as [|[a' w] B2]; [discriminate|]. cbn [map fst] in Hfst. injection Hfst as -> _.
    rewrite seek_below in * by exact H. cbn [peek snd bind skip1_rev] in *. destruct (key_le a r); [reflexivity|discriminate].
  - unfold range_query in *. cbn [d_tree]. rewrite E in *. destruct t' as [|[a' w] B2]; [discriminate|]. cbn [map fst] in Hfst. injection Hfst as -> _.
    rewrite seek_first in *. cbn [peek snd bind]. rewrite key_le_iff, Hlr. reflexivity.
  - pose proof (v_gap _ _ _ HV) as Ha. rewrite E in Ha, HF. apply adj_at in Ha. apply Forall2_app_inv_l in HF as (A2 & Y & HFA & HFY & Et).
    inversion HFY as [|? [pk2 st2] ? Y2 Hsh HFY2]; subst. inversion HFY2 as [|? [nk2 w2] ? B2 Hsh2 HFB]; subst. pose proof (proj1 Hsh) as E1. pose proof (proj1 Hsh2) as E2. cbn [fst] in E1, E2. subst pk2 nk2.
    destruct (range_query_spec c s Hs d A pk st nk st' B l r (v_size _ _ _ HV) E (v_gap _ _ _ HV) Kl Kr G1 G2 Hlr) as (b & Eb & Hb). rewrite HT in Eb. injection Eb as <-.
    destruct (range_query_spec c s' ltac:(lia) (mkdiva s' (A2 ++ (pk, st2) :: (nk, w2) :: B2)) A2 pk st2 nk w2 B2 l r eq_refl eq_refl (v_gap _ _ _ HV') Kl Kr G1 G2 Hlr) as (b' & Eb' & Hb').
    rewrite Eb'. f_equal. apply Hb'. destruct (proj1 Hb eq_refl) as [H|H]; [left; exact H|]. destruct (key_lt r nk) eqn:Er; [right|left; reflexivity].
    pose proof Ha as (K1 & K2 & _). assert (Plr : ple l r) by (apply nlt_ple; assumption).
    assert (Prn : ple r nk) by (apply key_lt_ple; assumption). assert (Ppl : ple pk l) by (apply key_lt_ple; assumption).
    eapply rcov_cut; [exact Hsh|exact Ha|exact Ppl| | |exact Prn|exact H]; intros n Hn; specialize (Plr n Hn); specialize (Prn n Hn); specialize (Ppl n Hn); lia.
  - exfalso. unfold range_query in HT. rewrite seek_above in HT by exact H. discriminate.
Qed.
End S.

(** ** the boundaries do not depend on the slot width *)
Lemma put_keys (t1 : tree) : forall t2 k v1 v2, map fst t1 = map fst t2 -> map fst (put t1 k v1) = map fst (put t2 k v2).
Proof.
  induction t1 as [|[a w] t1 IH]; intros [|[b u] t2] k v1 v2 H; cbn [map fst] in H; try discriminate; [reflexivity|]. injection H as -> H. cbn [put].
  destruct (key_eq b k); [cbn [map fst]; congruence|]. destruct (key_lt b k); cbn [map fst]; [rewrite (IH t2 k v1 v2 H); reflexivity|congruence].
Qed.
Lemma add_keys c d1 d2 k : boundaries d1 = boundaries d2 -> boundaries (add_tree_key c d1 k) = boundaries (add_tree_key c d2 k).
Proof. intros H. apply put_keys. exact H. Qed.
Lemma tail_keys c d1 d2 left rest e1 e2 : boundaries d1 = boundaries d2 -> load_tail c d1 left rest = Ok e1 -> load_tail c d2 left rest = Ok e2 -> boundaries e1 = boundaries e2.
Proof.
  intros H E1 E2. unfold load_tail in *. destruct (lower_bound_grade c (Z.of_nat (length (removelast rest)))) as [g| |]; try discriminate. cbn [bind] in *.
  destruct (chunk_store c (d_size d1) g left (last rest left) (removelast rest)) as [st1| |]; try discriminate.
  destruct (chunk_store c (d_size d2) g left (last rest left) (removelast rest)) as [st2| |]; try discriminate. cbn [bind] in *. injection E1 as <-. injection E2 as <-.
  destruct rest; [apply put_keys; exact H|]. apply add_keys. apply put_keys. exact H.
Qed.
Lemma chunks_keys c fuel : forall d1 d2 left rest e1 e2, boundaries d1 = boundaries d2 -> load_chunks fuel c d1 left rest = Ok e1 -> load_chunks fuel c d2 left rest = Ok e2 -> boundaries e1 = boundaries e2.
Proof.
  induction fuel as [|fuel IH]; intros d1 d2 left rest e1 e2 H E1 E2; [discriminate|]. cbn [load_chunks] in *. destruct (target_size <=? Z.of_nat (length rest)); [|eapply tail_keys; eassumption].
  destruct (chunk_store c (d_size d1) _ _ _ _) as [st1| |] in E1; try discriminate. destruct (chunk_store c (d_size d2) _ _ _ _) as [st2| |] in E2; try discriminate. cbn [bind] in *.
  eapply IH; [|exact E1|exact E2]. apply put_keys. exact H.
Qed.
Lemma keys_keys c d1 d2 keys e1 e2 : boundaries d1 = boundaries d2 -> load_keys c d1 keys = Ok e1 -> load_keys c d2 keys = Ok e2 -> boundaries e1 = boundaries e2.
Proof. intros H E1 E2. destruct keys; [discriminate|]. cbn [load_keys] in *. eapply chunks_keys; eassumption. Qed.
Lemma stream_keys c keys : forall d1 d2 sm x1 x2, boundaries d1 = boundaries d2 -> stream_all c (d1, sm) keys = Ok x1 -> stream_all c (d2, sm) keys = Ok x2 ->
  boundaries (fst x1) = boundaries (fst x2) /\ snd x1 = snd x2.
Proof.
  induction keys as [|k keys IH]; intros d1 d2 sm x1 x2 H E1 E2; cbn [stream_all] in *; [injection E1 as <-; injection E2 as <-; split; [exact H|reflexivity]|].
  unfold stream_add in *. destruct (sm_left sm) as [lk|]; [|cbn [bind] in *; eapply IH; eassumption].
  destruct (Z.of_nat (length (sm_buf sm)) <? target_size - 1); [cbn [bind] in *; eapply IH; eassumption|].
  destruct (chunk_store c (d_size d1) _ _ _ _) as [st1| |] in E1; try discriminate. destruct (chunk_store c (d_size d2) _ _ _ _) as [st2| |] in E2; try discriminate. cbn [bind] in *.
  eapply IH; [|exact E1|exact E2]. apply put_keys. exact H.
Qed.
Lemma load_bounds c s s' m keys d1 d2 : load c s m keys = Ok d1 -> load c s' m keys = Ok d2 -> boundaries d1 = boundaries d2.
Proof.
  intros E1 E2. destruct m as [len| |]; cbn [load] in *.
  - unfold bulk_load_fixed in *. eapply keys_keys; [|exact E1|exact E2]. apply add_keys. apply add_keys. reflexivity.
  - unfold bulk_load_var in *. destruct (load_keys c (add_tree_key c (mkdiva s []) _) keys) as [e1| |] eqn:L1; try discriminate. destruct (load_keys c (add_tree_key c (mkdiva s' []) _) keys) as [e2| |] eqn:L2; try discriminate.
    cbn [bind] in *. injection E1 as <-. injection E2 as <-. apply add_keys. eapply keys_keys; [|exact L1|exact L2]. apply add_keys. reflexivity.
  - unfold bulk_load_stream in *. destruct (stream_all c (mkdiva s [], _) keys) as [[e1 sm1]| |] eqn:L1; try discriminate. destruct (stream_all c (mkdiva s' [], _) keys) as [[e2 sm2]| |] eqn:L2; try discriminate.
    cbn [bind] in *. destruct (stream_keys c keys _ _ _ _ _ (eq_refl : boundaries (mkdiva s []) = boundaries (mkdiva s' [])) L1 L2) as [H Hsm]. cbn [fst snd] in *. subst sm2. unfold stream_finish in *. destruct (sm_left sm1); [|discriminate].
    destruct (sm_buf sm1); [injection E1 as <-; injection E2 as <-|eapply tail_keys; [|exact E1|exact E2]]; apply add_keys; apply add_keys; exact H.
Qed.

(** ** filters with a history *)
Section Q.
Variable junk : Z.
Notation c := (machine junk).
Variables s s' : Z.
Hypothesis Hs : 1 <= s <= 46.
Hypothesis Hs' : 1 <= s' <= s.
Let T := machine_ok junk.
Let Hf : fits c s := machine_fits junk s ltac:(lia).
Let Hf' : fits c s' := machine_fits junk s' ltac:(lia).
Let Hc : c_strict c = false := eq_refl.
Lemma sep_odd : c_size c grow_sep mod 8 <> 0.
Proof. vm_compute. discriminate. Qed.

Lemma shrink_valid_keeps d : valid c s d -> last_st (d_tree d) = blankst c s -> shrinkable d ->
  exists d', shrink c d s' = Ok d' /\ d_size d' = s' /\ boundaries d' = boundaries d /\ valid c s' d' /\
    (forall k, bytes k -> point_query c d k = Ok true -> point_query c d' k = Ok true) /\
    (forall i l r, bytes l -> bytes r -> le l r -> int_ok i d l r -> range_query i c d l r = Ok true -> range_query i c d' l r = Ok true).
Proof.
  intros HV Hl Hro. destruct (shrink_valid c s s' Hs Hs' T Hf Hf' sep_odd d HV Hl Hro) as (t' & E & HF & HV'). exists (mkdiva s' t'). split; [exact E|]. split; [reflexivity|].
  split; [apply (cut_fst c s s' _ _ HF)|]. split; [exact HV'|]. split.
  - intros k Bk. exact (shrink_point c s s' Hs Hs' sep_odd d t' k HV HF HV' Bk).
  - intros i l r Bl Br Hle Hi. apply le_iff in Hle. exact (shrink_range c s s' Hs Hs' sep_odd i d t' l r HV HF HV' Bl Br Hi Hle).
Qed.
Theorem shrink_history m keys ops d : loadable m keys -> lawful_history c s m keys ops -> history c s m keys ops = Ok d -> shrinkable d ->
  exists d', shrink c d s' = Ok d' /\ d_size d' = s' /\ boundaries d' = boundaries d /\
    (forall k, bytes k -> point_query c d k = Ok true -> point_query c d' k = Ok true) /\
    (forall int_opt l r, bytes l -> bytes r -> le l r -> suited int_opt m l r -> range_query int_opt c d l r = Ok true -> range_query int_opt c d' l r = Ok true) /\
    (forall k, In k (remaining keys ops) -> point_query c d' k = Ok true /\
      forall int_opt l r, bytes l -> bytes r -> suited int_opt m l r -> le l k -> le k r -> range_query int_opt c d' l r = Ok true).
Proof.
  intros HL HA E Hsh. destruct (history_facts junk s Hs m keys ops d HL HA E) as (HV & Hl & _).
  destruct (shrink_valid_keeps d HV Hl Hsh) as (d' & Ed & Es & Eb & _ & Hp & Hr). exists d'. split; [exact Ed|]. split; [exact Es|]. split; [exact Eb|]. split; [exact Hp|].
  assert (Hr' : forall int_opt l r, bytes l -> bytes r -> le l r -> suited int_opt m l r -> range_query int_opt c d l r = Ok true -> range_query int_opt c d' l r = Ok true).
  { intros i l r Bl Br Hle HSu. apply Hr; auto. eapply history_suited; eassumption. }
  split; [exact Hr'|]. intros k Hk.
  assert (Bk : bytes k).
  { destruct (history_holds c s Hs T Hf Hc m keys ops HL HA) as (d0 & d1 & E0 & E1 & HH & _). exact (proj1 (holds_cov c s Hs m keys d1 _ k HL HH Hk)). }
  destruct (history_found junk s Hs m keys ops HL HA) as (d1 & E1 & HF). rewrite E in E1. injection E1 as <-.
  destruct (HF k Hk) as [F1 F2]. split; [apply Hp; assumption|]. intros i l r Bl Br HSu L1 L2. apply Hr'; auto. apply le_iff. apply le_iff in L1, L2.
  destruct (key_lt r l) eqn:Erl; [|reflexivity]. rewrite (lt_nlt_trans _ _ _ Erl L1) in L2. discriminate.
Qed.
Theorem shrink_grown len keys ops d : grown c s len keys ops d -> shrinkable d ->
  exists d', shrink c d s' = Ok d' /\ d_size d' = s' /\ boundaries d' = boundaries d /\
    (forall k, bytes k -> point_query c d k = Ok true -> point_query c d' k = Ok true) /\
    (forall int_opt l r, bytes l -> bytes r -> le l r -> suited int_opt (FixedLength len) l r -> range_query int_opt c d l r = Ok true -> range_query int_opt c d' l r = Ok true).
Proof.
  intros HG Hsh. pose proof (grown_valid c s Hs T Hf _ _ _ _ HG) as HV. pose proof (grown_last c s Hs T Hf _ _ _ _ HG) as Hl.
  destruct (shrink_valid_keeps d HV Hl Hsh) as (d' & Ed & Es & Eb & _ & Hp & Hr). exists d'. split; [exact Ed|]. split; [exact Es|]. split; [exact Eb|]. split; [exact Hp|].
  intros i l r Bl Br Hle HSu. apply Hr; auto. eapply grown_int; eassumption.
Qed.

(** a shrunk filter and a filter that had the narrow slots from the beginning *)
Theorem shrink_like_narrow m keys ops d : loadable m keys -> lawful_history c s m keys ops -> lawful_history c s' m keys ops ->
  history c s m keys ops = Ok d -> shrinkable d ->
  exists d' d2, shrink c d s' = Ok d' /\ history c s' m keys ops = Ok d2 /\ boundaries d' = boundaries d2 /\
    (forall k, bytes k -> point_query c d' k = point_query c d2 k) /\
    (forall int_opt l r, bytes l -> bytes r -> le l r -> suited int_opt m l r -> range_query int_opt c d' l r = range_query int_opt c d2 l r).
Proof.
  intros HL HA HA' E Hsh.
  destruct (history_holds c s Hs T Hf Hc m keys ops HL HA) as (d0 & d1 & E0 & E1 & (X & HX & HI & W & _) & B1 & L1). rewrite E in E1. injection E1 as <-.
  destruct (history_holds c s' ltac:(lia) T Hf' Hc m keys ops HL HA') as (e0 & e1 & F0 & F1 & (Y & HY & HJ & _) & B2 & _).
  destruct (shrink_inv c s s' Hs Hs' T Hf Hf' sep_odd X _ _ d HI (within_kok _ _ _ W) L1 Hsh) as (t' & Ed & HF & HI').
  assert (Eb : boundaries (mkdiva s' t') = boundaries e1).
  { unfold boundaries at 1. cbn [d_tree]. rewrite (cut_fst c s s' _ _ HF). fold (boundaries d). rewrite B1, B2. f_equal. eapply load_bounds; eassumption. }
  assert (Eb' : boundaries d = boundaries e1) by (rewrite B1, B2; f_equal; eapply load_bounds; eassumption).
  exists (mkdiva s' t'), e1. split; [exact Ed|]. split; [exact F1|]. split; [exact Eb|].
  assert (HP : Permutation Y X).
  { apply (Permutation_app_inv_r (bkeys (boundaries d) keys)). etransitivity; [|exact HX]. rewrite Eb'. symmetry. exact HY. }
  apply (inv_perm _ _ _ _ _ _ _ HP) in HJ.
  assert (Hr : forall i l r, bytes l -> bytes r -> le l r -> suited i m l r -> range_query i c (mkdiva s' t') l r = range_query i c e1 l r).
  { intros i l r Kl Kr Hle Hi. apply le_iff in Hle. apply (same_answers c s' ltac:(lia) X (low_end m keys) (high_end m keys) (mkdiva s' t') e1 i l r HI' HJ Eb (within_kok _ _ _ W) Kl Kr); [|exact Hle].
    intros Ei. unfold boundaries in Eb. rewrite Eb. exact (history_suited junk s' ltac:(lia) i m keys ops e1 l r HL HA' F1 Hi Ei). }
  split; [|exact Hr]. intros k Kk.
  rewrite (point_is_range c s' ltac:(lia) false (mkdiva s' t') k (inv_valid _ _ _ _ _ _ HI') Kk ltac:(intros Hd; discriminate)).
  rewrite (point_is_range c s' ltac:(lia) false e1 k (inv_valid _ _ _ _ _ _ HJ) Kk ltac:(intros Hd; discriminate)).
  apply Hr; auto; [left; reflexivity|intros Hd; discriminate].
Qed.
End Q.
