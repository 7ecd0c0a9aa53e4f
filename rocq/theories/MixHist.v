(** Histories that mix insertions, splits and deletions. *)
From Coq Require Import ZArith List Bool Lia Sorting.Sorted Permutation.
From Coq Require Import ZifyBool ZifyNat.
From Verif Require Import Base Util Store Bits View Cells Lowbit Key KeyBits KeyOrder RangeInt Diva Tree StoreRep StoreDelete StoreMatch Spec SpecFilter Filter Bulk Hist Contents DelHist Tables
  Match Held SplitList SplitKeys Split SplitHist MixDel SpecMixed.
Import ListNotations.
Open Scope Z_scope.

Section G.
Variable c : cfg.
Variable s : Z.
Hypothesis Hs : 1 <= s <= 46.
Hypothesis T : tables_ok c.
Hypothesis Hf : fits c s.
Notation inf := (inf c s).
Notation gapx := (gapx c s).
Notation stem := (stem c s).
Notation at_inf := (at_inf c s).
Notation mat := (mat c s).
Notation heldt := (heldt c s).
Notation gcov := (gcov c s).

Lemma incl_perm (K X : list key) : NoDup K -> (forall k, In k K -> In k X) -> exists R, Permutation X (K ++ R).
Proof.
  revert X. induction K as [|k K IH]; intros X Hn Hi; [exists X; reflexivity|]. inversion Hn as [|? ? H1 H2]; subst.
  pose proof (Hi k (or_introl eq_refl)) as Hk. apply in_split in Hk as (X1 & X2 & ->). destruct (IH (X1 ++ X2) H2) as (R & HR).
  - intros k' Hk'. pose proof (Hi k' (or_intror Hk')) as H. apply in_app_or in H. apply in_or_app. destruct H as [H|[->|H]]; auto. contradiction.
  - exists R. cbn [app]. rewrite <- HR. symmetry. apply Permutation_middle.
Qed.
Lemma lt_nodup (keys : list key) : StronglySorted lt keys -> NoDup keys.
Proof.
  induction 1 as [|k keys H IH Hk]; [constructor|]. constructor; [|exact IH]. intros Hin. rewrite Forall_forall in Hk. specialize (Hk k Hin).
  apply lt_iff in Hk. rewrite key_lt_irrefl in Hk. discriminate.
Qed.

Lemma load_held len keys d : loadable (FixedLength len) keys -> load c s (FixedLength len) keys = Ok d -> heldt keys (d_tree d).
Proof.
  intros HL E. pose proof (loaded c s Hs T Hf (FixedLength len) keys HL) as (d' & X & E' & HI & Hsm & HX & HB & E1 & E2). rewrite E in E'. injection E' as <-.
  pose proof HL as [Hb _ _ [Hlen Hst]]. rewrite Forall_forall in Hb, Hlen. pose proof HI as (I1 & I2 & I3 & I4 & I5 & I6). pose proof (inv_sorted _ _ _ _ _ _ HI) as Hso.
  unfold Held.heldt. rewrite adj_iff in *. intros A a st b w B Et. pose proof (I5 _ _ _ _ _ _ Et) as (K1 & K2 & K3 & K4 & L0 & HR). destruct (I6 _ _ _ _ _ _ Et) as (Hp & L1 & EL1 & HP).
  destruct (seg_ex c a b K1 K2 K3) as (sh & ig & z & HS).
  intros L EL. rewrite EL1 in EL. injection EL as <-.
  assert (HK : forall k, In k (filter (need a st b) keys) -> In k (filter (inside a b) X)).
  { intros k Hk. apply filter_In in Hk as [Hk Hn]. apply need_iff in Hn as (N1 & N2 & _). apply filter_In. split; [|unfold inside; rewrite (key_lt_asym _ _ N1), N2; reflexivity].
    apply HX. split; [exact Hk|]. unfold boundaries. intros Hin. rewrite Et in Hso, Hin. apply in_map_iff in Hin as ([k0 w0] & Ek & Hin). cbn [fst] in Ek. subst k0.
    apply in_app_or in Hin as [Hin|[Hin|[Hin|Hin]]].
    - pose proof (sorted_app_below _ _ _ Hso _ Hin) as Hlt. cbn [fst] in Hlt. rewrite (key_lt_asym _ _ Hlt) in N1. discriminate.
    - inversion Hin; subst. rewrite key_lt_irrefl in N1. discriminate.
    - inversion Hin; subst. rewrite key_lt_irrefl in N2. discriminate.
    - change ((a, st) :: (b, w) :: B) with ([(a, st)] ++ (b, w) :: B) in Hso. rewrite app_assoc in Hso. apply sorted_tail in Hso.
      pose proof (sorted_below _ _ Hso _ Hin) as Hlt. cbn [fst] in Hlt. rewrite (key_lt_asym _ _ Hlt) in N2. discriminate. }
  destruct (incl_perm _ _ (NoDup_filter _ (lt_nodup _ Hst)) HK) as (R & HPR).
  apply (matched_right _ _ (map (Contents.infx c s a b) (filter (need a st b) keys ++ R))).
  { rewrite HP. apply Permutation_map. symmetry. exact HPR. }
  rewrite map_app. exists (map (Contents.infx c s a b) (filter (need a st b) keys)), (map (Contents.infx c s a b) R). split; [reflexivity|].
  assert (Hall : forall k, In k (filter (need a st b) keys) -> at_inf a b k (Contents.infx c s a b k)).
  { intros k Hk. apply filter_In in Hk as [Hk Hn]. apply need_iff in Hn as (N1 & N2 & _). pose proof (Hb k Hk) as Kk.
    destruct (inf_range c s Hs _ _ _ _ _ k HS (key_lt_ple _ _ K1 Kk N1) (key_lt_ple _ _ Kk K2 N2)) as (J1 & J2 & J3). unfold Contents.infx, Held.at_inf.
    assert (2 ^ 56 < 2 ^ 63) by (vm_compute; reflexivity). apply hit_self; lia. }
  clear -Hall. induction (filter (need a st b) keys) as [|k l IH]; cbn [map]; constructor; [apply Hall; left; reflexivity|apply IH; intros k' Hk'; apply Hall; right; exact Hk'].
Qed.

(** what holds along a history *)
Definition sound (len : nat) (ks : list key) (d : diva) : Prop :=
  stem (Z.of_nat len) (repeat 0 len) (repeat 255 len) d /\ heldt ks (d_tree d) /\ last_st (d_tree d) = blankst c s /\ (forall k, In k ks -> kok k /\ length k = len).

Lemma step_held len d ks k split d' : sound len ks d -> kok k -> length k = len -> lt k (repeat 255 len) -> counters_free d -> (split = true -> apart s len d k) ->
  insert c d k split = Ok d' -> sound len (k :: ks) d'.
Proof.
  intros (HS & HH & HL & HK) Kk Hl Hhi HC HA E. assert (Hlo : key_lt k (repeat 0 len) = false) by (rewrite <- Hl; apply zeros_low; exact Kk). apply lt_iff in Hhi.
  destruct (step_stem c s Hs T Hf len _ _ d k split d' HS Kk Hl Hlo Hhi HC HA E) as (S1 & _ & _ & S4).
  split; [exact S1|]. split; [|split; [congruence|intros k' [<-|H]; auto]].
  destruct (step_done c s Hs T Hf len _ _ d k split d' HS Kk Hl Hlo Hhi HC HA E) as (A & pk & st & nk & st' & B & Et & _ & _ & HD).
  apply (dn_held _ _ _ _ _ _ _ _ _ _ _ HD); [|exact HH]. intros k' Hk'. destruct (HK k' Hk') as [Q1 Q2]. split; [exact Q1|]. unfold klen. lia.
Qed.
Lemma drop_both len d ks k d' : Z.of_nat len < 2 ^ 29 -> sound len ks d -> In k ks -> uncrammed c d k -> delete c d k = Ok d' -> boundaries d' = boundaries d ->
  sound len (remove_one k ks) d' /\ (forall k', covt gcov (d_tree d') k' -> covt gcov (d_tree d) k').
Proof.
  intros Hlen (HS & HH & HL & HK) Hin Hun E Hb. destruct (HK k Hin) as [Kk Hl]. assert (Hlo : key_lt k (repeat 0 len) = false) by (rewrite <- Hl; apply zeros_low; exact Kk).
  pose proof (remove_one_perm k ks Hin) as HP.
  assert (Hks : forall k', In k' (remove_one k ks) -> kok k' /\ length k' = len) by (intros k' Hk'; apply HK; apply (Permutation_in _ (Permutation_sym HP)); right; exact Hk').
  assert (Hhi : key_lt k (repeat 255 len) = true).
  { destruct (key_lt k (repeat 255 len)) eqn:Ek; [reflexivity|exfalso]. pose proof (ffs_high k len Kk ltac:(lia)) as Hf2.
    destruct (nlt_cases _ _ Ek) as [E1|E1]; [|congruence]. pose proof HS as (Hds & Hne & _ & S4 & _). pose proof (stem_valid _ _ _ _ _ _ HS) as HV. pose proof (valid_sorted _ _ _ HV) as Hso.
    destruct (exists_last Hne) as (A & [x st] & Et). assert (x = k) by (rewrite Et, last_app_cons in S4; unfold last_key in S4; cbn in S4; congruence). subst x.
    rewrite Et, last_st_app in HL. unfold last_st in HL. cbn [last snd] in HL. unfold delete in E. rewrite Et in E, Hso. rewrite seek_hit in E by exact Hso. cbn [peek snd bind] in E. rewrite key_eq_refl in E.
    rewrite HL in E. change (is_partial_key (blankst c s)) with false in E. cbn [andb negb] in E. rewrite <- HL in E. apply (merge_moves c d A k st [] d' Hso Et E). exact Hb. }
  destruct (delete_held c s Hs T Hf (Z.of_nat len) _ _ d (remove_one k ks) k d' HS ltac:(lia) Kk ltac:(unfold klen; lia)) as (D1 & D2 & D3 & D4); auto.
  - intros k' Hk'. destruct (Hks k' Hk') as [Q1 Q2]. split; [exact Q1|]. unfold klen. lia.
  - apply (heldt_perm c s ks); [exact HP|exact HH].
  - split; [|exact D4]. split; [exact D1|]. split; [exact D2|]. split; [congruence|exact Hks].
Qed.
Lemma drop_held len d ks k d' : Z.of_nat len < 2 ^ 29 -> sound len ks d -> In k ks -> uncrammed c d k -> delete c d k = Ok d' -> boundaries d' = boundaries d -> sound len (remove_one k ks) d'.
Proof. intros H1 H2 H3 H4 H5 H6. apply (drop_both len d ks k d' H1 H2 H3 H4 H5 H6). Qed.
Lemma acts_sound len acts : Z.of_nat len < 2 ^ 29 -> forall d ks d', sound len ks d -> steady c s len d ks acts -> do_acts c d acts = Ok d' -> sound len (left_over ks acts) d'.
Proof.
  intros Hlen. induction acts as [|a acts IH]; intros d ks d' HS HO E; [injection E as <-; exact HS|]. cbn [do_acts] in E. apply bind_ok in E as (d1 & E1 & E2).
  destruct a as [k split|k]; cbn [do_act steady left_over] in *.
  - destruct HO as ((W1 & W2 & W3) & W4 & W5 & W6). apply (IH d1); [|apply W6; exact E1|exact E2]. apply (step_held len d ks k split); auto.
  - destruct HO as (W1 & W2 & W3). destruct (W3 d1 E1) as [W4 W5]. apply (IH d1); [|exact W5|exact E2]. apply (drop_held len d ks k); auto.
Qed.
Lemma mixed_sound len keys acts d : mixed c s len keys acts d -> sound len (left_over keys acts) d.
Proof.
  intros (Hlen & HL & HO & E). apply bind_ok in E as (d0 & E0 & E). apply (acts_sound len acts Hlen d0 keys d); [|apply HO; exact E0|exact E].
  destruct (load_stem c s Hs T Hf len keys d0 HL E0) as [S0 C0]. split; [exact S0|]. split; [apply (load_held len); assumption|]. split; [apply (loaded_last c s Hs T Hf (FixedLength len) keys d0 HL E0)|].
  intros k Hk. destruct (C0 k Hk) as (Q1 & Q2 & _). auto.
Qed.
Lemma sound_cov len ks d k : sound len ks d -> In k ks -> kok k /\ covt gcov (d_tree d) k.
Proof.
  intros (HS & HH & HL & HK) Hin. destruct (HK k Hin) as [Kk Hl]. split; [exact Kk|]. pose proof (stem_valid _ _ _ _ _ _ HS) as HV. pose proof HS as (Hds & Hne & S3 & S4 & _).
  destruct (key_lt k (repeat 255 len)) eqn:Ek.
  - apply (held_cov c s ks (d_tree d) k); auto; [apply (v_gap _ _ _ HV)|rewrite S3, <- Hl; apply zeros_low; exact Kk|rewrite S4; exact Ek].
  - pose proof (ffs_high k len Kk ltac:(lia)) as Hf2. destruct (nlt_cases _ _ Ek) as [E1|E1]; [|congruence].
    destruct (exists_last Hne) as (A & [x st] & Et). assert (x = k) by (rewrite Et, last_app_cons in S4; unfold last_key in S4; cbn in S4; congruence). subst x.
    rewrite Et. apply covt_tree.
Qed.
End G.
