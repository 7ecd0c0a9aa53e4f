(** Positive answers have a reason, also after splits and deletions: every filter that a
    mixed history builds answers positively only where it cannot tell the query from a
    boundary of the loaded filter or from a key that was put in. *)
From Coq Require Import ZArith List Bool Lia Sorting.Sorted Permutation.
From Coq Require Import ZifyBool ZifyNat.
From Verif Require Import Base Util Store Tables Bits View Cells Lowbit Key KeyBits KeyOrder Diva Tree StoreRep Spec SpecFilter Filter Bulk Hist Contents Claims DelHist RangeInt
  SplitList SplitKeys Split SplitHist MixDel SpecSplit SpecMixed MixHist.
Import ListNotations.
Open Scope Z_scope.

(** ** keys with a given prefix *)
Fixpoint mk (m : nat) (v : Z) : key :=
  match m with O => [] | S m' => (v / 2 ^ (8 * Z.of_nat m')) mod 256 :: mk m' v end.
Lemma mk_kok m v : kok (mk m v).
Proof. unfold kok. induction m as [|m IH]; cbn [mk]; constructor; [|exact IH]. apply Z.mod_pos_bound. lia. Qed.
Lemma mk_pre m v : pre (8 * Z.of_nat m) (mk m v) = v mod 2 ^ (8 * Z.of_nat m).
Proof.
  induction m as [|m IH]; [cbn [mk]; change (8 * Z.of_nat 0) with 0; rewrite Z.pow_0_r, Z.mod_1_r; reflexivity|]. cbn [mk].
  replace (8 * Z.of_nat (S m)) with (8 + 8 * Z.of_nat m) by lia. rewrite pre_cons by (try lia; apply (mk_kok (S m) v)). rewrite IH.
  rewrite Z.pow_add_r by lia. change (2 ^ 8) with 256. rewrite (Z.mul_comm 256). rewrite Z.rem_mul_r by lia. ring.
Qed.
Lemma key_with n v : 0 <= n -> 0 <= v < 2 ^ n -> exists k, kok k /\ pre n k = v.
Proof.
  intros Hn Hv. set (m := Z.to_nat n). set (e := 8 * Z.of_nat m - n). assert (He : 0 <= e) by (unfold e, m; lia).
  exists (mk m (v * 2 ^ e)). split; [apply mk_kok|]. pose proof (mk_pre m (v * 2 ^ e)) as H. replace (8 * Z.of_nat m) with (n + e) in H by (unfold e; lia).
  assert (Hp : 0 < 2 ^ e) by (apply Z.pow_pos_nonneg; lia).
  rewrite Z.mod_small in H by (rewrite Z.pow_add_r by lia; split; [apply Z.mul_nonneg_nonneg; lia|apply Z.mul_lt_mono_pos_r; lia]).
  rewrite <- (pre_div n e) by lia. rewrite H. apply Z.div_mul. lia.
Qed.

Section G.
Variable c : cfg.
Variable s : Z.
Hypothesis Hs : 1 <= s <= 46.
Hypothesis T : tables_ok c.
Hypothesis Hf : fits c s.
Notation inf := (inf c s).
Notation gapx := (gapx c s).
Notation stem := (stem c s).
Notation gcov := (gcov c s).
Notation gapok := (gapok c s).

(** ** a positive range has a positive point *)
Lemma rcov_point pk st nk l r : gapok pk st nk -> kok l -> kok r -> key_lt pk l = true -> key_lt r l = false -> key_lt r nk = true -> rcov c s pk st nk l r ->
  exists q, kok q /\ key_lt q l = false /\ key_lt r q = false /\ gcov pk st nk q.
Proof.
  intros (K1 & K2 & K3 & K4 & L0 & HR) Kl Kr H1 H2 H3 [Hp|(L & x & EL & Hx & Hh1 & Hh2)].
  { exists l. split; [exact Kl|]. split; [apply key_lt_irrefl|]. split; [exact H2|left; exact Hp]. }
  destruct (seg_ex c pk nk K1 K2 K3) as (sh & ig & z & HS). destruct (seg_tot _ _ _ _ _ _ HS) as [_ Hq].
  pose proof (key_lt_ple _ _ K1 Kl H1) as P1. pose proof (nlt_ple _ _ Kl Kr H2) as P2. pose proof (key_lt_ple _ _ Kr K2 H3) as P3.
  destruct (inf_range c s Hs _ _ _ _ _ l HS P1 (ple_trans _ _ _ P2 P3)) as (I1 & I2 & I3).
  destruct (inf_range c s Hs _ _ _ _ _ r HS (ple_trans _ _ _ P1 P2) P3) as (J1 & J2 & J3).
  rewrite (rep_list _ _ _ _ _ _ HR) in EL. injection EL as <-. pose proof (infs_elem s Hs L0 (rep_infs _ _ _ _ _ _ HR)) as HE. rewrite Forall_forall in HE. destruct (HE x Hx) as [Ex _].
  pose proof (elem_small s Hs x Ex) as Sx. destruct (lor1_range (inf pk nk l) ltac:(lia)) as [V1 _]. destruct (lor1_range (inf pk nk r) ltac:(lia)) as [V2 _].
  fold (up x) in Hh2. destruct (Z.le_gt_cases (lbase x) (inf pk nk l)) as [Hle|Hgt].
  { exists l. split; [exact Kl|]. split; [apply key_lt_irrefl|]. split; [exact H2|]. right. exists L0, x. split; [apply (rep_list _ _ _ _ _ _ HR)|]. split; [exact Hx|]. unfold hit. fold (up x). lia. }
  destruct (lowbit_form x Sx) as (t & m & Ht & Hm & Et & E1 & E2 & E3 & E4).
  assert (Hev : lbase x <= inf pk nk r).
  { assert (Hlb : lbase x = 2 * (2 ^ t * m)) by (rewrite E3; ring). rewrite lor1 in Hh1 by lia. pose proof (Z.div_mod (inf pk nk r) 2 ltac:(lia)). pose proof (Z.mod_pos_bound (inf pk nk r) 2 ltac:(lia)). lia. }
  assert (Hup : lbase x <= up x) by (apply (elem_up s Hs); exact Ex).
  destruct (Z.le_gt_cases (inf pk nk r) (up x)) as [Hle2|Hgt2].
  { exists r. split; [exact Kr|]. split; [exact H2|]. split; [apply key_lt_irrefl|]. right. exists L0, x. split; [apply (rep_list _ _ _ _ _ _ HR)|]. split; [exact Hx|]. unfold hit. fold (up x). lia. }
  set (n := qof c pk nk + s). assert (Hn : 0 <= n) by (unfold n; lia).
  assert (Hlr : forall v, inf pk nk l < v < inf pk nk r -> exists q, kok q /\ inf pk nk q = v /\ key_lt q l = false /\ key_lt r q = false).
  { intros v Hv. pose proof (pre_range n l Hn) as R1. pose proof (pre_range n r Hn) as R2. unfold Filter.inf in Hv. fold n in Hv.
    destruct (key_with n (v + pre (qof c pk nk) pk * 2 ^ s) Hn ltac:(lia)) as (q & Kq & Eq). exists q. split; [exact Kq|]. split; [unfold Filter.inf; fold n; lia|]. split.
    - apply key_lt_asym. apply plt_key_lt; [exact Kl|exact Kq|]. exists n. split; [exact Hn|lia].
    - apply key_lt_asym. apply plt_key_lt; [exact Kq|exact Kr|]. exists n. split; [exact Hn|lia]. }
  destruct (Hlr (lbase x) ltac:(lia)) as (q & Kq & Eq & Q1 & Q2). exists q. split; [exact Kq|]. split; [exact Q1|]. split; [exact Q2|].
  right. exists L0, x. split; [apply (rep_list _ _ _ _ _ _ HR)|]. split; [exact Hx|]. unfold hit. fold (up x). lia.
Qed.
Lemma range_point len d l r : stem (Z.of_nat len) (repeat 0 len) (repeat 255 len) d -> kok l -> length l = len -> kok r -> key_lt r l = false ->
  range_query false c d l r = Ok true -> exists q, kok q /\ key_lt q l = false /\ key_lt r q = false /\ covt gcov (d_tree d) q.
Proof.
  intros HS Kl Hl Kr Hlr H. pose proof (stem_valid _ _ _ _ _ _ HS) as HV. pose proof (valid_sorted _ _ _ HV) as Hso. pose proof HS as (_ & S2 & S3 & S4 & _).
  destruct (placed _ l Hso S2) as [a st B E Hb|st B E|A pk st nk st' B E G1 G2|Ha].
  - exfalso. rewrite E in S3. cbn [hd_key] in S3. rewrite S3, <- Hl, zeros_low in Hb by exact Kl. discriminate.
  - exists l. split; [exact Kl|]. split; [apply key_lt_irrefl|]. split; [exact Hlr|]. rewrite E. apply (covt_tree _ []).
  - destruct (range_query_spec c s Hs d A pk st nk st' B l r (v_size _ _ _ HV) E (v_gap _ _ _ HV) Kl Kr G1 G2 Hlr) as (b & Eb & Hb). rewrite H in Eb. injection Eb as <-.
    pose proof (proj1 Hb eq_refl) as Hc. pose proof (v_gap _ _ _ HV) as Ha. rewrite E in Ha, Hso. pose proof (adj_at _ _ _ _ _ _ _ _ Ha) as HG. pose proof HG as (K1 & K2 & _).
    destruct (key_lt r nk) eqn:Er.
    + destruct Hc as [Hc|Hc]; [discriminate|]. destruct (rcov_point pk st nk l r HG Kl Kr G1 Hlr Er Hc) as (q & Kq & Q1 & Q2 & Q3). exists q. split; [exact Kq|]. split; [exact Q1|]. split; [exact Q2|].
      rewrite E. apply (covt_gap gcov A pk st nk st' B q Hso); [apply (lt_nlt_trans _ _ _ G1 Q1)|apply (nlt_lt_trans _ _ _ Q2 Er)|exact Q3].
    + exists nk. split; [exact K2|]. split; [exact G2|]. split; [exact Er|]. rewrite E. change ((pk, st) :: (nk, st') :: B) with ([(pk, st)] ++ (nk, st') :: B). rewrite app_assoc. apply covt_tree.
  - exfalso. destruct (d_tree d) as [|y B] eqn:E; [congruence|]. destruct (last_key_in y B) as (z & Hz & Ez). specialize (Ha z Hz). rewrite Ez, S4, <- Hl in Ha.
    rewrite (ffs_high l (length l) Kl ltac:(lia)) in Ha. discriminate.
Qed.

(** ** the reasons along a history *)
Definition why (t0 : tree) (X : list key) (d : diva) : Prop :=
  (forall b, In b (map fst t0) -> In b (map fst (d_tree d))) /\
  forall q, kok q -> covt gcov (d_tree d) q -> covt gcov t0 q \/
    exists A a st b st' B k, t0 = A ++ (a, st) :: (b, st') :: B /\ In k X /\ key_lt a q = true /\ key_lt q b = true /\ key_lt k a = false /\ key_lt k b = true /\ near c s a b k q.

Lemma tree_above A pk st nk st' B x : sorted (A ++ (pk, st) :: (nk, st') :: B) -> In x (map fst (A ++ (pk, st) :: (nk, st') :: B)) -> key_lt x nk = true -> key_lt pk x = false.
Proof.
  intros Hso Hin Hx. apply in_map_iff in Hin as ([x' w] & Ex & Hin). cbn [fst] in Ex. subst x'. apply in_app_or in Hin as [Hin|[Hin|[Hin|Hin]]].
  - pose proof (sorted_app_below _ _ _ Hso _ Hin) as H. cbn [fst] in H. apply key_lt_asym. exact H.
  - inversion Hin; subst. apply key_lt_irrefl.
  - inversion Hin; subst. rewrite key_lt_irrefl in Hx. discriminate.
  - change ((pk, st) :: (nk, st') :: B) with ([(pk, st)] ++ (nk, st') :: B) in Hso. rewrite app_assoc in Hso. apply sorted_tail in Hso. pose proof (sorted_below _ _ Hso _ Hin) as H. cbn [fst] in H.
    rewrite (key_lt_asym _ _ H) in Hx. discriminate.
Qed.
Lemma tree_below A pk st nk st' B x : sorted (A ++ (pk, st) :: (nk, st') :: B) -> In x (map fst (A ++ (pk, st) :: (nk, st') :: B)) -> key_lt pk x = true -> key_lt x nk = false.
Proof. intros Hso Hin Hx. destruct (key_lt x nk) eqn:E; [|reflexivity]. rewrite (tree_above _ _ _ _ _ _ _ Hso Hin E) in Hx. discriminate. Qed.

Lemma qof_mono a b a' b' : kok a -> kok b -> kok a' -> kok b' -> plt a b -> plt a' b' -> ple a a' -> ple b' b -> qof c a b <= qof c a' b'.
Proof.
  intros K1 K2 K3 K4 H1 H2 H3 H4. destruct (seg_ex c a b K1 K2 H1) as (sh & ig & z & HS). destruct (seg_ex c a' b' K3 K4 H2) as (sh' & ig' & z' & HS').
  rewrite (sg_q _ _ _ _ _ _ HS), (sg_q _ _ _ _ _ _ HS'). apply (gap_mono _ _ _ _ _ _ _ _ _ _ (sg_gap _ _ _ _ _ _ HS) (sg_gap _ _ _ _ _ _ HS')).
  intros n Hn. unfold dist. specialize (H3 n Hn). specialize (H4 n Hn). lia.
Qed.

Lemma why_step len d0 X d k d' A pk st nk st' B : stem len (hd_key (d_tree d0)) (last_key (d_tree d0)) d0 -> adj gapok (d_tree d) -> why (d_tree d0) X d -> kok k -> key_lt k pk = false -> key_lt k nk = true ->
  d_tree d = A ++ (pk, st) :: (nk, st') :: B -> done c s len d d' A pk nk st' B k ->
  key_lt k (hd_key (d_tree d0)) = false -> key_lt k (last_key (d_tree d0)) = true -> why (d_tree d0) (k :: X) d'.
Proof.
  intros HS0 Hg (W1 & W2) Kk G1 G2 Et HD Hlo Hhi. pose proof (stem_valid _ _ _ _ _ _ HS0) as HV0. pose proof (valid_sorted _ _ _ HV0) as Hso0. pose proof HS0 as (_ & Hne & _).
  pose proof Hg as Hg'. rewrite Et in Hg'. pose proof (gapok_sorted _ _ _ Hg') as Hso. pose proof (adj_at _ _ _ _ _ _ _ _ Hg') as (K1 & K2 & K3 & _).
  destruct HD as [_ (st2 & M & Et') _ _ _ _ Hback]. split.
  - intros b Hb. apply W1 in Hb. rewrite Et, map_app in Hb. rewrite Et', map_app. apply in_app_or in Hb. apply in_or_app. destruct Hb as [Hb|Hb]; [left; exact Hb|right]. cbn [map fst In] in *. rewrite map_app, in_app_iff. cbn [map fst In]. tauto.
  - intros q Kq Hc. destruct (Hback q Kq Hc) as [Hc0|(Q1 & Q2 & Hn)].
    + destruct (W2 q Kq Hc0) as [H|(A1 & a & sa & b & sb & B1 & k1 & E1 & Hk1 & H)]; [left; exact H|right]. exists A1, a, sa, b, sb, B1, k1. split; [exact E1|]. split; [right; exact Hk1|exact H].
    + right. destruct (find_gap _ k Hso0 Hne Hlo Hhi) as (A1 & a & sa & b & sb & B1 & E1 & F1 & F2). exists A1, a, sa, b, sb, B1, k.
      assert (Ia : In a (map fst (d_tree d))) by (apply W1; rewrite E1, map_app; apply in_or_app; right; left; reflexivity).
      assert (Ib : In b (map fst (d_tree d))) by (apply W1; rewrite E1, map_app; apply in_or_app; right; right; left; reflexivity).
      rewrite Et in Ia, Ib. pose proof (v_gap _ _ _ HV0) as Hg0. rewrite E1 in Hg0. pose proof (adj_at _ _ _ _ _ _ _ _ Hg0) as (J1 & J2 & J3 & _).
      assert (O1 : key_lt pk a = false) by (apply (tree_above _ _ _ _ _ _ _ Hso Ia); apply (nlt_lt_trans _ _ _ F1 G2)).
      assert (O2 : key_lt b nk = false) by (apply (tree_below _ _ _ _ _ _ _ Hso Ib); apply (nlt_lt_trans _ _ _ G1 F2)).
      split; [exact E1|]. split; [left; reflexivity|]. split; [apply (nlt_lt_trans _ _ _ O1 Q1)|]. split; [apply (lt_nlt_trans _ _ _ Q2 O2)|]. split; [exact F1|]. split; [exact F2|].
      pose proof (qof_mono a b pk nk J1 J2 K1 K2 J3 K3 (nlt_ple _ _ J1 K1 O1) (nlt_ple _ _ K2 J2 O2)) as Hq. unfold near in *.
      apply (pre_eq_down _ (Z.min (qof c pk nk + s - 1) (8 * klen k - 7))); [lia|exact Hn].
Qed.
Lemma why_more t0 X Y d : (forall k, In k X -> In k Y) -> why t0 X d -> why t0 Y d.
Proof.
  intros H (W1 & W2). split; [exact W1|]. intros q Kq Hc. destruct (W2 q Kq Hc) as [H1|(A1 & a & sa & b & sb & B1 & k1 & E1 & Hk1 & H1)]; [left; exact H1|right].
  exists A1, a, sa, b, sb, B1, k1. auto.
Qed.
Lemma why_same t0 X d d' : map fst (d_tree d') = map fst (d_tree d) -> (forall k', covt gcov (d_tree d') k' -> covt gcov (d_tree d) k') -> why t0 X d -> why t0 X d'.
Proof. intros E H (W1 & W2). split; [rewrite E; exact W1|]. intros q Kq Hc. apply W2; auto. Qed.

Lemma ends_stem len lo hi d : stem len lo hi d -> hd_key (d_tree d) = lo /\ last_key (d_tree d) = hi.
Proof. intros (_ & _ & H1 & H2 & _). auto. Qed.
Lemma step_why len d0 X d k split d' : stem (Z.of_nat len) (repeat 0 len) (repeat 255 len) d0 -> stem (Z.of_nat len) (repeat 0 len) (repeat 255 len) d -> why (d_tree d0) X d ->
  kok k -> length k = len -> lt k (repeat 255 len) -> counters_free d -> (split = true -> apart s len d k) -> insert c d k split = Ok d' -> why (d_tree d0) (k :: X) d'.
Proof.
  intros HS0 HS HW Kk Hl Hhi HC HA E. assert (Hlo : key_lt k (repeat 0 len) = false) by (rewrite <- Hl; apply zeros_low; exact Kk). apply lt_iff in Hhi.
  destruct (step_done c s Hs T Hf len _ _ d k split d' HS Kk Hl Hlo Hhi HC HA E) as (A & pk & st & nk & st' & B & Et & G1 & G2 & HD).
  destruct (ends_stem _ _ _ _ HS0) as [E1 E2].
  apply (why_step (Z.of_nat len) d0 X d k d' A pk st nk st' B); auto; try (rewrite E1, E2; exact HS0); try (rewrite E1; exact Hlo); try (rewrite E2; exact Hhi).
  apply (v_gap _ _ _ (stem_valid _ _ _ _ _ _ HS)).
Qed.

(** keys that were ever put in *)
Lemma acts_why len d0 acts : Z.of_nat len < 2 ^ 29 -> stem (Z.of_nat len) (repeat 0 len) (repeat 255 len) d0 -> forall X d ks d', sound c s len ks d -> why (d_tree d0) X d -> steady c s len d ks acts -> do_acts c d acts = Ok d' ->
  why (d_tree d0) (X ++ put_in acts) d'.
Proof.
  intros Hlen HS0. induction acts as [|a acts IH]; intros X d ks d' HS HW HO E; [injection E as <-; cbn [put_in]; rewrite app_nil_r; exact HW|]. cbn [do_acts] in E. apply bind_ok in E as (d1 & E1 & E2).
  destruct a as [k split|k]; cbn [do_act steady put_in] in *.
  - destruct HO as ((W1 & W2 & W3) & W4 & W5 & W6). apply (why_more _ ((k :: X) ++ put_in acts)). { intros k'. cbn [app]. rewrite !in_app_iff. cbn [In]. rewrite in_app_iff. tauto. }
    apply (IH (k :: X) d1 (k :: ks) d'); [|apply (step_why len d0 X d k split); auto; apply HS|apply W6; exact E1|exact E2].
    apply (step_held c s Hs T Hf len d ks k split); auto.
  - destruct HO as (W1 & W2 & W3). destruct (W3 d1 E1) as [W4 W5]. destruct (drop_both c s Hs T Hf len d ks k d1 Hlen HS W1 W2 E1 W4) as [D1 D2].
    apply (IH X d1 (remove_one k ks) d'); [exact D1|apply (why_same _ _ d); [exact W4|exact D2|exact HW]|exact W5|exact E2].
Qed.

(** ** in the words of the specification *)
Lemma put_in_ok len acts : forall d ks d', steady c s len d ks acts -> do_acts c d acts = Ok d' -> forall k, In k (put_in acts) -> kok k /\ length k = len /\ (1 <= len)%nat.
Proof.
  induction acts as [|a acts IH]; intros d ks d' HO E k Hk; [destruct Hk|]. cbn [do_acts] in E. apply bind_ok in E as (d1 & E1 & E).
  destruct a as [k0 b0|k0]; cbn [do_act steady put_in] in *.
  - destruct HO as ((W1 & W2 & W3) & _ & _ & W4). destruct Hk as [<-|Hk]; [|apply (IH d1 (k0 :: ks) d'); auto]. split; [exact W1|]. split; [exact W2|].
    destruct len; [|lia]. exfalso. apply lt_iff in W3. destruct k0; [|discriminate]. cbn [repeat] in W3. rewrite key_lt_irrefl in W3. discriminate.
  - destruct HO as (_ & _ & W3). destruct (W3 d1 E1) as [_ W5]. apply (IH d1 (remove_one k0 ks) d'); auto.
Qed.
Lemma gap_reason len d0 ks A a st b st' B k x l r : (exists lo hi, stem (Z.of_nat len) lo hi d0) -> d_tree d0 = A ++ (a, st) :: (b, st') :: B -> key_lt a x = true -> key_lt x b = true -> key_lt k a = false -> key_lt k b = true ->
  kok x -> kok k -> kok l -> kok r -> key_lt x l = false -> key_lt r x = false -> In k ks ->
  pre (Z.of_nat (Nat.min (Z.to_nat (qof c a b) + Z.to_nat s - 1) (8 * len - 7))) x = pre (Z.of_nat (Nat.min (Z.to_nat (qof c a b) + Z.to_nat s - 1) (8 * len - 7))) k ->
  reason s len d0 ks l r.
Proof.
  intros (lo & hi & HS0) E H1 H2 H3 H4 Kx Kk Kl Kr X1 X2 Hin Hp. pose proof (stem_valid _ _ _ _ _ _ HS0) as HV0. pose proof (v_gap _ _ _ HV0) as Hg0. rewrite E in Hg0.
  pose proof (adj_at _ _ _ _ _ _ _ _ Hg0) as (J1 & J2 & J3 & _). destruct (seg_ex c a b J1 J2 J3) as (sh & ig & z & HSg). destruct (seg_tot _ _ _ _ _ _ HSg) as [Ht Hq].
  assert (Ia : In a (boundaries d0)) by (unfold boundaries; rewrite E, map_app; apply in_or_app; right; left; reflexivity).
  assert (Ib : In b (boundaries d0)) by (unfold boundaries; rewrite E, map_app; apply in_or_app; right; right; left; reflexivity).
  destruct (key_lt a l) eqn:Ea.
  2:{ left. exists a. split; [exact Ia|]. split; apply le_iff; [exact Ea|]. apply key_lt_asym. apply (lt_nlt_trans _ _ _ H1 X2). }
  destruct (key_lt r b) eqn:Eb.
  2:{ left. exists b. split; [exact Ib|]. split; apply le_iff; [|exact Eb]. apply key_lt_asym. apply (nlt_lt_trans _ _ _ X1 H2). }
  right. exists a, b, (Z.to_nat (qof c a b)), k. split. { exists (map fst A), (map fst B). unfold boundaries. rewrite E, map_app. reflexivity. }
  split; [apply lt_iff; exact Ea|]. split; [apply lt_iff; exact Eb|]. split; [rewrite !top_pre by assumption; rewrite Z2Nat.id by lia; exact Ht|]. split; [exact Hin|].
  split; [apply le_iff; exact H3|]. split; [apply lt_iff; exact H4|]. cbn zeta. rewrite !top_pre by assumption.
  pose proof (nlt_ple _ _ Kl Kx X1) as P1. pose proof (nlt_ple _ _ Kx Kr X2) as P2. rewrite <- Hp. split; [apply P1|apply P2]; lia.
Qed.
Definition nbits (len : nat) (a b : key) : nat := Nat.min (Z.to_nat (qof c a b) + Z.to_nat s - 1) (8 * len - 7).
Lemma gap_one A a st b st' B A2 a2 st2 b2 st2' B2 x : sorted (A ++ (a, st) :: (b, st') :: B) -> A ++ (a, st) :: (b, st') :: B = A2 ++ (a2, st2) :: (b2, st2') :: B2 ->
  key_lt a x = true -> key_lt x b = true -> key_lt a2 x = true -> key_lt x b2 = true -> a2 = a /\ b2 = b.
Proof.
  intros Hso E H1 H2 H3 H4. pose proof Hso as Hso2. rewrite E in Hso2.
  assert (I1 : In a2 (map fst (A ++ (a, st) :: (b, st') :: B))) by (rewrite E, map_app; apply in_or_app; right; left; reflexivity).
  assert (I2 : In b2 (map fst (A ++ (a, st) :: (b, st') :: B))) by (rewrite E, map_app; apply in_or_app; right; right; left; reflexivity).
  assert (I3 : In a (map fst (A2 ++ (a2, st2) :: (b2, st2') :: B2))) by (rewrite <- E, map_app; apply in_or_app; right; left; reflexivity).
  assert (I4 : In b (map fst (A2 ++ (a2, st2) :: (b2, st2') :: B2))) by (rewrite <- E, map_app; apply in_or_app; right; right; left; reflexivity).
  pose proof (tree_above _ _ _ _ _ _ _ Hso I1 (key_lt_trans _ _ _ H3 H2)) as O1. pose proof (tree_above _ _ _ _ _ _ _ Hso2 I3 (key_lt_trans _ _ _ H1 H4)) as O2.
  pose proof (tree_below _ _ _ _ _ _ _ Hso I2 (key_lt_trans _ _ _ H1 H4)) as O3. pose proof (tree_below _ _ _ _ _ _ _ Hso2 I4 (key_lt_trans _ _ _ H3 H2)) as O4.
  destruct (key_lt_total a a2) as [H|[H|H]], (key_lt_total b b2) as [H'|[H'|H']]; split; congruence.
Qed.
(** every positive key between the boundaries of the loaded filter has its key *)
Lemma mixed_near len keys acts d d0 x A a sa b sb B : mixed c s len keys acts d -> load c s (FixedLength len) keys = Ok d0 ->
  d_tree d0 = A ++ (a, sa) :: (b, sb) :: B -> kok x -> key_lt a x = true -> key_lt x b = true -> covt gcov (d_tree d) x ->
  exists k, In k (keys ++ put_in acts) /\ kok k /\ key_lt k a = false /\ key_lt k b = true /\ pre (Z.of_nat (nbits len a b)) x = pre (Z.of_nat (nbits len a b)) k.
Proof.
  intros HM E0 Et Kx F3 F2 Hc. destruct HM as (Hlen & HL & HO & E). rewrite E0 in E. cbn [bind] in E. specialize (HO d0 E0).
  destruct (load_stem c s Hs T Hf len keys d0 HL E0) as [S0 C0].
  assert (Hk0 : sound c s len keys d0).
  { split; [exact S0|]. split; [apply (load_held c s Hs T Hf len); assumption|]. split; [apply (loaded_last c s Hs T Hf (FixedLength len) keys d0 HL E0)|]. intros k Hk. destruct (C0 k Hk) as (Q1 & Q2 & _). auto. }
  assert (HW : why (d_tree d0) ([] ++ put_in acts) d) by (apply (acts_why len d0 acts Hlen S0 [] d0 keys d Hk0); [split; [auto|intros q _ Hq; left; exact Hq]|exact HO|exact E]).
  cbn [app] in HW. destruct HW as [_ HW].
  pose proof (stem_valid _ _ _ _ _ _ S0) as HV0. pose proof (valid_sorted _ _ _ HV0) as Hso0. rewrite Et in Hso0.
  pose proof (v_gap _ _ _ HV0) as Hg1. rewrite Et in Hg1. pose proof (adj_at _ _ _ _ _ _ _ _ Hg1) as HG. pose proof HG as (J1 & J2 & J3 & _).
  destruct (seg_ex c a b J1 J2 J3) as (sh & ig & z & HSg). destruct (seg_tot _ _ _ _ _ _ HSg) as [Ht Hq]. unfold nbits.
  destruct (HW x Kx Hc) as [H0|(A2 & a2 & sa2 & b2 & sb2 & B2 & k & Et2 & Hk & H1 & H2 & H3 & H4 & Hn)].
  - pose proof (loaded c s Hs T Hf (FixedLength len) keys HL) as (d' & X & E' & HI & _ & HX & _). rewrite E0 in E'. injection E' as <-.
    assert (HXk : Forall kok X) by (apply Forall_forall; intros k Hk; apply HX in Hk as [Hk _]; apply (C0 k Hk)).
    rewrite Et in H0. apply (covt_gap gcov A a sa b sb B x Hso0 F3 F2) in H0.
    pose proof HI as (_ & _ & _ & _ & _ & I6). rewrite adj_iff in I6. pose proof (I6 _ _ _ _ _ _ Et) as Hex.
    destruct (proj1 (exact_rcov c s Hs _ _ _ _ x x Hex HG HXk Kx Kx F3 (key_lt_irrefl x) F2) (proj2 (rcov_gcov c s Hs a sa b x HG Kx F3 F2) H0)) as (k & Hk & Hi & Hb).
    apply (inside_iff s Hs) in Hi as [Hi1 Hi2]. apply le_iff in Hi1. apply lt_iff in Hi2. apply HX in Hk as [Hk _].
    exists k. split; [apply in_or_app; left; exact Hk|]. split; [apply (C0 k Hk)|]. split; [exact Hi1|]. split; [exact Hi2|].
    apply (pre_eq_down _ (qof c a b + s - 1)); [lia|lia].
  - destruct (put_in_ok len acts d0 keys d HO E k Hk) as (Kk & Lk & L1). rewrite Et in Et2. destruct (gap_one _ _ _ _ _ _ _ _ _ _ _ _ x Hso0 Et2 F3 F2 H1 H2) as [-> ->].
    exists k. split; [apply in_or_app; right; exact Hk|]. split; [exact Kk|]. split; [exact H3|]. split; [exact H4|].
    unfold near, klen in Hn. rewrite Lk in Hn. apply (pre_eq_down _ (Z.min (qof c a b + s - 1) (8 * Z.of_nat len - 7))); [lia|exact Hn].
Qed.
Lemma gap_at len lo hi d0 x : stem len lo hi d0 -> key_lt x lo = false -> key_lt hi x = false -> ~ In x (boundaries d0) ->
  exists A a sa b sb B, d_tree d0 = A ++ (a, sa) :: (b, sb) :: B /\ key_lt a x = true /\ key_lt x b = true.
Proof.
  intros S0 R1 R2 HB. pose proof (stem_valid _ _ _ _ _ _ S0) as HV0. pose proof (valid_sorted _ _ _ HV0) as Hso0. pose proof S0 as (_ & Hne & E1 & E2 & _). rewrite <- E1 in R1. rewrite <- E2 in R2.
  destruct (nlt_cases _ _ R2) as [Ex|R3].
  { exfalso. apply HB. unfold boundaries. rewrite <- Ex || rewrite Ex. destruct (d_tree d0) as [|y t]; [congruence|]. destruct (last_key_in y t) as (z & Hz & <-). apply in_map. exact Hz. }
  destruct (find_gap _ x Hso0 Hne R1 R3) as (A & a & sa & b & sb & B & Et & F1 & F2). destruct (nlt_cases _ _ F1) as [Ex|F3].
  { exfalso. apply HB. unfold boundaries. rewrite Ex || rewrite <- Ex. rewrite Et, map_app. apply in_or_app. right. left. reflexivity. }
  exists A, a, sa, b, sb, B. auto.
Qed.
Theorem mixed_reason len keys acts d d0 l r x : mixed c s len keys acts d -> load c s (FixedLength len) keys = Ok d0 ->
  kok l -> kok r -> kok x -> key_lt x l = false -> key_lt r x = false -> covt gcov (d_tree d) x -> reason s len d0 (keys ++ put_in acts) l r.
Proof.
  intros HM E0 Kl Kr Kx X1 X2 Hc. pose proof (mixed_sound c s Hs T Hf len keys acts d HM) as (HS & _).
  assert (HL : loadable (FixedLength len) keys) by apply HM. destruct (load_stem c s Hs T Hf len keys d0 HL E0) as [S0 _].
  destruct (in_dec (list_eq_dec Z.eq_dec) x (boundaries d0)) as [Hb|Hb]; [left; exists x; split; [exact Hb|]; split; apply le_iff; assumption|].
  destruct (covt_in_range c s _ _ Hc (valid_sorted _ _ _ (stem_valid _ _ _ _ _ _ HS))) as [R1 R2]. destruct (ends_stem _ _ _ _ HS) as [EE1 EE2]. rewrite EE1 in R1. rewrite EE2 in R2.
  destruct (gap_at _ _ _ d0 x S0 R1 R2 Hb) as (A & a & sa & b & sb & B & Et & G1 & G2).
  destruct (mixed_near len keys acts d d0 x A a sa b sb B HM E0 Et Kx G1 G2 Hc) as (k & H1 & H2 & H3 & H4 & H5).
  apply (gap_reason len d0 _ A a sa b sb B k x); auto. exists (repeat 0 len), (repeat 255 len). exact S0.
Qed.
Theorem mixed_explained len keys acts d d0 l r : mixed c s len keys acts d -> load c s (FixedLength len) keys = Ok d0 ->
  bytes l -> length l = len -> bytes r -> le l r -> range_query false c d l r = Ok true -> reason s len d0 (keys ++ put_in acts) l r.
Proof.
  intros HM E0 Kl Ll Kr Hlr HQ. pose proof (mixed_sound c s Hs T Hf len keys acts d HM) as (HS & _). apply le_iff in Hlr.
  destruct (range_point len d l r HS Kl Ll Kr Hlr HQ) as (x & Kx & X1 & X2 & Hc). apply (mixed_reason len keys acts d d0 l r x); assumption.
Qed.
Theorem mixed_point_explained len keys acts d d0 k : mixed c s len keys acts d -> load c s (FixedLength len) keys = Ok d0 ->
  bytes k -> length k = len -> point_query c d k = Ok true -> reason s len d0 (keys ++ put_in acts) k k.
Proof.
  intros HM E0 Kk Lk HQ. pose proof (mixed_sound c s Hs T Hf len keys acts d HM) as (HS & _).
  apply (mixed_reason len keys acts d d0 k k k); auto using key_lt_irrefl. apply (point_cov c s Hs len); assumption.
Qed.
(** few prefixes are answered positively *)
Theorem mixed_few len keys acts d d0 a b : mixed c s len keys acts d -> load c s (FixedLength len) keys = Ok d0 -> neighbours d0 a b -> exists (n : nat) (P : list Z),
  (510 * 2 ^ (s - 1) < top n b - top n a < 1024 * 2 ^ (s - 1) \/ n = (8 * len - 7)%nat) /\
  (length P <= count_between a b (keys ++ put_in acts))%nat /\
  (forall k, bytes k -> length k = len -> lt a k -> lt k b -> point_query c d k = Ok true -> In (top n k) P) /\
  (forall l r, bytes l -> length l = len -> bytes r -> lt a l -> le l r -> lt r b -> range_query false c d l r = Ok true -> exists p, In p P /\ top n l <= p <= top n r).
Proof.
  intros HM E0 Hn. apply nbr_tree in Hn as (A & st & w & B & Et). pose proof (mixed_sound c s Hs T Hf len keys acts d HM) as (HS & _).
  assert (HL : loadable (FixedLength len) keys) by apply HM. destruct (load_stem c s Hs T Hf len keys d0 HL E0) as [S0 _]. pose proof (stem_valid _ _ _ _ _ _ S0) as HV0.
  pose proof (v_gap _ _ _ HV0) as Hg1. rewrite Et in Hg1. pose proof (adj_at _ _ _ _ _ _ _ _ Hg1) as HG. pose proof HG as (J1 & J2 & J3 & _).
  destruct (seg_ex c a b J1 J2 J3) as (sh & ig & z & HSg). destruct (seg_tot _ _ _ _ _ _ HSg) as [Ht Hq]. set (n := nbits len a b).
  set (f := fun k => negb (ltb k a) && ltb k b). exists n, (map (top n) (filter f (keys ++ put_in acts))).
  assert (HP : forall x, kok x -> key_lt a x = true -> key_lt x b = true -> covt gcov (d_tree d) x -> In (top n x) (map (top n) (filter f (keys ++ put_in acts)))).
  { intros x Kx X1 X2 Hc. destruct (mixed_near len keys acts d d0 x A a st b w B HM E0 Et Kx X1 X2 Hc) as (k & H1 & H2 & H3 & H4 & H5). fold n in H5.
    apply in_map_iff. exists k. split; [rewrite !top_pre by assumption; symmetry; exact H5|]. apply filter_In. split; [exact H1|]. unfold f.
    apply lt_iff in H4. unfold lt in H4. rewrite H4, andb_true_r. apply negb_true_iff. destruct (ltb k a) eqn:K; [|reflexivity]. assert (K2 : lt k a) by exact K. apply lt_iff in K2. congruence. }
  split; [|split; [rewrite map_length; reflexivity|split]].
  - destruct (Nat.le_gt_cases (Z.to_nat (qof c a b) + Z.to_nat s - 1) (8 * len - 7)) as [Hle|Hgt]; [left|right; unfold n, nbits; lia].
    assert (En : Z.of_nat n = qof c a b + (s - 1)) by (unfold n, nbits; lia). rewrite !top_pre by assumption. rewrite En, !pre_split by lia.
    pose proof (sl_range a (qof c a b) (s - 1) ltac:(lia)) as R1. pose proof (sl_range b (qof c a b) (s - 1) ltac:(lia)) as R2. unfold tot in Ht.
    set (P2 := 2 ^ (s - 1)) in *. set (u := pre (qof c a b) b) in *. set (v := pre (qof c a b) a) in *. set (x := sl a (qof c a b) (s - 1)) in *. set (y := sl b (qof c a b) (s - 1)) in *. clearbody P2 u v x y.
    clear -Ht R1 R2. nia.
  - intros k Kk Lk L1 L2 HQ. apply lt_iff in L1, L2. apply HP; auto. apply (point_cov c s Hs len); assumption.
  - intros l r Kl Ll Kr L1 L2 L3 HQ. apply lt_iff in L1, L3. apply le_iff in L2. destruct (range_point len d l r HS Kl Ll Kr L2 HQ) as (x & Kx & X1 & X2 & Hc).
    exists (top n x). split; [apply HP; auto; [apply (lt_nlt_trans _ _ _ L1 X1)|apply (nlt_lt_trans _ _ _ X2 L3)]|]. rewrite !top_pre by assumption.
    pose proof (nlt_ple _ _ Kl Kx X1) as P1. pose proof (nlt_ple _ _ Kx Kr X2) as P2. split; [apply P1|apply P2]; lia.
Qed.
End G.
