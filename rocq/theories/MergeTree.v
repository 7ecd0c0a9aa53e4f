(** Deleting a boundary (diva.hpp:1565-1643): the merged block holds the keys of both. *)
From Coq Require Import ZArith List Bool Lia Sorting.Sorted Permutation.
From Coq Require Import ZifyBool ZifyNat.
From Verif Require Import Base Util Store Bits View Cells Lowbit Key KeyBits KeyOrder RangeInt Diva Tree StoreFind StoreInsert StoreRep Spec SpecBlock Filter SplitList SplitKeys Split Contents Words DelHist Merge.
Import ListNotations.
Open Scope Z_scope.

Lemma rep_flags2 c s ti w st L b p : rep c s ti w st L -> 0 <= b <= 7 ->
  rep c s ti w (set_invalid_bits (set_partial_key st p) b) L /\
  is_partial_key (set_invalid_bits (set_partial_key st p) b) = p.
Proof.
  intros (u & o & r & v & a0 & a1 & cl & sc & els & H1 & H2 & H3 & H4 & H5 & H6) Hb.
  assert (Eu : status st = u) by apply (V_status _ _ _ _ _ _ _ _ _ _ _ (g_V _ _ _ _ _ _ _ _ _ _ _ _ _ H3)).
  set (st1 := set_partial_key st p). set (st2 := set_invalid_bits st1 b).
  assert (Hu1 : 0 <= status st1 < 2 ^ 32).
  { unfold st1, set_partial_key, with_status; cbn [status]. apply bits_lt_pow; [lia|]. intros i Hi.
    destruct p; [rewrite Z.lor_spec|rewrite Z.ldiff_spec]; rewrite (testbit_lt_pow (status st) 32) by lia; [|reflexivity]. rewrite shiftl1_testbit by lia. lia. }
  destruct (fields_apart st ltac:(lia)) as (_ & _ & _ & F1). specialize (F1 p). destruct (fields_apart st1 Hu1) as (_ & _ & F2 & _). specialize (F2 b ltac:(lia)).
  fold st1 in F1. fold st2 in F2. unfold fields in F1, F2. inversion F1 as [[A1 A2 A3 A4]]. inversion F2 as [[B1 B2 B3 B4]].
  split; [|congruence].
  assert (Hu2 : 0 <= status st2 < 2 ^ 32) by (unfold st2, set_invalid_bits, with_status; cbn [status]; apply low_range; lia).
  assert (Eg : st_grade (status st2) = st_grade u). { rewrite <- Eu. unfold get_size_grade in *. unfold st_grade. congruence. }
  assert (Ec : st_count (status st2) = st_count u). { rewrite <- Eu. unfold get_elem_count in *. unfold st_count. congruence. }
  assert (E2 : st2 = with_status st (status st2)) by reflexivity.
  exists (status st2), o, r, v, a0, a1, cl, sc, els. rewrite Eg, Ec.
  split; [exact H1|]. split; [exact Hu2|]. split; [|auto]. destruct H3 as [G1 G2 G3 G4 G5 G6]. constructor; auto.
  rewrite E2. apply (V_with_status _ _ _ _ _ _ _ _ _ _ _ _ G1). exact Eg.
Qed.

Lemma odd_trunc d v : 0 <= d -> Z.odd v = true -> trunc d v = Z.lor (v / 2 ^ d) 1.
Proof.
  intros Hd Ho. unfold trunc. destruct (Z.eq_dec d 0) as [->|Hn].
  - change (2 ^ 0) with 1. rewrite Z.div_1_r, Z.mod_1_r. change (Z.b2z (negb (0 =? 0))) with 0. rewrite Z.lor_0_r. change 1 with (Z.b2z true). rewrite lor_bit.
    apply Z.odd_spec in Ho as (w & ->). replace (2 * w + 1) with (1 + w * 2) by lia. rewrite Z.div_add by lia. change (1 / 2) with 0. lia.
  - replace (v mod 2 ^ d =? 0) with false; [reflexivity|]. symmetry. apply Z.eqb_neq. intros E. pose proof (p2 d Hd). apply Z.mod_divide in E; [|lia].
    destruct E as (j & ->). replace d with (1 + (d - 1)) in Ho by lia. rewrite p2add, Z.mul_comm, <- Z.mul_assoc in Ho by lia. change (2 ^ 1) with 2 in Ho. rewrite Z.odd_mul in Ho. discriminate.
Qed.
Lemma trunc_lor1 d y : 0 <= d -> 0 <= y -> trunc d (Z.lor y 1) = Z.lor (y / 2 ^ d) 1.
Proof.
  intros Hd Hy. rewrite odd_trunc by (auto; apply lor1_range; lia). destruct (Z.eq_dec d 0) as [->|Hn].
  - change (2 ^ 0) with 1. rewrite !Z.div_1_r. rewrite <- Z.lor_assoc. reflexivity.
  - f_equal. replace d with (1 + (d - 1)) by lia. pose proof (p2 (d - 1) ltac:(lia)). rewrite p2add by lia. change (2 ^ 1) with 2. rewrite <- !Z.div_div by lia. f_equal.
    rewrite lor1 by lia. replace (2 * (y / 2) + 1) with (1 + y / 2 * 2) by lia. rewrite Z.div_add by lia. reflexivity.
Qed.
Lemma map_res_eq {A B} (f : A -> res B) (g : A -> B) l : Forall (fun x => f x = Ok (g x)) l -> map_res f l = Ok (map g l).
Proof. induction 1 as [|x l Hx _ IH]; [reflexivity|]. cbn [map_res map]. rewrite Hx, IH. reflexivity. Qed.

Section M.
Variable c : cfg.
Variable s : Z.
Hypothesis Hs : 1 <= s <= 46.
Hypothesis T : tables_ok c.
Hypothesis Hf : fits c s.
Hypothesis Hc : c_strict c = false.

Notation qof := (qof c).
Notation tot := (tot c).
Notation inf := (inf c s).
Notation infx := (infx c s).
Notation seg := (seg c).

(** one of the two halves *)
Section Half.
Variables a b a' b' : key.
Variables sh' ig' z' : Z.
Hypothesis S' : seg a' b' sh' ig' z'.
Hypothesis Ka : kok a.
Hypothesis Kb : kok b.
Hypothesis Ka' : kok a'.
Hypothesis Hab : plt a b.
Hypothesis Ha : ple a' a.
Hypothesis Hb : ple b b'.
Hypothesis Hla : klen a < 2 ^ 28.
Hypothesis Hlb : klen b < 2 ^ 28.

Definition moved (x : Z) : Z := trunc (qof a b - qof a' b') (x + pre (qof a b) a * 2 ^ s) - pre (qof a' b') a' * 2 ^ s.
Lemma half_seg : let p := sh' / 64 * 8 in exists sh ig z, shared_ignore_implicit c (key_from a p) (key_from b p) = Ok (sh, ig, z) /\ seg a b (sh + p * 8) ig z.
Proof.
  intros p. pose proof S' as [G' _ _]. pose proof (gp_sh _ _ _ _ _ G') as Hsh. pose proof (Z.div_mod sh' 64 ltac:(lia)). pose proof (Z.mod_pos_bound sh' 64 ltac:(lia)).
  assert (0 <= sh' / 64) by (apply Z.div_pos; lia). assert (Hp : 0 <= p) by (unfold p; lia). assert (Hp8 : 8 * p <= sh') by (unfold p; lia).
  assert (E : pre (8 * p) a = pre (8 * p) b).
  { pose proof (Ha (8 * p) ltac:(lia)). pose proof (Hb (8 * p) ltac:(lia)). pose proof (plt_ple _ _ Hab (8 * p) ltac:(lia)).
    pose proof (pre_eq_mono (8 * p) sh' a' b' ltac:(lia) (gp_eq _ _ _ _ _ G')). lia. }
  assert (Hlt : plt (key_from a p) (key_from b p)).
  { destruct Hab as (n & Hn & Hlt). destruct (Z.le_gt_cases n (8 * p)) as [Hle|Hgt].
    - pose proof (pre_lt_mono n (8 * p) a b ltac:(lia) Hlt). lia.
    - exists (n - 8 * p). split; [lia|]. pose proof (pre_from a p (n - 8 * p) Hp ltac:(lia)) as Ea. pose proof (pre_from b p (n - 8 * p) Hp ltac:(lia)) as Eb.
      replace (8 * p + (n - 8 * p)) with n in * by lia. rewrite E in Ea. lia. }
  destruct (gap_run c _ _ (kok_from a p Ka) (kok_from b p Kb) Hlt) as (sh & ig & z & Er & _). exists sh, ig, z. split; [exact Er|].
  apply (sub_seg c a b p sh ig z); auto. apply plt_ple. exact Hab.
Qed.
Lemma q_le : qof a' b' <= qof a b.
Proof.
  destruct (seg_ex c a b Ka Kb Hab) as (sh & ig & z & [G _ Eq]). pose proof S' as [G' _ Eq']. rewrite Eq, Eq'. apply (gaps_shrink G G' Ha Hb).
Qed.
Lemma moved_infx k : kok k -> ple a k -> ple k b -> moved (infx a b k) = infx a' b' k.
Proof.
  intros Kk H1 H2. destruct (seg_ex c a b Ka Kb Hab) as (sh & ig & z & HS). pose proof HS as [G _ Eq]. pose proof S' as [G' _ Eq'].
  destruct (inf_range c s Hs a b _ _ _ k HS H1 H2) as (I1 & _).
  destruct (inf_range c s Hs a' b' _ _ _ k S' (ple_trans _ _ _ Ha H1) (ple_trans _ _ _ H2 Hb)) as (I1' & _).
  destruct (seg_tot c _ _ _ _ _ HS) as [_ Q]. destruct (seg_tot c _ _ _ _ _ S') as [_ Q']. pose proof q_le as Hq.
  unfold moved, Contents.infx. unfold Filter.inf in *. set (q := qof a b) in *. set (q' := qof a' b') in *.
  pose proof (pre_range q a ltac:(lia)). pose proof (p2 s ltac:(lia)). pose proof (pre_range q' a' ltac:(lia)).
  assert (0 <= pre q a * 2 ^ s) by (apply Z.mul_nonneg_nonneg; lia). assert (0 <= pre q' a' * 2 ^ s) by (apply Z.mul_nonneg_nonneg; lia).
  rewrite <- lor1_sub by (first [lia|apply even_mul_pow; lia]). replace (Z.lor (pre (q + s) k) 1 - pre q a * 2 ^ s + pre q a * 2 ^ s) with (Z.lor (pre (q + s) k) 1) by lia.
  rewrite trunc_lor1 by lia. replace (q + s) with (q' + s + (q - q')) by lia. rewrite pre_div by lia. apply lor1_sub; [lia|apply even_mul_pow; lia].
Qed.
Lemma moved_mono x y : Z.odd x = true -> Z.odd y = true -> x <= y -> moved x <= moved y.
Proof.
  intros Ox Oy Hxy. pose proof q_le as Hq. unfold moved.
  assert (He : forall x, Z.odd x = true -> Z.odd (x + pre (qof a b) a * 2 ^ s) = true).
  { intros v Ov. rewrite Z.odd_add, Ov. rewrite <- Z.negb_even, even_mul_pow by lia. reflexivity. }
  rewrite !odd_trunc by (first [lia|apply He; assumption]). change 1 with (Z.b2z true). rewrite !lor_bit. pose proof (p2 (qof a b - qof a' b') ltac:(lia)).
  assert (M : (x + pre (qof a b) a * 2 ^ s) / 2 ^ (qof a b - qof a' b') <= (y + pre (qof a b) a * 2 ^ s) / 2 ^ (qof a b - qof a' b')) by (apply Z.div_le_mono; lia).
  pose proof (Z.div_le_mono _ _ 2 ltac:(lia) M). lia.
Qed.
Definition of_key (x : Z) : Prop := exists k, kok k /\ ple a k /\ ple k b /\ x = infx a b k.
Lemma half_list l e : Forall of_key l -> extract c s a' sh' ig' z' 0 = Ok e ->
  exists l1, update_delete c s sh' ig' z' a b l = Ok l1 /\ map (fun x => u64 (x - u64 (Z.shiftl (Z.shiftr e s) s))) l1 = map moved l.
Proof.
  intros Hl He. destruct half_seg as (sh & ig & z & Er & HS). pose proof HS as [G _ Eq]. pose proof S' as [G' _ Eq'].
  set (SH := sh + sh' / 64 * 8 * 8) in *. pose proof (gp_is _ _ _ _ _ G) as Hz. pose proof (gp_is _ _ _ _ _ G') as Hz'.
  rewrite (extract_left G') in He by auto. injection He as <-. rewrite (gap_shift G') by lia. unfold update_delete. rewrite Er. cbn [bind]. fold SH.
  rewrite (extract_left G) by auto. cbn [bind]. rewrite (gap_shift G) by lia. unfold qpos.
  pose proof (gp_sh _ _ _ _ _ G). pose proof (gp_ig _ _ _ _ _ G). pose proof (gp_sh _ _ _ _ _ G'). pose proof (gp_ig _ _ _ _ _ G').
  destruct (gap_diff _ _ _ _ _ G) as [D1 D2]. pose proof (p2 s ltac:(lia)) as Ps.
  set (ol := pre (SH + ig + z) a - pre (SH + ig + 1) a * 2 ^ (z - 1)).
  assert (Hol : 0 <= ol < 2 ^ z). { pose proof (gap_base G a) as B. unfold qpos in B. fold ol in B. assert (E2 : 2 ^ z = 2 * 2 ^ (z - 1)) by (replace z with (1 + (z - 1)) at 1 by lia; rewrite p2add by lia; reflexivity). rewrite E2. apply B. pose proof (gp_one _ _ _ _ _ G). lia. }
  assert (Eol : forall x, x + ol * 2 ^ s + pre (SH + ig + 1) a * 2 ^ (z - 1 + s) = x + pre (qof a b) a * 2 ^ s).
  { intros x. rewrite Eq, (p2add (z - 1) s) by lia. unfold ol. lia. }
  set (g := fun x => trunc (SH + ig + z - (sh' + ig' + z')) (x + ol * 2 ^ s + pre (SH + ig + 1) a * 2 ^ (z - 1 + s)) - pre (sh' + ig' + 1) a' * 2 ^ (z' - 1 + s)).
  exists (map g l). split.
  - apply map_res_eq. eapply Forall_impl; [|exact Hl]. intros x (k & Kk & H1' & H2' & ->).
    destruct (inf_range c s Hs a b _ _ _ k HS H1' H2') as (I1 & _). destruct (lor1_range (inf a b k) ltac:(lia)) as [R1 R2]. fold (infx a b k) in *.
    apply (one_eq G G' Ha Hb c s Hs Hc Ka); [|exact Hol|lia| |].
    + assert (klen a < 2 ^ 28 /\ klen b < 2 ^ 28) as [] by auto. lia.
    + assert (E2 : infx a b k + ol * 2 ^ s = Z.lor (pre (SH + ig + z + s) k) 1 - pre (SH + ig + 1) a * 2 ^ (z - 1 + s)).
      { unfold Contents.infx, Filter.inf in *. rewrite Eq in *. rewrite <- lor1_sub; [|pose proof (pre_range (SH + ig + z) a ltac:(lia)); split; [apply Z.mul_nonneg_nonneg; lia|lia]|apply even_mul_pow; lia].
        specialize (Eol 0). lia. }
      rewrite E2. assert (B : pre (SH + ig + 1) k <= pre (SH + ig + 1) a + 1) by (rewrite <- (gp_one _ _ _ _ _ G); apply H2'; lia).
      pose proof (pre_split (SH + ig + 1) (z - 1 + s) k ltac:(lia) ltac:(lia)) as E3. replace (SH + ig + 1 + (z - 1 + s)) with (SH + ig + z + s) in E3 by lia.
      pose proof (sl_range k (SH + ig + 1) (z - 1 + s) ltac:(lia)) as R3. pose proof (pre_range (SH + ig + z + s) k ltac:(lia)) as R4.
      assert (E4 : 2 ^ (z + s) = 2 * 2 ^ (z - 1 + s)) by (replace (z + s) with (1 + (z - 1 + s)) by lia; rewrite p2add by lia; reflexivity).
      assert (E5 : 2 ^ (z - 1 + s) = 2 * 2 ^ (z - 2 + s)) by (replace (z - 1 + s) with (1 + (z - 2 + s)) by lia; rewrite p2add by lia; reflexivity).
      rewrite lor1 by lia. pose proof (Z.div_mod (pre (SH + ig + z + s) k) 2 ltac:(lia)). pose proof (Z.mod_pos_bound (pre (SH + ig + z + s) k) 2 ltac:(lia)).
      rewrite E4. set (P := 2 ^ (z - 1 + s)) in *. assert (pre (SH + ig + 1) k * P <= pre (SH + ig + 1) a * P + P) by nia.
      set (u := pre (SH + ig + z + s) k / 2) in *. set (w := pre (SH + ig + 1) a * P) in *. assert (exists w2, w = 2 * w2) as (w2 & Ew) by (exists (pre (SH + ig + 1) a * 2 ^ (z - 2 + s)); unfold w; lia). lia.
    + intros E0. rewrite Z.mod_add in E0 by lia. apply Z.mod_divide in E0; [|lia]. destruct E0 as (j & E0). rewrite E0 in R2. rewrite <- Z.negb_even, even_mul_pow in R2 by lia. discriminate.
  - rewrite map_map. unfold g. apply map_ext_in. intros x Hx. rewrite Forall_forall in Hl. destruct (Hl x Hx) as (k & Kk & H1' & H2' & ->).
    rewrite Eol. destruct (inf_range c s Hs a' b' _ _ _ k S' (ple_trans _ _ _ Ha H1') (ple_trans _ _ _ H2' Hb)) as (I1 & I2 & I3).
    pose proof (moved_infx k Kk H1' H2') as Em. unfold moved in *. rewrite Eq' in *. rewrite Eq in *. replace (SH + ig + z - (sh' + ig' + z')) with (SH + ig + z - (sh' + ig' + z')) in * by lia.
    rewrite Em. set (t := trunc _ _) in *.
    pose proof (gap_base G' a') as B. unfold qpos in B. specialize (B ltac:(pose proof (gp_one _ _ _ _ _ G'); lia)).
    assert (P11 : 2 * 2 ^ (z' - 1) <= 2 ^ 11) by (replace (2 * 2 ^ (z' - 1)) with (2 ^ z') by (rewrite <- Z.pow_succ_r by lia; f_equal; lia); apply pow2_le_mono; lia).
    pose proof (pow2_le_mono s 46 ltac:(lia)) as P46. unfold qpos. rewrite Z.shiftl_mul_pow2 by lia. rewrite (u64_small ((_ - _) * 2 ^ s)) by nia.
    destruct (lor1_range (inf a' b' k) ltac:(lia)) as [R1 _]. fold (infx a' b' k) in R1.
    assert (E6 : t - pre (sh' + ig' + 1) a' * 2 ^ (z' - 1 + s) - (pre (sh' + ig' + z') a' - pre (sh' + ig' + 1) a' * 2 ^ (z' - 1)) * 2 ^ s = infx a' b' k).
    { rewrite <- Em, (p2add (z' - 1) s) by lia. lia. }
    rewrite E6. apply u64_small. lia.
Qed.
End Half.

Lemma ss_map {A B} (R : A -> A -> Prop) (R' : B -> B -> Prop) (f : A -> B) l : StronglySorted R l -> (forall x y, In x l -> In y l -> R x y -> R' (f x) (f y)) -> StronglySorted R' (map f l).
Proof.
  induction 1 as [|x l Hl IH Hx]; intros HR; cbn [map]; [constructor|]. constructor.
  - apply IH. intros; apply HR; try (right; assumption). assumption.
  - apply Forall_map. rewrite Forall_forall in *. intros y Hy. apply HR; [left; reflexivity|right; exact Hy|apply Hx; exact Hy].
Qed.
Lemma odd_base x : 0 < x < 2 ^ 63 -> Z.odd x = true -> lbase x = x - 1.
Proof. intros H Ho. unfold lbase. rewrite lowbit_odd; auto. lia. Qed.

(** an exact list *)
Lemma exact_of X a b st L : kok a -> kok b -> Forall kok X -> exact c s X a st b -> get_infix_list c s st = Ok L -> Forall (of_key a b) L.
Proof.
  intros Ka Kb HX (_ & L0 & EL & HP) E. rewrite E in EL. injection EL as <-. apply Forall_forall. intros x Hx. apply (Permutation_in _ HP) in Hx.
  apply in_map_iff in Hx as (k & <- & Hk). apply filter_In in Hk as [Hk Hi]. rewrite Forall_forall in HX. unfold inside in Hi. apply andb_true_iff in Hi as [N1 N2]. apply negb_true_iff in N1.
  exists k. split; [apply HX; exact Hk|]. split; [apply nlt_ple; auto|]. split; [apply key_lt_ple; auto|reflexivity].
Qed.
Lemma of_key_facts a b x : kok a -> kok b -> plt a b -> of_key a b x -> 0 < x < 1024 * 2 ^ s /\ x < 2 ^ 63 /\ Z.odd x = true /\ x mod 2 ^ s <> 0.
Proof.
  intros Ka Kb Hab (k & Kk & P1 & P2 & ->). destruct (seg_ex c a b Ka Kb Hab) as (sh & ig & z & HS). destruct (inf_range c s Hs a b _ _ _ k HS P1 P2) as (I1 & I2 & I3).
  unfold Contents.infx. destruct (lor1_range (inf a b k) ltac:(lia)) as [R1 R2]. assert (R3 : Z.lor (inf a b k) 1 <> 0) by (intros E0; rewrite E0 in R2; discriminate).
  assert (R4 : Z.lor (inf a b k) 1 < 1024 * 2 ^ s).
  { rewrite lor1 by lia. pose proof (Z.div_mod (inf a b k) 2 ltac:(lia)). pose proof (Z.mod_pos_bound (inf a b k) 2 ltac:(lia)).
    replace s with (1 + (s - 1)) in * by lia. rewrite Z.pow_add_r in * by lia. change (2 ^ 1) with 2 in *. lia. }
  assert (2 ^ 56 < 2 ^ 63) by (vm_compute; reflexivity). split; [lia|]. split; [lia|]. split; [exact R2|].
  intros E0. pose proof (p2 s ltac:(lia)). apply Z.mod_divide in E0; [|lia]. destruct E0 as (j & E0). rewrite E0 in R2. rewrite <- Z.negb_even, even_mul_pow in R2 by lia. discriminate.
Qed.
Lemma of_key_up a b a' b' sh' ig' z' x : seg a' b' sh' ig' z' -> kok a -> kok b -> plt a b -> ple a' a -> ple b b' -> of_key a b x -> of_key a' b' (moved a b a' b' x).
Proof.
  intros S' Ka Kb Hab Ha Hb (k & Kk & P1 & P2 & ->). exists k. split; [exact Kk|]. split; [eapply ple_trans; eassumption|]. split; [eapply ple_trans; eassumption|].
  apply (moved_infx a b a' b' sh' ig' z'); auto.
Qed.

Lemma merged_total a b sh ig z x y : seg a b sh ig z -> kok a -> kok b -> extract c s a sh ig z 0 = Ok x -> extract c s b sh ig z 1 = Ok y ->
  u32 (Z.shiftr y s - Z.shiftr x s + 1) = tot a b.
Proof.
  intros HS K1 K2 E1 E2. pose proof HS as [G _ Hq]. rewrite (extract_left G) in E1 by auto. rewrite (extract_right G) in E2 by auto. inversion E1. inversion E2. rewrite !(gap_shift G) by lia.
  destruct (seg_tot _ _ _ _ _ _ HS) as [Ht' _]. unfold Filter.tot in *. rewrite Hq in *. unfold qpos. rewrite u32_small by lia. lia.
Qed.
Theorem delete_merge_inv X lo hi d A lk stl mk str rk w B : inv c s X lo hi d -> Forall kok X -> d_tree d = A ++ (lk, stl) :: (mk, str) :: (rk, w) :: B ->
  klen lk < 2 ^ 28 -> klen mk < 2 ^ 28 -> klen rk < 2 ^ 28 -> get_elem_count stl + get_elem_count str < 2 ^ 20 ->
  exists st, delete c d mk = Ok (mkdiva s (A ++ (lk, st) :: (rk, w) :: B)) /\ inv c s X lo hi (mkdiva s (A ++ (lk, st) :: (rk, w) :: B)).
Proof.
  intros HI HX E Ll Lm Lr Hn. pose proof (inv_sorted _ _ _ _ _ _ HI) as Hso. pose proof HI as (Hds & Hne & Hlo & Hhi & Hg & Hx). rewrite E in *.
  pose proof Hg as Hg0. pose proof Hx as Hx0. apply adj_app in Hg0 as [Hg1 Hg2]. rewrite !adj_cons in Hg2. destruct Hg2 as (GL & GR & Hg3).
  apply adj_app in Hx0 as [Hx1 Hx2]. rewrite !adj_cons in Hx2. destruct Hx2 as (XL & XR & Hx3).
  pose proof GL as (Kl & Km & Plm & _ & Ll0 & RL). pose proof GR as (_ & Kr & Pmr & _ & Lr0 & RR).
  assert (Plr : plt lk rk) by (apply (plt_ple_trans _ mk); [exact Plm|apply plt_ple; exact Pmr]).
  destruct (seg_ex c lk rk Kl Kr Plr) as (sh & ig & z & HS). pose proof HS as [G Er Eq].
  pose proof (rep_list _ _ _ _ _ _ RL) as EL. pose proof (rep_list _ _ _ _ _ _ RR) as ER. destruct (rep_count c T _ _ _ _ _ RL) as (CL & _ & _ & _ & OL & _). destruct (rep_count c T _ _ _ _ _ RR) as (CR & _ & _ & _ & OR & _).
  pose proof (exact_of X lk mk stl Ll0 Kl Km HX XL EL) as FL. pose proof (exact_of X mk rk str Lr0 Km Kr HX XR ER) as FR.
  assert (El : extract c s lk sh ig z 0 = Ok (pre (qpos (sh := sh) (ig := ig) (isz := z) + s) lk - pre (sh + ig + 1) lk * 2 ^ (z - 1 + s))) by (apply (extract_left G); auto).
  destruct (half_list lk mk lk rk sh ig z HS Kl Km Kl Plm (ple_refl _) (plt_ple _ _ Pmr) Ll Lm Ll0 _ FL El) as (l1 & U1 & M1).
  destruct (half_list mk rk lk rk sh ig z HS Km Kr Kl Pmr (plt_ple _ _ Plm) (ple_refl _) Lm Lr Lr0 _ FR El) as (l2 & U2 & M2).
  set (LL := map (moved lk mk lk rk) Ll0 ++ map (moved mk rk lk rk) Lr0).
  assert (FLL : Forall (of_key lk rk) LL).
  { apply Forall_app. split; apply Forall_map; (eapply Forall_impl; [|eassumption]); intros x Hx'; eapply of_key_up; try eassumption; auto; try (apply ple_refl); apply plt_ple; assumption. }
  assert (Hmax : forall a b l, kok a -> kok b -> plt a b -> Forall (of_key a b) l -> StronglySorted (fun x y => lbase x <= lbase y) l -> ple lk a -> ple b rk ->
            StronglySorted (fun x y => lbase x <= lbase y) (map (moved a b lk rk) l)).
  { intros a b l Ka Kb Hab Fl Sl P1 P2. eapply ss_map; [exact Sl|]. intros x y Ix Iy Hxy. cbv beta in Hxy. rewrite Forall_forall in Fl. pose proof (Fl x Ix) as Ox. pose proof (Fl y Iy) as Oy.
    destruct (of_key_facts _ _ _ Ka Kb Hab Ox) as (A1 & A2 & A3 & _). destruct (of_key_facts _ _ _ Ka Kb Hab Oy) as (B1 & B2 & B3 & _). rewrite !odd_base in Hxy by (auto; lia).
    pose proof (moved_mono a b lk rk sh ig z HS Ka Kb Hab P1 P2 x y A3 B3 ltac:(lia)).
    destruct (of_key_facts _ _ _ Kl Kr Plr (of_key_up a b lk rk sh ig z x HS Ka Kb Hab P1 P2 Ox)) as (A4 & A5 & A6 & _).
    destruct (of_key_facts _ _ _ Kl Kr Plr (of_key_up a b lk rk sh ig z y HS Ka Kb Hab P1 P2 Oy)) as (B4 & B5 & B6 & _). rewrite !odd_base by (auto; lia). lia. }
  assert (HLL : infs s LL).
  { split.
    - apply ss_app_intro.
      + apply Hmax; auto; [apply (rep_infs _ _ _ _ _ _ RL)|apply ple_refl|apply plt_ple; exact Pmr].
      + apply Hmax; auto; [apply (rep_infs _ _ _ _ _ _ RR)|apply plt_ple; exact Plm|apply ple_refl].
      + intros x y Ix Iy. apply in_map_iff in Ix as (x0 & <- & Ix). apply in_map_iff in Iy as (y0 & <- & Iy). rewrite Forall_forall in FL, FR.
        pose proof (of_key_up lk mk lk rk sh ig z x0 HS Kl Km Plm (ple_refl _) (plt_ple _ _ Pmr) (FL _ Ix)) as Ox. pose proof (of_key_up mk rk lk rk sh ig z y0 HS Km Kr Pmr (plt_ple _ _ Plm) (ple_refl _) (FR _ Iy)) as Oy.
        destruct (of_key_facts _ _ _ Kl Kr Plr Ox) as (A4 & A5 & A6 & _). destruct (of_key_facts _ _ _ Kl Kr Plr Oy) as (B4 & B5 & B6 & _). rewrite !odd_base by (auto; lia).
        destruct (FL _ Ix) as (k1 & Kk1 & P1 & P2 & ->). destruct (FR _ Iy) as (k2 & Kk2 & P3 & P4 & ->).
        rewrite (moved_infx lk mk lk rk sh ig z) by (auto using ple_refl, plt_ple). rewrite (moved_infx mk rk lk rk sh ig z) by (auto using ple_refl, plt_ple).
        assert (Hk : ple k1 k2) by (eapply ple_trans; eassumption). destruct (seg_tot c _ _ _ _ _ HS) as [_ Q].
        pose proof (inf_mono c s Hs lk rk k1 k2 ltac:(lia) Hk). destruct (inf_range c s Hs lk rk _ _ _ k1 HS P1 ltac:(eapply ple_trans; [exact P2|apply plt_ple; exact Pmr])) as (I1 & _).
        unfold Contents.infx. pose proof (lor1_mono (inf lk rk k1) (inf lk rk k2) ltac:(lia)). lia.
    - eapply Forall_impl; [|exact FLL]. intros x Ox. destruct (of_key_facts _ _ _ Kl Kr Plr Ox) as (A4 & A5 & A6 & A7). split; [lia|exact A7]. }
  assert (HN : Z.of_nat (length LL) < 2 ^ 20) by (unfold LL; rewrite app_length, !map_length; lia).
  destruct (seg_tot _ _ _ _ _ _ HS) as [Htt _].
  assert (Hi : exists scalar, implicit_scalar c (tot lk rk) = Ok scalar).
  { unfold implicit_scalar. change (target_size / 2) with 512. destruct (Z.leb_spec 0 (tot lk rk - 512)); [|lia]. destruct (Z.leb_spec (tot lk rk - 512) 512); [|lia]. eexists. reflexivity. }
  destruct Hi as (scalar & Hi).
  assert (Hw : wp (alloc_with_list c s LL (tot lk rk)) (fun st => rep c s (tot lk rk) true st LL)).
  { apply (alloc_rep c T s LL (tot lk rk) scalar); auto. lia. }
  apply wp_exists in Hw as (st0 & Ea & R0).
  destruct (rep_flags2 c s _ _ st0 LL (get_invalid_bits stl) (is_partial_key stl) R0 (invalid_range stl)) as [R1 Ep].
  set (st := set_invalid_bits (set_partial_key st0 (is_partial_key stl)) (get_invalid_bits stl)) in *.
  exists st. pose proof XL as (PL & LL1 & EL1 & HPL). pose proof XR as (PR & LR1 & ER1 & HPR). rewrite EL in EL1. injection EL1 as <-. rewrite ER in ER1. injection ER1 as <-.
  pose proof (plt_key_lt _ _ Kl Km Plm) as Klm. pose proof (plt_key_lt _ _ Km Kr Pmr) as Kmr.
  split.
  - unfold delete. rewrite Hds, E. change (A ++ (lk, stl) :: (mk, str) :: (rk, w) :: B) with (A ++ [(lk, stl)] ++ (mk, str) :: (rk, w) :: B) in Hso |- *. rewrite app_assoc in Hso |- *.
    rewrite seek_hit by exact Hso. cbn [peek snd bind]. rewrite (proj2 (key_eq_iff mk mk) eq_refl), PR. cbn [andb negb].
    unfold delete_merge. rewrite Hds. cbn [peek snd bind skip1]. rewrite rev_app_distr. cbn [rev app skip1_rev peek snd bind].
    rewrite Er. cbn [bind]. rewrite EL, ER. cbn [bind]. rewrite CL, CR, !Z.eqb_refl. cbn [andb negb]. rewrite U1, U2. cbn [bind]. rewrite El. cbn [bind].
    rewrite map_app, M1, M2. fold LL. unfold free_block. rewrite OL, OR. cbn [bind]. rewrite (extract_right G) by auto. cbn [bind].
    rewrite (merged_total lk rk sh ig z _ _ HS Kl Kr El (extract_right G c s Kr Hs)). rewrite Ea. cbn [bind]. fold st. f_equal. unfold with_tree. rewrite Hds, E. f_equal.
    change (A ++ (lk, stl) :: (mk, str) :: (rk, w) :: B) with (A ++ [(lk, stl)] ++ (mk, str) :: (rk, w) :: B). rewrite app_assoc.
    rewrite del_hit by (apply (sorted_app_below _ _ _ Hso)). rewrite <- app_assoc. cbn [app]. apply put_hit.
    rewrite <- app_assoc in Hso. cbn [app] in Hso. apply (sorted_app_below _ (lk, stl) _ Hso).
  - split; [reflexivity|]. cbn [d_tree]. split; [destruct A; discriminate|]. split; [rewrite <- Hlo; destruct A as [|[? ?] ?]; reflexivity|].
    split. { rewrite <- Hhi. rewrite !last_app_cons. change ((lk, stl) :: (mk, str) :: (rk, w) :: B) with ([(lk, stl); (mk, str)] ++ (rk, w) :: B). change ((lk, st) :: (rk, w) :: B) with ([(lk, st)] ++ (rk, w) :: B). rewrite !last_app_cons. reflexivity. }
    split.
    + apply adj_app. split; [eapply adj_last; exact Hg1|]. rewrite adj_cons. split; [|exact Hg3]. split; [exact Kl|]. split; [exact Kr|]. split; [exact Plr|]. split; [intros Hp; rewrite Ep, PL in Hp; discriminate|]. exists LL. exact R1.
    + apply adj_app. split; [eapply adj_last; exact Hx1|]. rewrite adj_cons. split; [|exact Hx3]. split; [rewrite Ep; exact PL|]. exists LL. split; [exact (rep_list _ _ _ _ _ _ R1)|].
      assert (HF : Permutation (filter (inside lk rk) X) (filter (inside lk mk) X ++ filter (inside mk rk) X)).
      { clear - Klm Kmr. induction X as [|k l IH]; [reflexivity|]. cbn [filter]. remember (filter (inside lk rk) l) as F1. remember (filter (inside lk mk) l) as F2. remember (filter (inside mk rk) l) as F3. unfold inside. destruct (key_lt k lk) eqn:E1; cbn [negb andb].
        - rewrite (key_lt_trans _ _ _ E1 Klm). exact IH.
        - destruct (key_lt k mk) eqn:E2; cbn [negb andb].
          + rewrite (key_lt_trans _ _ _ E2 Kmr). cbn [app]. apply perm_skip. exact IH.
          + destruct (key_lt k rk) eqn:E3; [|exact IH]. etransitivity; [apply perm_skip; exact IH|]. apply Permutation_middle. }
      etransitivity; [|apply Permutation_map; symmetry; exact HF]. rewrite map_app. apply Permutation_app.
      * etransitivity; [apply Permutation_map; exact HPL|]. rewrite map_map. rewrite (map_ext_in _ (infx lk rk)); [reflexivity|].
        intros k Hk. apply filter_In in Hk as [Hk Hin]. rewrite Forall_forall in HX. unfold inside in Hin. apply andb_true_iff in Hin as [N1 N2]. apply negb_true_iff in N1.
        apply (moved_infx lk mk lk rk sh ig z); auto using ple_refl, plt_ple, nlt_ple, key_lt_ple.
      * etransitivity; [apply Permutation_map; exact HPR|]. rewrite map_map. rewrite (map_ext_in _ (infx lk rk)); [reflexivity|].
        intros k Hk. apply filter_In in Hk as [Hk Hin]. rewrite Forall_forall in HX. unfold inside in Hin. apply andb_true_iff in Hin as [N1 N2]. apply negb_true_iff in N1.
        apply (moved_infx mk rk lk rk sh ig z); auto using ple_refl, plt_ple, nlt_ple, key_lt_ple.
Qed.
End M.
