(** Dumping a block to a list and loading a sorted list into a block. *)
From Coq Require Import ZArith List Bool Lia Sorted.
From Coq Require Import ZifyBool ZifyNat.
From Verif Require Import Base Util Store Bits View Cells Lowbit StoreFind StoreInsert StoreQuery Layout.
Import ListNotations.
Open Scope Z_scope.

Lemma lor_join p x s : 0 <= s -> 0 <= x < 2 ^ s -> 0 <= p -> Z.lor (Z.shiftl p s) x = p * 2 ^ s + x.
Proof.
  intros Hs Hx Hp. assert (Hl : Z.land (Z.shiftl p s) x = 0).
  { apply Z.bits_inj'. intros k Hk. rewrite Z.land_spec, Z.bits_0, Z.shiftl_spec by lia.
    destruct (Z.ltb_spec k s).
    - rewrite Z.testbit_neg_r by lia. reflexivity.
    - destruct (Z.eq_dec x 0) as [->|]; [rewrite Z.bits_0; apply andb_false_r|].
      rewrite (Z.bits_above_log2 x); [apply andb_false_r|lia|].
      apply (Z.lt_le_trans _ s); [apply Z.log2_lt_pow2; lia|lia]. }
  rewrite <- Z.lxor_lor, <- Z.add_nocarry_lxor by exact Hl. rewrite Z.shiftl_mul_pow2 by lia. reflexivity.
Qed.

(** ** GetInfixList *)
Section Dump.
Context {c : cfg} {s S : Z} {m : Z -> Z} {u : Z} {w : bool} {o r : Z -> bool} {v : Z -> Z}
  {a0 a1 : Z} {cl : cellf} {st : store}.
Hypothesis G : good c s S m u w o r v a0 a1 cl st.
Let HV := g_V _ _ _ _ _ _ _ _ _ _ _ _ _ G.
Let HW := g_wf _ _ _ _ _ _ _ _ _ _ _ _ _ G.
Let HA := g_ag _ _ _ _ _ _ _ _ _ _ _ _ _ G.

Lemma get_infix_list_wp (Q : list Z -> Prop) : Q (map (jn s) (content cl 0 S)) -> wp (get_infix_list c s st) Q.
Proof.
  intros HQ. unfold get_infix_list. pose proof (S_pos G) as HS. pose proof (pow_s G) as Hps.
  pose proof (g_s _ _ _ _ _ _ _ _ _ _ _ _ _ G) as Hs.
  assert (Hocc : forall i p x, cl i = Some (p, x) -> o p = true).
  { intros i p x E. destruct (sl_val G _ _ _ E) as (_ & _ & Hp & _). apply (a_occ _ _ _ _ _ _ _ HA p Hp). exists i. apply in_run_iff. eauto. }
  set (I := fun (i : Z) (x : Z * list Z) => snd x = rev (map (jn s) (content cl 0 i)) /\
     forall j q y, i <= j -> cl j = Some (q, y) -> (forall k, i <= k < j -> cl k = None) -> q = fst x).
  assert (Hmain : forall ip0, (forall j q y, 0 <= j -> cl j = Some (q, y) -> (forall k, 0 <= k < j -> cl k = None) -> q = ip0) ->
    wp (let* '(_, acc) :=
      forz (Z.to_nat (slots c st)) 0
      (fun i (x : Z * list Z) =>
         let '(ip, acc) := x in
         let* e := get_slot c s st i in
         let acc' := if e =? 0 then acc else u64 (Z.lor (Z.shiftl ip s) e) :: acc in
         let* b := get_bit c st re_base i in
         if b =? 0 then Ok (ip, acc')
         else let* ip' := next_occupied c st ip in Ok (ip', acc'))
      (ip0, []) in Ok (rev acc)) Q).
  { intros ip0 Hip0. apply wp_bind. rewrite (V_slots _ _ _ _ _ _ _ _ _ _ _ HV).
    apply (wp_forz I).
    - split; simpl; [reflexivity|auto].
    - intros i [ip acc] Hi (Hacc & Hnext). simpl in Hacc, Hnext.
      apply wp_bind. apply (get_slot_at _ _ _ _ _ _ _ _ _ _ _ _ _ HV); [lia|].
      apply wp_bind. apply (get_re_wp _ _ _ _ _ _ _ _ _ _ _ _ _ HV); [lia|].
      rewrite (a_re _ _ _ _ _ _ _ HA) by lia.
      assert (Hacc' : (if v i =? 0 then acc else u64 (Z.lor (Z.shiftl ip s) (v i)) :: acc) = rev (map (jn s) (content cl 0 (i + 1)))).
      { rewrite content_snoc, map_app, rev_app_distr, Hacc by lia. destruct (full_dec cl i) as [Hf|Hn].
        - destruct (full_some _ _ Hf) as (q & y & E). rewrite E. simpl.
          destruct (sl_val G _ _ _ E) as (Ev & _ & Hq & Hy).
          assert (q = ip) by (apply (Hnext i q y); auto; [lia|intros; exfalso; lia]). subst q. rewrite Ev.
          destruct (Z.eqb_spec y 0); [exfalso; lia|]. f_equal. unfold jn; simpl.
          rewrite lor_join by lia. apply u64_small. nia.
        - rewrite Hn. simpl. rewrite (proj2 (sl_zero G i ltac:(lia)) Hn). reflexivity. }
      rewrite Hacc'. destruct (re_of cl i) eqn:Er; simpl (Z.b2z _ =? 0); cbv iota.
      + pose proof (re_full _ _ Er) as Hf. destruct (full_some _ _ Hf) as (q & y & E).
        destruct (sl_val G _ _ _ E) as (_ & _ & Hq & Hy).
        assert (q = ip) by (apply (Hnext i q y); auto; [lia|intros; exfalso; lia]). subst q.
        apply wp_bind. apply (next_occupied_wp _ _ _ _ _ _ _ _ _ _ _ _ _ HV); [lia|]. intros e He He' Hz Het.
        simpl. split; simpl; [reflexivity|]. intros j q z Hj Ej Hno.
        assert (Hqp : ip <= q) by (apply (run_le s S m _ i j _ _ _ _ HW ltac:(lia) E Ej)).
        assert (Hqn : q <> ip).
        { intros ->. destruct (run_between s S m cl i (i + 1) j ip y z HW ltac:(lia) E Ej) as (z' & Ez').
          unfold re_of in Er. rewrite E in Er. unfold in_run in Er. rewrite Ez' in Er. rewrite Z.eqb_refl in Er. discriminate. }
        destruct (sl_val G _ _ _ Ej) as (_ & _ & Hq' & _).
        destruct (Z.lt_trichotomy e q) as [Hlt|[?|Hgt]]; auto.
        * specialize (Het ltac:(lia)). apply (a_occ _ _ _ _ _ _ _ HA e ltac:(lia)) in Het as (k & Hk).
          apply in_run_iff in Hk as (zk & Ek). exfalso.
          assert (i < k). { destruct (Z.ltb_spec i k); auto. pose proof (run_le s S m _ k i _ _ _ _ HW ltac:(lia) Ek E). lia. }
          assert (k < j). { destruct (Z.ltb_spec k j); auto. pose proof (run_le s S m _ j k _ _ _ _ HW ltac:(lia) Ej Ek). lia. }
          rewrite Hno in Ek by lia. discriminate.
        * pose proof (Hocc _ _ _ Ej) as HX. rewrite Hz in HX by lia. discriminate.
      + simpl. split; simpl; [reflexivity|]. intros j q z Hj Ej Hno.
        destruct (full_dec cl i) as [Hf|Hn].
        * destruct (full_some _ _ Hf) as (q' & y & E).
          assert (q' = ip) by (apply (Hnext i q' y); auto; [lia|intros; exfalso; lia]). subst q'.
          destruct (re_next _ _ _ _ E Er) as (y' & E').
          destruct (Z.eq_dec j (i + 1)) as [->|]; [congruence|]. rewrite Hno in E' by lia. discriminate.
        * apply (Hnext j q z); auto; [lia|]. intros k Hk. destruct (Z.eq_dec k i) as [->|]; auto. apply Hno. lia.
    - intros [ip acc] (Hacc & _). simpl in Hacc. simpl. rewrite Hacc, rev_involutive.
      replace (0 + Z.of_nat (Z.to_nat S)) with S by lia. exact HQ. }
  apply wp_bind. apply rdw_wp; [unfold occ_base; lia|unfold occ_base; pose proof (V_limit _ _ _ _ _ _ _ _ _ _ _ HV); lia|].
  fold (word st occ_base).
  assert (Hb : Z.land (word st occ_base) 1 = Z.b2z (o 0)).
  { rewrite <- (V_occ _ _ _ _ _ _ _ _ _ _ _ HV 0) by lia. change 1 with (Z.ones 1). rewrite Z.land_ones by lia.
    change (2 ^ 1) with 2. rewrite <- Z.bit0_mod, word_testbit by (unfold occ_base; lia). reflexivity. }
  rewrite Hb. apply wp_bind. destruct (o 0) eqn:Ho; simpl (Z.b2z _ =? 0); cbv iota.
  - simpl (wp (Ok 0) _). apply Hmain. intros j q y Hj E Hno. destruct (sl_val G _ _ _ E) as (_ & _ & Hq & _).
    apply (a_occ _ _ _ _ _ _ _ HA 0 ltac:(lia)) in Ho as (i & Hi). apply in_run_iff in Hi as (z & Ei).
    destruct (Z.ltb_spec i j).
    + pose proof (w_dom _ _ _ _ HW _ _ _ Ei). rewrite Hno in Ei by lia. discriminate.
    + pose proof (run_le s S m _ j i _ _ _ _ HW ltac:(lia) E Ei). lia.
  - apply (next_occupied_wp _ _ _ _ _ _ _ _ _ _ _ _ _ HV); [lia|]. intros e He He' Hz Het. apply Hmain.
    intros j q y Hj E Hno. destruct (sl_val G _ _ _ E) as (_ & _ & Hq & _). pose proof (Hocc _ _ _ E) as Hoq.
    assert (q <> 0) by (intros ->; congruence).
    destruct (Z.lt_trichotomy e q) as [Hlt|[?|Hgt]]; auto.
    + specialize (Het ltac:(lia)). apply (a_occ _ _ _ _ _ _ _ HA e ltac:(lia)) in Het as (k & Hk).
      apply in_run_iff in Hk as (zk & Ek). exfalso. destruct (Z.ltb_spec k j).
      * pose proof (w_dom _ _ _ _ HW _ _ _ Ek). rewrite Hno in Ek by lia. discriminate.
      * pose proof (run_le s S m _ j k _ _ _ _ HW ltac:(lia) E Ek). lia.
    + rewrite Hz in Hoq by lia. discriminate.
Qed.
End Dump.

(** ** Writing the runs *)
Section Write.
Variables (c : cfg) (s S : Z).

Lemma write_run_wp p xs l : 0 <= p < 1024 -> forall a o v u w r a0 a1 st (Q : store * list Z -> Prop),
  V c s S u w o r v a0 a1 st ->
  0 <= a -> a + Z.of_nat (length xs) <= S -> Forall (fun x => 0 <= x < 2 ^ s) xs ->
  (forall st' o' v', V c s S u w o' r v' a0 a1 st' ->
     (forall q, o' q = o q || (match xs with [] => false | _ => true end) && (q =? p)) ->
     (forall i, v' i = if (a <=? i) && (i <? a + Z.of_nat (length xs)) then nth (Z.to_nat (i - a)) xs 0 else v i) -> Q (st', l)) ->
  wp (write_run c s (length xs) a (map (fun x => jn s (p, x)) xs ++ l) st) Q.
Proof.
  intros Hp. induction xs as [|x t IH]; intros a o v u w r a0 a1 st Q HV Ha Hl Hx HQ.
  - simpl. apply (HQ st o v); auto.
    + intros q. rewrite orb_false_r. reflexivity.
    + intros i. cbn [length]. replace (a + Z.of_nat 0) with a by lia.
      destruct (Z.leb_spec a i), (Z.ltb_spec i a); cbn [andb]; auto; exfalso; lia.
  - inversion Hx as [|? ? Hx0 Hx']; subst. simpl length in *.
    pose proof (V_s _ _ _ _ _ _ _ _ _ _ _ HV) as Hs.
    cbn [length write_run map app]. destruct (join_key p x s ltac:(lia) Hx0 ltac:(lia)) as [Ej1 Ej2].
    unfold jn at 1 2; cbn [fst snd]. rewrite Ej1, Ej2.
    apply wp_bind. apply (set_occ_wp _ _ _ _ _ _ _ _ _ _ _ _ _ HV Hp). intros b1 HV1.
    apply wp_bind. apply (set_slot_wp _ _ _ _ _ _ _ _ _ _ _ _ _ _ HV1); [lia|lia|]. intros b2 HV2.
    eapply IH; [exact HV2|lia|lia|exact Hx'|]. intros st' o' v' HV' Ho' Hv'. apply (HQ st' o' v' HV').
    + intros q. rewrite Ho'. unfold updb. destruct (Z.eqb_spec q p); subst; simpl.
      * rewrite orb_true_r. reflexivity.
      * rewrite andb_false_r. reflexivity.
    + intros i. rewrite Hv'. unfold updz.
      destruct (Z.eqb_spec i a) as [->|Hia].
      * destruct (Z.leb_spec (a + 1) a); [exfalso; lia|]. cbn [andb].
        destruct (Z.leb_spec a a); [|exfalso; lia]. destruct (Z.ltb_spec a (a + Z.of_nat (Datatypes.S (length t)))); [|exfalso; lia].
        cbn [andb]. rewrite Z.sub_diag. reflexivity.
      * destruct (Z.leb_spec (a + 1) i), (Z.leb_spec a i); try (exfalso; lia); cbn [andb]; [|reflexivity].
        destruct (Z.ltb_spec i (a + 1 + Z.of_nat (length t))), (Z.ltb_spec i (a + Z.of_nat (Datatypes.S (length t)))); try (exfalso; lia); [|reflexivity].
        replace (Z.to_nat (i - a)) with (Datatypes.S (Z.to_nat (i - (a + 1)))) by lia. reflexivity.
Qed.

Definition occ_in (PL : placed) (q : Z) : bool := existsb (fun e => fst (snd e) =? q) PL.

Lemma lastpos_ge PL : forall lo, incr lo PL -> lo <= lastpos lo PL.
Proof. induction PL as [|[a e] t IH]; intros lo H; simpl; [lia|]. destruct H as [H1 H2]. specialize (IH _ H2). lia. Qed.
Lemma mk_in p xs e : forall a, In e (mk a p xs) -> a <= fst e < a + Z.of_nat (length xs) /\ fst (snd e) = p.
Proof.
  induction xs as [|x t IH]; intros a Hin; [contradiction|]. simpl length. destruct Hin as [<-|Hin]; [simpl; lia|].
  specialize (IH _ Hin). lia.
Qed.
Lemma re_mk a p xs PL i : xs <> [] -> incr (a + Z.of_nat (length xs)) PL -> (forall e, In e PL -> p < fst (snd e)) ->
  re_of (cells (mk a p xs ++ PL)) i = (i =? a + Z.of_nat (length xs) - 1) || re_of (cells PL) i.
Proof.
  intros Hx Hi Hp.
  assert (Hlen : 0 < Z.of_nat (length xs)) by (destruct xs; [congruence|simpl; lia]).
  assert (Hc : forall j q y, cells PL j = Some (q, y) -> a + Z.of_nat (length xs) <= j /\ p < q).
  { intros j q y E. apply (cells_in PL _ _ _ Hi) in E. split; [apply (incr_in _ _ _ _ Hi E)|apply (Hp _ E)]. }
  assert (Hnp : forall j, in_run (cells PL) p j = false).
  { intros j. destruct (in_run (cells PL) p j) eqn:E; auto. apply in_run_iff in E as (y & E). apply Hc in E. lia. }
  unfold re_of at 1. unfold in_run. rewrite !cells_mk.
  destruct (Z.leb_spec a i), (Z.ltb_spec i (a + Z.of_nat (length xs))); cbn [andb].
  - assert (Hn : cells PL i = None). { destruct (cells PL i) as [[q y]|] eqn:E; auto. apply Hc in E. lia. }
    assert (re_of (cells PL) i = false) as ->. { unfold re_of. rewrite Hn. reflexivity. }
    destruct (Z.leb_spec a (i + 1)); [|exfalso; lia].
    destruct (Z.ltb_spec (i + 1) (a + Z.of_nat (length xs))); cbn [andb].
    + rewrite Z.eqb_refl. destruct (Z.eqb_spec i (a + Z.of_nat (length xs) - 1)); [exfalso; lia|]. reflexivity.
    + destruct (Z.eqb_spec i (a + Z.of_nat (length xs) - 1)); [|exfalso; lia].
      specialize (Hnp (i + 1)). unfold in_run in Hnp. rewrite Hnp. reflexivity.
  - destruct (Z.eqb_spec i (a + Z.of_nat (length xs) - 1)); [exfalso; lia|]. cbn [orb]. unfold re_of, in_run.
    destruct (cells PL i) as [[q y]|]; auto.
    destruct (Z.leb_spec a (i + 1)), (Z.ltb_spec (i + 1) (a + Z.of_nat (length xs))); cbn [andb]; auto; exfalso; lia.
  - (* i < a: nothing on the right-hand side either *)
    destruct (Z.eqb_spec i (a + Z.of_nat (length xs) - 1)); [exfalso; lia|]. cbn [orb]. unfold re_of.
    destruct (cells PL i) as [[q y]|] eqn:E; auto. apply Hc in E. lia.
  - exfalso; lia.
Qed.

Lemma write_runs_wp runs PL : grp runs PL -> forall lo o v u w r a0 a1 st (Q : store -> Prop),
  V c s S u w o r v a0 a1 st -> 0 <= lo -> incr lo PL -> lastpos lo PL <= S ->
  Forall (fun e => 0 <= fst (snd e) < 1024 /\ 0 <= snd (snd e) < 2 ^ s) PL ->
  (forall st' o' r' v', V c s S u w o' r' v' a0 a1 st' ->
     (forall q, o' q = o q || occ_in PL q) ->
     (forall i, r' i = r i || re_of (cells PL) i) ->
     (forall i, v' i = match cells PL i with Some (_, x) => x | None => v i end) -> Q st') ->
  wp (write_runs c s runs (map (jn s) (map snd PL)) st) Q.
Proof.
  induction 1 as [|a p xs t PL Hx Hg IH Hp]; intros lo o v u w r a0 a1 st Q HV Hlo Hi Hl Hf HQ.
  - simpl. apply (HQ st o r v HV); intros; simpl; auto; rewrite orb_false_r; reflexivity.
  - assert (Hlen : 0 < Z.of_nat (length xs)) by (destruct xs; [congruence|simpl; lia]).
    apply incr_app in Hi as [Hi1 Hi2]. rewrite lastpos_app in Hl. rewrite lastpos_mk in Hi2, Hl by auto.
    pose proof (lastpos_ge _ _ Hi2) as Hge. apply Forall_app in Hf as [Hf1 Hf2].
    assert (Ha : lo <= a). { destruct xs; [congruence|]. simpl in Hi1. lia. }
    assert (Hp0 : 0 <= p < 1024). { destruct xs; [congruence|]. inversion Hf1; subst. simpl in *. lia. }
    assert (Hxs : Forall (fun x => 0 <= x < 2 ^ s) xs).
    { apply Forall_forall. intros x Hin. rewrite Forall_forall in Hf1.
      assert (Hin' : In (p, x) (map snd (mk a p xs))) by (rewrite mk_snd; apply in_map; auto).
      apply in_map_iff in Hin' as (e & Ee & Hin'). specialize (Hf1 _ Hin'). rewrite Ee in Hf1. simpl in Hf1. tauto. }
    rewrite !map_app, mk_snd, map_map. cbn [write_runs].
    replace (Z.to_nat (a + Z.of_nat (length xs) - a)) with (length xs) by lia.
    apply wp_bind. eapply write_run_wp; [exact Hp0|exact HV|lia|lia|exact Hxs|]. intros b1 o1 v1 HV1 Ho1 Hv1.
    apply wp_bind. apply (set_re_wp _ _ _ _ _ _ _ _ _ _ _ _ _ HV1); [lia|]. intros b2 HV2.
    eapply (IH (a + Z.of_nat (length xs))); [exact HV2|lia|exact Hi2|exact Hl|exact Hf2|].
    intros st' o' r' v' HV' Ho' Hr' Hv'. apply (HQ st' o' r' v' HV').
    + intros q. rewrite Ho', Ho1. unfold occ_in. rewrite existsb_app.
      assert (Hmk : existsb (fun e => fst (snd e) =? q) (mk a p xs) = (q =? p)).
      { clear -Hx. destruct xs as [|x xs]; [congruence|]. clear Hx. revert a x. induction xs as [|y xs IH]; intros a x.
        - simpl. rewrite orb_false_r. apply Z.eqb_sym.
        - change (existsb (fun e => fst (snd e) =? q) (mk a p (x :: y :: xs))) with ((p =? q) || existsb (fun e => fst (snd e) =? q) (mk (a + 1) p (y :: xs))).
          rewrite IH, (Z.eqb_sym p q). apply orb_diag. }
      rewrite Hmk. destruct xs; [congruence|]. rewrite andb_true_l, orb_assoc. reflexivity.
    + intros i. rewrite Hr', re_mk by auto. unfold updb.
      destruct (i =? a + Z.of_nat (length xs) - 1); cbn [orb]; [rewrite orb_true_r; reflexivity|reflexivity].
    + intros i. rewrite Hv', cells_mk, Hv1.
      destruct (Z.leb_spec a i), (Z.ltb_spec i (a + Z.of_nat (length xs))); cbn [andb]; auto.
      destruct (cells PL i) as [[q y]|] eqn:E; auto. apply (cells_in PL _ _ _ Hi2) in E. pose proof (incr_in _ _ _ _ Hi2 E). lia.
Qed.
End Write.

(** ** the status word *)
Definition ucount (u n : Z) : Z := u32 (Z.lor (Z.ldiff u (bitmask 20)) n).
Lemma ucount_spec u n : 0 <= u < 2 ^ 32 -> 0 <= n < 2 ^ 20 ->
  0 <= ucount u n < 2 ^ 32 /\ st_count (ucount u n) = n /\ st_grade (ucount u n) = st_grade u /\
  Z.shiftr (ucount u n) 28 = Z.shiftr u 28.
Proof.
  intros Hu Hn. unfold ucount, bitmask.
  rewrite Z.ldiff_ones_r, (Z.shiftr_div_pow2 u 20) by lia.
  pose proof (Z.div_mod u (2 ^ 20) ltac:(lia)) as Hd. pose proof (Z.mod_pos_bound u (2 ^ 20) ltac:(lia)) as Hm.
  assert (Hq : 0 <= u / 2 ^ 20 < 2 ^ 12). { split; [apply Z.div_pos; lia|apply Z.div_lt_upper_bound; lia]. }
  set (q := u / 2 ^ 20) in *. rewrite lor_join by lia. rewrite u32_small by lia.
  assert (E1 : (q * 2 ^ 20 + n) / 2 ^ 20 = q) by (symmetry; apply (Z.div_unique_pos _ _ _ n); lia).
  assert (E2 : (q * 2 ^ 20 + n) mod 2 ^ 20 = n) by (symmetry; apply (Z.mod_unique_pos _ _ q); lia).
  split; [lia|]. split; [rewrite st_count_mod; exact E2|]. split.
  - rewrite !st_grade_mod, E1. reflexivity.
  - rewrite !Z.shiftr_div_pow2 by lia. change (2 ^ 28) with (2 ^ 20 * 2 ^ 8). rewrite <- !Z.div_div by lia. rewrite E1. reflexivity.
Qed.
Definition ugrade (u g : Z) : Z := u32 (Z.lor (Z.ldiff u (Z.shiftl (bitmask 8) 20)) (Z.shiftl g 20)).
Lemma ugrade_spec u g : 0 <= u < 2 ^ 32 -> 0 <= g < 2 ^ 8 ->
  0 <= ugrade u g < 2 ^ 32 /\ st_count (ugrade u g) = st_count u /\ st_grade (ugrade u g) = g /\
  Z.shiftr (ugrade u g) 28 = Z.shiftr u 28.
Proof.
  intros Hu Hg. assert (Hbits : forall i, 0 <= i -> Z.testbit (ugrade u g) i =
      if i <? 20 then Z.testbit u i else if i <? 28 then Z.testbit g (i - 20) else Z.testbit u i).
  { intros i Hi. unfold ugrade, u32, low, bitmask. rewrite Z.land_spec, Z.testbit_ones_nonneg, Z.lor_spec, Z.ldiff_spec, !Z.shiftl_spec by lia.
    assert (Hhi : forall x n k, 0 <= x < 2 ^ n -> 0 <= n <= k -> Z.testbit x k = false).
    { intros x n k Hx Hk. destruct (Z.eq_dec x 0) as [->|]; [apply Z.bits_0|]. apply Z.bits_above_log2; [lia|].
      apply (Z.lt_le_trans _ n); [apply Z.log2_lt_pow2; lia|lia]. }
    destruct (Z.ltb_spec i 32).
    - rewrite andb_true_r. destruct (Z.ltb_spec i 20).
      + rewrite (Z.testbit_neg_r _ (i - 20)), (Z.testbit_neg_r g (i - 20)) by lia. rewrite orb_false_r, andb_true_r. reflexivity.
      + rewrite Z.testbit_ones_nonneg by lia. destruct (Z.ltb_spec i 28).
        * destruct (Z.ltb_spec (i - 20) 8); [|exfalso; lia]. rewrite andb_false_r. reflexivity.
        * destruct (Z.ltb_spec (i - 20) 8); [exfalso; lia|]. rewrite andb_true_r. rewrite (Hhi g 8) by lia. apply orb_false_r.
    - rewrite andb_false_r. destruct (Z.ltb_spec i 20); [exfalso; lia|]. destruct (Z.ltb_spec i 28); [exfalso; lia|].
      symmetry. apply (Hhi u 32); lia. }
  split; [|split; [|split]].
  - unfold ugrade. rewrite u32_mod. apply Z.mod_pos_bound. lia.
  - unfold st_count, bitmask. apply Z.bits_inj'. intros i Hi. rewrite !Z.land_spec, Hbits, Z.testbit_ones_nonneg by lia.
    destruct (Z.ltb_spec i 20); [reflexivity|]. rewrite !andb_false_r. reflexivity.
  - unfold st_grade, bitmask. apply Z.bits_inj'. intros i Hi. rewrite Z.land_spec, Z.shiftr_spec, Hbits, Z.testbit_ones_nonneg by lia.
    destruct (Z.ltb_spec (i + 20) 20); [exfalso; lia|]. destruct (Z.ltb_spec (i + 20) 28), (Z.ltb_spec i 8); try (exfalso; lia).
    + rewrite andb_true_r. f_equal. lia.
    + rewrite andb_false_r. symmetry. destruct (Z.eq_dec g 0) as [->|]; [apply Z.bits_0|]. apply Z.bits_above_log2; [lia|].
      apply (Z.lt_le_trans _ 8); [apply Z.log2_lt_pow2; lia|lia].
  - apply Z.bits_inj'. intros i Hi. rewrite !Z.shiftr_spec, Hbits by lia.
    destruct (Z.ltb_spec (i + 28) 20); [exfalso; lia|]. destruct (Z.ltb_spec (i + 28) 28); [exfalso; lia|]. reflexivity.
Qed.

(** ** LoadListToInfixStore *)
Definition blank (c : cfg) (s S u : Z) (w : bool) (st : store) : Prop :=
  V c s S u w (fun _ => false) (fun _ => false) (fun _ => 0) 0 0 st.

Lemma load_popcnts_wp c s S u w o r v st (Q : store -> Prop) : V c s S u w o r v 0 0 st ->
  (forall st', V c s S u w o r v (count o 0 512) (count r 0 (Z.min 512 S)) st' -> Q st') ->
  wp (load_popcnts c st) Q.
Proof.
  intros HV HQ. unfold load_popcnts. change (Z.to_nat (target_size / 128)) with 8%nat.
  pose proof (V_S _ _ _ _ _ _ _ _ _ _ _ HV) as HS.
  apply (wp_forz (fun i st => V c s S u w o r v (count o 0 (64 * i)) (count r 0 (Z.min (64 * i) S)) st)).
  - replace (64 * 0) with 0 by lia. replace (Z.min 0 S) with 0 by lia. exact HV.
  - intros i b Hi HVb. change (Z.of_nat 8) with 8 in Hi.
    pose proof (count_range o 0 (64 * i) ltac:(lia)). pose proof (count_range o (64 * i) (64 * i + 64) ltac:(lia)).
    apply wp_bind. apply rdw_wp; [unfold occ_base; lia| |].
    { pose proof (V_owords _ _ _ _ _ _ _ _ _ _ _ (64 * i) HVb ltac:(lia)) as Hw. rewrite div64 in Hw. exact Hw. }
    fold (word b (occ_base + i)). unfold occ_base. rewrite word_pop by lia.
    replace (64 * (1 + i)) with (64 + 64 * i) by lia. replace (64 + 64 * i + 64) with (64 + (64 * i + 64)) by lia.
    rewrite (count_occ _ _ _ _ _ _ _ _ _ _ _ _ _ HVb) by lia.
    apply wp_bind. apply (add_popcnt0_wp _ _ _ _ _ _ _ _ _ _ _ _ _ HVb). intros b1 HV1.
    rewrite (V_slots _ _ _ _ _ _ _ _ _ _ _ HVb).
    rewrite u32_small in HV1 by lia. rewrite <- count_split in HV1 by lia. replace (64 * i + 64) with (64 * (i + 1)) in HV1 by lia.
    destruct (Z.ltb_spec 0 (S - i * 64)).
    + set (k := Z.min 64 (S - i * 64)).
      pose proof (count_range r 0 (64 * i) ltac:(lia)). pose proof (count_range r (64 * i) (64 * i + k) ltac:(lia)).
      apply wp_bind. apply rdw_wp; [unfold re_base, target_size; lia| |].
      { pose proof (V_words _ _ _ _ _ _ _ _ _ _ _ (64 * i) HV1 ltac:(lia)) as Hw. rewrite div64 in Hw. rewrite re_base_17. exact Hw. }
      fold (word b1 (re_base + i)). rewrite re_base_17. fold (bit_rank (word b1 (17 + i)) k). rewrite word_rank by lia.
      replace (64 * (17 + i)) with (1088 + 64 * i) by lia. replace (1088 + 64 * i + k) with (1088 + (64 * i + k)) by lia.
      rewrite (count_re _ _ _ _ _ _ _ _ _ _ _ _ _ HV1) by lia.
      apply (add_popcnt1_wp _ _ _ _ _ _ _ _ _ _ _ _ _ HV1). intros b2 HV2.
      replace (Z.min (64 * i) S) with (64 * i) in HV2 by lia.
      rewrite u32_small in HV2 by lia. rewrite <- count_split in HV2 by lia.
      replace (64 * i + k) with (Z.min (64 * (i + 1)) S) in HV2 by lia. exact HV2.
    + simpl. replace (Z.min (64 * (i + 1)) S) with (Z.min (64 * i) S) by lia. exact HV1.
  - intros b HVb. apply HQ. exact HVb.
Qed.

Definition els_ok (s : Z) (els : list (Z * Z)) : Prop :=
  StronglySorted ord els /\ Forall (fun e => 0 <= fst e < 1024 /\ 0 < snd e < 2 ^ s) els.

Lemma cells_nil_good c s S u w st m : blank c s S u w st ->
  (forall p, 0 <= p < 1024 -> 0 <= m p < S) -> (forall p q, 0 <= p <= q -> q < 1024 -> m p <= m q) -> 1 <= s <= 53 ->
  good c s S m u w (fun _ => false) (fun _ => false) (fun _ => 0) 0 0 (fun _ => None) st.
Proof.
  intros HV Hmr Hmm Hs. constructor; auto.
  - constructor; intros; discriminate.
  - constructor; auto.
    + intros p Hp. split; [discriminate|]. intros (i & Hi). discriminate.
    + symmetry. apply count_false. auto.
Qed.

Lemma load_blank_wp c s S m u w st els ti scalar grade (Q : store -> Prop) : blank c s S u w st ->
  0 <= u < 2 ^ 32 -> st_grade u = grade -> implicit_scalar c ti = Ok scalar ->
  (forall p, 0 <= p < 1024 -> mapped_pos c p grade scalar = m p) ->
  (forall p, 0 <= p < 1024 -> 0 <= m p < S) -> (forall p q, 0 <= p <= q -> q < 1024 -> m p <= m q) -> 1 <= s <= 53 ->
  els_ok s els -> Z.of_nat (length els) <= S -> Z.of_nat (length els) < 2 ^ 20 ->
  (forall o r v a0 a1 cl st', good c s S m (ucount u (Z.of_nat (length els))) w o r v a0 a1 cl st' ->
     content cl 0 S = els -> Q st') ->
  wp (load_list c s st (map (jn s) els) ti false) Q.
Proof.
  intros HV Hu Hg Hti Hm Hmr Hmm Hs [Hso Hr] HlS Hl20 HQ. unfold load_list. rewrite Hti. simpl (bind (Ok scalar) _).
  simpl (bind (Ok st) _).
  destruct (ucount_spec u (Z.of_nat (length els)) Hu ltac:(lia)) as (U1 & U2 & U3 & U4).
  rewrite map_length.
  assert (Hst1 : blank c s S (ucount u (Z.of_nat (length els))) w (set_elem_count st (Z.of_nat (length els)))).
  { unfold set_elem_count. pose proof (V_status _ _ _ _ _ _ _ _ _ _ _ HV) as Eu. rewrite Eu. fold (ucount u (Z.of_nat (length els))).
    apply (V_with_status _ _ _ _ _ _ _ _ _ _ _ _ HV U3). }
  assert (Hgr : get_size_grade st = grade).
  { unfold get_size_grade. rewrite (V_status _ _ _ _ _ _ _ _ _ _ _ HV). exact Hg. }
  assert (HcS : c_size c grade = S).
  { pose proof (V_slots _ _ _ _ _ _ _ _ _ _ _ HV) as Hsl. unfold slots in Hsl. rewrite Hgr in Hsl. exact Hsl. }
  rewrite Hgr, HcS. set (st1 := set_elem_count st (Z.of_nat (length els))) in *. set (u1 := ucount u (Z.of_nat (length els))) in *.
  destruct els as [|[p x] t] eqn:Eels.
  - simpl. eapply (HQ _ _ _ _ _ (fun _ => None)).
    + apply cells_nil_good; auto.
    + apply content_empty. reflexivity.
  - rewrite <- Eels in *. 
    assert (Hr1 : Forall (fun e => 0 <= fst e < 1024) els) by (eapply Forall_impl; [|exact Hr]; simpl; tauto).
    assert (Hr2 : Forall (fun e => 0 <= fst e < 1024 /\ 0 <= snd e < 2 ^ s) els) by (eapply Forall_impl; [|exact Hr]; simpl; lia).
    assert (Hpr : 0 <= p < 1024 /\ 0 < x < 2 ^ s) by (rewrite Eels in Hr; inversion Hr; auto).
    assert (Hmap : map (jn s) els = jn s (p, x) :: map (jn s) t) by (rewrite Eels; reflexivity).
    rewrite Hmap at 1. cbv zeta.
    assert (Hsh : Z.shiftr (jn s (p, x)) s = p). { unfold jn; cbn [fst snd]. apply join_key; lia. }
    rewrite Hsh. rewrite Hm by lia.
    destruct (load_runs_rg c s grade scalar m ltac:(lia) Hm els p [(m p, m p + Z.of_nat (length (@nil Z)))] []) as (p' & Hrg); auto.
    { apply (rg_one m p []). }
    { rewrite Eels. constructor; [simpl; lia|]. rewrite Eels in Hso. inversion Hso as [|? ? _ Hall]; subst.
      eapply Forall_impl; [|exact Hall]. intros e [He|[He _]]; simpl in He; lia. }
    { right. exists x, t. exact Eels. }
    replace (m p + Z.of_nat (length (@nil Z))) with (m p) in Hrg by (simpl; lia).
    assert (Hgrp : grp (pull_runs S (load_runs c s grade scalar p [(m p, m p)] (map (jn s) els)) []) (layout S m els)).
    { unfold layout. rewrite <- (app_nil_r (pull S (place m 0 els))). apply (pull_runs_grp m) with (p := p'); auto.
      - intros q Hq. apply Hmr. auto.
      - rewrite Eels. discriminate.
      - constructor.
      - intros e []. }
    destruct (layout_incr S m Hmr Hmm els HlS) as [Hinc Hlast].
    assert (Hsnd : map snd (layout S m els) = els) by (unfold layout; rewrite pull_snd, place_snd; reflexivity).
    rewrite <- Hsnd at 2. apply wp_bind.
    assert (Hrl : Forall (fun e => 0 <= fst (snd e) < 1024 /\ 0 <= snd (snd e) < 2 ^ s) (layout S m els)).
    { apply Forall_forall. intros e Hin. rewrite Forall_forall in Hr2. apply (Hr2 (snd e)). rewrite <- Hsnd. apply in_map. auto. }
    eapply (write_runs_wp c s S _ _ Hgrp 0); [exact Hst1|lia|exact Hinc|exact Hlast|exact Hrl|].
    intros st2 o' r' v' HV2 Ho' Hr' Hv'.
    eapply load_popcnts_wp; [exact HV2|]. intros st3 HV3.
    eapply HQ; [|apply (content_layout S m Hmr Hmm els HlS)].
    constructor; auto.
    + exact HV3.
    + apply wf_layout; auto.
    + constructor; auto.
      * intros q Hq. rewrite Ho'. cbn [orb]. unfold occ_in. rewrite existsb_exists. split.
        -- intros ([i [q' y]] & Hin & E). simpl in E. exists i. apply in_run_iff. exists y.
           apply (cells_in _ 0); auto. replace q with q' by lia. exact Hin.
        -- intros (i & Hi). apply in_run_iff in Hi as (y & E). apply (cells_in _ 0) in E; auto.
           exists (i, (q, y)). split; auto. simpl. lia.
      * intros i Hi. rewrite Hr'. reflexivity.
      * intros i Hi. rewrite Hv'. unfold sl_of. destruct (cells (layout S m els) i) as [[? ?]|]; reflexivity.
Qed.
