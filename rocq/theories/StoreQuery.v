(** Queries of a well-formed block answer exactly about its elements' intervals. *)
From Coq Require Import ZArith List Bool Lia.
From Coq Require Import ZifyBool ZifyNat.
From Verif Require Import Base Util Store Bits View Cells Lowbit StoreFind.
Import ListNotations.
Open Scope Z_scope.

Lemma split_key k s : 0 <= s -> 0 <= k ->
  k = Z.shiftr k s * 2 ^ s + Z.land k (bitmask s) /\ 0 <= Z.land k (bitmask s) < 2 ^ s /\ 0 <= Z.shiftr k s.
Proof.
  intros Hs Hk. unfold bitmask. rewrite Z.land_ones, Z.shiftr_div_pow2 by lia.
  assert (0 < 2 ^ s) by (apply Z.pow_pos_nonneg; lia).
  pose proof (Z.div_mod k (2 ^ s) ltac:(lia)). pose proof (Z.mod_pos_bound k (2 ^ s) ltac:(lia)).
  pose proof (Z.div_pos k (2 ^ s) Hk ltac:(lia)). lia.
Qed.
Lemma join_key p x s : 0 <= s -> 0 <= x < 2 ^ s -> 0 <= p ->
  Z.shiftr (p * 2 ^ s + x) s = p /\ Z.land (p * 2 ^ s + x) (bitmask s) = x.
Proof.
  intros Hs Hx Hp. unfold bitmask. rewrite Z.land_ones, Z.shiftr_div_pow2 by lia. split.
  - symmetry. apply (Z.div_unique_pos _ _ _ x); lia.
  - symmetry. apply (Z.mod_unique_pos _ _ p); lia.
Qed.

Section Query.
Context {c : cfg} {s S : Z} {m : Z -> Z} {u : Z} {w : bool} {o r : Z -> bool} {v : Z -> Z}
  {a0 a1 : Z} {cl : cellf} {st : store}.
Hypothesis G : good c s S m u w o r v a0 a1 cl st.

Let HV := g_V _ _ _ _ _ _ _ _ _ _ _ _ _ G.
Let HW := g_wf _ _ _ _ _ _ _ _ _ _ _ _ _ G.
Let HA := g_ag _ _ _ _ _ _ _ _ _ _ _ _ _ G.

Lemma run_scan_wp p a e test (Q : bool -> Prop) : a <= e ->
  (forall i, a <= i <= e -> in_run cl p i = true) -> (forall i, in_run cl p i = true -> a <= i <= e) ->
  (forall b, (b = true <-> exists i, a <= i <= e /\ test (v i) = true) -> Q b) ->
  wp (run_scan c s st test e) Q.
Proof.
  intros Hae Hin Hout HQ. unfold run_scan.
  assert (Hdom : forall i, a <= i <= e -> 0 <= i < S).
  { intros i Hi. apply Hin in Hi. apply in_run_iff in Hi as (x & E). apply (w_dom _ _ _ _ HW _ _ _ E). }
  pose proof (Hdom e ltac:(lia)). pose proof (Hdom a ltac:(lia)).
  apply wp_bind. apply (get_slot_at _ _ _ _ _ _ _ _ _ _ _ _ _ HV); [lia|].
  apply (wp_loop (fun x : Z * Z => let '(pos, y) := x in a <= pos <= e /\ y = v pos /\ forall i, pos < i <= e -> test (v i) = false)
    (fun x => fst x)).
  - intros [pos y] (Hpos & -> & Hno). simpl fst.
    destruct (test (v pos)) eqn:Et.
    { simpl. apply HQ. split; auto. intros _. exists pos. split; auto. }
    assert (Hno' : forall i, pos <= i <= e -> test (v i) = false).
    { intros i Hi. destruct (Z.eq_dec i pos) as [->|]; auto. apply Hno. lia. }
    destruct (Z.eqb_spec pos 0) as [->|Hp0].
    { simpl. apply HQ. split; [discriminate|]. intros (i & Hi & Ht). rewrite Hno' in Ht by lia. discriminate. }
    apply wp_bind. apply (get_slot_at _ _ _ _ _ _ _ _ _ _ _ _ _ HV); [lia|].
    apply wp_bind. apply (get_re_wp _ _ _ _ _ _ _ _ _ _ _ _ _ HV); [lia|].
    destruct (negb (v (pos - 1) =? 0) && (Z.b2z (r (pos - 1)) =? 0)) eqn:Eb.
    + simpl. apply andb_prop in Eb as [E1 E2].
      assert (Hf : full cl (pos - 1)). { destruct (full_dec cl (pos - 1)) as [|E]; auto. apply (sl_zero G) in E; lia. }
      destruct (full_some _ _ Hf) as (q & y & Eq).
      assert (Hr : re_of cl (pos - 1) = false). { rewrite <- (a_re _ _ _ _ _ _ _ HA) by lia. destruct (r (pos - 1)); [discriminate|reflexivity]. }
      destruct (re_next _ _ _ _ Eq Hr) as (z & Ez). replace (pos - 1 + 1) with pos in Ez by lia.
      pose proof (Hin pos Hpos) as Hpp. apply in_run_iff in Hpp as (z' & Ez'). rewrite Ez in Ez'. inversion Ez'; subst.
      assert (Hpr : in_run cl p (pos - 1) = true) by (apply in_run_iff; eauto). apply Hout in Hpr.
      split; [|lia]. split; [lia|]. split; [reflexivity|]. intros i Hi. apply Hno'. lia.
    + simpl. apply HQ. split; [discriminate|]. intros (i & Hi & Ht). exfalso.
      destruct (Z.leb_spec pos i). { rewrite Hno' in Ht by lia. discriminate. }
      pose proof (Hin (pos - 1) ltac:(lia)) as Hpr. pose proof Hpr as Hpr'. apply in_run_iff in Hpr' as (y & Ey).
      assert (v (pos - 1) <> 0). { rewrite (sl_zero G) by lia. congruence. }
      destruct (extent_re cl p a e Hin Hout Hae) as [_ Hra]. specialize (Hra (pos - 1) ltac:(lia)).
      rewrite <- (a_re _ _ _ _ _ _ _ HA) in Hra by lia. rewrite Hra in Eb. simpl in Eb. lia.
  - split; [lia|]. split; [reflexivity|]. intros; exfalso; lia.
  - simpl. lia.
Qed.

(** scanning the run of an occupied [p] *)
Lemma scan_occ p test (Q : bool -> Prop) : 0 <= p < 1024 -> o p = true ->
  (forall b, (b = true <-> exists i x, cl i = Some (p, x) /\ test x = true) -> Q b) ->
  wp (let* rank := rank_occupieds c st p in
      let* re := select_runends c st rank in run_scan c s st test re) Q.
Proof.
  intros Hp Ho HQ. apply (a_occ _ _ _ _ _ _ _ HA p Hp) in Ho.
  destruct (run_extent s S m cl p HW Ho) as (a & e & Hae0 & _ & Hin & Hout). assert (Hae : a <= e) by lia.
  apply wp_bind. apply (rank_wp G); auto. apply wp_bind. apply (select_wp G p a e); auto.
  apply (run_scan_wp p a e); auto. intros b Hb. apply HQ. rewrite Hb. split.
  - intros (i & Hi & Ht). apply Hin in Hi. apply in_run_iff in Hi as (x & E). exists i, x. split; auto.
    destruct (sl_val G _ _ _ E) as (E' & _). congruence.
  - intros (i & x & E & Ht). exists i. assert (Hr : in_run cl p i = true) by (apply in_run_iff; eauto).
    apply Hout in Hr. split; auto. destruct (sl_val G _ _ _ E) as (E' & _). congruence.
Qed.

(** element (p, x) covers the interval [p*2^s + x - lowbit x, p*2^s + x + lowbit x - 1] *)
Definition hits (l h : Z) : Prop := exists i p x, cl i = Some (p, x) /\
  p * 2 ^ s + (x - lowbit x) <= h /\ l <= p * 2 ^ s + (x + lowbit x - 1).

Lemma elem_low x : 0 < x < 2 ^ s -> 0 < lowbit x /\ 0 <= x - lowbit x /\ x + lowbit x - 1 < 2 ^ s.
Proof.
  intros Hx. pose proof (pow_s G) as Hps. pose proof (g_s _ _ _ _ _ _ _ _ _ _ _ _ _ G) as Hs.
  destruct (lowbit_facts x ltac:(lia)) as (H1 & k & Hk & E). split; [lia|]. split; [lia|].
  rewrite lowbit_pow in * by lia. assert (Ht : 0 <= tzcnt x) by (apply tzcnt_spec; lia).
  set (t := tzcnt x) in *. assert (0 < 2 ^ t) by (apply Z.pow_pos_nonneg; lia).
  assert (Hts : t < s). { destruct (Z.ltb_spec t s); auto. pose proof (pow2_le_mono s t ltac:(lia)). lia. }
  replace s with (t + 1 + (s - t - 1)) in * by lia. rewrite (Z.pow_add_r 2 (t + 1)) in * by lia.
  rewrite (Z.pow_add_r 2 t 1) in * by lia. change (2 ^ 1) with 2 in *.
  assert (0 < 2 ^ (s - t - 1)) by (apply Z.pow_pos_nonneg; lia). set (b := 2 ^ (s - t - 1)) in *.
  assert (Hkb : 2 * k + 1 < 2 * b). { apply (Z.mul_lt_mono_pos_l (2 ^ t)); [lia|]. rewrite <- E. replace (2 ^ t * (2 * b)) with (2 ^ t * 2 * b) by ring. lia. }
  assert (Hle : 2 ^ t * (2 * (k + 1)) <= 2 ^ t * (2 * b)) by (apply Z.mul_le_mono_nonneg_l; lia).
  replace (2 ^ t * 2 * b) with (2 ^ t * (2 * b)) by ring. replace (2 ^ t * (2 * (k + 1))) with (2 ^ t * (2 * k + 1) + 2 ^ t) in Hle by ring. lia.
Qed.
Lemma scale_lt p q y z : p < q -> 0 <= y < 2 ^ s -> 0 <= z -> p * 2 ^ s + y < q * 2 ^ s + z.
Proof. intros. pose proof (pow_s G). nia. Qed.
Lemma scale_cmp p y z : p * 2 ^ s + y <= p * 2 ^ s + z <-> y <= z.
Proof. lia. Qed.

Theorem point_query_store_wp key ti scalar (Q : bool -> Prop) : 0 <= key < 1024 * 2 ^ s -> implicit_scalar c ti = Ok scalar ->
  (forall b, (b = true <-> hits key key) -> Q b) ->
  wp (point_query_store c s st key ti) Q.
Proof.
  intros Hk Hti HQ. pose proof (pow_s G) as Hps. pose proof (g_s _ _ _ _ _ _ _ _ _ _ _ _ _ G) as Hs.
  destruct (split_key key s ltac:(lia) ltac:(lia)) as (Ek & Hep & Hip0).
  unfold point_query_store. set (ip := Z.shiftr key s) in *. set (ep := Z.land key (bitmask s)) in *.
  assert (Hip : 0 <= ip < 1024) by nia. rewrite Hti. simpl (bind (Ok scalar) _).
  apply wp_bind. apply (get_occ_wp _ _ _ _ _ _ _ _ _ _ _ _ _ HV Hip).
  assert (Hsame : hits key key <-> exists i x, cl i = Some (ip, x) /\
            (Z.lor ep (u64 (u64 (Z.shiftl (lowbit x) 1) - 1)) =? Z.lor x (u64 (u64 (Z.shiftl (lowbit x) 1) - 1))) = true).
  { split.
    - intros (i & p & x & E & H1 & H2). destruct (sl_val G _ _ _ E) as (_ & _ & Hp & Hx).
      destruct (elem_low x Hx) as (L1 & L2 & L3).
      assert (p = ip).
      { destruct (Z.lt_trichotomy p ip) as [Hlt|[?|Hlt]]; auto; exfalso.
        - pose proof (scale_lt p ip (x + lowbit x - 1) ep Hlt ltac:(lia) ltac:(lia)). lia.
        - pose proof (scale_lt ip p ep (x - lowbit x) Hlt ltac:(lia) ltac:(lia)). lia. }
      subst p. exists i, x. split; auto. rewrite match_interval by lia. lia.
    - intros (i & x & E & Ht). destruct (sl_val G _ _ _ E) as (_ & _ & Hp & Hx).
      rewrite match_interval in Ht by lia. exists i, ip, x. split; auto. lia. }
  destruct (o ip) eqn:Ho; simpl (Z.b2z _ =? 0); cbv iota.
  - apply scan_occ; auto. intros b Hb. apply HQ. rewrite Hb. symmetry. exact Hsame.
  - simpl. apply HQ. split; [discriminate|]. intros Hh. apply Hsame in Hh as (i & x & E & _). exfalso.
    assert (HX : o ip = true). { apply (a_occ _ _ _ _ _ _ _ HA ip Hip). exists i. apply in_run_iff. eauto. } congruence.
Qed.

Theorem range_query_store_wp lk rk (Q : bool -> Prop) : 0 <= lk <= rk -> rk < 1024 * 2 ^ s ->
  (forall b, (b = true <-> hits lk rk) -> Q b) ->
  wp (range_query_store c s st lk rk) Q.
Proof.
  intros Hlr Hr HQ. pose proof (pow_s G) as Hps. pose proof (g_s _ _ _ _ _ _ _ _ _ _ _ _ _ G) as Hs.
  destruct (split_key lk s ltac:(lia) ltac:(lia)) as (El & Hlep & Hlip0).
  destruct (split_key rk s ltac:(lia) ltac:(lia)) as (Er & Hrep & Hrip0).
  unfold range_query_store. set (lip := Z.shiftr lk s) in *. set (lep := Z.land lk (bitmask s)) in *.
  set (rip := Z.shiftr rk s) in *. set (rep := Z.land rk (bitmask s)) in *.
  assert (Hrip : 0 <= rip < 1024) by nia. assert (Hlr' : lip <= rip) by nia. assert (Hlip : 0 <= lip < 1024) by lia.
  assert (Hocc : forall i p x, cl i = Some (p, x) -> o p = true).
  { intros i p x E. destruct (sl_val G _ _ _ E) as (_ & _ & Hp & Hx). apply (a_occ _ _ _ _ _ _ _ HA p Hp). exists i. apply in_run_iff. eauto. }
  assert (Hlo : forall x, 0 < x < 2 ^ s -> Z.lor x (u64 (x - 1)) = x + lowbit x - 1) by (intros; apply lor_pred; lia).
  assert (Hhi : forall x, 0 < x < 2 ^ s -> u64 (x - lowbit x) = x - lowbit x).
  { intros x Hx. destruct (elem_low x Hx). apply u64_small. lia. }
  destruct (Z.ltb_spec lip rip) as [Hlt|Hge].
  - (* at least two runs *)
    apply wp_bind. apply (next_occupied_wp _ _ _ _ _ _ _ _ _ _ _ _ _ HV); [lia|]. intros n Hn Hn' Hz Hnt.
    destruct (Z.ltb_spec n rip) as [Hnr|Hnr].
    { simpl. apply HQ. split; auto. intros _. specialize (Hnt ltac:(lia)).
      apply (a_occ _ _ _ _ _ _ _ HA n ltac:(lia)) in Hnt as (i & Hi). apply in_run_iff in Hi as (x & E).
      destruct (sl_val G _ _ _ E) as (_ & _ & Hp & Hx). destruct (elem_low x Hx) as (L1 & L2 & L3).
      exists i, n, x. split; auto.
      pose proof (scale_lt n rip (x - lowbit x) rep Hnr ltac:(lia) ltac:(lia)).
      pose proof (scale_lt lip n lep (x + lowbit x - 1) Hn ltac:(lia) ltac:(lia)). lia. }
    (* no run strictly between *)
    assert (Hbt : forall i p x, cl i = Some (p, x) -> lip < p < rip -> False).
    { intros i p x E Hp. pose proof (Hocc _ _ _ E) as HX. rewrite Hz in HX by lia. discriminate. }
    assert (Hsplit : hits lk rk <-> (exists i x, cl i = Some (rip, x) /\ x - lowbit x <= rep) \/
                                    (exists i x, cl i = Some (lip, x) /\ lep <= x + lowbit x - 1)).
    { split.
      - intros (i & p & x & E & H1 & H2). destruct (sl_val G _ _ _ E) as (_ & _ & Hp & Hx).
        destruct (elem_low x Hx) as (L1 & L2 & L3).
        destruct (Z.lt_trichotomy p lip) as [Hpl|[->|Hpl]].
        + pose proof (scale_lt p lip (x + lowbit x - 1) lep Hpl ltac:(lia) ltac:(lia)). lia.
        + right. exists i, x. split; auto. lia.
        + destruct (Z.lt_trichotomy p rip) as [Hpr|[->|Hpr]].
          * exfalso. apply (Hbt _ _ _ E). lia.
          * left. exists i, x. split; auto. lia.
          * pose proof (scale_lt rip p rep (x - lowbit x) Hpr ltac:(lia) ltac:(lia)). lia.
      - intros [(i & x & E & H1)|(i & x & E & H1)]; destruct (sl_val G _ _ _ E) as (_ & _ & Hp & Hx);
          destruct (elem_low x Hx) as (L1 & L2 & L3).
        + exists i, rip, x. split; auto. pose proof (scale_lt lip rip lep (x + lowbit x - 1) Hlt ltac:(lia) ltac:(lia)). lia.
        + exists i, lip, x. split; auto. pose proof (scale_lt lip rip (x - lowbit x) rep Hlt ltac:(lia) ltac:(lia)). lia. }
    apply wp_bind. apply (get_occ_wp _ _ _ _ _ _ _ _ _ _ _ _ _ HV Hrip).
    apply wp_bind.
    assert (Hleft : forall b, (b = true <-> exists i x, cl i = Some (rip, x) /\ x - lowbit x <= rep) ->
      wp (if b then Ok true else
          let* locc := get_bit c st occ_base lip in
          if locc =? 0 then Ok false else
          let* rank := rank_occupieds c st lip in let* re := select_runends c st rank in
          run_scan c s st (fun v => lep <=? Z.lor v (u64 (v - 1))) re) Q).
    { intros b Hb. destruct b.
      { simpl. apply HQ. split; auto. intros _. apply Hsplit. left. apply Hb. reflexivity. }
      apply wp_bind. apply (get_occ_wp _ _ _ _ _ _ _ _ _ _ _ _ _ HV Hlip).
      destruct (o lip) eqn:Ho; simpl (Z.b2z _ =? 0); cbv iota.
      - apply scan_occ; auto. intros b' Hb'. apply HQ. rewrite Hb', Hsplit. split.
        + intros (i & x & E & Ht). right. exists i, x. split; auto. destruct (sl_val G _ _ _ E) as (_ & _ & Hp & Hx).
          rewrite Hlo in Ht by auto. lia.
        + intros [HX|(i & x & E & Ht)]; [apply Hb in HX; discriminate|]. exists i, x. split; auto.
          destruct (sl_val G _ _ _ E) as (_ & _ & Hp & Hx). rewrite Hlo by auto. lia.
      - simpl. apply HQ. split; [discriminate|]. intros Hh. apply Hsplit in Hh as [HX|(i & x & E & _)].
        + apply Hb in HX. discriminate.
        + apply Hocc in E. congruence. }
    destruct (o rip) eqn:Ho; simpl (Z.b2z _ =? 0); cbv iota.
    + apply (a_occ _ _ _ _ _ _ _ HA rip Hrip) in Ho.
      destruct (run_extent s S m cl rip HW Ho) as (a & e & Hae0 & HeS & Hin & Hout). assert (Hae : a <= e) by lia.
      apply wp_bind. apply (rank_wp G); auto. apply wp_bind. apply (select_wp G rip a e); auto.
      apply wp_bind. apply (run_start_wp G rip a e); auto.
      apply wp_bind. apply (get_slot_at _ _ _ _ _ _ _ _ _ _ _ _ _ HV); [lia|]. simpl. apply Hleft.
      pose proof (Hin a ltac:(lia)) as Ea. apply in_run_iff in Ea as (xa & Ea).
      destruct (sl_val G _ _ _ Ea) as (-> & _ & _ & Hxa). rewrite Hhi by auto. rewrite Z.leb_le. split.
      * intros H1. exists a, xa. split; auto.
      * intros (i & x & E & H1). assert (Hr' : in_run cl rip i = true) by (apply in_run_iff; eauto). apply Hout in Hr'.
        pose proof (run_sorted G rip a e Hin a i ltac:(lia) ltac:(lia)) as Hso.
        destruct (sl_val G _ _ _ E) as (Ev & _). destruct (sl_val G _ _ _ Ea) as (Eva & _). rewrite Ev, Eva in Hso. unfold lbase in Hso. lia.
    + simpl (wp (Ok false) _). apply Hleft. split; [discriminate|]. intros (i & x & E & _). apply Hocc in E. congruence.
  - (* one run *)
    assert (Heq : lip = rip) by lia. rewrite <- Heq in *.
    apply wp_bind. apply (get_occ_wp _ _ _ _ _ _ _ _ _ _ _ _ _ HV Hlip).
    assert (Hsame : hits lk rk <-> exists i x, cl i = Some (lip, x) /\ x - lowbit x <= rep /\ lep <= x + lowbit x - 1).
    { split.
      - intros (i & p & x & E & H1 & H2). destruct (sl_val G _ _ _ E) as (_ & _ & Hp & Hx).
        destruct (elem_low x Hx) as (L1 & L2 & L3).
        destruct (Z.lt_trichotomy p lip) as [Hpl|[->|Hpl]].
        + pose proof (scale_lt p lip (x + lowbit x - 1) lep Hpl ltac:(lia) ltac:(lia)). lia.
        + exists i, x. split; auto. lia.
        + pose proof (scale_lt lip p rep (x - lowbit x) Hpl ltac:(lia) ltac:(lia)). lia.
      - intros (i & x & E & H1 & H2). exists i, lip, x. split; auto. lia. }
    destruct (o lip) eqn:Ho; simpl (Z.b2z _ =? 0); cbv iota.
    + apply scan_occ; auto. intros b' Hb'. apply HQ. rewrite Hb', Hsame. split.
      * intros (i & x & E & Ht). exists i, x. split; auto. destruct (sl_val G _ _ _ E) as (_ & _ & Hp & Hx).
        rewrite Hlo, Hhi in Ht by auto. lia.
      * intros (i & x & E & Ht). exists i, x. split; auto. destruct (sl_val G _ _ _ E) as (_ & _ & Hp & Hx).
        rewrite Hlo, Hhi by auto. lia.
    + simpl. apply HQ. split; [discriminate|]. intros Hh. apply Hsame in Hh as (i & x & E & _). apply Hocc in E. congruence.
Qed.
End Query.
