(** Searching a well-formed block: empty slots, runs, values inside a run. *)
From Coq Require Import ZArith List Bool Lia.
From Coq Require Import ZifyBool ZifyNat.
From Verif Require Import Base Util Store Bits View Cells Lowbit.
Import ListNotations.
Open Scope Z_scope.

(** [good]: block [st] shows the parts [o r v a0 a1], and these are those of the
    cells [cl], which are well placed for the mapping [m]. *)
Record good (c : cfg) (s S : Z) (m : Z -> Z) (u : Z) (w : bool) (o r : Z -> bool) (v : Z -> Z)
  (a0 a1 : Z) (cl : cellf) (st : store) : Prop := {
  g_V : V c s S u w o r v a0 a1 st;
  g_wf : wf s S m cl;
  g_ag : agree S cl o r v a0 a1;
  g_mr : forall p, 0 <= p < 1024 -> 0 <= m p < S;
  g_mm : forall p q, 0 <= p <= q -> q < 1024 -> m p <= m q;
  g_s : 1 <= s <= 53
}.

Section Find.
Context {c : cfg} {s S : Z} {m : Z -> Z} {u : Z} {w : bool} {o r : Z -> bool} {v : Z -> Z}
  {a0 a1 : Z} {cl : cellf} {st : store}.
Hypothesis G : good c s S m u w o r v a0 a1 cl st.

Let HV := g_V _ _ _ _ _ _ _ _ _ _ _ _ _ G.
Let HW := g_wf _ _ _ _ _ _ _ _ _ _ _ _ _ G.
Let HA := g_ag _ _ _ _ _ _ _ _ _ _ _ _ _ G.

Lemma pow_s : 2 <= 2 ^ s <= 2 ^ 53.
Proof.
  pose proof (g_s _ _ _ _ _ _ _ _ _ _ _ _ _ G). split.
  - change 2 with (2 ^ 1) at 1. apply pow2_le_mono. lia.
  - apply pow2_le_mono. lia.
Qed.
Lemma S_pos : 0 < S. Proof. exact (V_S _ _ _ _ _ _ _ _ _ _ _ HV). Qed.
Lemma sl_zero i : 0 <= i < S -> (v i = 0 <-> cl i = None).
Proof.
  intros Hi. rewrite (a_sl _ _ _ _ _ _ _ HA i Hi). unfold sl_of. destruct (cl i) as [[p x]|] eqn:E; split; intros; try congruence.
  pose proof (w_dom _ _ _ _ HW _ _ _ E). lia.
Qed.
Lemma sl_val i p x : cl i = Some (p, x) -> v i = x /\ 0 <= i < S /\ 0 <= p < 1024 /\ 0 < x < 2 ^ s.
Proof.
  intros E. pose proof (w_dom _ _ _ _ HW _ _ _ E) as (Hi & Hp & Hx). rewrite (a_sl _ _ _ _ _ _ _ HA i Hi).
  unfold sl_of. rewrite E. auto.
Qed.
Lemma lowbit_sl x : 0 < x < 2 ^ s -> 0 < lowbit x <= x /\ u64 (x - lowbit x) = lbase x /\ Z.lor x (u64 (x - 1)) = x + lowbit x - 1.
Proof.
  intros Hx. pose proof pow_s. pose proof (lowbit_facts x ltac:(lia)) as (Hl & _). split; [lia|]. split.
  - unfold lbase. apply u64_small. lia.
  - apply lor_pred. lia.
Qed.
Lemma occ_mapped_full p : 0 <= p < 1024 -> o p = true -> full cl (m p).
Proof.
  intros Hp Ho. pose proof (g_mr _ _ _ _ _ _ _ _ _ _ _ _ _ G p Hp).
  apply (a_occ _ _ _ _ _ _ _ HA p Hp) in Ho as (i & Hi). apply in_run_iff in Hi as (x & E).
  pose proof (w_dom _ _ _ _ HW _ _ _ E).
  destruct (w_place _ _ _ _ HW _ _ _ E) as [[Hm Hf]|[Hm Hf]]; apply Hf; lia.
Qed.

(** from a full cell to the next runend everything is full *)
Lemma full_to_runend i e : full cl i -> i <= e -> (forall j, i <= j < e -> j < S -> r j = false) -> forall j, i <= j <= e -> j < S -> full cl j.
Proof.
  intros Hi He Hr j Hj HjS. remember (Z.to_nat (j - i)) as n eqn:En. revert j Hj HjS En.
  induction n as [|n IH]; intros j Hj HjS En.
  - replace j with i by lia. exact Hi.
  - assert (Hf : full cl (j - 1)) by (apply IH; lia).
    pose proof (full_in _ _ _ _ _ HW Hf). destruct (full_some _ _ Hf) as (p & x & E).
    destruct (re_next cl (j - 1) p x E) as (y & Ey).
    + rewrite <- (a_re _ _ _ _ _ _ _ HA) by lia. apply Hr; lia.
    + replace (j - 1 + 1) with j in Ey by lia. unfold full. congruence.
Qed.

Lemma find_empty_after_wp x (Q : Z -> Prop) : full cl x ->
  (forall ne, x < ne -> (forall i, x <= i < ne -> i < S -> full cl i) -> (ne < S -> cl ne = None) -> Q ne) ->
  wp (find_empty_after c s st x) Q.
Proof.
  intros Hx HQ. pose proof (full_in _ _ _ _ _ HW Hx) as HxS. unfold find_empty_after.
  rewrite (V_slots _ _ _ _ _ _ _ _ _ _ _ HV).
  apply (wp_loop (fun cur => x <= cur /\ forall i, x <= i <= cur -> i < S -> full cl i) (fun cur => Z.max 0 (S - cur))).
  - intros cur (Hc & Hf). destruct (Z.ltb_spec cur S).
    + apply wp_bind. apply (get_slot_wp _ _ _ _ _ _ _ _ _ _ _ _ _ HV); [lia|]. intros y _ Hy.
      destruct (Z.eqb_spec y 0) as [->|Hy0]; simpl.
      * apply HQ; [lia| |].
        -- intros i Hi HiS. apply Hf; lia.
        -- intros Hlt. apply sl_zero; [lia|]. symmetry. apply Hy. lia.
      * apply wp_bind. apply (next_runend_wp _ _ _ _ _ _ _ _ _ _ _ _ _ HV); [lia|].
        intros e He _ Hz Ht. simpl. split; [|lia]. split; [lia|]. intros i Hi HiS.
        destruct (Z.leb_spec i cur); [apply Hf; lia|].
        apply (full_to_runend (cur + 1) e); [|lia| |lia|lia].
        -- intros Hn. apply Hy0. rewrite Hy by lia. apply sl_zero; [lia|exact Hn].
        -- intros j Hj HjS. apply Hz; lia.
    + simpl. apply HQ; [lia| |lia]. intros i Hi HiS. apply Hf; lia.
  - split; [lia|]. intros i Hi _. replace i with x by lia. exact Hx.
  - lia.
Qed.

Lemma find_empty_before_wp x (Q : Z -> Prop) : full cl x ->
  (forall pe, -1 <= pe < x -> (forall i, pe < i <= x -> full cl i) -> (0 <= pe -> cl pe = None) -> Q pe) ->
  wp (find_empty_before c s st x) Q.
Proof.
  intros Hx HQ. pose proof (full_in _ _ _ _ _ HW Hx) as HxS. unfold find_empty_before. apply wp_bind.
  apply (wp_loop (fun cur => 0 <= cur <= x /\ forall i, cur <= i <= x -> full cl i) (fun cur => cur)).
  - intros cur (Hc & Hf). apply wp_bind. apply (prev_runend_wp _ _ _ _ _ _ _ _ _ _ _ _ _ HV); [lia|].
    intros e He Hz Ht.
    (* from a full cell after e up to cur everything is full *)
    assert (Hup : forall k, e < k -> full cl k -> forall i, k <= i <= x -> full cl i).
    { intros k Hk Hfk i Hi. destruct (Z.leb_spec cur i); [apply Hf; lia|].
      apply (full_to_runend k (cur - 1)); [auto|lia| |lia|lia]. intros j Hj _. apply Hz. lia. }
    assert (Hdone : (e = -1 \/ cl (e + 1) = None) ->
       wp (loop (Z.to_nat (cur - e + 1)) (fun p : Z => let p' := p - 1 in
          if e <? p' then let* y := get_slot c s st p' in if y =? 0 then Ok (inr p') else Ok (inl p')
          else Ok (inr p')) cur) Q).
    { intros Hor.
      apply (wp_loop (fun p => e < p <= cur /\ forall i, p <= i <= x -> full cl i) (fun p => p - e)).
      - intros p (Hp & Hfp). cbv zeta. destruct (Z.ltb_spec e (p - 1)).
        + apply wp_bind. apply (get_slot_at _ _ _ _ _ _ _ _ _ _ _ _ _ HV); [lia|].
          destruct (Z.eqb_spec (v (p - 1)) 0) as [E|E]; simpl.
          * apply HQ; [lia| |].
            -- intros i Hi. apply Hfp. lia.
            -- intros _. apply sl_zero; [lia|exact E].
          * split; [|lia]. split; [lia|]. intros i Hi. destruct (Z.eq_dec i (p - 1)) as [->|].
            -- intros Hn. apply E. apply sl_zero; [lia|exact Hn].
            -- apply Hfp. lia.
        + simpl. assert (p = e + 1) by lia. subst p. destruct Hor as [->|Hor].
          * apply HQ; try lia. intros i Hi. apply Hfp. lia.
          * exfalso. apply (Hfp (e + 1)); [lia|exact Hor].
      - split; [lia|exact Hf].
      - lia. }
    destruct (Z.leb_spec 0 e).
    + apply wp_bind. apply (get_slot_at _ _ _ _ _ _ _ _ _ _ _ _ _ HV); [lia|].
      destruct (Z.eqb_spec (v (e + 1)) 0) as [E|E]; simpl.
      * apply Hdone. right. apply sl_zero; [lia|exact E].
      * split; [|lia]. split; [lia|]. intros i Hi. destruct (Z.eq_dec i e) as [->|].
        -- apply re_full. rewrite <- (a_re _ _ _ _ _ _ _ HA) by lia. apply Ht. lia.
        -- apply (Hup (e + 1)); try lia. intros Hn. apply E. apply sl_zero; [lia|exact Hn].
    + simpl. apply Hdone. left. lia.
  - split; [lia|]. intros i Hi. replace i with x by lia. exact Hx.
  - lia.
Qed.

(** rank and select: the end of an occupied run *)
Lemma rank_wp p (Q : Z -> Prop) : 0 <= p < 1024 -> Q (count o 0 p) -> wp (rank_occupieds c st p) Q.
Proof.
  intros Hp HQ. apply (rank_occupieds_wp _ _ _ _ _ _ _ _ _ _ _ _ _ HV); auto. exact (a_p0 _ _ _ _ _ _ _ HA).
Qed.
Lemma select_wp p a e (Q : Z -> Prop) : 0 <= p < 1024 -> a <= e ->
  (forall i, a <= i <= e -> in_run cl p i = true) -> (forall i, in_run cl p i = true -> a <= i <= e) ->
  Q e -> wp (select_runends c st (count o 0 p)) Q.
Proof.
  intros Hp Hae Hin Hout HQ.
  pose proof (Hin e ltac:(lia)) as He. pose proof He as He'. apply in_run_iff in He' as (x & E).
  pose proof (w_dom _ _ _ _ HW _ _ _ E) as (HeS & _).
  destruct (extent_re cl p a e Hin Hout Hae) as [Hre _].
  apply (select_runends_wp _ _ _ _ _ _ _ _ _ _ _ _ e _ HV); auto.
  - exact (a_p1 _ _ _ _ _ _ _ HA).
  - rewrite (a_re _ _ _ _ _ _ _ HA); auto.
  - rewrite (count_ext r (re_of cl) 0 e) by (intros; apply (a_re _ _ _ _ _ _ _ HA); lia).
    apply (runend_rank s S m cl o p e HW); auto.
    + exact (a_occ _ _ _ _ _ _ _ HA).
    + intros i Hi. apply Hout in Hi. lia.
Qed.

(** previous run's end: [-1] or a position; what lies on either side of it *)
Lemma prev_end_wp p (Q : Z -> Prop) : 0 <= p < 1024 ->
  (forall e, -1 <= e < S -> (forall i q x, i <= e -> cl i = Some (q, x) -> q < p) ->
     (forall i q x, e < i -> cl i = Some (q, x) -> p <= q) -> (0 <= e -> full cl e) -> Q e) ->
  wp (if count o 0 p =? 0 then Ok (-1) else select_runends c st (count o 0 p - 1)) Q.
Proof.
  intros Hp HQ. pose proof S_pos. destruct (Z.eqb_spec (count o 0 p) 0) as [E|E].
  - simpl. apply HQ; try lia.
    + intros i q x Hi Ei. pose proof (w_dom _ _ _ _ HW _ _ _ Ei). lia.
    + intros i q x _ Ei. destruct (Z.leb_spec p q); auto. exfalso.
      pose proof (w_dom _ _ _ _ HW _ _ _ Ei).
      assert (Ho : o q = true). { apply (a_occ _ _ _ _ _ _ _ HA); [lia|]. exists i. apply in_run_iff. eauto. }
      assert (count o 0 (q + 1) <= count o 0 p) by (apply count_mono; lia).
      rewrite count_snoc, Ho in H2 by lia. pose proof (count_range o 0 q). simpl in *. lia.
  - (* the last occupied run before p *)
    assert (exists q, 0 <= q < p /\ o q = true /\ forall k, q < k < p -> o k = false) as (q & Hq & Hoq & Hz).
    { assert (exists k, 0 <= k < p /\ o k = true) as (k & Hk & Hok).
      { destruct (Z.eq_dec p 0) as [->|]; [rewrite count_nil in E by lia; lia|].
        assert (forall n, (forall k, 0 <= k < Z.of_nat n -> o k = false) \/ exists k, 0 <= k < Z.of_nat n /\ o k = true) as Hd.
        { intros n0. induction n0 as [|n0 IH]; [left; intros; lia|]. destruct IH as [IH|(k & Hk & IH)].
          - destruct (o (Z.of_nat n0)) eqn:En.
            + right. exists (Z.of_nat n0). split; [lia|auto].
            + left. intros k Hk. destruct (Z.eq_dec k (Z.of_nat n0)) as [->|]; auto. apply IH. lia.
          - right. exists k. split; [lia|auto]. }
        destruct (Hd (Z.to_nat p)) as [Hd'|(k & Hk & Hok)].
        - exfalso. apply E. apply count_false. intros. apply Hd'. lia.
        - exists k. split; [lia|auto]. }
      destruct (last_true o k (p - 1) Hok ltac:(lia)) as (q & Hq & Hoq & Hz).
      exists q. split; [lia|]. split; auto. intros. apply Hz. lia. }
    assert (Hc : count o 0 p - 1 = count o 0 q).
    { rewrite (count_split o 0 (q + 1) p), count_snoc, (count_false o (q + 1) p), Hoq by (try lia; intros; apply Hz; lia). simpl. lia. }
    rewrite Hc.
    assert (Hoq' := Hoq). apply (a_occ _ _ _ _ _ _ _ HA) in Hoq'; [|lia].
    destruct (run_extent s S m cl q HW Hoq') as (a & e & Hae & HeS & Hin & Hout).
    apply (select_wp q a e); auto; try lia.
    pose proof (Hin e ltac:(lia)) as He. apply in_run_iff in He as (x & Ex).
    apply HQ; try lia.
    + intros i q' y Hi Ei. pose proof (run_le s S m _ _ _ _ _ _ _ HW Hi Ei Ex). lia.
    + intros i q' y Hi Ei. pose proof (run_le s S m _ e i _ _ _ _ HW ltac:(lia) Ex Ei).
      destruct (Z.eq_dec q' q) as [->|].
      * assert (in_run cl q i = true) by (apply in_run_iff; eauto). apply Hout in H1. lia.
      * destruct (Z.leb_spec p q'); auto. exfalso. pose proof (w_dom _ _ _ _ HW _ _ _ Ei).
        assert (Ho' : o q' = true). { apply (a_occ _ _ _ _ _ _ _ HA); [lia|]. exists i. apply in_run_iff. eauto. }
        rewrite Hz in Ho' by lia. discriminate.
    + intros _. unfold full. congruence.
Qed.

(** the start of a run: right after the previous run's end or an empty cell *)
Lemma run_start_wp p a e (Q : Z -> Prop) : 0 <= p < 1024 -> a <= e ->
  (forall i, a <= i <= e -> in_run cl p i = true) -> (forall i, in_run cl p i = true -> a <= i <= e) ->
  Q a -> wp (run_start c s st (count o 0 p) e) Q.
Proof.
  intros Hp Hae Hin Hout HQ. unfold run_start. apply wp_bind. apply (prev_end_wp p); auto.
  intros pe Hpe Hbef Haft Hpf.
  assert (Hfe : full cl e). { pose proof (Hin e ltac:(lia)) as He. apply in_run_iff in He as (x & E). unfold full. congruence. }
  assert (Hfa : exists x, cl a = Some (p, x)). { apply in_run_iff. apply Hin. lia. }
  destruct Hfa as (xa & Ea). pose proof (w_dom _ _ _ _ HW _ _ _ Ea).
  apply wp_bind. apply find_empty_before_wp; auto. intros f Hf Hff Hfn. simpl.
  assert (pe < a). { destruct (Z.ltb_spec pe a); auto. specialize (Hbef a p xa ltac:(lia) Ea). lia. }
  assert (f < a).
  { destruct (Z.ltb_spec f a); auto. assert (in_run cl p f = true) by (apply Hin; lia).
    unfold in_run in H2. rewrite Hfn in H2 by lia. discriminate. }
  replace (Z.max pe f + 1) with a; auto.
  destruct (Z.eq_dec (Z.max pe f + 1) a); auto. exfalso.
  (* a - 1 is full (after f) and after pe, hence of run >= p, hence in the run *)
  assert (Hfa1 : full cl (a - 1)) by (apply Hff; lia).
  destruct (full_some _ _ Hfa1) as (q & y & Eq).
  specialize (Haft (a - 1) q y ltac:(lia) Eq).
  pose proof (run_le s S m _ (a - 1) a _ _ _ _ HW ltac:(lia) Eq Ea). assert (q = p) by lia. subst q.
  assert (in_run cl p (a - 1) = true) by (apply in_run_iff; eauto). apply Hout in H3. lia.
Qed.

(** inside a run values are ordered by where their interval starts *)
Lemma run_sorted p a e : (forall i, a <= i <= e -> in_run cl p i = true) ->
  forall i j, a <= i <= j -> j <= e -> lbase (v i) <= lbase (v j).
Proof.
  intros Hin i j Hi Hj. destruct (Z.eq_dec i j) as [->|]; [lia|].
  pose proof (Hin i ltac:(lia)) as Ei. pose proof (Hin j ltac:(lia)) as Ej.
  apply in_run_iff in Ei as (x & Ei). apply in_run_iff in Ej as (y & Ej).
  destruct (sl_val _ _ _ Ei) as (-> & _). destruct (sl_val _ _ _ Ej) as (-> & _).
  destruct (w_mono _ _ _ _ HW i j p x p y); auto; lia.
Qed.
Lemma run_search_wp p a e bound (Q : Z * Z -> Prop) : 0 <= a <= e ->
  (forall i, a <= i <= e -> in_run cl p i = true) ->
  (forall k, a <= k <= e + 1 -> (forall i, a <= i < k -> lbase (v i) <= bound) ->
     (forall i, k <= i <= e -> bound < lbase (v i)) -> Q (k - 1, k)) ->
  wp (run_search c s st bound (a - 1) (e + 1)) Q.
Proof.
  intros Hae Hin HQ. unfold run_search.
  pose proof (run_sorted p a e Hin) as Hsort.
  apply (wp_loop
    (fun x : Z * Z => let '(l, k) := x in a - 1 <= l < k /\ k <= e + 1 /\
       (forall i, a <= i <= l -> lbase (v i) <= bound) /\ (forall i, k <= i <= e -> bound < lbase (v i)))
    (fun x => snd x - fst x - 1)).
  - intros [l k] (Hlk & Hk & Hlo & Hhi). simpl fst; simpl snd.
    destruct (Z.ltb_spec 1 (k - l)).
    + rewrite Z.quot_div_nonneg by lia. pose proof (Z.div_mod (l + k) 2 ltac:(lia)).
      pose proof (Z.mod_pos_bound (l + k) 2 ltac:(lia)). set (mid := (l + k) / 2) in *.
      pose proof (Hin mid ltac:(lia)) as Em. apply in_run_iff in Em as (x & Em).
      destruct (sl_val _ _ _ Em) as (Ev & Hm & _ & Hx).
      apply wp_bind. apply (get_slot_at _ _ _ _ _ _ _ _ _ _ _ _ _ HV); [lia|]. rewrite Ev.
      destruct (lowbit_sl x Hx) as (_ & -> & _).
      destruct (Z.leb_spec (lbase x) bound); simpl.
      * split; [|lia]. split; [lia|]. split; [lia|]. split.
        -- intros i Hi. specialize (Hsort i mid ltac:(lia) ltac:(lia)). rewrite Ev in Hsort. lia.
        -- exact Hhi.
      * split; [|lia]. split; [lia|]. split; [lia|]. split.
        -- exact Hlo.
        -- intros i Hi. specialize (Hsort mid i ltac:(lia) ltac:(lia)). rewrite Ev in Hsort. lia.
    + simpl. replace l with (k - 1) by lia. apply HQ; [lia| |].
      * intros i Hi. apply Hlo. lia.
      * exact Hhi.
  - split; [lia|]. split; [lia|]. split; intros; lia.
  - simpl. lia.
Qed.
End Find.
