(** The hash table of the index: what every node says about the anchors, that the
    search for a leaf finds the last anchor not above the key, and that splits and
    merges keep the table right. *)
From Coq Require Import ZArith List Bool Lia Arith.
From Verif Require Import Base Key KeyOrder Wormhole WhKey WhBits.
Import ListNotations.
Open Scope Z_scope.

(** the last anchor below [a] *)
Definition pred_of (as_ : list key) (a p : key) : Prop := In p as_ /\ klt p a /\ forall b, In b as_ -> klt b a -> kle b p.

Record good (as_ : list key) (p : key) (x : meta) : Prop := mkgood {
  g_lin : In (m_lmost x) as_; g_lp : pfx p (m_lmost x); g_l : forall a, In a as_ -> pfx p a -> kle (m_lmost x) a;
  g_rin : In (m_rmost x) as_; g_rp : pfx p (m_rmost x); g_r : forall a, In a as_ -> pfx p a -> kle a (m_rmost x);
  g_eq : m_lmost x = p -> m_lpath x = Some p;
  g_ne : m_lmost x <> p -> exists q, m_lpath x = Some q /\ pred_of as_ (m_lmost x) q;
  g_b : bits_ok x (fun b => exists a, In a as_ /\ pfx (p ++ [b]) a) }.

Definition hinv (h : hmap) (as_ : list key) : Prop :=
  forall p, match h p with Some x => good as_ p x | None => forall a, In a as_ -> ~ pfx p a end.

Definition anchors_ok (as_ : list key) (maxplen : nat) : Prop :=
  In [] as_ /\ (forall a, In a as_ -> (length a <= maxplen)%nat) /\ (forall a, In a as_ -> bytes a).

Lemma hset_same h p x : hset h p x p = x.
Proof. unfold hset. rewrite key_eq_refl. reflexivity. Qed.
Lemma hset_other h p x q : q <> p -> hset h p x q = h q.
Proof. intros H. unfold hset. rewrite key_eq_dec. destruct (key_dec q p); [contradiction|reflexivity]. Qed.

Lemma hinv_some h as_ p : hinv h as_ -> (h p <> None <-> exists a, In a as_ /\ pfx p a).
Proof.
  intros H. specialize (H p). destruct (h p) as [x|].
  - split; [intros _; exists (m_lmost x); split; apply H|discriminate].
  - split; [congruence|]. intros (a & Ha & Hp). destruct (H a Ha Hp).
Qed.

Lemma snoc_lt p c d a b : c < d -> pfx (p ++ [c]) a -> pfx (p ++ [d]) b -> klt a b.
Proof.
  intros L [s ->] [t ->]. rewrite <- !app_assoc. induction p as [|y p IH]; cbn [app]; apply klt_cons; [left; exact L|right; auto].
Qed.

(** ** the search for the longest prefix in the table *)
Section Search.
Variables (h : hmap) (as_ : list key) (maxplen : nat) (k : key) (fp : key -> bool).
Hypothesis Hh : hinv h as_.
Hypothesis Ha : anchors_ok as_ maxplen.
Hypothesis Hk : bytes k.

Definition inh (n : nat) : Prop := h (firstn n k) <> None.

Lemma inh_0 : inh 0.
Proof. apply (hinv_some h as_); [exact Hh|]. exists []. split; [apply Ha|apply pfx_nil]. Qed.
Lemma inh_down n m : inh n -> (m <= n)%nat -> inh m.
Proof.
  unfold inh. rewrite !(hinv_some h as_) by exact Hh. intros (a & H1 & H2) L. exists a. split; [exact H1|].
  eapply pfx_trans; [|exact H2]. replace m with (Nat.min m n) by lia. rewrite <- firstn_firstn. apply pfx_firstn.
Qed.
Lemma inh_max n : inh n -> (n <= length k)%nat -> (n <= Nat.min maxplen (length k))%nat.
Proof.
  unfold inh. rewrite (hinv_some h as_) by exact Hh. intros (a & H1 & H2) L. apply pfx_len in H2. rewrite firstn_len in H2 by exact L.
  pose proof (proj1 (proj2 Ha) a H1). lia.
Qed.

Lemma search1_ok : forall fuel gd lo, (gd < fuel)%nat -> (1 <= gd)%nat ->
  (forall n, (n <= length k)%nat -> inh n -> (n < lo + gd)%nat) ->
  exists r, search1 fuel h fp k gd lo = Ok r /\ (lo <= r < lo + gd)%nat /\ forall n, (n <= length k)%nat -> inh n -> (n <= r)%nat.
Proof.
  induction fuel as [|fuel IH]; intros gd lo Hf H1 H; [lia|]. cbn [search1].
  destruct (Nat.leb_spec gd 1) as [Hg|Hg].
  - exists lo. split; [reflexivity|]. split; [lia|]. intros n Hn Hi. specialize (H n Hn Hi). lia.
  - set (inc := (if Nat.ltb 7 gd then gd / 8 * 4 else gd / 2)%nat).
    assert (1 <= inc < gd)%nat as Hinc.
    { unfold inc. destruct (Nat.ltb_spec 7 gd).
      - pose proof (Nat.div_mod gd 8 ltac:(lia)). pose proof (Nat.mod_upper_bound gd 8 ltac:(lia)). lia.
      - pose proof (Nat.div_mod gd 2 ltac:(lia)). pose proof (Nat.mod_upper_bound gd 2 ltac:(lia)). lia. }
    clearbody inc. destruct (match h (firstn (lo + inc) k) with Some _ => true | None => fp (firstn (lo + inc) k) end) eqn:E.
    + destruct (IH (gd - inc)%nat (lo + inc)%nat) as (r & R1 & R2 & R3); [lia|lia| |].
      * intros n Hn Hi. specialize (H n Hn Hi). lia.
      * exists r. split; [exact R1|]. split; [lia|exact R3].
    + destruct (IH inc lo) as (r & R1 & R2 & R3); [lia|lia| |].
      * intros n Hn Hi. destruct (Nat.lt_ge_cases n (lo + inc)) as [L|L]; [exact L|]. exfalso.
        pose proof (inh_down n (lo + inc)%nat Hi L) as G. unfold inh in G. destruct (h (firstn (lo + inc) k)); [discriminate|congruence].
      * exists r. split; [exact R1|]. split; [lia|exact R3].
Qed.

Lemma inh_bit n x b : h (firstn n k) = Some x -> nth_error k n = Some b -> (bm_test x b = true <-> inh (S n)).
Proof.
  intros Hx Hb. pose proof (Hh (firstn n k)) as G. rewrite Hx in G. rewrite (bm_test_ok _ _ _ (g_b _ _ _ G)) by (eapply bytes_nth; eassumption).
  unfold inh. rewrite (hinv_some h as_) by exact Hh. rewrite (firstn_snoc n k b Hb). reflexivity.
Qed.

Lemma search2_ok : forall fuel gd lo, (gd < fuel)%nat -> (lo + gd <= length k)%nat -> inh lo ->
  (forall n, (n <= length k)%nat -> inh n -> (n < lo + gd)%nat) ->
  exists r x, search2 fuel h k gd lo = Ok (r, x) /\ (r <= length k)%nat /\ h (firstn r k) = Some x
    /\ forall n, (n <= length k)%nat -> inh n -> (n <= r)%nat.
Proof.
  induction fuel as [|fuel IH]; intros gd lo Hf Hl H0 H; [lia|]. cbn [search2].
  destruct (Nat.leb_spec gd 1) as [Hg|Hg].
  - unfold inh in H0. destruct (h (firstn lo k)) as [x|] eqn:Ex; [|congruence]. exists lo, x. split; [reflexivity|]. split; [lia|]. split; [exact Ex|].
    intros n Hn Hi. specialize (H n Hn Hi). lia.
  - set (inc := (gd * 3 / 4)%nat). assert (1 <= inc < gd)%nat as Hinc.
    { unfold inc. pose proof (Nat.div_mod (gd * 3) 4 ltac:(lia)). pose proof (Nat.mod_upper_bound (gd * 3) 4 ltac:(lia)). lia. }
    clearbody inc. destruct (h (firstn (lo + inc) k)) as [x|] eqn:Ex.
    + destruct (nth_error k (lo + inc)) as [b|] eqn:Eb; [|apply nth_error_None in Eb; lia].
      pose proof (inh_bit _ _ _ Ex Eb) as Hbit. destruct (bm_test x b).
      * assert (inh (S (lo + inc))) as G by (apply Hbit; reflexivity). pose proof (H (S (lo + inc)) ltac:(lia) G).
        apply IH; [lia|lia|replace (lo + inc + 1)%nat with (S (lo + inc)) by lia; exact G|].
        intros n Hn Hi. specialize (H n Hn Hi). lia.
      * exists (lo + inc)%nat, x. split; [reflexivity|]. split; [lia|]. split; [exact Ex|]. intros n Hn Hi.
        destruct (Nat.le_gt_cases n (lo + inc)) as [L|L]; [exact L|]. exfalso.
        pose proof (inh_down n (S (lo + inc)) Hi ltac:(lia)) as G. apply Hbit in G. discriminate.
    + apply IH; [lia|lia|exact H0|]. intros n Hn Hi. destruct (Nat.lt_ge_cases n (lo + inc)) as [L|L]; [exact L|]. exfalso.
      exact (inh_down n (lo + inc)%nat Hi L Ex).
Qed.

(** whatever [fp] says, the search finds the longest prefix in the table *)
Lemma meta_lcp_ok : exists r x, meta_lcp h fp maxplen k = Ok (r, x) /\ (r <= length k)%nat /\ h (firstn r k) = Some x
  /\ forall n, (n <= length k)%nat -> inh n -> (n <= r)%nat.
Proof.
  unfold meta_lcp. set (g := Nat.min maxplen (length k)). assert (g <= length k)%nat as Hg by (unfold g; lia).
  destruct (search1_ok (S (g + 1)) (g + 1) 0) as (r & R1 & R2 & R3); [lia|lia| |].
  { intros n Hn Hi. pose proof (inh_max n Hi Hn). unfold g. lia. }
  rewrite R1. cbn [bind]. destruct (h (firstn r k)) as [x|] eqn:Ex.
  - exists r, x. split; [reflexivity|]. split; [lia|]. split; [exact Ex|exact R3].
  - apply search2_ok; [lia|lia|exact inh_0|]. intros n Hn Hi. pose proof (R3 n Hn Hi) as L.
    destruct (Nat.eq_dec n r) as [->|]; [|lia]. exfalso. exact (Hi Ex).
Qed.

(** the leaf of [k]: the last anchor that is not above [k] *)
Definition leaf_of (a : key) : Prop := In a as_ /\ kle a k /\ forall b, In b as_ -> kle b k -> kle b a.

(** when no anchor below the longest prefix is at most [k] *)
Lemma lpath_leaf p x : h p = Some x -> pfx p k -> (forall a, In a as_ -> pfx p a -> a = p \/ klt k a) ->
  exists a, m_lpath x = Some a /\ leaf_of a.
Proof.
  intros Hx Hp Hlt. pose proof (Hh p) as G. rewrite Hx in G. destruct (key_dec (m_lmost x) p) as [E|E].
  - exists p. split; [apply (g_eq _ _ _ G E)|]. split; [rewrite <- E; apply G|]. split; [apply pfx_kle; exact Hp|].
    intros b Hb Lb. destruct (pfx_dec p b) as [P|P].
    + destruct (Hlt b Hb P) as [->|L]; [apply kle_refl|]. apply kle_not in Lb. contradiction.
    + destruct (klt_or p b) as [L|L]; [|exact L]. exfalso. apply P. eapply pfx_mid; [apply pfx_refl|exact Hp|apply klt_kle; exact L|exact Lb].
  - destruct (g_ne _ _ _ G E) as (q & Q1 & Q2 & Q3 & Q4). exists q. split; [exact Q1|].
    pose proof (Hlt _ (g_lin _ _ _ G) (g_lp _ _ _ G)) as [L|L]; [contradiction|].
    assert (~ pfx p q) as Nq. { intros P. pose proof (g_l _ _ _ G q Q2 P) as C. apply kle_not in C. contradiction. }
    assert (kle q k) as Lq. { apply klt_kle. eapply klt_le; [|apply pfx_kle; exact Hp]. eapply pfx_below; [exact Nq|apply G|exact Q3]. }
    split; [exact Q2|]. split; [exact Lq|]. intros b Hb Lb. apply Q4; [exact Hb|]. eapply kle_lt; [exact Lb|exact L].
Qed.

Theorem jump_ok : exists a, jump h fp maxplen k = Ok a /\ leaf_of a.
Proof.
  unfold jump. destruct meta_lcp_ok as (r & x & E & Lr & Hx & Hmax). rewrite E. cbn [bind]. unfold meta_down.
  pose proof (Hh (firstn r k)) as G. rewrite Hx in G. pose proof (g_b _ _ _ G) as Gb.
  set (p := firstn r k) in *. assert (pfx p k) as Hp by apply pfx_firstn. assert (length p = r) as Lp by (apply firstn_len; exact Lr).
  destruct (nth_error k r) as [id|] eqn:Eid.
  - (* the next byte of the key continues no anchor *)
    pose proof (bytes_nth _ _ _ Hk Eid) as Bid.
    assert (~ exists a, In a as_ /\ pfx (p ++ [id]) a) as Nid.
    { intros C. apply (bm_test_ok _ _ id Gb Bid) in C. apply (inh_bit _ _ _ Hx Eid) in C.
      assert (nth_error k r <> None) as Nn by congruence. apply nth_error_Some in Nn. specialize (Hmax (S r) ltac:(lia) C). lia. }
    assert (forall a, In a as_ -> pfx p a -> a = p \/ exists b, pfx (p ++ [b]) a /\ 0 <= b < 256 /\ b <> id) as Hsplit.
    { intros a Hin Hpa. destruct (nth_error a r) as [b|] eqn:Eb.
      - right. exists b. assert (pfx (p ++ [b]) a) as Q by (apply pfx_snoc; split; [exact Hpa|rewrite Lp; exact Eb]).
        split; [exact Q|]. split; [eapply bytes_nth; [apply (proj2 (proj2 Ha)); exact Hin|exact Eb]|]. intros ->. apply Nid. eauto.
      - left. symmetry. apply pfx_anti; [exact Hpa|]. apply nth_error_None in Eb. lia. }
    assert (pfx (p ++ [id]) k) as Hkid by (apply pfx_snoc; split; [exact Hp|rewrite Lp; exact Eid]).
    assert (forall a b, pfx (p ++ [b]) a -> b < id -> klt a k) as Hlo.
    { intros a b Q L. exact (snoc_lt p b id a k L Q Hkid). }
    assert (forall a b, pfx (p ++ [b]) a -> id < b -> klt k a) as Hhi.
    { intros a b Q L. exact (snoc_lt p id b k a L Hkid Q). }
    destruct (Z.ltb_spec id (m_min x)) as [Lm|Lm].
    + cbn [bind]. destruct (lpath_leaf p x Hx Hp) as (a & A1 & A2); [|rewrite A1; exists a; auto].
      intros a Hin Hpa. destruct (Hsplit a Hin Hpa) as [->|(b & B1 & B2 & B3)]; [left; reflexivity|]. right. apply (Hhi a b B1).
      destruct Gb as [_ [(A & _ & C)|[(A & _ & C)|(A & _ & _ & _ & C & _)]]].
      * destruct (C b). eauto.
      * specialize (C b). destruct C as [C _]. specialize (C ltac:(eauto)). lia.
      * specialize (C b ltac:(eauto)). lia.
    + destruct (Z.ltb_spec (m_max x) id) as [LM|LM].
      * (* all children are below the key *)
        cbn [bind]. exists (m_rmost x). split; [reflexivity|]. split; [apply G|]. split.
        { destruct (Hsplit _ (g_rin _ _ _ G) (g_rp _ _ _ G)) as [Er|(b & B1 & B2 & B3)]; [rewrite Er; apply pfx_kle; exact Hp|].
          apply klt_kle, (Hlo _ b B1). destruct Gb as [_ [(A & A' & C)|[(A & A' & C)|(A & A' & _ & _ & C & _)]]].
          - destruct (C b). exists (m_rmost x). split; [apply G|exact B1].
          - specialize (C b). destruct C as [C _]. specialize (C (ex_intro _ (m_rmost x) (conj (g_rin _ _ _ G) B1))). lia.
          - specialize (C b (ex_intro _ (m_rmost x) (conj (g_rin _ _ _ G) B1))). lia. }
        intros b Hb Lb. destruct (pfx_dec p b) as [P|P]; [apply (g_r _ _ _ G b Hb P)|].
        destruct (klt_or (m_rmost x) b) as [L|L]; [|exact L]. exfalso. apply P.
        eapply pfx_mid; [apply (g_rp _ _ _ G)|exact Hp|apply klt_kle; exact L|exact Lb].
      * (* the last child below the key *)
        destruct (Z.eqb_spec (m_min x) (m_max x)) as [Em|Em].
        { exfalso. assert (id = m_min x) by lia. destruct Gb as [_ [(A & A' & C)|[(A & A' & C)|(A & A' & _)]]]; try lia.
          - unfold FO in A. lia.
          - apply Nid. apply C. lia. }
        assert (exists a, In a as_ /\ pfx (p ++ [m_min x]) a) as Tm.
        { destruct Gb as [_ [(A & A' & C)|[(A & A' & C)|(A & A' & C & _)]]]; try lia. exact C. }
        assert (m_min x < id) as Lmin. { destruct (Z.eq_dec (m_min x) id) as [E'|]; [|lia]. exfalso. apply Nid. rewrite <- E'. exact Tm. }
        destruct (bm_lt_ok x _ id (m_min x) Gb Em Bid Tm Lmin) as (B1 & B2 & B3).
        assert (0 <= bm_lt x id < 256) as Bb. { destruct Gb as [Gb _]. apply Gb. exact B1. }
        rewrite (Z.land_ones _ 8) by lia. rewrite Z.mod_small by exact Bb. set (c := bm_lt x id) in *.
        destruct B1 as (a0 & A0 & P0). pose proof (Hh (p ++ [c])) as Gc. destruct (h (p ++ [c])) as [y|] eqn:Ey; [|destruct (Gc a0 A0 P0)].
        cbn [bind]. exists (m_rmost y). split; [reflexivity|]. split; [apply Gc|]. split; [apply klt_kle, (Hlo _ c (g_rp _ _ _ Gc) B2)|].
        intros b Hb Lb. destruct (klt_or (m_rmost y) b) as [L|L]; [|exact L]. exfalso.
        assert (pfx p (m_rmost y)) as Py. { eapply pfx_trans; [|apply (g_rp _ _ _ Gc)]. exists [c]. reflexivity. }
        assert (pfx p b) as Pb. { eapply pfx_mid; [exact Py|exact Hp|apply klt_kle; exact L|exact Lb]. }
        destruct (Hsplit b Hb Pb) as [->|(d & D1 & D2 & D3)].
        -- pose proof (pfx_kle _ _ Py) as C. apply kle_not in C. contradiction.
        -- destruct (Z.lt_ge_cases id d) as [Ld|Ld]; [pose proof (Hhi b d D1 Ld) as C; apply kle_not in Lb; contradiction|].
           pose proof (B3 d ltac:(eauto) ltac:(lia)) as Lc. destruct (Z.eq_dec d c) as [->|].
           ++ pose proof (g_r _ _ _ Gc b Hb D1) as C. apply kle_not in C. contradiction.
           ++ assert (klt b (m_rmost y)) as C.
              { apply (snoc_lt p d c); [lia|exact D1|apply (g_rp _ _ _ Gc)]. }
              apply klt_kle in C. apply kle_not in C. contradiction.
  - (* the whole key is a prefix of an anchor *)
    apply nth_error_None in Eid. assert (p = k) as Epk by (apply pfx_anti; [exact Hp|lia]).
    cbn [bind]. destruct (lpath_leaf p x Hx Hp) as (a & A1 & A2); [|rewrite A1; exists a; auto].
    intros a Hin Hpa. rewrite Epk in *. apply pfx_kle in Hpa. apply kle_cases in Hpa. destruct Hpa as [->|L]; auto.
Qed.
End Search.

(** ** updating several prefixes of one string *)
Lemma fold_hset (f : nat -> option meta -> option meta) (n : key) : forall js h q, NoDup js -> (forall j, In j js -> (j <= length n)%nat) ->
  (In (length q) js -> pfx q n -> fold_left (fun g j => hset g (firstn j n) (f j (g (firstn j n)))) js h q = f (length q) (h q))
  /\ (~ (In (length q) js /\ pfx q n) -> fold_left (fun g j => hset g (firstn j n) (f j (g (firstn j n)))) js h q = h q).
Proof.
  induction js as [|j js IH]; intros h q Hnd Hle; cbn [fold_left].
  - split; [intros []|reflexivity].
  - apply NoDup_cons_iff in Hnd. destruct Hnd as [Hj Hnd]. pose proof (Hle j (or_introl eq_refl)) as Lj.
    destruct (IH (hset h (firstn j n) (f j (h (firstn j n)))) q Hnd ltac:(intros; apply Hle; right; assumption)) as [I1 I2].
    split.
    + intros [E|Hin] Hp.
      * rewrite I2 by (rewrite <- E; tauto). assert (q = firstn j n) as -> by (rewrite E; apply pfx_eq; exact Hp). rewrite hset_same, firstn_len by exact Lj. reflexivity.
      * rewrite I1 by assumption. rewrite hset_other; [reflexivity|]. intros ->. rewrite firstn_len in Hin by exact Lj. contradiction.
    + intros N. rewrite I2 by (intros [A B]; apply N; split; [right; exact A|exact B]). apply hset_other. intros ->. apply N.
      rewrite firstn_len by exact Lj. split; [left; reflexivity|apply pfx_firstn].
Qed.

Lemma lpath_update_ok h a1 a2 lf : (length a2 <= PBUF)%nat -> (forall q, pfx q a2 -> (lcp a1 a2 < length q)%nat -> h q <> None) ->
  exists h', lpath_update h a1 a2 lf = Ok h'
  /\ (forall q x, pfx q a2 -> (lcp a1 a2 < length q < length a2)%nat -> h q = Some x -> h' q = Some (lpath_store x (Some lf)))
  /\ (forall q, ~ (pfx q a2 /\ (lcp a1 a2 < length q < length a2)%nat) -> h' q = h q).
Proof.
  intros Hb Hs. unfold lpath_update. destruct (Nat.ltb_spec PBUF (length a2)); [lia|].
  set (i := S (lcp a1 a2)). set (cnt := (length a2 - i)%nat).
  assert (forall c i h, (i + c <= length a2)%nat -> (forall q, pfx q a2 -> (i <= length q)%nat -> h q <> None) ->
    exists h', fold_left (fun rh j => let* g := rh in
      match g (firstn j a2) with
      | Some x => Ok (hset g (firstn j a2) (Some (lpath_store x (Some lf))))
      | None => UB
      end) (seq i c) (Ok h) = Ok h'
    /\ (forall q x, pfx q a2 -> (i <= length q < i + c)%nat -> h q = Some x -> h' q = Some (lpath_store x (Some lf)))
    /\ (forall q, ~ (pfx q a2 /\ (i <= length q < i + c)%nat) -> h' q = h q)) as L.
  { clear. induction c as [|c IH]; intros i h Hl Hs; cbn [seq fold_left].
    - exists h. split; [reflexivity|]. split; [intros; lia|reflexivity].
    - cbn [bind]. destruct (h (firstn i a2)) as [x|] eqn:Ex.
      2:{ exfalso. apply (Hs (firstn i a2)); [apply pfx_firstn|rewrite firstn_len by lia; lia|exact Ex]. }
      destruct (IH (S i) (hset h (firstn i a2) (Some (lpath_store x (Some lf))))) as (h' & F1 & F2 & F3); [lia| |].
      { intros q Hq Lq. rewrite hset_other; [apply Hs; [exact Hq|lia]|]. intros ->. rewrite firstn_len in Lq by lia. lia. }
      exists h'. split; [exact F1|]. split.
      + intros q y Hq Lq Hy. destruct (Nat.eq_dec (length q) i) as [E|E].
        * rewrite F3 by (intros [_ ?]; lia). assert (q = firstn i a2) as -> by (rewrite <- E; apply pfx_eq; exact Hq). rewrite hset_same. congruence.
        * apply F2; [exact Hq|lia|]. rewrite hset_other; [exact Hy|]. intros ->. apply E. apply firstn_len. lia.
      + intros q Hq. rewrite F3 by (intros [A B]; apply Hq; split; [exact A|lia]). apply hset_other. intros ->. apply Hq.
        split; [apply pfx_firstn|]. rewrite firstn_len by lia. lia. }
  destruct (Nat.le_gt_cases i (length a2)) as [Li|Li].
  - destruct (L cnt i h) as (h' & F1 & F2 & F3); [unfold cnt; lia|intros q Hq Lq; apply Hs; [exact Hq|unfold i in Lq; lia]|].
    exists h'. split; [exact F1|]. split; intros; [apply F2; auto; unfold cnt, i in *; lia|apply F3; intros [A B]; apply H0; split; [exact A|unfold cnt, i in *; lia]].
  - assert (cnt = O) as -> by (unfold cnt; lia). cbn [seq fold_left]. exists h. split; [reflexivity|]. split; [intros; unfold i in *; lia|reflexivity].
Qed.

Lemma bm_set_helper_fields x id : m_lmost (bm_set_helper x id) = m_lmost x /\ m_rmost (bm_set_helper x id) = m_rmost x /\ m_lpath (bm_set_helper x id) = m_lpath x.
Proof.
  unfold bm_set_helper, bm_set, expand. cbn [m_lmost m_rmost m_lpath m_bits m_min m_max].
  destruct (m_min x <? m_max x); [destruct (Z.testbit (m_bits x) id); auto|]. destruct (id =? m_min x); [auto|]. destruct (m_min x =? FO); [auto|].
  match goal with |- context [if ?c then _ else _] => destruct c end; auto.
Qed.
Lemma bm_clear_helper_fields x id : m_lmost (bm_clear_helper x id) = m_lmost x /\ m_rmost (bm_clear_helper x id) = m_rmost x /\ m_lpath (bm_clear_helper x id) = m_lpath x.
Proof.
  unfold bm_clear_helper. destruct (m_min x =? m_max x); [auto|].
  assert (m_lmost (bm_clear x id) = m_lmost x /\ m_rmost (bm_clear x id) = m_rmost x /\ m_lpath (bm_clear x id) = m_lpath x) as H.
  { unfold bm_clear. cbn [m_lmost m_rmost m_lpath m_bits m_min m_max]. destruct (id =? m_min x); cbn [m_lmost m_rmost m_lpath m_bits m_min m_max]; destruct (id =? m_max x); auto. }
  destruct (m_min (bm_clear x id) =? m_max (bm_clear x id)); [|exact H]. exact H.
Qed.

Definition succ_of (as_ : list key) (n : key) (next : option key) : Prop :=
  match next with
  | Some m => In m as_ /\ klt n m /\ forall b, In b as_ -> klt n b -> kle m b
  | None => forall b, In b as_ -> ~ klt n b
  end.
Definition start_of (prev : key) (next : option key) : nat := match next with Some m => lcp prev m | None => O end.

(** the prefix from which the updates start is shared by the neighbours *)
Lemma start_shared as_ n prev next : pred_of as_ n prev -> succ_of as_ n next ->
  pfx (firstn (start_of prev next) prev) n /\ (start_of prev next <= length n)%nat /\ (start_of prev next <= length prev)%nat.
Proof.
  intros (P1 & P2 & P3) Hs. unfold start_of. destruct next as [m|].
  - destruct Hs as (S1 & S2 & S3). pose proof (lcp_mid prev n m (klt_kle _ _ P2) (klt_kle _ _ S2)) as H. split; [exact H|].
    apply pfx_len in H. pose proof (lcp_len prev m). rewrite firstn_len in H by lia. lia.
  - cbn [firstn]. split; [apply pfx_nil|]. lia.
Qed.

Section Split.
Variables (h : hmap) (as_ as' : list key) (n prev : key) (next : option key).
Hypothesis Hh : hinv h as_.
Hypothesis Hn : ~ In n as_.
Hypothesis Hprev : pred_of as_ n prev.
Hypothesis Hnext : succ_of as_ n next.
Hypothesis Has : forall a, In a as' <-> In a as_ \/ a = n.
Hypothesis Hbn : bytes n.

Lemma split_bits_new p x : bits_ok x (fun b => exists a, In a as_ /\ pfx (p ++ [b]) a) -> pfx p n ->
  bits_ok (match nth_error n (length p) with Some b => bm_set_helper x b | None => x end) (fun b => exists a, In a as' /\ pfx (p ++ [b]) a).
Proof.
  intros H Hp. destruct (nth_error n (length p)) as [b0|] eqn:E.
  - eapply bits_ok_ext; [|apply bm_set_helper_ok; [exact H|eapply bytes_nth; eassumption]]. intros b. split.
    + intros [(a & A1 & A2)| ->]; [exists a; rewrite Has; auto|exists n; rewrite Has; split; [auto|apply pfx_snoc; auto]].
    + intros (a & A1 & A2). apply Has in A1. destruct A1 as [A1| ->]; [left; eauto|]. right. apply pfx_snoc in A2. destruct A2. congruence.
  - eapply bits_ok_ext; [|exact H]. intros b. split; intros (a & A1 & A2).
    + exists a. rewrite Has. auto.
    + apply Has in A1. destruct A1 as [A1| ->]; [eauto|]. apply pfx_snoc in A2. destruct A2. congruence.
Qed.

Lemma pred_new : pred_of as' n prev.
Proof.
  destruct Hprev as (P1 & P2 & P3). split; [apply Has; auto|]. split; [exact P2|]. intros b Hb Lb. apply Has in Hb. destruct Hb as [Hb| ->]; [auto|].
  destruct (klt_irrefl _ Lb).
Qed.
Lemma pred_keep a q : In a as_ -> Some a <> next -> pred_of as_ a q -> pred_of as' a q.
Proof.
  intros Ha Na (P1 & P2 & P3). split; [apply Has; auto|]. split; [exact P2|]. intros b Hb Lb. apply Has in Hb. destruct Hb as [Hb| ->]; [auto|].
  destruct next as [m|].
  - destruct Hnext as (S1 & S2 & S3). pose proof (S3 a Ha Lb) as C. apply kle_cases in C. destruct C as [C|C]; [congruence|].
    apply klt_kle. eapply klt_le; [exact S2|]. apply P3; assumption.
  - destruct (Hnext a Ha Lb).
Qed.

Definition tval (j : nat) (o : option meta) : option meta :=
  match o with
  | Some x =>
      let x1 := match nth_error n j with Some b => bm_set_helper x b | None => x end in
      Some (if match next with Some n0 => key_eq (m_lmost x1) n0 | None => false end
            then lmost_store x1 j n (Some prev)
            else if key_eq (m_rmost x1) prev then rmost_store x1 n else x1)
  | None => Some (meta_init n (Some prev) j (match nth_error n j with Some b => b | None => FO end))
  end.

(** a touched prefix of the new anchor *)
Lemma touch_good p : pfx p n -> match tval (length p) (h p) with Some x => good as' p x | None => False end.
Proof.
  intros Hp. pose proof (Hh p) as G. destruct (h p) as [x|] eqn:Ex; unfold tval.
  - set (x1 := match nth_error n (length p) with Some b => bm_set_helper x b | None => x end).
    assert (m_lmost x1 = m_lmost x /\ m_rmost x1 = m_rmost x /\ m_lpath x1 = m_lpath x) as (F1 & F2 & F3).
    { unfold x1. destruct (nth_error n (length p)); [apply bm_set_helper_fields|auto]. }
    pose proof (split_bits_new p x (g_b _ _ _ G) Hp) as Gb. fold x1 in Gb. clearbody x1.
    destruct Hprev as (P1 & P2 & P3).
    assert ((exists m, next = Some m /\ m_lmost x = m) \/ Some (m_lmost x) <> next) as [(m & Em & El)|Nl].
    { destruct next as [m|]; [|right; discriminate]. destruct (key_dec (m_lmost x) m); [left; eauto|right; congruence]. }
    + rewrite Em. rewrite F1, El, key_eq_refl. unfold lmost_store. pose proof Hnext as Hnx. rewrite Em in Hnx. destruct Hnx as (S1 & S2 & S3).
      constructor; cbn [m_lmost m_rmost m_lpath].
      * apply Has. auto.
      * exact Hp.
      * intros a Ha Hpa. apply Has in Ha. destruct Ha as [Ha| ->]; [|apply kle_refl]. apply klt_kle. eapply klt_le; [exact S2|]. rewrite <- El. apply G; assumption.
      * rewrite F2. apply Has. left. apply G.
      * rewrite F2. apply G.
      * rewrite F2. intros a Ha Hpa. apply Has in Ha. destruct Ha as [Ha| ->]; [apply G; assumption|].
        apply klt_kle. eapply klt_le; [exact S2|]. rewrite <- El. apply G; apply G.
      * intros <-. rewrite Nat.eqb_refl. reflexivity.
      * intros Nn. destruct (Nat.eqb_spec (length n) (length p)) as [E|E].
        { exfalso. apply Nn. symmetry. apply pfx_anti; [exact Hp|lia]. }
        exists prev. split; [reflexivity|apply pred_new].
      * eapply bits_ok_same; [reflexivity|reflexivity|reflexivity|exact Gb].
    + replace (match next with Some n0 => key_eq (m_lmost x1) n0 | None => false end) with false.
      2:{ destruct next as [m|]; [|reflexivity]. rewrite F1, key_eq_dec. destruct (key_dec (m_lmost x) m); [congruence|reflexivity]. }
      assert (klt (m_lmost x) n) as Ll.
      { destruct (klt_total (m_lmost x) n) as [L|[L|L]]; [exact L|exfalso; apply Hn; rewrite <- L; apply G|]. exfalso.
        destruct next as [m|]; [|exact (Hnext _ (g_lin _ _ _ G) L)]. destruct Hnext as (S1 & S2 & S3).
        pose proof (S3 _ (g_lin _ _ _ G) L) as C1.
        assert (pfx p m) as Pm by (eapply pfx_mid; [exact Hp|apply (g_lp _ _ _ G)|apply klt_kle; exact S2|exact C1]).
        pose proof (g_l _ _ _ G m S1 Pm) as C2. apply Nl. f_equal. apply kle_anti; assumption. }
      assert (forall q, pred_of as_ (m_lmost x) q -> pred_of as' (m_lmost x) q) as Hpk by (intros q Hq; apply pred_keep; [apply G|exact Nl|exact Hq]).
      rewrite F2, key_eq_dec. destruct (key_dec (m_rmost x) prev) as [Er|Er].
      * unfold rmost_store. constructor; cbn [m_lmost m_rmost m_lpath]; rewrite ?F1, ?F3.
        -- apply Has. left. apply G.
        -- apply G.
        -- intros a Ha Hpa. apply Has in Ha. destruct Ha as [Ha| ->]; [apply G; assumption|apply klt_kle; exact Ll].
        -- apply Has. auto.
        -- exact Hp.
        -- intros a Ha Hpa. apply Has in Ha. destruct Ha as [Ha| ->]; [|apply kle_refl]. apply klt_kle. eapply kle_lt; [|exact P2]. rewrite <- Er. apply G; assumption.
        -- apply G.
        -- intros N. destruct (g_ne _ _ _ G N) as (q & Q1 & Q2). exists q. auto.
        -- eapply bits_ok_same; [reflexivity|reflexivity|reflexivity|exact Gb].
      * assert (klt n (m_rmost x)) as Lr.
        { destruct (klt_total n (m_rmost x)) as [L|[L|L]]; [exact L|exfalso; apply Hn; rewrite L; apply G|]. exfalso.
          pose proof (P3 _ (g_rin _ _ _ G) L) as C1.
          assert (pfx p prev) as Pp by (eapply pfx_mid; [apply (g_rp _ _ _ G)|exact Hp|exact C1|apply klt_kle; exact P2]).
          pose proof (g_r _ _ _ G prev P1 Pp) as C2. apply Er. apply kle_anti; assumption. }
        constructor; rewrite ?F1, ?F2, ?F3.
        -- apply Has. left. apply G.
        -- apply G.
        -- intros a Ha Hpa. apply Has in Ha. destruct Ha as [Ha| ->]; [apply G; assumption|apply klt_kle; exact Ll].
        -- apply Has. left. apply G.
        -- apply G.
        -- intros a Ha Hpa. apply Has in Ha. destruct Ha as [Ha| ->]; [apply G; assumption|apply klt_kle; exact Lr].
        -- apply G.
        -- intros N. destruct (g_ne _ _ _ G N) as (q & Q1 & Q2). exists q. auto.
        -- exact Gb.
  - (* a new node *)
    unfold meta_init. constructor; cbn [m_lmost m_rmost m_lpath].
    + apply Has. auto.
    + exact Hp.
    + intros a Ha Hpa. apply Has in Ha. destruct Ha as [Ha| ->]; [destruct (G a Ha Hpa)|apply kle_refl].
    + apply Has. auto.
    + exact Hp.
    + intros a Ha Hpa. apply Has in Ha. destruct Ha as [Ha| ->]; [destruct (G a Ha Hpa)|apply kle_refl].
    + intros <-. rewrite Nat.eqb_refl. reflexivity.
    + intros Nn. destruct (Nat.eqb_spec (length n) (length p)) as [E|E].
      { exfalso. apply Nn. symmetry. apply pfx_anti; [exact Hp|lia]. }
      exists prev. split; [reflexivity|apply pred_new].
    + assert (forall a b, In a as' -> pfx (p ++ [b]) a -> a = n) as Hu.
      { intros a b Ha Hpa. apply Has in Ha. destruct Ha as [Ha| ->]; [|reflexivity]. exfalso. apply (G a Ha). apply pfx_snoc in Hpa. tauto. }
      destruct (nth_error n (length p)) as [b0|] eqn:E.
      * apply bits_init; [|eapply bytes_nth; eassumption]. intros b. split.
        -- intros (a & A1 & A2). pose proof (Hu a b A1 A2) as ->. apply pfx_snoc in A2. destruct A2. congruence.
        -- intros ->. exists n. split; [apply Has; auto|apply pfx_snoc; auto].
      * apply bits_none. intros b (a & A1 & A2). pose proof (Hu a b A1 A2) as ->. apply pfx_snoc in A2. destruct A2. congruence.
Qed.

(** a short prefix of the new anchor, shared by its neighbours *)
Lemma short_good p : pfx p n -> (length p < start_of prev next)%nat -> match h p with Some x => good as' p x | None => False end.
Proof.
  intros Hp Lp. destruct (start_shared _ _ _ _ Hprev Hnext) as (H1 & H2 & H3). destruct Hprev as (P1 & P2 & P3).
  assert (exists m, next = Some m) as [m En]. { unfold start_of in Lp. destruct next as [m|]; [eauto|lia]. }
  pose proof Hnext as HS. rewrite En in HS. destruct HS as (S1 & S2 & S3). assert (start_of prev next = lcp prev m) as Est by (rewrite En; reflexivity).
  rewrite Est in *. set (c := firstn (lcp prev m) prev) in *. assert (length c = lcp prev m) as Lc by (apply firstn_len; exact H3).
  assert (forall q, pfx q n -> (length q <= lcp prev m)%nat -> pfx q prev /\ pfx q m) as Hsh.
  { intros q Hq Lq. assert (pfx q c) as Hqc by (eapply pfx_two; [exact Hq|exact H1|lia]). split; (eapply pfx_trans; [exact Hqc|]); [apply pfx_firstn|apply lcp_pfx]. }
  destruct (Hsh p Hp ltac:(lia)) as [Pp Pm]. pose proof (Hh p) as G. destruct (h p) as [x|]; [|exact (G prev P1 Pp)].
  pose proof (g_l _ _ _ G prev P1 Pp) as L1. pose proof (g_r _ _ _ G m S1 Pm) as L2.
  constructor.
  - apply Has. left. apply G.
  - apply G.
  - intros a Ha Hpa. apply Has in Ha. destruct Ha as [Ha| ->]; [apply G; assumption|]. apply klt_kle. eapply kle_lt; [exact L1|exact P2].
  - apply Has. left. apply G.
  - apply G.
  - intros a Ha Hpa. apply Has in Ha. destruct Ha as [Ha| ->]; [apply G; assumption|]. apply klt_kle. eapply klt_le; [exact S2|exact L2].
  - apply G.
  - intros N. destruct (g_ne _ _ _ G N) as (q & Q1 & Q2). exists q. split; [exact Q1|]. apply pred_keep; [apply G| |exact Q2].
    intros E. rewrite En in E. injection E as E. rewrite E in L1. assert (klt prev m) as C by (eapply klt_trans; eassumption). apply kle_not in L1. contradiction.
  - eapply bits_ok_ext; [|apply (g_b _ _ _ G)]. intros b. split; intros (a & A1 & A2).
    + exists a. rewrite Has. auto.
    + apply Has in A1. destruct A1 as [A1| ->]; [eauto|]. exists prev. split; [exact P1|]. apply (Hsh _ A2). rewrite app_length. cbn [length]. lia.
Qed.

(** other prefixes *)
Lemma other_good p x : ~ pfx p n -> h p = Some x -> Some (m_lmost x) <> next \/ m_lmost x = p -> good as' p x.
Proof.
  intros Hp Ex Hor. pose proof (Hh p) as G. rewrite Ex in G. constructor.
  - apply Has. left. apply G.
  - apply G.
  - intros a Ha Hpa. apply Has in Ha. destruct Ha as [Ha| ->]; [apply G; assumption|contradiction].
  - apply Has. left. apply G.
  - apply G.
  - intros a Ha Hpa. apply Has in Ha. destruct Ha as [Ha| ->]; [apply G; assumption|contradiction].
  - apply G.
  - intros N. destruct Hor as [Hor|Hor]; [|contradiction]. destruct (g_ne _ _ _ G N) as (q & Q1 & Q2). exists q. split; [exact Q1|]. apply pred_keep; [apply G|exact Hor|exact Q2].
  - eapply bits_ok_ext; [|apply (g_b _ _ _ G)]. intros b. split; intros (a & A1 & A2).
    + exists a. rewrite Has. auto.
    + apply Has in A1. destruct A1 as [A1| ->]; [eauto|]. apply pfx_snoc in A2. tauto.
Qed.
Lemma lpath_good p x m : next = Some m -> ~ pfx p n -> h p = Some x -> m_lmost x = m -> p <> m -> good as' p (lpath_store x (Some n)).
Proof.
  intros En Hp Ex El Hne. pose proof (Hh p) as G. rewrite Ex in G. pose proof Hnext as Hs. rewrite En in Hs. destruct Hs as (S1 & S2 & S3).
  unfold lpath_store. constructor; cbn [m_lmost m_rmost m_lpath].
  - apply Has. left. apply G.
  - apply G.
  - intros a Ha Hpa. apply Has in Ha. destruct Ha as [Ha| ->]; [apply G; assumption|contradiction].
  - apply Has. left. apply G.
  - apply G.
  - intros a Ha Hpa. apply Has in Ha. destruct Ha as [Ha| ->]; [apply G; assumption|contradiction].
  - intros E. exfalso. congruence.
  - intros _. exists n. split; [reflexivity|]. rewrite El. split; [apply Has; auto|]. split; [exact S2|].
    intros b Hb Lb. apply Has in Hb. destruct Hb as [Hb| ->]; [|apply kle_refl]. destruct (klt_or n b) as [L|L]; [|exact L].
    pose proof (S3 b Hb L) as C. apply kle_not in C. contradiction.
  - eapply bits_ok_ext; [|eapply bits_ok_same; [| | |apply (g_b _ _ _ G)]; reflexivity]. intros b. split; intros (a & A1 & A2).
    + exists a. rewrite Has. auto.
    + apply Has in A1. destruct A1 as [A1| ->]; [eauto|]. apply pfx_snoc in A2. tauto.
Qed.

Theorem meta_split_ok maxplen : (forall a, In a as_ -> (length a <= PBUF)%nat) ->
  exists h', meta_split h maxplen prev n next = Ok (h', Nat.max maxplen (length n)) /\ hinv h' as'.
Proof.
  intros Hlen. unfold meta_split. fold (start_of prev next). destruct (start_shared _ _ _ _ Hprev Hnext) as (H1 & H2 & H3).
  set (i := start_of prev next) in *. replace (Nat.max i (length n)) with (length n) by lia.
  set (h1 := fold_left (fun g j => split_touch g prev n next j) (seq i (S (length n - i))) h).
  assert (forall q, (pfx q n -> (i <= length q)%nat -> h1 q = tval (length q) (h q)) /\ (~ (pfx q n /\ (i <= length q)%nat) -> h1 q = h q)) as Hh1.
  { intros q. assert (h1 = fold_left (fun g j => hset g (firstn j n) (tval j (g (firstn j n)))) (seq i (S (length n - i))) h) as ->.
    { unfold h1. clear. generalize (seq i (S (length n - i))). intros js. revert h. induction js as [|j js IH]; intros h; cbn [fold_left]; [reflexivity|].
      rewrite IH. f_equal. unfold split_touch, tval. destruct (h (firstn j n)); reflexivity. }
    destruct (fold_hset tval n (seq i (S (length n - i))) h q) as [F1 F2]; [apply seq_NoDup|intros j Hj; apply in_seq in Hj; lia|]. split.
    - intros Hq Lq. apply F1; [|exact Hq]. apply in_seq. pose proof (pfx_len _ _ Hq). lia.
    - intros N. apply F2. intros [A B]. apply N. split; [exact B|]. apply in_seq in A. lia. }
  assert (forall q, pfx q n -> match h1 q with Some x => good as' q x | None => False end) as Hpn.
  { intros q Hq. destruct (Nat.le_gt_cases i (length q)) as [L|L].
    - rewrite (proj1 (Hh1 q) Hq L). apply touch_good. exact Hq.
    - rewrite (proj2 (Hh1 q)) by (intros [_ ?]; lia). apply short_good; [exact Hq|exact L]. }
  assert (forall q, ~ pfx q n -> h1 q = h q) as Hoth by (intros q Hq; apply (proj2 (Hh1 q)); tauto).
  clearbody h1. clear Hh1. assert ((exists m, next = Some m) \/ next = None) as [[m En]|En] by (destruct next; eauto).
  - pose proof Hnext as HS. rewrite En in HS. destruct HS as (S1 & S2 & S3). rewrite En.
    assert (forall q, pfx q m -> (lcp n m < length q)%nat -> ~ pfx q n) as Hnp.
    { intros q Q1 Q2 Q3. pose proof (pfx_lcp q n m Q3 Q1). lia. }
    destruct (lpath_update_ok h1 n m n) as (h2 & U1 & U2 & U3); [apply Hlen; exact S1| |].
    { intros q Q1 Q2. rewrite Hoth by (apply Hnp; assumption). apply (hinv_some h as_); [exact Hh|]. exists m. auto. }
    rewrite U1. cbn [bind]. exists h2. split; [reflexivity|]. intros p. destruct (pfx_dec p n) as [Hp|Hp].
    + rewrite U3 by (intros [Q1 Q2]; apply (Hnp p Q1); [lia|exact Hp]). specialize (Hpn p Hp). destruct (h1 p); [exact Hpn|contradiction].
    + pose proof (Hh p) as G. destruct (h p) as [x|] eqn:Ex.
      * assert (pfx p m -> (lcp n m < length p)%nat) as Hlc.
        { intros Q. destruct (Nat.lt_ge_cases (lcp n m) (length p)) as [L|L]; [exact L|]. exfalso. apply Hp.
          rewrite lcp_sym in L. rewrite (pfx_eq p m Q). apply lcp_firstn; [pose proof (pfx_len _ _ Q); lia|exact L]. }
        assert (pfx p m -> m_lmost x = m) as Hlm.
        { intros Q. apply kle_anti; [apply G; assumption|]. apply S3; [apply G|]. destruct (klt_total n (m_lmost x)) as [L|[L|L]]; [exact L| |].
          - exfalso. apply Hn. rewrite L. apply G.
          - exfalso. apply Hp. eapply pfx_mid; [apply (g_lp _ _ _ G)|exact Q|apply klt_kle; exact L|apply klt_kle; exact S2]. }
        destruct (pfx_dec p m) as [Q|Q].
        -- destruct (key_dec p m) as [E|E].
           ++ rewrite U3 by (intros [_ ?]; subst; lia). rewrite Hoth by exact Hp. rewrite Ex. apply other_good; [exact Hp|exact Ex|]. right. rewrite Hlm by exact Q. congruence.
           ++ assert (length p < length m)%nat as Lm.
              { pose proof (pfx_len _ _ Q). destruct (Nat.eq_dec (length p) (length m)) as [E'|]; [|lia]. exfalso. apply E. apply pfx_anti; [exact Q|lia]. }
              rewrite (U2 p x Q); [|split; [apply Hlc; exact Q|exact Lm]|rewrite Hoth by exact Hp; exact Ex]. apply (lpath_good p x m); auto.
        -- rewrite U3 by tauto. rewrite Hoth by exact Hp. rewrite Ex. apply other_good; [exact Hp|exact Ex|]. left. rewrite En. intros E. injection E as E. apply Q. rewrite <- E. apply G.
      * assert (~ pfx p m) as Q by (apply G; exact S1). rewrite U3 by tauto. rewrite Hoth by exact Hp. rewrite Ex.
        intros a Ha. apply Has in Ha. destruct Ha as [Ha| ->]; [apply G; exact Ha|exact Hp].
  - rewrite En. cbn [bind]. exists h1. split; [reflexivity|]. intros p. destruct (pfx_dec p n) as [Hp|Hp].
    + specialize (Hpn p Hp). destruct (h1 p); [exact Hpn|contradiction].
    + rewrite Hoth by exact Hp. pose proof (Hh p) as G. destruct (h p) as [x|] eqn:Ex.
      * apply other_good; [exact Hp|exact Ex|]. left. rewrite En. discriminate.
      * intros a Ha. apply Has in Ha. destruct Ha as [Ha| ->]; [apply G; exact Ha|exact Hp].
Qed.
End Split.

Section Merge.
Variables (h : hmap) (as_ as' : list key) (n prev : key) (next : option key).
Hypothesis Hh : hinv h as_.
Hypothesis Hn : In n as_.
Hypothesis Hprev : pred_of as_ n prev.
Hypothesis Hnext : succ_of as_ n next.
Hypothesis Has : forall a, In a as' <-> In a as_ /\ a <> n.
Hypothesis Hbn : bytes n.

(** right for the anchors without [n], but the byte set may still hold the byte of [n] *)
Record semi (p : key) (x : meta) : Prop := mksemi {
  s_lin : In (m_lmost x) as'; s_lp : pfx p (m_lmost x); s_l : forall a, In a as' -> pfx p a -> kle (m_lmost x) a;
  s_rin : In (m_rmost x) as'; s_rp : pfx p (m_rmost x); s_r : forall a, In a as' -> pfx p a -> kle a (m_rmost x);
  s_eq : m_lmost x = p -> m_lpath x = Some p;
  s_ne : m_lmost x <> p -> exists q, m_lpath x = Some q /\ pred_of as' (m_lmost x) q;
  s_b : bits_ok x (fun b => exists a, In a as_ /\ pfx (p ++ [b]) a) }.
Definition final (p : key) (o : option meta) : Prop :=
  match o with Some x => good as' p x | None => forall a, In a as' -> ~ pfx p a end.

Lemma semi_good p x y : semi p x -> m_lmost y = m_lmost x -> m_rmost y = m_rmost x -> m_lpath y = m_lpath x ->
  bits_ok y (fun b => exists a, In a as' /\ pfx (p ++ [b]) a) -> good as' p y.
Proof. intros H E1 E2 E3 Hb. constructor; rewrite ?E1, ?E2, ?E3; try apply H. exact Hb. Qed.

Lemma pred_after m : next = Some m -> pred_of as' m prev.
Proof.
  intros En. pose proof Hnext as HS. rewrite En in HS. destruct HS as (S1 & S2 & S3). destruct Hprev as (P1 & P2 & P3).
  split; [apply Has; split; [exact P1|apply klt_ne; exact P2]|]. split; [eapply klt_trans; eassumption|].
  intros b Hb Lb. apply Has in Hb. destruct Hb as [Hb Nb]. apply P3; [exact Hb|]. destruct (klt_total b n) as [L|[L|L]]; [exact L|contradiction|].
  pose proof (S3 b Hb L) as C. apply kle_not in C. contradiction.
Qed.
Lemma pred_less a q : pred_of as_ a q -> q <> n -> pred_of as' a q.
Proof.
  intros (P1 & P2 & P3) N. split; [apply Has; auto|]. split; [exact P2|]. intros b Hb Lb. apply Has in Hb. apply P3; tauto.
Qed.

Lemma single_only p x : h p = Some x -> m_lmost x = m_rmost x -> pfx p n -> forall a, In a as_ -> pfx p a -> a = n.
Proof.
  intros Ex E Hp a Ha Hpa. pose proof (Hh p) as G. rewrite Ex in G.
  assert (forall a, In a as_ -> pfx p a -> a = m_lmost x) as H.
  { intros b Hb Hpb. apply kle_anti; [rewrite E; apply G; assumption|apply G; assumption]. }
  rewrite (H a Ha Hpa). symmetry. apply H; assumption.
Qed.
(** a node that stays *)
Lemma adjust p x : h p = Some x -> m_lmost x <> m_rmost x -> pfx p n ->
  exists x1, (if key_eq (m_lmost x) n then match next with Some m => Ok (lmost_store x (length p) m (Some prev)) | None => UB end
              else Ok (if key_eq (m_rmost x) n then rmost_store x prev else x)) = Ok x1 /\ semi p x1.
Proof.
  intros Ex Hne Hp. pose proof (Hh p) as G. rewrite Ex in G. destruct Hprev as (P1 & P2 & P3).
  rewrite !key_eq_dec. destruct (key_dec (m_lmost x) n) as [El|El].
  - assert (klt n (m_rmost x)) as Lr.
    { pose proof (g_r _ _ _ G n Hn Hp) as C. apply kle_cases in C. destruct C as [C|C]; [congruence|exact C]. }
    assert ((exists m, next = Some m) \/ next = None) as [[m En]|En] by (destruct next; eauto).
    2:{ pose proof Hnext as HS. rewrite En in HS. destruct (HS _ (g_rin _ _ _ G) Lr). }
    pose proof Hnext as HS. rewrite En in HS. destruct HS as (S1 & S2 & S3). rewrite En.
    assert (pfx p m) as Pm. { eapply pfx_mid; [exact Hp|apply (g_rp _ _ _ G)|apply klt_kle; exact S2|apply S3; [apply G|exact Lr]]. }
    eexists. split; [reflexivity|]. unfold lmost_store. constructor; cbn [m_lmost m_rmost m_lpath].
    + apply Has. split; [exact S1|]. intros E. symmetry in E. revert E. apply klt_ne. exact S2.
    + exact Pm.
    + intros a Ha Hpa. apply Has in Ha. destruct Ha as [Ha Na]. apply S3; [exact Ha|]. pose proof (g_l _ _ _ G a Ha Hpa) as C. rewrite El in C.
      apply kle_cases in C. destruct C as [C|C]; [congruence|exact C].
    + apply Has. split; [apply G|congruence].
    + apply G.
    + intros a Ha Hpa. apply Has in Ha. apply G; tauto.
    + intros <-. rewrite Nat.eqb_refl. reflexivity.
    + intros Nm. destruct (Nat.eqb_spec (length m) (length p)) as [E|E].
      { exfalso. apply Nm. symmetry. apply pfx_anti; [exact Pm|lia]. }
      exists prev. split; [reflexivity|apply pred_after; exact En].
    + eapply bits_ok_same; [| | |apply (g_b _ _ _ G)]; reflexivity.
  - assert (klt (m_lmost x) n) as Ll.
    { pose proof (g_l _ _ _ G n Hn Hp) as C. apply kle_cases in C. destruct C as [C|C]; [congruence|exact C]. }
    assert (forall q, pred_of as_ (m_lmost x) q -> pred_of as' (m_lmost x) q) as Hpk.
    { intros q Hq. apply pred_less; [exact Hq|]. intros ->. destruct Hq as (_ & L & _). apply (klt_irrefl n). eapply klt_trans; eassumption. }
    destruct (key_dec (m_rmost x) n) as [Er|Er].
    + assert (pfx p prev) as Pp. { eapply pfx_mid; [apply (g_lp _ _ _ G)|exact Hp|apply P3; [apply G|exact Ll]|apply klt_kle; exact P2]. }
      eexists. split; [reflexivity|]. unfold rmost_store. constructor; cbn [m_lmost m_rmost m_lpath].
      * apply Has. split; [apply G|exact El].
      * apply G.
      * intros a Ha Hpa. apply Has in Ha. apply G; tauto.
      * apply Has. split; [exact P1|apply klt_ne; exact P2].
      * exact Pp.
      * intros a Ha Hpa. apply Has in Ha. destruct Ha as [Ha Na]. apply P3; [exact Ha|]. pose proof (g_r _ _ _ G a Ha Hpa) as C. rewrite Er in C.
        apply kle_cases in C. destruct C as [C|C]; [congruence|exact C].
      * apply G.
      * intros N. destruct (g_ne _ _ _ G N) as (q & Q1 & Q2). eauto.
      * eapply bits_ok_same; [| | |apply (g_b _ _ _ G)]; reflexivity.
    + exists x. split; [reflexivity|]. constructor.
      * apply Has. split; [apply G|exact El].
      * apply G.
      * intros a Ha Hpa. apply Has in Ha. apply G; tauto.
      * apply Has. split; [apply G|exact Er].
      * apply G.
      * intros a Ha Hpa. apply Has in Ha. apply G; tauto.
      * apply G.
      * intros N. destruct (g_ne _ _ _ G N) as (q & Q1 & Q2). eauto.
      * apply G.
Qed.

Notation i0 := (start_of prev next).

(** a node that goes, with the byte in its parent *)
Lemma gone cnt i (g : hmap) (parent : option key) x : (i + cnt = length n)%nat -> (i0 <= i)%nat ->
  (forall q, ~ (pfx q n /\ (i0 <= length q < i)%nat) -> g q = h q) ->
  (forall q, pfx q n -> (i0 <= length q)%nat -> (S (length q) < i)%nat -> final q (g q)) ->
  match parent with
  | Some q => (i0 < i)%nat /\ q = firstn (i - 1) n /\ exists y, g q = Some y /\ semi q y
  | None => i = i0 \/ (i0 < i)%nat /\ final (firstn (i - 1) n) (g (firstn (i - 1) n)) /\ (forall a, In a as' -> ~ pfx (firstn (i - 1) n) a)
  end ->
  h (firstn i n) = Some x -> m_lmost x = m_rmost x ->
  exists g2,
    (let h1 := hset g (firstn i n) None in
     match parent with
     | None => Ok h1
     | Some q => match h1 q, nth_error n (i - 1) with
                 | Some y, Some b => Ok (hset h1 q (Some (bm_clear_helper y b)))
                 | _, _ => UB
                 end
     end) = Ok g2
    /\ (forall q, ~ (pfx q n /\ (i0 <= length q < S i)%nat) -> g2 q = h q)
    /\ (forall q, pfx q n -> (i0 <= length q)%nat -> (length q <= i)%nat -> final q (g2 q))
    /\ (forall a, In a as' -> ~ pfx (firstn i n) a).
Proof.
  intros Hc Hi Hg Hf Hpar Ex Es. assert (pfx (firstn i n) n) as Hp by apply pfx_firstn.
  assert (length (firstn i n) = i) as Lp by (apply firstn_len; lia). set (p := firstn i n) in *.
  pose proof (single_only p x Ex Es Hp) as Hone.
  assert (i0 < i)%nat as Hlt.
  { destruct (Nat.eq_dec i i0) as [E|]; [|lia]. exfalso. destruct (start_shared _ _ _ _ Hprev Hnext) as (H1 & H2 & H3). destruct Hprev as (P1 & P2 & P3).
    assert (pfx p prev) as Pp.
    { unfold p. rewrite E. assert (firstn i0 n = firstn i0 prev) as ->; [|apply pfx_firstn].
      pose proof (pfx_eq _ _ H1) as F. rewrite firstn_len in F by exact H3. symmetry. exact F. }
    apply (klt_ne _ _ P2). apply Hone; assumption. }
  destruct (nth_error n (i - 1)) as [b0|] eqn:Eb; [|apply nth_error_None in Eb; lia].
  assert (p = firstn (i - 1) n ++ [b0]) as Epb by (unfold p; replace i with (S (i - 1)) at 1 by lia; apply firstn_snoc; exact Eb).
  set (q0 := firstn (i - 1) n) in *. assert (length q0 = i - 1)%nat as Lq0 by (apply firstn_len; lia).
  assert (q0 <> p) as Nq0 by (intros E; rewrite E in Lq0; lia).
  assert (forall a, In a as' -> ~ pfx p a) as Hno. { intros a Ha Hpa. apply Has in Ha. apply (proj2 Ha). apply Hone; tauto. }
  assert (forall q, pfx q n -> length q = (i - 1)%nat -> q = q0) as Hq0 by (intros q Q1 Q2; unfold q0; rewrite <- Q2; apply pfx_eq; exact Q1).
  assert (forall q, pfx q n -> length q = i -> q = p) as Hqp by (intros q Q1 Q2; unfold p; rewrite <- Q2; apply pfx_eq; exact Q1).
  (* the new table agrees with the old one except at p and q0, and is right there *)
  assert (forall g2, (forall q, q <> p -> q <> q0 -> g2 q = g q) -> g2 p = None -> final q0 (g2 q0) ->
    (forall q, ~ (pfx q n /\ (i0 <= length q < S i)%nat) -> g2 q = h q)
    /\ (forall q, pfx q n -> (i0 <= length q)%nat -> (length q <= i)%nat -> final q (g2 q))) as Hfin.
  { intros g2 G1 G2 G3. split.
    - intros q Hq. rewrite G1; [apply Hg; intros [Q1 Q2]; apply Hq; split; [exact Q1|lia]| |].
      + intros ->. apply Hq. split; [exact Hp|lia].
      + intros ->. apply Hq. split; [apply pfx_firstn|lia].
    - intros q Q1 Q2 Q3. destruct (Nat.eq_dec (length q) i) as [E|E]; [rewrite (Hqp q Q1 E), G2; exact Hno|].
      destruct (Nat.eq_dec (length q) (i - 1)) as [E'|E']; [rewrite (Hq0 q Q1 E'); exact G3|].
      rewrite G1; [apply Hf; [exact Q1|exact Q2|lia]| |]; intros ->; lia. }
  destruct parent as [q|].
  - destruct Hpar as (_ & -> & y & Ey & Hy). cbv zeta. rewrite hset_other by exact Nq0. rewrite Ey. eexists. split; [reflexivity|].
    rewrite <- and_assoc. split; [|exact Hno]. apply Hfin.
    + intros q Q1 Q2. rewrite !hset_other by assumption. reflexivity.
    + rewrite hset_other by congruence. apply hset_same.
    + rewrite hset_same. cbn [final]. destruct (bm_clear_helper_fields y b0) as (F1 & F2 & F3). apply (semi_good q0 y _ Hy F1 F2 F3).
      eapply bits_ok_ext; [|apply bm_clear_helper_ok; [apply (s_b _ _ Hy)|exists n; split; [exact Hn|rewrite <- Epb; exact Hp]]].
      intros b. split.
      * intros [(a & A1 & A2) Nb]. exists a. split; [|exact A2]. apply Has. split; [exact A1|]. intros ->. apply Nb. apply pfx_snoc in A2. rewrite Lq0 in A2. destruct A2 as [_ A2]. congruence.
      * intros (a & A1 & A2). pose proof A1 as A1'. apply Has in A1. split; [exists a; tauto|]. intros ->. rewrite <- Epb in A2. exact (Hno a A1' A2).
  - destruct Hpar as [Hpar|(_ & H2 & H3)]; [lia|]. cbv zeta. eexists. split; [reflexivity|]. rewrite <- and_assoc. split; [|exact Hno]. apply Hfin.
    + intros q Q1 Q2. apply hset_other. exact Q1.
    + apply hset_same.
    + rewrite hset_other by exact Nq0. exact H2.
Qed.

(** the loop over the prefixes of the removed anchor *)
Lemma merge_loop_ok : forall cnt i (g : hmap) (parent : option key), (i + cnt = length n)%nat -> (i0 <= i)%nat ->
  (forall q, ~ (pfx q n /\ (i0 <= length q < i)%nat) -> g q = h q) ->
  (forall q, pfx q n -> (i0 <= length q)%nat -> (S (length q) < i)%nat -> final q (g q)) ->
  match parent with
  | Some q => (i0 < i)%nat /\ q = firstn (i - 1) n /\ exists y, g q = Some y /\ semi q y
  | None => i = i0 \/ (i0 < i)%nat /\ final (firstn (i - 1) n) (g (firstn (i - 1) n)) /\ (forall a, In a as' -> ~ pfx (firstn (i - 1) n) a)
  end ->
  exists g', merge_loop cnt g prev n next i parent = Ok g'
  /\ (forall q, ~ (pfx q n /\ (i0 <= length q)%nat) -> g' q = h q)
  /\ (forall q, pfx q n -> (i0 <= length q)%nat -> final q (g' q)).
Proof.
  induction cnt as [|cnt IH]; intros i g parent Hc Hi Hg Hf Hpar.
  all: assert (pfx (firstn i n) n) as Hp by apply pfx_firstn; assert (length (firstn i n) = i) as Lp by (apply firstn_len; lia).
  all: assert (g (firstn i n) = h (firstn i n)) as Egp by (apply Hg; intros [_ ?]; lia).
  all: cbn [merge_loop]; set (p := firstn i n) in *; rewrite Egp; pose proof (Hh p) as G.
  all: destruct (h p) as [x|] eqn:Ex; [|destruct (G n Hn Hp)].
  all: assert (forall j, (j <= i)%nat -> firstn j n = firstn j p) as Hfp by (intros j Hj; unfold p; rewrite firstn_firstn; f_equal; lia).
  all: assert (i0 < i -> exists b, nth_error n (i - 1) = Some b /\ p = firstn (i - 1) n ++ [b])%nat as Hlast
    by (intros Hlt; destruct (nth_error n (i - 1)) as [b|] eqn:Eb; [exists b; split; [reflexivity|]; unfold p; replace i with (S (i - 1)) at 1 by lia; apply firstn_snoc; exact Eb|apply nth_error_None in Eb; lia]).
  all: rewrite key_eq_dec; destruct (key_dec (m_lmost x) (m_rmost x)) as [Es|Es].
  all: cycle 1.
  (* the node stays: two goals (no further level, further levels) *)
  1,3: destruct (adjust p x Ex Es Hp) as (x1 & A1 & A2); rewrite Lp in A1; rewrite A1; cbn [bind].
  1,2: assert (exists o, In o as' /\ pfx p o) as (o & O1 & O2)
    by (destruct (key_dec (m_lmost x) n) as [El|El]; [exists (m_rmost x)|exists (m_lmost x)]; (split; [apply Has; split; [apply G|congruence]|apply G])).
  1,2: assert (forall q y, parent = Some q -> g q = Some y -> final q (hset g p (Some x1) q)) as Hparent.
  1,3: intros q y -> Ey; destruct Hpar as (H1 & H2 & y' & H3 & H4); rewrite Ey in H3; injection H3 as <-;
    rewrite hset_other by (intros ->; assert (length (firstn (i - 1) n) = i - 1)%nat by (apply firstn_len; lia); rewrite <- H2 in *; lia);
    rewrite Ey; cbn [final]; apply (semi_good q y y H4); try reflexivity;
    destruct (Hlast H1) as (b0 & B1 & B2); rewrite <- H2 in B2;
    eapply bits_ok_ext; [|apply (s_b _ _ H4)]; intros b; split;
    [intros (a & C1 & C2); destruct (key_dec a n) as [->|Na];
      [exists o; split; [exact O1|]; apply pfx_snoc in C2; destruct C2 as [_ C2];
        assert (length q = i - 1)%nat as Lq by (rewrite H2; apply firstn_len; lia); rewrite Lq in C2; rewrite B1 in C2; injection C2 as ->; rewrite <- B2; exact O2
      |exists a; split; [apply Has; auto|exact C2]]
    |intros (a & C1 & C2); apply Has in C1; exists a; tauto].
  - (* the last level: the anchor itself *)
    exists (hset g p (Some x1)). split; [reflexivity|]. assert (p = n) as Epn by (unfold p; apply firstn_all2; lia). split.
    + intros q Hq. assert (q <> p) as Nq by (intros ->; apply Hq; split; [exact Hp|lia]). rewrite hset_other by exact Nq. apply Hg. intros [Q1 Q2]. apply Hq. split; [exact Q1|lia].
    + intros q Q1 Q2. destruct (key_dec q p) as [->|Nq].
      * rewrite hset_same. cbn [final]. apply (semi_good p x1 x1 A2); try reflexivity. eapply bits_ok_ext; [|apply (s_b _ _ A2)].
        intros b. split; intros (a & C1 & C2); [|apply Has in C1; exists a; tauto]. exists a. split; [|exact C2]. apply Has. split; [exact C1|]. intros ->.
        apply pfx_len in C2. rewrite app_length, Lp in C2. cbn [length] in C2. lia.
      * assert (length q < i)%nat as Lq.
        { pose proof (pfx_len _ _ Q1). destruct (Nat.eq_dec (length q) i) as [E|]; [|lia]. exfalso. apply Nq. unfold p. rewrite <- E. apply pfx_eq. exact Q1. }
        destruct (Nat.eq_dec (S (length q)) i) as [E|E].
        -- assert (q = firstn (i - 1) n) as Eq. { rewrite <- E. cbn [Nat.sub]. rewrite Nat.sub_0_r. apply pfx_eq. exact Q1. }
           destruct parent as [r|].
           ++ destruct Hpar as (H1 & H2 & y & H3 & H4). rewrite Eq, <- H2. apply (Hparent r y eq_refl H3).
           ++ destruct Hpar as [Hpar|(H1 & H2 & H3)]; [lia|]. rewrite hset_other by exact Nq. rewrite Eq. exact H2.
        -- rewrite hset_other by exact Nq. apply Hf; [exact Q1|exact Q2|lia].
  - (* go on *)
    apply IH; [lia|lia| | |].
    + intros q Hq. assert (q <> p) as Nq by (intros ->; apply Hq; split; [exact Hp|lia]). rewrite hset_other by exact Nq. apply Hg. intros [Q1 Q2]. apply Hq. split; [exact Q1|lia].
    + intros q Q1 Q2 Q3. assert (q <> p) as Nq by (intros ->; lia).
      destruct (Nat.eq_dec (S (length q)) i) as [E|E].
      * assert (q = firstn (i - 1) n) as Eq. { rewrite <- E. cbn [Nat.sub]. rewrite Nat.sub_0_r. apply pfx_eq. exact Q1. }
        destruct parent as [r|].
        -- destruct Hpar as (H1 & H2 & y & H3 & H4). rewrite Eq, <- H2. apply (Hparent r y eq_refl H3).
        -- destruct Hpar as [Hpar|(H1 & H2 & H3)]; [lia|]. rewrite hset_other by exact Nq. rewrite Eq. exact H2.
      * rewrite hset_other by exact Nq. apply Hf; [exact Q1|exact Q2|lia].
    + split; [lia|]. split; [unfold p; f_equal; lia|]. exists x1. rewrite hset_same. auto.
  - destruct (gone _ _ _ _ x Hc Hi Hg Hf Hpar Ex Es) as (g2 & A1 & A2 & A3 & A4). fold p in A1, A4. cbv zeta in A1. cbv zeta. rewrite A1. cbn [bind].
    assert (m_min x =? FO = false) as ->.
    { apply Z.eqb_neq. intros E. pose proof (proj1 (bits_empty _ _ (g_b _ _ _ G)) E) as C. destruct (nth_error n i) as [b|] eqn:Eb; [|apply nth_error_None in Eb; lia].
      apply (C b). exists n. split; [exact Hn|]. apply pfx_snoc. rewrite Lp. auto. }
    apply IH; [lia|lia|exact A2| |].
    + intros q Q1 Q2 Q3. apply A3; [exact Q1|exact Q2|lia].
    + right. split; [lia|]. replace (S i - 1)%nat with i by lia. fold p. split; [apply A3; [exact Hp|rewrite Lp; lia|rewrite Lp; lia]|exact A4].
  - (* the node goes, last level *)
    destruct (gone _ _ _ _ x Hc Hi Hg Hf Hpar Ex Es) as (g2 & A1 & A2 & A3 & A4). fold p in A1. cbv zeta in A1. cbv zeta. rewrite A1. cbn [bind].
    exists g2. split; [destruct (m_min x =? FO); reflexivity|]. split.
    + intros q Hq. apply A2. intros [Q1 Q2]. apply Hq. split; [exact Q1|lia].
    + intros q Q1 Q2. apply A3; [exact Q1|exact Q2|]. pose proof (pfx_len _ _ Q1). lia.
Qed.

Lemma short_after p : pfx p n -> (length p < i0)%nat -> final p (h p).
Proof.
  intros Hp Lp. destruct (start_shared _ _ _ _ Hprev Hnext) as (H1 & H2 & H3). destruct Hprev as (P1 & P2 & P3).
  assert (exists m, next = Some m) as [m En]. { unfold start_of in Lp. destruct next as [m|]; [eauto|lia]. }
  pose proof Hnext as HS. rewrite En in HS. destruct HS as (S1 & S2 & S3). assert (i0 = lcp prev m) as Est by (rewrite En; reflexivity).
  rewrite Est in *. set (c := firstn (lcp prev m) prev) in *. assert (length c = lcp prev m) as Lc by (apply firstn_len; exact H3).
  assert (forall q, pfx q n -> (length q <= lcp prev m)%nat -> pfx q prev /\ pfx q m) as Hsh.
  { intros q Hq Lq. assert (pfx q c) as Hqc by (eapply pfx_two; [exact Hq|exact H1|lia]). split; (eapply pfx_trans; [exact Hqc|]); [apply pfx_firstn|apply lcp_pfx]. }
  destruct (Hsh p Hp ltac:(lia)) as [Pp Pm]. pose proof (Hh p) as G. destruct (h p) as [x|]; [|destruct (G prev P1 Pp)]. cbn [final].
  pose proof (g_l _ _ _ G prev P1 Pp) as L1. pose proof (g_r _ _ _ G m S1 Pm) as L2.
  assert (klt (m_lmost x) n) as Ll by (eapply kle_lt; eassumption). assert (klt n (m_rmost x)) as Lr by (eapply klt_le; eassumption).
  constructor.
  - apply Has. split; [apply G|apply klt_ne; exact Ll].
  - apply G.
  - intros a Ha Hpa. apply Has in Ha. apply G; tauto.
  - apply Has. split; [apply G|]. intros E. symmetry in E. revert E. apply klt_ne. exact Lr.
  - apply G.
  - intros a Ha Hpa. apply Has in Ha. apply G; tauto.
  - apply G.
  - intros N. destruct (g_ne _ _ _ G N) as (q & Q1 & Q2). exists q. split; [exact Q1|]. apply pred_less; [exact Q2|].
    intros ->. destruct Q2 as (_ & L & _). apply (klt_irrefl n). eapply klt_trans; eassumption.
  - eapply bits_ok_ext; [|apply (g_b _ _ _ G)]. intros b. split; intros (a & A1 & A2).
    + destruct (key_dec a n) as [->|Na]; [|exists a; rewrite Has; auto]. exists prev. split; [apply Has; split; [exact P1|apply klt_ne; exact P2]|].
      apply (Hsh _ A2). rewrite app_length. cbn [length]. lia.
    + apply Has in A1. exists a. tauto.
Qed.

(** other prefixes; [lp] is what is left in lpath *)
Lemma other_after p x lp : ~ pfx p n -> h p = Some x ->
  (m_lmost x = p -> lp = m_lpath x) -> (m_lmost x <> p -> exists q, lp = Some q /\ pred_of as' (m_lmost x) q) -> good as' p (lpath_store x lp).
Proof.
  intros Hp Ex H1 H2. pose proof (Hh p) as G. rewrite Ex in G. unfold lpath_store. constructor; cbn [m_lmost m_rmost m_lpath].
  - apply Has. split; [apply G|]. intros E. apply Hp. rewrite <- E. apply G.
  - apply G.
  - intros a Ha Hpa. apply Has in Ha. apply G; tauto.
  - apply Has. split; [apply G|]. intros E. apply Hp. rewrite <- E. apply G.
  - apply G.
  - intros a Ha Hpa. apply Has in Ha. apply G; tauto.
  - intros E. rewrite H1 by exact E. apply G. exact E.
  - exact H2.
  - eapply bits_ok_ext; [|eapply bits_ok_same; [| | |apply (g_b _ _ _ G)]; reflexivity]. intros b. split; intros (a & A1 & A2).
    + exists a. split; [|exact A2]. apply Has. split; [exact A1|]. intros ->. apply Hp. apply pfx_snoc in A2. tauto.
    + apply Has in A1. exists a. tauto.
Qed.
Lemma lpath_same x : lpath_store x (m_lpath x) = x.
Proof. destruct x. reflexivity. Qed.

Theorem meta_merge_ok : (forall a, In a as_ -> (length a <= PBUF)%nat) ->
  exists h', meta_merge h prev n next = Ok h' /\ hinv h' as'.
Proof.
  intros Hlen. unfold meta_merge. cbv zeta. change (match next with Some n0 => lcp prev n0 | None => 0%nat end) with i0. destruct (Nat.ltb_spec PBUF (length n)) as [C|_]; [specialize (Hlen n Hn); lia|].
  destruct (start_shared _ _ _ _ Hprev Hnext) as (H1 & H2 & H3).
  destruct (merge_loop_ok (length n - i0) i0 h None) as (h1 & L1 & L2 & L3); [lia|lia|reflexivity|intros; lia|left; reflexivity|].
  rewrite L1. cbn [bind].
  assert (forall q, pfx q n -> final q (h1 q)) as Hpn.
  { intros q Hq. destruct (Nat.le_gt_cases i0 (length q)) as [L|L]; [apply L3; assumption|]. rewrite L2 by (intros [_ ?]; lia). apply short_after; assumption. }
  assert (forall q, ~ pfx q n -> h1 q = h q) as Hoth by (intros q Hq; apply L2; tauto).
  (* the leaf before, when it is not the removed one *)
  assert (forall p x q, h p = Some x -> m_lmost x <> p -> m_lpath x = Some q -> pred_of as_ (m_lmost x) q -> ~ pfx p n -> q = n -> next = Some (m_lmost x)) as Hqn.
  { intros p x q Ex Nl El (P1 & P2 & P3) Hp ->. pose proof (Hh p) as G. rewrite Ex in G. pose proof Hnext as HS.
    destruct next as [m|]; [|destruct (HS _ (g_lin _ _ _ G) P2)]. destruct HS as (S1 & S2 & S3). f_equal. apply kle_anti; [apply S3; [apply G|exact P2]|].
    destruct (klt_or m (m_lmost x)) as [L|L]; [|exact L]. pose proof (P3 m S1 L) as C. apply kle_not in C. contradiction. }
  assert ((exists m, next = Some m) \/ next = None) as [[m En]|En] by (destruct next; eauto).
  - pose proof Hnext as HS. rewrite En in HS. destruct HS as (S1 & S2 & S3). rewrite En.
    assert (forall q, pfx q m -> (lcp n m < length q)%nat -> ~ pfx q n) as Hnp.
    { intros q Q1 Q2 Q3. pose proof (pfx_lcp q n m Q3 Q1). lia. }
    destruct (lpath_update_ok h1 n m prev) as (h2 & U1 & U2 & U3); [apply Hlen; exact S1| |].
    { intros q Q1 Q2. rewrite Hoth by (apply Hnp; assumption). apply (hinv_some h as_); [exact Hh|]. exists m. auto. }
    rewrite U1. exists h2. split; [reflexivity|]. intros p. destruct (pfx_dec p n) as [Hp|Hp].
    + rewrite U3 by (intros [Q1 Q2]; apply (Hnp p Q1); [lia|exact Hp]). apply (Hpn p Hp).
    + pose proof (Hh p) as G. destruct (h p) as [x|] eqn:Ex.
      * destruct (pfx_dec p m) as [Q|Q].
        -- assert (lcp n m < length p)%nat as Hlc.
           { destruct (Nat.lt_ge_cases (lcp n m) (length p)) as [L|L]; [exact L|]. exfalso. apply Hp.
             rewrite lcp_sym in L. rewrite (pfx_eq p m Q). apply lcp_firstn; [pose proof (pfx_len _ _ Q); lia|exact L]. }
           assert (m_lmost x = m) as Hlm.
           { apply kle_anti; [apply G; assumption|]. apply S3; [apply G|]. destruct (klt_total n (m_lmost x)) as [L|[L|L]]; [exact L| |].
             - exfalso. apply Hp. rewrite L. apply G.
             - exfalso. apply Hp. eapply pfx_mid; [apply (g_lp _ _ _ G)|exact Q|apply klt_kle; exact L|apply klt_kle; exact S2]. }
           destruct (key_dec p m) as [E|E].
           ++ rewrite U3 by (intros [_ ?]; subst; lia). rewrite Hoth by exact Hp. rewrite Ex. rewrite <- (lpath_same x). apply other_after; [exact Hp|exact Ex|reflexivity|]. congruence.
           ++ assert (length p < length m)%nat as Lm.
              { pose proof (pfx_len _ _ Q). destruct (Nat.eq_dec (length p) (length m)) as [E'|]; [|lia]. exfalso. apply E. apply pfx_anti; [exact Q|lia]. }
              rewrite (U2 p x Q); [|split; [exact Hlc|exact Lm]|rewrite Hoth by exact Hp; exact Ex]. apply other_after; [exact Hp|exact Ex|congruence|].
              intros _. exists prev. split; [reflexivity|]. rewrite Hlm. apply pred_after. exact En.
        -- rewrite U3 by tauto. rewrite Hoth by exact Hp. rewrite Ex. rewrite <- (lpath_same x). apply other_after; [exact Hp|exact Ex|reflexivity|].
           intros N. destruct (g_ne _ _ _ G N) as (q & Q1 & Q2). exists q. split; [exact Q1|]. apply pred_less; [exact Q2|]. intros E.
           pose proof (Hqn p x q Ex N Q1 Q2 Hp E) as C. rewrite En in C. injection C as C. apply Q. rewrite C. apply G.
      * assert (~ pfx p m) as Q by (apply G; exact S1). rewrite U3 by tauto. rewrite Hoth by exact Hp. rewrite Ex.
        intros a Ha. apply Has in Ha. apply G. tauto.
  - rewrite En. exists h1. split; [reflexivity|]. intros p. destruct (pfx_dec p n) as [Hp|Hp]; [apply (Hpn p Hp)|].
    rewrite Hoth by exact Hp. pose proof (Hh p) as G. destruct (h p) as [x|] eqn:Ex.
    + rewrite <- (lpath_same x). apply other_after; [exact Hp|exact Ex|reflexivity|]. intros N. destruct (g_ne _ _ _ G N) as (q & Q1 & Q2). exists q. split; [exact Q1|].
      apply pred_less; [exact Q2|]. intros E. pose proof (Hqn p x q Ex N Q1 Q2 Hp E) as C. rewrite En in C. discriminate.
    + intros a Ha. apply Has in Ha. apply G. tauto.
Qed.
End Merge.
