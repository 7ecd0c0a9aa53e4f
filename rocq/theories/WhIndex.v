(** The whole index: every operation keeps the invariant, puts and deletes change
    exactly one binding, and the iterators walk the bindings in key order. *)
From Coq Require Import ZArith List Bool Lia Arith Sorted Permutation.
From Verif Require Import Base Key KeyOrder Wormhole WhKey WhBits WhMeta WhLeaf.
Import ListNotations.
Open Scope Z_scope.

Lemma ss_cons {A} (R : A -> A -> Prop) x l : StronglySorted R (x :: l) <-> (forall y, In y l -> R x y) /\ StronglySorted R l.
Proof.
  split; [intros H; inversion H as [|? ? H1 H2]; subst; rewrite Forall_forall in H2; auto|]. intros [H1 H2]. constructor; [exact H2|]. apply Forall_forall. exact H1.
Qed.
Lemma ss_app {A} (R : A -> A -> Prop) a b : StronglySorted R (a ++ b) <-> StronglySorted R a /\ StronglySorted R b /\ forall x y, In x a -> In y b -> R x y.
Proof.
  induction a as [|x a IH]; cbn [app].
  - split; [intros H; split; [constructor|split; [exact H|intros ? ? []]]|tauto].
  - rewrite !ss_cons, IH. split.
    + intros (H1 & H2 & H3 & H4). split; [split; [intros y Hy; apply H1; apply in_or_app; auto|exact H2]|]. split; [exact H3|].
      intros y z [<-|Hy] Hz; [apply H1; apply in_or_app; auto|auto].
    + intros ((H1 & H2) & H3 & H4). split.
      * intros y Hy. apply in_app_or in Hy. destruct Hy; [auto|]. apply H4; [left; reflexivity|assumption].
      * split; [exact H2|]. split; [exact H3|]. intros y z Hy Hz. apply H4; [right; exact Hy|exact Hz].
Qed.

Section Index.
Context {V : Type}.
Implicit Types (w : wormhole V) (l m : leaf V) (A B : list (leaf V)).

Definition lrel l m : Prop := klt (l_anchor l) (l_anchor m) /\ forall x, In x (l_kvs l) -> klt (fst x) (l_anchor m).
Definition key_ok (k : key) : Prop := bytes k /\ (length k <= PBUF)%nat.
Definition lown l : Prop := leaf_ok l /\ forall x, In x (l_kvs l) -> kle (l_anchor l) (fst x) /\ key_ok (fst x).
Definition anchors (ls : list (leaf V)) : list key := map l_anchor ls.
Record winv w : Prop := mkwinv {
  wi_chain : StronglySorted lrel (w_leaves w);
  wi_own : forall l, In l (w_leaves w) -> lown l;
  wi_h : hinv (w_hmap w) (anchors (w_leaves w));
  wi_a : anchors_ok (anchors (w_leaves w)) (w_maxplen w);
  wi_len : forall a, In a (anchors (w_leaves w)) -> (length a <= PBUF)%nat }.
Definition holds w (x : key * V) : Prop := exists l, In l (w_leaves w) /\ In x (l_kvs l).

Lemma chain_split B l A : StronglySorted lrel (B ++ l :: A) ->
  StronglySorted lrel B /\ StronglySorted lrel A /\ (forall b, In b B -> lrel b l) /\ (forall a, In a A -> lrel l a) /\ (forall b a, In b B -> In a A -> lrel b a).
Proof.
  intros H. apply ss_app in H. destruct H as (H1 & H2 & H3). apply ss_cons in H2. destruct H2 as [H2 H4].
  split; [exact H1|]. split; [exact H4|]. split; [intros b Hb; apply H3; [exact Hb|left; reflexivity]|]. split; [exact H2|].
  intros b a Hb Ha. apply H3; [exact Hb|right; exact Ha].
Qed.
Lemma chain_join B l A : StronglySorted lrel B -> StronglySorted lrel A -> (forall b, In b B -> lrel b l) -> (forall a, In a A -> lrel l a) ->
  (forall b a, In b B -> In a A -> lrel b a) -> StronglySorted lrel (B ++ l :: A).
Proof.
  intros H1 H2 H3 H4 H5. apply ss_app. split; [exact H1|]. split; [apply ss_cons; auto|]. intros b a Hb [<-|Ha]; auto.
Qed.
Lemma lrel_anchor b l l' : l_anchor l' = l_anchor l -> lrel b l -> lrel b l'.
Proof. unfold lrel. intros ->. auto. Qed.

Lemma locate_hit B l A : StronglySorted lrel (B ++ l :: A) -> locate (B ++ l :: A) (l_anchor l) = Some (B, l, A).
Proof.
  induction B as [|b B IH]; intros H; cbn [app locate].
  - rewrite key_eq_refl. reflexivity.
  - cbn [app] in H. apply ss_cons in H. destruct H as [H1 H2]. rewrite key_eq_dec. destruct (key_dec (l_anchor b) (l_anchor l)) as [E|_].
    + exfalso. destruct (H1 l) as [C _]; [apply in_or_app; right; left; reflexivity|]. exact (klt_ne _ _ C E).
    + rewrite IH by exact H2. reflexivity.
Qed.

(** the keys held are distinct *)
Lemma holds_unique w x y : winv w -> holds w x -> holds w y -> fst x = fst y -> x = y.
Proof.
  intros H (l & Hl & Hx) (m & Hm & Hy) E. apply in_split in Hl. destruct Hl as (B & A & El). pose proof (wi_chain _ H) as C. rewrite El in C.
  destruct (chain_split _ _ _ C) as (_ & _ & C1 & C2 & _). rewrite El in Hm. apply in_app_or in Hm. destruct Hm as [Hm|[<-|Hm]].
  - exfalso. destruct (C1 m Hm) as [_ K]. specialize (K y Hy). rewrite <- E in K. apply klt_not in K. apply K.
    apply (wi_own _ H l); [rewrite El; apply in_or_app; right; left; reflexivity|exact Hx].
  - apply (distinct_eq (l_kvs l)); [|exact Hx|exact Hy|exact E]. apply (wi_own _ H l). rewrite El. apply in_or_app. right. left. reflexivity.
  - exfalso. destruct (C2 m Hm) as [_ K]. specialize (K x Hx). rewrite E in K. apply klt_not in K. apply K.
    apply (wi_own _ H m); [rewrite El; apply in_or_app; right; right; exact Hm|exact Hy].
Qed.

Lemma create_inv : winv (wh_create (V := V)).
Proof.
  assert (l_anchor (mkleaf (V := V) [] [] 0) = []) as Ea by reflexivity.
  constructor; cbn [wh_create w_leaves w_hmap w_maxplen anchors map].
  - constructor; constructor.
  - intros l [<-|[]]. split; [|intros x []]. constructor; cbn [l_kvs l_sorted]; [constructor|lia|constructor|unfold KPN; cbn; lia].
  - intros p. rewrite Ea. unfold hset. rewrite key_eq_dec. destruct (key_dec p []) as [->|N].
    + constructor; cbn [meta_init m_lmost m_rmost m_lpath]; try (left; reflexivity); try apply pfx_refl.
      * intros a [<-|[]] _. apply kle_refl.
      * intros a [<-|[]] _. apply kle_refl.
      * intros _. reflexivity.
      * intros C. congruence.
      * apply (bits_ok_ext _ (fun _ => False)); [|apply bits_none; auto].
        intros b. split; [intros []|]. intros (a & [<-|[]] & P). apply pfx_nil_r in P. discriminate.
    + intros a [<-|[]] P. apply N. apply pfx_nil_r. exact P.
  - rewrite Ea. split; [left; reflexivity|]. split; intros a [<-|[]]; [cbn; lia|constructor].
  - rewrite Ea. intros a [<-|[]]. cbn [length]. lia.
Qed.

(** ** one leaf replaced by one with the same anchor *)
Lemma upd_inv h mp B l l' A : winv (mkwh (B ++ l :: A) h mp) -> lown l' -> l_anchor l' = l_anchor l ->
  (forall a x, In a A -> In x (l_kvs l') -> klt (fst x) (l_anchor a)) -> winv (mkwh (B ++ l' :: A) h mp).
Proof.
  intros [C O H Ha Hl] Ho E Hk. cbn [w_leaves w_hmap w_maxplen] in *. destruct (chain_split _ _ _ C) as (C1 & C2 & C3 & C4 & C5).
  assert (anchors (B ++ l' :: A) = anchors (B ++ l :: A)) as Ean by (unfold anchors; rewrite !map_app; cbn [map]; rewrite E; reflexivity).
  constructor; cbn [w_leaves w_hmap w_maxplen].
  - apply chain_join; [exact C1|exact C2| | |exact C5].
    + intros b Hb. eapply lrel_anchor; [exact E|]. apply C3. exact Hb.
    + intros a Hin. split; [rewrite E; apply C4; exact Hin|]. intros x Hx. apply Hk; assumption.
  - intros m Hm. apply in_app_or in Hm. destruct Hm as [Hm|[<-|Hm]]; [|exact Ho|]; apply O; apply in_or_app; [left|right; right]; exact Hm.
  - rewrite Ean. exact H.
  - rewrite Ean. exact Ha.
  - rewrite Ean. exact Hl.
Qed.
Lemma holds_at h mp B l A x : holds (mkwh (B ++ l :: A) h mp) x <-> (exists m, In m (B ++ A) /\ In x (l_kvs m)) \/ In x (l_kvs l).
Proof.
  unfold holds. cbn [w_leaves]. split.
  - intros (m & Hm & Hx). apply in_app_or in Hm. destruct Hm as [Hm|[<-|Hm]]; [left|right; exact Hx|left]; exists m; (split; [apply in_or_app; auto|exact Hx]).
  - intros [(m & Hm & Hx)|Hx]; [|exists l; split; [apply in_or_app; right; left; reflexivity|exact Hx]].
    exists m. split; [|exact Hx]. apply in_app_or in Hm. apply in_or_app. destruct Hm; [left|right; right]; assumption.
Qed.

(** positions of iterators *)
Definition pos w (it : wh_iter) (x : key * V) : Prop :=
  exists l i, In l (w_leaves w) /\ full_sorted l /\ it = Some (l_anchor l, Z.of_nat i) /\ nth_error (l_kvs l) i = Some x.
(** a key that is not in the unsorted part of its leaf *)
Definition settled w (k : key) : Prop := forall l i v, In l (w_leaves w) -> nth_error (l_kvs l) i = Some (k, v) -> (i < l_sorted l)%nat.
Definition same w w' : Prop := winv w' /\ (forall x, holds w' x <-> holds w x) /\ (forall it x, pos w it x -> pos w' it x) /\ length (w_leaves w') = length (w_leaves w)
  /\ (forall k, settled w k -> settled w' k).
Lemma same_refl w : winv w -> same w w.
Proof. intros H. split; [exact H|]. split; [tauto|]. split; [auto|]. split; [reflexivity|auto]. Qed.
Lemma same_trans w1 w2 w3 : same w1 w2 -> same w2 w3 -> same w1 w3.
Proof.
  intros (A1 & A2 & A3 & A4 & A5) (B1 & B2 & B3 & B4 & B5). split; [exact B1|]. split; [intros x; rewrite B2; apply A2|]. split; [auto|]. split; [congruence|auto].
Qed.

Lemma sync_own l : lown l -> lown (sync_sorted l).
Proof.
  intros [H1 H2]. destruct (sync_ok l H1) as (S1 & _ & S3 & S4). split; [exact S1|]. intros x Hx. rewrite S4. apply H2.
  apply (Permutation_in _ (Permutation_sym S3)). exact Hx.
Qed.
Lemma sync_full l : full_sorted l -> sync_sorted l = l.
Proof. intros H. unfold sync_sorted. rewrite H, Nat.eqb_refl. reflexivity. Qed.
Lemma sync_same h mp B l A : winv (mkwh (B ++ l :: A) h mp) -> same (mkwh (B ++ l :: A) h mp) (mkwh (B ++ sync_sorted l :: A) h mp).
Proof.
  intros H. assert (lown l) as Ho by (apply (wi_own _ H); apply in_or_app; right; left; reflexivity).
  destruct (sync_ok l (proj1 Ho)) as (S1 & S2 & S3 & S4). pose proof (wi_chain _ H) as C. cbn [w_leaves] in C.
  destruct (chain_split _ _ _ C) as (_ & _ & _ & C4 & _). split; [|split; [|split; [|split]]].
  - eapply upd_inv; [exact H|apply sync_own; exact Ho|exact S4|]. intros a x Ha Hx. apply (C4 a Ha). apply (Permutation_in _ (Permutation_sym S3)). exact Hx.
  - intros x. rewrite !holds_at. split; (intros [?|Hx]; [auto|right]); [apply (Permutation_in _ (Permutation_sym S3))|apply (Permutation_in _ S3)]; exact Hx.
  - intros it x (m & i & Hm & F & P). exists m, i. split; [|split; [exact F|exact P]]. cbn [w_leaves] in *. apply in_app_or in Hm. apply in_or_app.
    destruct Hm as [Hm|[<-|Hm]]; [auto| |right; right; exact Hm]. right. left. apply sync_full. exact F.
  - cbn [w_leaves]. rewrite !app_length. reflexivity.
  - intros k Hs m i v Hm Hi. cbn [w_leaves] in *. apply in_app_or in Hm. destruct Hm as [Hm|[<-|Hm]].
    + apply (Hs m i v); [apply in_or_app; auto|exact Hi].
    + rewrite S2. apply nth_error_Some. congruence.
    + apply (Hs m i v); [apply in_or_app; right; right; exact Hm|exact Hi].
Qed.

(** ** the leaf of a key *)
Lemma find_leaf w fp k : winv w -> bytes k -> exists B l A, w_leaves w = B ++ l :: A /\ jump (w_hmap w) fp (w_maxplen w) k = Ok (l_anchor l)
  /\ locate (w_leaves w) (l_anchor l) = Some (B, l, A) /\ kle (l_anchor l) k /\ (forall a, In a A -> klt k (l_anchor a))
  /\ (forall b x, In b B -> In x (l_kvs b) -> klt (fst x) k) /\ (forall a x, In a A -> In x (l_kvs a) -> klt k (fst x)).
Proof.
  intros H Hk. destruct (jump_ok (w_hmap w) (anchors (w_leaves w)) (w_maxplen w) k fp (wi_h _ H) (wi_a _ H) Hk) as (a & J & L1 & L2 & L3).
  apply in_map_iff in L1. destruct L1 as (l & <- & Hl). apply in_split in Hl. destruct Hl as (B & A & El). pose proof (wi_chain _ H) as C. rewrite El in C.
  destruct (chain_split _ _ _ C) as (_ & _ & C3 & C4 & _). exists B, l, A. split; [exact El|]. split; [exact J|]. split; [rewrite El; apply locate_hit; exact C|].
  split; [exact L2|]. assert (forall a, In a A -> klt k (l_anchor a)) as HA.
  { intros a Ha. destruct (klt_or k (l_anchor a)) as [G|G]; [exact G|]. exfalso. destruct (C4 a Ha) as [C6 _]. apply klt_not in C6. apply C6.
    apply L3; [|exact G]. rewrite El. apply in_map. apply in_or_app. right. right. exact Ha. }
  split; [exact HA|]. split.
  - intros b x Hb Hx. eapply klt_le; [apply (C3 b Hb); exact Hx|exact L2].
  - intros a x Ha Hx. eapply klt_le; [apply HA; exact Ha|]. apply (wi_own _ H a); [rewrite El; apply in_or_app; right; right; exact Ha|exact Hx].
Qed.

(** ** one leaf replaced by two *)
Lemma split_inv h mp B l A l1 l2 k1 k2 k v : winv (mkwh (B ++ l :: A) h mp) -> key_ok k -> kle (l_anchor l) k -> (forall a, In a A -> klt k (l_anchor a)) ->
  (forall m x, In m (B ++ A) -> In x (l_kvs m) -> fst x <> k) -> (forall x, In x (l_kvs l) -> fst x <> k) ->
  leaf_ok l1 -> leaf_ok l2 -> l_anchor l1 = l_anchor l ->
  (forall x, In x (l_kvs l1) \/ In x (l_kvs l2) <-> x = (k, v) \/ In x (l_kvs l)) -> In k1 (l_kvs l1) -> In k2 (l_kvs l2) ->
  (forall x, In x (l_kvs l1) -> kle (fst x) (fst k1)) -> (forall x, In x (l_kvs l2) -> kle (fst k2) (fst x)) ->
  klt (fst k1) (l_anchor l2) -> pfx (l_anchor l2) (fst k2) ->
  exists h' mp', meta_split h mp (l_anchor l1) (l_anchor l2) (next_anchor A) = Ok (h', mp') /\ winv (mkwh (B ++ l1 :: l2 :: A) h' mp')
  /\ forall x, holds (mkwh (B ++ l1 :: l2 :: A) h' mp') x <-> x = (k, v) \/ holds (mkwh (B ++ l :: A) h mp) x /\ fst x <> k.
Proof.
      intros H [Hk Hkl] L1 L2 Hoth Nk S2 S3 S4 S5 S6 S7 S8 S9 S10 S11.
      pose proof (wi_own _ H l ltac:(apply in_or_app; right; left; reflexivity)) as Ho. destruct Ho as [Ho1 Ho2].
      pose proof (wi_chain _ H) as C. cbn [w_leaves] in C. destruct (chain_split _ _ _ C) as (C1 & C2 & C3 & C4 & C5).
      assert (forall x, In x (l_kvs l1) \/ In x (l_kvs l2) -> kle (l_anchor l) (fst x) /\ key_ok (fst x) /\ forall a, In a A -> klt (fst x) (l_anchor a)) as Hnew.
      { intros x Hx. apply S5 in Hx. destruct Hx as [->|Hx]; [cbn [fst]; split; [exact L1|split; [split; assumption|exact L2]]|].
        split; [apply (Ho2 x Hx)|]. split; [apply (Ho2 x Hx)|]. intros a Ha. apply (C4 a Ha). exact Hx. }
      destruct (Hnew k1 (or_introl S6)) as (K11 & K12 & K13). destruct (Hnew k2 (or_intror S7)) as (K21 & K22 & K23).
      set (n := l_anchor l2) in *.
      assert (klt (l_anchor l) n) as Ln by (eapply kle_lt; [exact K11|exact S10]).
      assert (forall a, In a A -> klt n (l_anchor a)) as Hna by (intros a Ha; eapply kle_lt; [apply pfx_kle; exact S11|apply K23; exact Ha]).
      assert (forall a, In a (anchors (B ++ l :: A)) -> kle a (l_anchor l) \/ klt n a) as Hside.
      { intros a Ha. unfold anchors in Ha. apply in_map_iff in Ha. destruct Ha as (m & <- & Hm). apply in_app_or in Hm. destruct Hm as [Hm|[<-|Hm]].
        - left. apply klt_kle. apply (C3 m Hm).
        - left. apply kle_refl.
        - right. apply Hna. exact Hm. }
      destruct (meta_split_ok h (anchors (B ++ l :: A)) (anchors (B ++ l1 :: l2 :: A)) n (l_anchor l1) (next_anchor A)) with (maxplen := mp) as (h' & M1 & M2).
      * apply (wi_h _ H).
      * intros G. apply Hside in G. destruct G as [G|G]; [apply kle_not in G; contradiction|exact (klt_irrefl _ G)].
      * split; [unfold anchors; rewrite S4; apply in_map; apply in_or_app; right; left; reflexivity|]. rewrite S4. split; [exact Ln|].
        intros b Hb Lb. destruct (Hside b Hb) as [G|G]; [exact G|]. exfalso. apply (klt_irrefl n). eapply klt_trans; eassumption.
      * unfold succ_of, next_anchor. destruct A as [|a A'].
        -- intros b Hb Lb.
           unfold anchors in *. clear - Hb C3 Ln Lb. apply in_map_iff in Hb. destruct Hb as (m & <- & Hm). apply in_app_or in Hm. destruct Hm as [Hm|[<-|[]]].
           ++ apply (klt_irrefl n). eapply klt_trans; [exact Lb|]. eapply klt_trans; [apply (C3 m Hm)|exact Ln].
           ++ apply (klt_irrefl n). eapply klt_trans; eassumption.
        -- split; [unfold anchors; apply in_map; apply in_or_app; right; right; left; reflexivity|]. split; [apply Hna; left; reflexivity|].
           intros b Hb Lb. unfold anchors in Hb. apply in_map_iff in Hb. destruct Hb as (m & <- & Hm). apply in_app_or in Hm. destruct Hm as [Hm|[<-|[<-|Hm]]].
           ++ exfalso. apply (klt_irrefl n). eapply klt_trans; [exact Lb|]. eapply klt_trans; [apply (C3 m Hm)|exact Ln].
           ++ exfalso. apply (klt_irrefl n). eapply klt_trans; eassumption.
           ++ apply kle_refl.
           ++ apply ss_cons in C2. apply klt_kle. apply (proj1 C2 m Hm).
      * intros a. unfold anchors. rewrite !map_app. cbn [map]. rewrite S4. rewrite !in_app_iff. cbn [In]. fold n. split; [intros [?|[?|[?|?]]]|intros [[?|[?|?]]|?]]; auto.
      * eapply bytes_pfx; [exact S11|apply K22].
      * apply (wi_len _ H).
      * eexists _, _. split; [exact M1|]. split.
        -- constructor; cbn [w_leaves w_hmap w_maxplen].
           ++ apply chain_join; [exact C1| | | |].
              ** apply ss_cons. split; [|exact C2]. intros a Ha. split; [apply Hna; exact Ha|]. intros x Hx. apply Hnew; auto.
              ** intros b Hb. eapply lrel_anchor; [exact S4|]. apply C3. exact Hb.
              ** intros a [<-|Ha].
                 --- split; [rewrite S4; exact Ln|]. intros x Hx. eapply kle_lt; [apply S8; exact Hx|exact S10].
                 --- split; [rewrite S4; apply C4; exact Ha|]. intros x Hx. apply Hnew; auto.
              ** intros b a Hb [<-|Ha]; [|apply C5; assumption]. split; [eapply klt_trans; [apply (C3 b Hb)|exact Ln]|].
                 intros x Hx. eapply klt_trans; [apply (C3 b Hb); exact Hx|exact Ln].
           ++ intros m Hm. apply in_app_or in Hm. destruct Hm as [Hm|[<-|[<-|Hm]]].
              ** apply (wi_own _ H). apply in_or_app. auto.
              ** split; [exact S2|]. intros x Hx. rewrite S4. destruct (Hnew x (or_introl Hx)) as (G1 & G2 & _). auto.
              ** split; [exact S3|]. intros x Hx. destruct (Hnew x (or_intror Hx)) as (_ & G2 & _). split; [|exact G2].
                 eapply kle_trans; [apply pfx_kle; exact S11|apply S9; exact Hx].
              ** apply (wi_own _ H). apply in_or_app. right. right. exact Hm.
           ++ exact M2.
           ++ destruct (wi_a _ H) as (W1 & W2 & W3). cbn [w_leaves w_maxplen] in *.
              assert (forall a, In a (anchors (B ++ l1 :: l2 :: A)) <-> In a (anchors (B ++ l :: A)) \/ a = n) as Hin.
              { intros a. unfold anchors. rewrite !map_app. cbn [map]. rewrite S4. rewrite !in_app_iff. cbn [In]. fold n. split; [intros [?|[?|[?|?]]]|intros [[?|[?|?]]|?]]; auto. }
              split; [apply Hin; auto|]. split; intros a Ha; apply Hin in Ha; destruct Ha as [Ha| ->].
              ** specialize (W2 a Ha). lia.
              ** lia.
              ** apply W3. exact Ha.
              ** eapply bytes_pfx; [exact S11|apply K22].
           ++ intros a Ha. unfold anchors in Ha. rewrite map_app in Ha. cbn [map] in Ha. rewrite S4 in Ha. apply in_app_or in Ha.
              assert (In a (anchors (B ++ l :: A)) \/ a = n) as [G| ->].
              { unfold anchors. rewrite map_app. cbn [map]. rewrite in_app_iff. cbn [In]. fold n in Ha. destruct Ha as [?|[?|[?|?]]]; auto. }
              ** apply (wi_len _ H). exact G.
              ** apply pfx_len in S11. destruct K22 as [_ K22]. fold n in S11. lia.
        -- intros x. change (B ++ l1 :: l2 :: A) with (B ++ l1 :: (l2 :: A)). rewrite holds_at, holds_at. split.
           ++ intros [(m & Hm & Hx)|Hx].
              ** apply in_app_or in Hm. destruct Hm as [Hm|[<-|Hm]].
                 --- right. split; [left; exists m; split; [apply in_or_app; auto|exact Hx]|]. apply (Hoth m x); [apply in_or_app; auto|exact Hx].
                 --- pose proof (proj1 (S5 x) (or_intror Hx)) as [->|Hx']; [auto|]. right. split; [auto|apply Nk; exact Hx'].
                 --- right. split; [left; exists m; split; [apply in_or_app; auto|exact Hx]|]. apply (Hoth m x); [apply in_or_app; auto|exact Hx].
              ** pose proof (proj1 (S5 x) (or_introl Hx)) as [->|Hx']; [auto|]. right. split; [auto|apply Nk; exact Hx'].
           ++ intros Hx. assert ((exists m, In m (B ++ A) /\ In x (l_kvs m)) \/ x = (k, v) \/ In x (l_kvs l)) as [(m & Hm & Hx')|Hx'] by tauto.
              ** left. exists m. split; [|exact Hx']. apply in_app_or in Hm. apply in_or_app. destruct Hm; [auto|right; right; assumption].
              ** apply S5 in Hx'. destruct Hx' as [Hx'|Hx']; [auto|]. left. exists l2. split; [apply in_or_app; right; left; reflexivity|exact Hx'].
Qed.

(** ** put *)
Theorem put_ok w fp k v : winv w -> key_ok k -> exists w', wh_put fp w k v = Ok (w', true) /\ winv w'
  /\ forall x, holds w' x <-> x = (k, v) \/ holds w x /\ fst x <> k.
Proof.
  intros H [Hk Hkl]. destruct (find_leaf w fp k H Hk) as (B & l & A & El & J & Lo & L1 & L2 & L3 & L4). unfold wh_put. rewrite J. cbn [bind]. rewrite Lo.
  destruct w as [ls h mp]. cbn [w_leaves w_hmap w_maxplen] in *. subst ls.
  pose proof (wi_own _ H l ltac:(apply in_or_app; right; left; reflexivity)) as Ho. destruct Ho as [Ho1 Ho2].
  pose proof (wi_chain _ H) as C. cbn [w_leaves] in C. destruct (chain_split _ _ _ C) as (C1 & C2 & C3 & C4 & C5).
  assert (forall m x, In m (B ++ A) -> In x (l_kvs m) -> fst x <> k) as Hoth.
  { intros m x Hm Hx E. apply in_app_or in Hm. destruct Hm as [Hm|Hm]; [specialize (L3 m x Hm Hx)|specialize (L4 m x Hm Hx)]; rewrite E in *; eapply klt_irrefl; eassumption. }
  destruct (find_pos (l_kvs l) k) as [i|] eqn:E.
  - destruct (find_pos_some _ _ _ E) as [v0 Ev]. destruct (update_ok l i k v v0 Ho1 Ev) as (U1 & U2 & U3 & _ & U5).
    eexists. split; [reflexivity|]. split.
    + eapply upd_inv; [exact H| |exact U2|].
      * split; [exact U1|]. intros x Hx. rewrite U2. apply U5 in Hx. destruct Hx as [->|[Hx _]]; [cbn [fst]; repeat split; assumption|apply Ho2; exact Hx].
      * intros a x Ha Hx. apply U5 in Hx. destruct Hx as [->|[Hx _]]; [apply L2; exact Ha|apply (C4 a Ha); exact Hx].
    + intros x. rewrite !holds_at, U5. split; [intros [(m & Hm & Hx)|[->|[Hx N]]]|intros [->|[[(m & Hm & Hx)|Hx] N]]]; eauto 6.
      right. split; [left; eauto|]. eapply Hoth; eauto.
  - pose proof (find_pos_none _ _ E) as Nk. destruct (Nat.ltb_spec (length (l_kvs l)) KPN) as [Lt|Ge].
    + destruct (insert_ok l k v Ho1 Lt Nk) as (U1 & U2 & U5). eexists. split; [reflexivity|]. split.
      * eapply upd_inv; [exact H| |exact U2|].
        -- split; [exact U1|]. intros x Hx. rewrite U2. apply U5 in Hx. destruct Hx as [->|Hx]; [cbn [fst]; repeat split; assumption|apply Ho2; exact Hx].
        -- intros a x Ha Hx. apply U5 in Hx. destruct Hx as [->|Hx]; [apply L2; exact Ha|apply (C4 a Ha); exact Hx].
      * intros x. rewrite !holds_at, U5. split; [intros [(m & Hm & Hx)|[->|Hx]]|intros [->|[[(m & Hm & Hx)|Hx] N]]]; eauto 6.
        right. split; [left; eauto|]. eapply Hoth; eauto.
    + assert (length (l_kvs l) <= KPN)%nat as Cap by apply (lo_cap _ Ho1).
      destruct (split_leaf_ok l (match A with [] => false | _ => true end) k v Ho1) as (l1 & l2 & k1 & k2 & S1 & S2 & S3 & S4 & S5 & S6 & S7 & S8 & S9 & S10 & S11);
        [unfold KPN in Ge; lia|exact Cap|exact Nk|intros x Hx; apply (Ho2 x Hx)|exact Hkl|].
      rewrite S1. cbn [bind].
      destruct (split_inv h mp B l A l1 l2 k1 k2 k v) as (h' & mp' & M1 & M2 & M3); try assumption; [split; assumption|].
      rewrite M1. cbn [bind]. eexists. split; [reflexivity|]. split; assumption.
Qed.

(** ** two leaves replaced by one *)
Lemma merge_inv h mp B l' y A lm : winv (mkwh (B ++ l' :: y :: A) h mp) -> leaf_ok lm -> l_anchor lm = l_anchor l' ->
  (forall x, In x (l_kvs lm) <-> In x (l_kvs l') \/ In x (l_kvs y)) ->
  exists h', meta_merge h (l_anchor l') (l_anchor y) (next_anchor A) = Ok h' /\ winv (mkwh (B ++ lm :: A) h' mp)
  /\ forall x, holds (mkwh (B ++ lm :: A) h' mp) x <-> holds (mkwh (B ++ l' :: y :: A) h mp) x.
Proof.
    intros H' G1 G2 G3. pose proof (wi_own _ H' l' ltac:(cbn [w_leaves]; apply in_or_app; right; left; reflexivity)) as Ho'.
    pose proof (wi_chain _ H') as D. cbn [w_leaves] in D. destruct (chain_split _ _ _ D) as (D1 & D2 & D3 & D4 & D5).
    pose proof (wi_own _ H' y ltac:(cbn [w_leaves]; apply in_or_app; right; right; left; reflexivity)) as Oy.
    apply ss_cons in D2. destruct D2 as [D2 D6].
    destruct (meta_merge_ok h (anchors (B ++ l' :: y :: A)) (anchors (B ++ lm :: A)) (l_anchor y) (l_anchor l') (next_anchor A)) as (h' & M1 & M2).
    + apply (wi_h _ H').
    + unfold anchors. apply in_map. apply in_or_app. right. right. left. reflexivity.
    + split; [unfold anchors; apply in_map; apply in_or_app; right; left; reflexivity|]. split; [apply (D4 y); left; reflexivity|].
      intros b Hb Lb. unfold anchors in Hb. apply in_map_iff in Hb. destruct Hb as (m & <- & Hm). apply in_app_or in Hm. destruct Hm as [Hm|[<-|[<-|Hm]]].
      * apply klt_kle. apply (D3 m Hm).
      * apply kle_refl.
      * exfalso. exact (klt_irrefl _ Lb).
      * exfalso. apply (klt_irrefl (l_anchor m)). eapply klt_trans; [exact Lb|]. apply (D2 m Hm).
    + unfold succ_of, next_anchor. destruct A as [|a A'].
      * intros b Hb Lb. unfold anchors in Hb. apply in_map_iff in Hb. destruct Hb as (m & <- & Hm). apply in_app_or in Hm. destruct Hm as [Hm|[<-|[<-|[]]]].
        -- apply (klt_irrefl (l_anchor m)). eapply klt_trans; [apply (D5 m y Hm); left; reflexivity|exact Lb].
        -- apply (klt_irrefl (l_anchor l')). eapply klt_trans; [apply (D4 y); left; reflexivity|exact Lb].
        -- exact (klt_irrefl _ Lb).
      * split; [unfold anchors; apply in_map; apply in_or_app; right; right; right; left; reflexivity|]. split; [apply (D2 a); left; reflexivity|].
        intros b Hb Lb. unfold anchors in Hb. apply in_map_iff in Hb. destruct Hb as (m & <- & Hm). apply in_app_or in Hm. destruct Hm as [Hm|[<-|[<-|[<-|Hm]]]].
        -- exfalso. apply (klt_irrefl (l_anchor m)). eapply klt_trans; [apply (D5 m y Hm); left; reflexivity|exact Lb].
        -- exfalso. apply (klt_irrefl (l_anchor l')). eapply klt_trans; [apply (D4 y); left; reflexivity|exact Lb].
        -- exfalso. exact (klt_irrefl _ Lb).
        -- apply kle_refl.
        -- apply ss_cons in D6. apply klt_kle. apply (proj1 D6 m Hm).
    + intros a. unfold anchors. rewrite !map_app. cbn [map]. rewrite G2, !in_app_iff. cbn [In]. split.
      * intros [G|[G|G]].
        -- split; [auto|]. intros ->. apply in_map_iff in G. destruct G as (m & G & Hm). apply (klt_ne _ _ (proj1 (D5 m y Hm (or_introl eq_refl)))). exact G.
        -- split; [auto|]. intros ->. apply (klt_ne _ _ (proj1 (D4 y (or_introl eq_refl)))). exact G.
        -- split; [auto|]. intros ->. apply in_map_iff in G. destruct G as (m & G & Hm). apply (klt_ne _ _ (proj1 (D2 m Hm))). symmetry. exact G.
      * intros [[G|[G|[G|G]]] N]; auto. congruence.
    + apply (wi_len _ H').
    + eexists. split; [exact M1|].
      assert (forall a, In a (anchors (B ++ lm :: A)) -> In a (anchors (B ++ l' :: y :: A))) as Hsub.
      { intros a. unfold anchors. rewrite !map_app. cbn [map]. rewrite G2, !in_app_iff. cbn [In]. intros [?|[?|?]]; auto. }
      split.
      * constructor; cbn [w_leaves w_hmap w_maxplen].
        -- apply chain_join; [exact D1|exact D6| | |].
           ++ intros b Hb'. eapply lrel_anchor; [exact G2|]. apply D3. exact Hb'.
           ++ intros a Ha. split; [rewrite G2; apply D4; right; exact Ha|]. intros x Hx. apply G3 in Hx. destruct Hx as [Hx|Hx]; [apply (D4 a (or_intror Ha)); exact Hx|apply (D2 a Ha); exact Hx].
           ++ intros b a Hb' Ha. apply D5; [exact Hb'|right; exact Ha].
        -- intros m Hm. apply in_app_or in Hm. destruct Hm as [Hm|[<-|Hm]].
           ++ apply (wi_own _ H'). cbn [w_leaves]. apply in_or_app. auto.
           ++ split; [exact G1|]. intros x Hx. rewrite G2. apply G3 in Hx. destruct Hx as [Hx|Hx]; [apply Ho'; exact Hx|]. destruct Oy as [_ Oy]. destruct (Oy x Hx) as [O1 O2].
              split; [|exact O2]. eapply kle_trans; [|exact O1]. apply klt_kle. apply (D4 y). left. reflexivity.
           ++ apply (wi_own _ H'). cbn [w_leaves]. apply in_or_app. right. right. right. exact Hm.
        -- exact M2.
        -- destruct (wi_a _ H') as (W1 & W2 & W3). cbn [w_leaves w_maxplen] in *. split; [|split; intros a Ha; apply Hsub in Ha; auto].
           unfold anchors in *. rewrite map_app in *. cbn [map] in *. rewrite G2. apply in_app_or in W1. apply in_or_app. destruct W1 as [W1|[W1|[W1|W1]]]; [auto|right; left; exact W1| |right; right; exact W1].
           exfalso. pose proof (proj1 (D4 y (or_introl eq_refl))) as Q. rewrite W1 in Q. apply klt_not in Q. apply Q. apply kle_nil.
        -- intros a Ha. apply (wi_len _ H'). apply Hsub. exact Ha.
      * intros x. rewrite !holds_at, G3. split.
        -- intros [(m & Hm & Hx)|[Hx|Hx]]; [left; exists m|auto|left; exists y]; (split; [|exact Hx]); apply in_or_app; [apply in_app_or in Hm; destruct Hm; [auto|right; right; assumption]|right; left; reflexivity].
        -- intros [(m & Hm & Hx)|Hx]; [|auto]. apply in_app_or in Hm. destruct Hm as [Hm|[<-|Hm]]; [|auto|]; left; exists m; (split; [apply in_or_app; auto|exact Hx]).
Qed.

(** ** delete *)
Theorem del_ok w fp k : winv w -> bytes k -> exists w' b, wh_del fp w k = Ok (w', b) /\ winv w'
  /\ (forall x, holds w' x <-> holds w x /\ fst x <> k) /\ (b = true <-> exists v, holds w (k, v)).
Proof.
  intros H Hk. destruct (find_leaf w fp k H Hk) as (B & l & A & El & J & Lo & L1 & L2 & L3 & L4). unfold wh_del. rewrite J. cbn [bind]. rewrite Lo.
  destruct w as [ls h mp]. cbn [w_leaves w_hmap w_maxplen] in *. subst ls.
  pose proof (wi_own _ H l ltac:(apply in_or_app; right; left; reflexivity)) as Ho. destruct Ho as [Ho1 Ho2].
  pose proof (wi_chain _ H) as C. cbn [w_leaves] in C. destruct (chain_split _ _ _ C) as (C1 & C2 & C3 & C4 & C5).
  assert (forall m x, In m (B ++ A) -> In x (l_kvs m) -> fst x <> k) as Hoth.
  { intros m x Hm Hx E. apply in_app_or in Hm. destruct Hm as [Hm|Hm]; [specialize (L3 m x Hm Hx)|specialize (L4 m x Hm Hx)]; rewrite E in *; eapply klt_irrefl; eassumption. }
  destruct (find_pos (l_kvs l) k) as [i|] eqn:E.
  2:{ pose proof (find_pos_none _ _ E) as Nk. eexists _, false. split; [reflexivity|]. split; [exact H|]. split.
      - intros x. split; [|tauto]. intros Hx. split; [exact Hx|]. apply holds_at in Hx. destruct Hx as [(m & Hm & Hx)|Hx]; [eapply Hoth; eauto|apply Nk; exact Hx].
      - split; [discriminate|]. intros [v Hv]. exfalso. apply holds_at in Hv. destruct Hv as [(m & Hm & Hx)|Hx]; [apply (Hoth m _ Hm Hx)|apply (Nk _ Hx)]; reflexivity. }
  destruct (find_pos_some _ _ _ E) as [v0 Ev]. destruct (remove_ok l i (k, v0) Ho1 Ev) as (U1 & U2 & U3 & U5). cbn [fst] in U5.
  assert (exists v, holds (mkwh (B ++ l :: A) h mp) (k, v)) as Hex.
  { exists v0. apply holds_at. right. eapply nth_error_In. exact Ev. }
  set (l' := leaf_remove l i) in *.
  assert (lown l') as Ho'. { split; [exact U1|]. intros x Hx. rewrite U2. apply Ho2. apply U5. exact Hx. }
  assert (winv (mkwh (B ++ l' :: A) h mp)) as H'.
  { eapply upd_inv; [exact H|exact Ho'|exact U2|]. intros a x Ha Hx. apply (C4 a Ha). apply U5. exact Hx. }
  assert (forall x, holds (mkwh (B ++ l' :: A) h mp) x <-> holds (mkwh (B ++ l :: A) h mp) x /\ fst x <> k) as Hh.
  { intros x. rewrite !holds_at, U5. split; [|tauto]. intros [(m & Hm & Hx)|Hx]; [|tauto]. split; [left; eauto|]. eapply Hoth; eauto. }
  clearbody l'. destruct A as [|y A].
  - eexists _, true. split; [reflexivity|]. split; [exact H'|]. split; [exact Hh|]. tauto.
  - cbv zeta. destruct ((Nat.eqb (length (l_kvs l')) 0 || Nat.ltb (length (l_kvs l') + length (l_kvs y)) MRG) && Nat.leb (length (l_kvs l') + length (l_kvs y)) KPN) eqn:Eif.
    2:{ eexists _, true. split; [reflexivity|]. split; [exact H'|]. split; [exact Hh|]. tauto. }
    apply andb_true_iff in Eif. destruct Eif as [_ Ec]. apply Nat.leb_le in Ec.
    pose proof (wi_chain _ H') as D. cbn [w_leaves] in D. destruct (chain_split _ _ _ D) as (_ & _ & _ & D4 & _).
    pose proof (wi_own _ H' y ltac:(cbn [w_leaves]; apply in_or_app; right; right; left; reflexivity)) as Oy.
    assert (forall x z, In x (l_kvs l') -> In z (l_kvs y) -> before x z) as Hb.
    { intros x z Hx Hz. eapply klt_le; [apply (D4 y (or_introl eq_refl)); exact Hx|]. apply Oy. exact Hz. }
    destruct (merge_ok l' y U1 (proj1 Oy) Ec Hb) as (G1 & G2 & G3).
    destruct (merge_inv h mp B l' y A (leaf_merge l' y) H' G1 G2 G3) as (h' & M1 & M2 & M3).
    rewrite M1. cbn [bind]. eexists _, true. split; [reflexivity|]. split; [exact M2|]. split; [intros x; rewrite M3; apply Hh|tauto].
Qed.

(** ** iterators *)
Lemma pos_holds w it x : pos w it x -> holds w x.
Proof. intros (l & i & Hl & _ & _ & Hi). exists l. split; [exact Hl|]. eapply nth_error_In. exact Hi. Qed.

Theorem peek_ok w it x : winv w -> pos w it x -> wh_iter_peek_ref w it = Ok x.
Proof.
  intros H (l & i & Hl & _ & -> & Hi). apply in_split in Hl. destruct Hl as (B & A & El). cbn [wh_iter_peek_ref]. pose proof (wi_chain _ H) as C. rewrite El in *.
  rewrite locate_hit by exact C. replace (Z.of_nat i <? 0) with false by lia. rewrite Nat2Z.id, Hi. reflexivity.
Qed.

(** what an iterator shows when it should be at the first binding of an up-set *)
Definition first_in w (U : key -> Prop) (it : wh_iter) : Prop :=
  match it with
  | None => forall x, holds w x -> ~ U (fst x)
  | Some _ => exists x, pos w it x /\ U (fst x) /\ forall y, holds w y -> U (fst y) -> kle (fst x) (fst y)
  end.
Definition last_in w (D : key -> Prop) (it : wh_iter) : Prop :=
  match it with
  | None => forall x, holds w x -> ~ D (fst x)
  | Some _ => exists x, pos w it x /\ D (fst x) /\ forall y, holds w y -> D (fst y) -> kle (fst y) (fst x)
  end.

Lemma iter_fix_ok (U : key -> Prop) : forall fuel A B l h mp i, winv (mkwh (B ++ l :: A) h mp) -> full_sorted l -> (length A < fuel)%nat ->
  (forall b x, In b B -> In x (l_kvs b) -> ~ U (fst x)) -> (forall a x, In a A -> In x (l_kvs a) -> U (fst x)) ->
  (forall j x, nth_error (l_kvs l) j = Some x -> ((i <= j)%nat <-> U (fst x))) ->
  exists w' it, iter_fix fuel (mkwh (B ++ l :: A) h mp) (l_anchor l) (Z.of_nat i) = Ok (w', it) /\ same (mkwh (B ++ l :: A) h mp) w' /\ first_in w' U it.
Proof.
  induction fuel as [|fuel IH]; intros A B l h mp i H F Hf HB HA Hl; [lia|]. cbn [iter_fix w_leaves w_hmap w_maxplen].
  pose proof (wi_chain _ H) as C. cbn [w_leaves] in C. rewrite locate_hit by exact C. destruct (chain_split _ _ _ C) as (_ & CA & C3 & C4 & C5).
  assert (lown l) as Ho by (apply (wi_own _ H); apply in_or_app; right; left; reflexivity). pose proof (full_asc l (proj1 Ho) F) as As.
  destruct (Z.ltb_spec (Z.of_nat i) (Z.of_nat (l_sorted l))) as [L|L]; rewrite F in L.
  - eexists _, _. split; [reflexivity|]. split; [apply same_refl; exact H|]. cbn [first_in].
    destruct (nth_error (l_kvs l) i) as [x|] eqn:Ex; [|apply nth_error_None in Ex; lia]. exists x. split; [|split].
    + exists l, i. split; [apply in_or_app; right; left; reflexivity|auto].
    + apply (Hl i x Ex). lia.
    + intros y Hy Uy. apply holds_at in Hy. destruct Hy as [(m & Hm & Hy)|Hy].
      * apply in_app_or in Hm. destruct Hm as [Hm|Hm]; [exfalso; exact (HB m y Hm Hy Uy)|]. apply klt_kle. eapply klt_le; [apply (C4 m Hm); eapply nth_error_In; exact Ex|].
        apply (wi_own _ H m); [apply in_or_app; right; right; exact Hm|exact Hy].
      * apply In_nth_error in Hy. destruct Hy as [j Hj]. apply (Hl j y Hj) in Uy. destruct (Nat.eq_dec i j) as [->|]; [rewrite Ex in Hj; injection Hj as ->; apply kle_refl|].
        apply klt_kle. apply (asc_nth _ i j x y As); [lia|exact Ex|exact Hj].
  - assert (forall x, In x (l_kvs l) -> ~ U (fst x)) as Nl.
    { intros x Hx Ux. apply In_nth_error in Hx. destruct Hx as [j Hj]. apply (Hl j x Hj) in Ux. assert (j < length (l_kvs l))%nat by (apply nth_error_Some; congruence). lia. }
    destruct A as [|x A].
    + eexists _, None. split; [reflexivity|]. split; [apply same_refl; exact H|]. intros y Hy. apply holds_at in Hy. destruct Hy as [(m & Hm & Hy)|Hy]; [|apply Nl; exact Hy].
      rewrite app_nil_r in Hm. apply (HB m y Hm Hy).
    + assert (B ++ l :: x :: A = (B ++ [l]) ++ x :: A) as Eq by (rewrite <- app_assoc; reflexivity).
      assert (B ++ l :: sync_sorted x :: A = (B ++ [l]) ++ sync_sorted x :: A) as Eq' by (rewrite <- app_assoc; reflexivity).
      rewrite Eq in H. pose proof (sync_same _ _ _ _ _ H) as Sm. rewrite Eq, Eq'.
      assert (lown x) as Hx by (apply (wi_own _ H); apply in_or_app; right; left; reflexivity). destruct (sync_ok x (proj1 Hx)) as (S1 & S2 & S3 & S4). rewrite <- S4.
      destruct (IH A (B ++ [l]) (sync_sorted x) h mp O) as (w' & it & R1 & R2 & R3).
      * apply Sm.
      * exact S2.
      * cbn [length] in Hf. lia.
      * intros b y Hb Hy. apply in_app_or in Hb. destruct Hb as [Hb|[<-|[]]]; [eapply HB; eauto|apply Nl; exact Hy].
      * intros a y Ha Hy. apply (HA a y); [right; exact Ha|exact Hy].
      * intros j y Hj. split; [|lia]. intros _. apply (HA x); [left; reflexivity|]. apply (Permutation_in _ (Permutation_sym S3)). eapply nth_error_In. exact Hj.
      * exists w', it. split; [exact R1|]. split; [eapply same_trans; eassumption|exact R3].
Qed.

Theorem seek_ok w fp k : winv w -> bytes k -> exists w' it, wh_iter_seek fp w k = Ok (w', it) /\ same w w' /\ first_in w' (kle k) it.
Proof.
  intros H Hk. destruct (find_leaf w fp k H Hk) as (B & l & A & El & J & Lo & L1 & L2 & L3 & L4). unfold wh_iter_seek. rewrite J. cbn [bind]. rewrite Lo.
  destruct w as [ls h mp]. cbn [w_leaves w_hmap w_maxplen] in *. subst ls. pose proof (sync_same _ _ _ _ _ H) as Sm.
  pose proof (wi_own _ H l ltac:(apply in_or_app; right; left; reflexivity)) as Ho. destruct (sync_ok l (proj1 Ho)) as (S1 & S2 & S3 & S4).
  destruct (leaf_seek_ok (sync_sorted l) k S1 S2) as (r & R1 & R2 & R3 & R4). cbv zeta. rewrite R1. cbn [bind]. rewrite <- S4.
  destruct (iter_fix_ok (kle k) (S (length (B ++ l :: A))) A B (sync_sorted l) h mp r) as (w' & it & Q1 & Q2 & Q3).
  - apply Sm.
  - exact S2.
  - rewrite app_length. cbn [length]. lia.
  - intros b x Hb Hx. apply klt_not. apply (L3 b x Hb Hx).
  - intros a x Ha Hx. apply klt_kle. apply (L4 a x Ha Hx).
  - intros j x Hj. split; [intros L; apply (R4 j x L Hj)|]. intros G. destruct (Nat.le_gt_cases r j) as [L|L]; [exact L|]. exfalso. specialize (R3 j x L Hj). apply klt_not in R3. contradiction.
  - exists w', it. split; [exact Q1|]. split; [eapply same_trans; eassumption|exact Q3].
Qed.

Theorem skip1_ok w it x : winv w -> pos w it x -> exists w' it', wh_iter_skip1 w it = Ok (w', it') /\ same w w' /\ first_in w' (klt (fst x)) it'.
Proof.
  intros H (l & i & Hl & F & -> & Hi). apply in_split in Hl. destruct Hl as (B & A & El). destruct w as [ls h mp]. cbn [w_leaves] in El. subst ls. cbn [wh_iter_skip1 w_leaves].
  replace (Z.of_nat i + 1) with (Z.of_nat (S i)) by lia. pose proof (wi_chain _ H) as C. cbn [w_leaves] in C. destruct (chain_split _ _ _ C) as (_ & _ & C3 & C4 & _).
  pose proof (wi_own _ H l ltac:(apply in_or_app; right; left; reflexivity)) as Ho. pose proof (full_asc l (proj1 Ho) F) as As.
  assert (In x (l_kvs l)) as Hx by (eapply nth_error_In; exact Hi).
  destruct (iter_fix_ok (klt (fst x)) (S (length (B ++ l :: A))) A B l h mp (S i)) as (w' & it & Q1 & Q2 & Q3); [exact H|exact F|rewrite app_length; cbn [length]; lia| | | |exists w', it; auto].
  - intros b y Hb Hy G. apply kle_not in G; [exact G|]. apply klt_kle. eapply klt_le; [apply (C3 b Hb); exact Hy|]. apply Ho. exact Hx.
  - intros a y Ha Hy. eapply klt_le; [apply (C4 a Ha); exact Hx|]. apply (wi_own _ H a); [apply in_or_app; right; right; exact Ha|exact Hy].
  - intros j y Hj. split; [intros L; apply (asc_nth _ i j x y As); [lia|exact Hi|exact Hj]|]. intros G. destruct (Nat.le_gt_cases (S i) j) as [L|L]; [exact L|]. exfalso.
    destruct (Nat.eq_dec i j) as [->|]; [rewrite Hi in Hj; injection Hj as ->; exact (klt_irrefl _ G)|].
    apply (klt_irrefl (fst x)). eapply klt_trans; [exact G|]. apply (asc_nth _ j i y x As); [lia|exact Hj|exact Hi].
Qed.

Lemma iter_fix_rev_ok (D : key -> Prop) : forall fuel B A l h mp i, winv (mkwh (B ++ l :: A) h mp) -> full_sorted l -> (length B < fuel)%nat ->
  -1 <= i < Z.of_nat (length (l_kvs l)) ->
  (forall b x, In b B -> In x (l_kvs b) -> D (fst x)) -> (forall a x, In a A -> In x (l_kvs a) -> ~ D (fst x)) ->
  (forall j x, nth_error (l_kvs l) j = Some x -> (Z.of_nat j <= i <-> D (fst x))) ->
  exists w' it, iter_fix_rev fuel (mkwh (B ++ l :: A) h mp) (l_anchor l) i = Ok (w', it) /\ same (mkwh (B ++ l :: A) h mp) w' /\ last_in w' D it.
Proof.
  induction fuel as [|fuel IH]; intros B A l h mp i H F Hf Hi HB HA Hl; [lia|]. cbn [iter_fix_rev w_leaves w_hmap w_maxplen].
  pose proof (wi_chain _ H) as C. cbn [w_leaves] in C. rewrite locate_hit by exact C. destruct (chain_split _ _ _ C) as (_ & CA & C3 & C4 & C5).
  assert (lown l) as Ho by (apply (wi_own _ H); apply in_or_app; right; left; reflexivity). pose proof (full_asc l (proj1 Ho) F) as As.
  destruct (Z.leb_spec 0 i) as [L|L].
  - eexists _, _. split; [reflexivity|]. split; [apply same_refl; exact H|]. cbn [last_in].
    destruct (nth_error (l_kvs l) (Z.to_nat i)) as [x|] eqn:Ex; [|apply nth_error_None in Ex; lia]. exists x. split; [|split].
    + exists l, (Z.to_nat i). split; [apply in_or_app; right; left; reflexivity|]. split; [exact F|]. split; [do 2 f_equal; lia|exact Ex].
    + apply (Hl _ x Ex). lia.
    + intros y Hy Dy. apply holds_at in Hy. destruct Hy as [(m & Hm & Hy)|Hy].
      * apply in_app_or in Hm. destruct Hm as [Hm|Hm]; [|exfalso; exact (HA m y Hm Hy Dy)]. apply klt_kle. eapply klt_le; [apply (C3 m Hm); exact Hy|].
        apply Ho. eapply nth_error_In. exact Ex.
      * apply In_nth_error in Hy. destruct Hy as [j Hj]. apply (Hl j y Hj) in Dy. destruct (Nat.eq_dec (Z.to_nat i) j) as [<-|]; [rewrite Ex in Hj; injection Hj as ->; apply kle_refl|].
        apply klt_kle. apply (asc_nth _ j (Z.to_nat i) y x As); [lia|exact Hj|exact Ex].
  - assert (forall x, In x (l_kvs l) -> ~ D (fst x)) as Nl.
    { intros x Hx Dx. apply In_nth_error in Hx. destruct Hx as [j Hj]. apply (Hl j x Hj) in Dx. lia. }
    destruct (rev B) as [|x B'] eqn:EB.
    + eexists _, None. split; [reflexivity|]. split; [apply same_refl; exact H|]. assert (B = []) as -> by (rewrite <- (rev_involutive B), EB; reflexivity).
      intros y Hy. apply holds_at in Hy. destruct Hy as [(m & Hm & Hy)|Hy]; [|apply Nl; exact Hy]. apply (HA m y Hm Hy).
    + assert (B = rev B' ++ [x]) as -> by (rewrite <- (rev_involutive B), EB; reflexivity). rewrite <- app_assoc in *. cbn [app] in *.
      pose proof (sync_same _ _ _ _ _ H) as Sm.
      assert (lown x) as Hx by (apply (wi_own _ H); apply in_or_app; right; left; reflexivity). destruct (sync_ok x (proj1 Hx)) as (S1 & S2 & S3 & S4). rewrite <- S4.
      rewrite (Permutation_length S3).
      destruct (IH (rev B') (l :: A) (sync_sorted x) h mp (Z.of_nat (length (l_kvs (sync_sorted x))) - 1)) as (w' & it & R1 & R2 & R3).
      * apply Sm.
      * exact S2.
      * rewrite app_length in Hf. cbn [length] in Hf. lia.
      * lia.
      * intros b y Hb Hy. apply (HB b y); [apply in_or_app; auto|exact Hy].
      * intros a y [<-|Ha] Hy; [apply Nl; exact Hy|apply (HA a y Ha Hy)].
      * intros j y Hj. assert (j < length (l_kvs (sync_sorted x)))%nat by (apply nth_error_Some; congruence). split; [|lia]. intros _. apply (HB x); [apply in_or_app; right; left; reflexivity|].
        apply (Permutation_in _ (Permutation_sym S3)). eapply nth_error_In. exact Hj.
      * exists w', it. split; [exact R1|]. split; [eapply same_trans; eassumption|exact R3].
Qed.

Theorem skip1_rev_ok w it x : winv w -> pos w it x -> exists w' it', wh_iter_skip1_rev w it = Ok (w', it') /\ same w w' /\ last_in w' (fun k => klt k (fst x)) it'.
Proof.
  intros H (l & i & Hl & F & -> & Hi). apply in_split in Hl. destruct Hl as (B & A & El). destruct w as [ls h mp]. cbn [w_leaves] in El. subst ls. cbn [wh_iter_skip1_rev w_leaves].
  pose proof (wi_chain _ H) as C. cbn [w_leaves] in C. destruct (chain_split _ _ _ C) as (_ & _ & C3 & C4 & _).
  pose proof (wi_own _ H l ltac:(apply in_or_app; right; left; reflexivity)) as Ho. pose proof (full_asc l (proj1 Ho) F) as As.
  assert (In x (l_kvs l)) as Hx by (eapply nth_error_In; exact Hi). assert (i < length (l_kvs l))%nat as Li by (apply nth_error_Some; congruence).
  destruct (iter_fix_rev_ok (fun k => klt k (fst x)) (S (length (B ++ l :: A))) B A l h mp (Z.of_nat i - 1)) as (w' & it & Q1 & Q2 & Q3); [exact H|exact F|rewrite app_length; lia|lia| | | |exists w', it; auto].
  - intros b y Hb Hy. eapply klt_le; [apply (C3 b Hb); exact Hy|]. apply Ho. exact Hx.
  - intros a y Ha Hy G. apply kle_not in G; [exact G|]. apply klt_kle. eapply klt_le; [apply (C4 a Ha); exact Hx|]. apply (wi_own _ H a); [apply in_or_app; right; right; exact Ha|exact Hy].
  - intros j y Hj. split; [intros L; apply (asc_nth _ j i y x As); [lia|exact Hj|exact Hi]|]. intros G. destruct (Z.le_gt_cases (Z.of_nat j) (Z.of_nat i - 1)) as [L|L]; [exact L|]. exfalso.
    destruct (Nat.eq_dec i j) as [->|]; [rewrite Hi in Hj; injection Hj as ->; exact (klt_irrefl _ G)|].
    apply (klt_irrefl (fst x)). eapply klt_trans; [|exact G]. apply (asc_nth _ i j x y As); [lia|exact Hi|exact Hj].
Qed.
End Index.
