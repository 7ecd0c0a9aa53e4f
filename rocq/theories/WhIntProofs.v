(** The leaves of wh_int.c: keys compare as byte strings, and every operation but the
    merge of two leaves does what its counterpart in wh.c does, for keys that are not
    in the unsorted part of their leaf. *)
From Coq Require Import ZArith List Bool Lia Arith Sorted Permutation.
From Verif Require Import Base Key KeyOrder Wormhole WhKey WhBits WhMeta WhLeaf WhIndex WhInt.
Import ListNotations.
Open Scope Z_scope.

(** ** the order of short keys *)
Definition short (k : key) : Prop := bytes k /\ (length k <= 8)%nat.
Lemma num_nil n : num n [] = 0.
Proof. induction n as [|n IH]; [reflexivity|]. cbn [num hd tl]. rewrite IH. lia. Qed.
Lemma num_range n : forall k, bytes k -> 0 <= num n k < 256 ^ Z.of_nat n.
Proof.
  induction n as [|n IH]; intros k Hk; [cbn; lia|]. cbn [num]. rewrite Nat2Z.inj_succ, Z.pow_succ_r by lia. set (p := 256 ^ Z.of_nat n) in *.
  assert (0 <= hd 0 k < 256) as Hh by (destruct k; cbn [hd]; [lia|inversion Hk; subst; assumption]).
  assert (bytes (tl k)) as Ht by (destruct k; cbn [tl]; [constructor|inversion Hk; subst; assumption]). specialize (IH _ Ht). nia.
Qed.
Lemma num_order n : forall a b, bytes a -> bytes b -> (length a <= n)%nat -> (length b <= n)%nat ->
  (if num n a =? num n b then Nat.ltb (length a) (length b) else num n a <? num n b) = key_lt a b.
Proof.
  induction n as [|n IH]; intros a b Ha Hb La Lb.
  - destruct a; [|cbn [length] in La; lia]. destruct b; [|cbn [length] in Lb; lia]. reflexivity.
  - destruct a as [|x a], b as [|y b].
    + rewrite Z.eqb_refl. reflexivity.
    + rewrite num_nil. pose proof (num_range (S n) (y :: b) Hb) as R. assert (key_lt [] (y :: b) = true) as -> by reflexivity.
      destruct (Z.eqb_spec 0 (num (S n) (y :: b))); [reflexivity|]. apply Z.ltb_lt. lia.
    + rewrite num_nil. pose proof (num_range (S n) (x :: a) Ha) as R. assert (key_lt (x :: a) [] = false) as -> by (apply kle_nil).
      destruct (Z.eqb_spec (num (S n) (x :: a)) 0); [reflexivity|]. apply Z.ltb_ge. lia.
    + inversion Ha as [|? ? Hx Ha']; subst. inversion Hb as [|? ? Hy Hb']; subst. cbn [length] in *. specialize (IH a b Ha' Hb' ltac:(lia) ltac:(lia)).
      pose proof (num_range n a Ha') as Ra. pose proof (num_range n b Hb') as Rb. cbn [num hd tl]. set (p := 256 ^ Z.of_nat n) in *. set (u := num n a) in *. set (v := num n b) in *.
      destruct (Z.lt_trichotomy x y) as [C|[C|C]].
      * assert (key_lt (x :: a) (y :: b) = true) as -> by (apply klt_cons; left; exact C).
        destruct (Z.eqb_spec (x * p + u) (y * p + v)); [nia|]. apply Z.ltb_lt. nia.
      * subst y. transitivity (key_lt a b).
        -- rewrite <- IH. destruct (Z.eqb_spec (x * p + u) (x * p + v)), (Z.eqb_spec u v); [reflexivity|exfalso; lia|exfalso; lia|].
           destruct (Z.ltb_spec (x * p + u) (x * p + v)), (Z.ltb_spec u v); try reflexivity; exfalso; lia.
        -- apply eq_true_iff_eq. change (klt a b <-> klt (x :: a) (x :: b)). rewrite klt_cons. split; [auto|intros [G|[_ G]]; [lia|exact G]].
      * assert (key_lt (x :: a) (y :: b) = false) as -> by (apply kle_cons; left; exact C).
        destruct (Z.eqb_spec (x * p + u) (y * p + v)); [nia|]. apply Z.ltb_ge. nia.
Qed.
Lemma isp_lt_key a b : short a -> short b -> isp_lt a b = key_lt a b.
Proof. intros [A1 A2] [B1 B2]. apply num_order; assumption. Qed.
Lemma isp_eq_key a b : short a -> short b -> isp_eq a b = key_eq a b.
Proof.
  intros Ha Hb. rewrite key_eq_dec. destruct (key_dec a b) as [->|N].
  - unfold isp_eq. rewrite Z.eqb_refl, Nat.eqb_refl. reflexivity.
  - destruct (isp_eq a b) eqn:E; [|reflexivity]. exfalso. unfold isp_eq in E. apply andb_true_iff in E. destruct E as [E1 E2].
    apply Z.eqb_eq in E1. apply Nat.eqb_eq in E2. destruct (klt_total a b) as [C|[C|C]]; [|contradiction|].
    + unfold klt in C. rewrite <- isp_lt_key in C by assumption. unfold isp_lt in C. rewrite E1, Z.eqb_refl, E2 in C. rewrite Nat.ltb_irrefl in C. discriminate.
    + unfold klt in C. rewrite <- isp_lt_key in C by assumption. unfold isp_lt in C. rewrite E1, Z.eqb_refl, E2 in C. rewrite Nat.ltb_irrefl in C. discriminate.
Qed.
Lemma short_ok k : short k -> key_ok k.
Proof.
  intros [H1 H2]. split; [exact H1|]. assert (8 <= PBUF)%nat by (apply Nat.leb_le; vm_compute; reflexivity). lia.
Qed.

Lemma NoDup_app_intro {T} (a b : list T) : NoDup a -> NoDup b -> (forall x, In x a -> ~ In x b) -> NoDup (a ++ b).
Proof.
  induction a as [|x a IH]; intros Ha Hb H; [exact Hb|]. cbn [app]. apply NoDup_cons_iff in Ha. destruct Ha as [H1 H2]. constructor.
  - intros G. apply in_app_or in G. destruct G as [G|G]; [contradiction|]. apply (H x); [left; reflexivity|exact G].
  - apply IH; [exact H2|exact Hb|]. intros y Hy. apply H. right. exact Hy.
Qed.

Section Leaf.
Context {V : Type}.
Implicit Types (l all : list (key * V)) (lf : leaf V).
Definition shorts l : Prop := forall x, In x l -> short (fst x).

(** ** binary search *)
Lemma search_int_ok l k n : asc (firstn n l) -> (n <= length l)%nat -> shorts l -> short k -> forall fuel lo hi, (hi - lo < fuel)%nat -> (lo <= hi <= n)%nat ->
  (forall i x, (i < lo)%nat -> nth_error l i = Some x -> klt (fst x) k) ->
  (forall i x, (hi <= i < n)%nat -> nth_error l i = Some x -> kle k (fst x)) ->
  exists r, search_int fuel l k lo hi = Ok r /\ (r <= n)%nat
    /\ (forall i x, (i < r)%nat -> nth_error l i = Some x -> klt (fst x) k)
    /\ (forall i x, (r <= i < n)%nat -> nth_error l i = Some x -> kle k (fst x)).
Proof.
  intros A Ln Hs Hk. assert (forall i j x y, (i < j < n)%nat -> nth_error l i = Some x -> nth_error l j = Some y -> before x y) as Aij.
  { intros i j x y L Hi Hj. eapply asc_nth; [exact A|apply (proj1 L)| |];
      (rewrite <- (firstn_skipn n l) in Hi, Hj; rewrite nth_error_app1 in Hi, Hj by (rewrite firstn_length; lia); eassumption). }
  induction fuel as [|fuel IH]; intros lo hi Hf Hlo H1 H2; [lia|]. cbn [search_int]. destruct (Nat.ltb_spec lo hi) as [L|L].
  - set (i := ((lo + hi - 1) / 2)%nat). assert (lo <= i < hi)%nat as Hi.
    { unfold i. pose proof (Nat.div_mod (lo + hi - 1) 2 ltac:(lia)). pose proof (Nat.mod_upper_bound (lo + hi - 1) 2 ltac:(lia)). lia. }
    clearbody i. destruct (nth_error l i) as [x|] eqn:Ex; [|apply nth_error_None in Ex; lia].
    rewrite isp_lt_key by (try assumption; apply Hs; eapply nth_error_In; exact Ex).
    destruct (key_lt (fst x) k) eqn:E.
    + apply IH; [lia|lia| |exact H2]. intros j y Hj Hy. destruct (Nat.eq_dec j i) as [->|]; [rewrite Ex in Hy; injection Hy as <-; exact E|].
      eapply klt_trans; [|exact E]. eapply (Aij j i); eauto. lia.
    + apply IH; [lia|lia|exact H1|]. intros j y Hj Hy. destruct (Nat.eq_dec j i) as [->|]; [rewrite Ex in Hy; injection Hy as <-; exact E|].
      eapply kle_trans; [exact E|]. apply klt_kle. eapply (Aij i j); eauto. lia.
  - exists hi. split; [reflexivity|]. split; [lia|]. split; [|exact H2]. intros j y Hj Hy. apply (H1 j y); [lia|exact Hy].
Qed.
Lemma search_leaf_ok lf k : leaf_ok lf -> shorts (l_kvs lf) -> short k -> exists r, search_int (S (l_sorted lf)) (l_kvs lf) k 0 (l_sorted lf) = Ok r /\ (r <= l_sorted lf)%nat
  /\ (forall i x, (i < r)%nat -> nth_error (l_kvs lf) i = Some x -> klt (fst x) k)
  /\ (forall i x, (r <= i < l_sorted lf)%nat -> nth_error (l_kvs lf) i = Some x -> kle k (fst x)).
Proof.
  intros H Hs Hk. apply search_int_ok; [apply H|apply H|exact Hs|exact Hk|lia|lia|intros; lia|intros; lia].
Qed.
Lemma search_eq_ok lf k : leaf_ok lf -> shorts (l_kvs lf) -> short k -> exists o, search_eq lf k = Ok o
  /\ match o with
     | Some i => exists v, nth_error (l_kvs lf) i = Some (k, v)
     | None => forall i v, nth_error (l_kvs lf) i = Some (k, v) -> (l_sorted lf <= i)%nat
     end.
Proof.
  intros H Hs Hk. unfold search_eq. destruct (search_leaf_ok lf k H Hs Hk) as (r & R1 & R2 & R3 & R4). rewrite R1. cbn [bind]. eexists. split; [reflexivity|].
  assert (nth_error (l_kvs lf) r = None \/ (exists x, nth_error (l_kvs lf) r = Some x /\ fst x <> k) ->
    forall i v, nth_error (l_kvs lf) i = Some (k, v) -> (l_sorted lf <= i)%nat) as Hno.
  { intros N i v Hi. destruct (Nat.le_gt_cases (l_sorted lf) i) as [L|L]; [exact L|]. exfalso. assert (r <= i)%nat as Lr.
    { destruct (Nat.le_gt_cases r i) as [L'|L']; [exact L'|]. exfalso. apply (klt_irrefl k). apply (R3 i (k, v) L' Hi). }
    destruct N as [N|(x & Hx & N)]; [apply nth_error_None in N; pose proof (lo_le _ H); lia|].
    destruct (Nat.eq_dec r i) as [->|]; [rewrite Hi in Hx; injection Hx as <-; apply N; reflexivity|].
    pose proof (R4 r x ltac:(lia) Hx) as C. assert (klt (fst x) k) as D; [|apply klt_not in D; contradiction].
    apply (asc_nth (firstn (l_sorted lf) (l_kvs lf)) r i x (k, v)); [apply H|lia| |];
      (pose proof (lo_le _ H); rewrite <- (firstn_skipn (l_sorted lf) (l_kvs lf)) in Hx, Hi; rewrite nth_error_app1 in Hx, Hi by (rewrite firstn_length; lia); assumption). }
  destruct (nth_error (l_kvs lf) r) as [x|] eqn:Ex; [|apply Hno; auto].
  rewrite isp_eq_key by (try assumption; apply Hs; eapply nth_error_In; exact Ex). rewrite key_eq_dec. destruct (key_dec k (fst x)) as [E|N].
  - exists (snd x). rewrite Ex. f_equal. rewrite E. destruct x; reflexivity.
  - apply Hno. right. exists x. split; [reflexivity|congruence].
Qed.

(** ** sorting *)
Lemma insert_sorted_int_eq x l : short (fst x) -> shorts l -> insert_sorted_int x l = insert_sorted x l.
Proof.
  intros Hx. induction l as [|y l IH]; intros Hs; [reflexivity|]. cbn [insert_sorted_int insert_sorted]. rewrite isp_lt_key by (try assumption; apply Hs; left; reflexivity).
  rewrite IH by (intros z Hz; apply Hs; right; exact Hz). reflexivity.
Qed.
Lemma sort_range_int_eq l : shorts l -> sort_range_int l = sort_range l.
Proof.
  unfold sort_range_int, sort_range. intros Hs. assert (shorts []) as Hn by (intros ? []). revert Hn. generalize (@nil (key * V)) as acc.
  induction l as [|x l IH]; intros acc Ha; [reflexivity|]. cbn [fold_left]. rewrite insert_sorted_int_eq by (try assumption; apply Hs; left; reflexivity).
  apply IH; [intros z Hz; apply Hs; right; exact Hz|]. intros z Hz. apply (Permutation_in _ (Permutation_sym (insert_sorted_perm x acc))) in Hz.
  destruct Hz as [<-|Hz]; [apply Hs; left; reflexivity|apply Ha; exact Hz].
Qed.
Lemma sort_m2_int_eq : forall a b : list (key * V), shorts a -> shorts b -> sort_m2_int a b = sort_m2 a b.
Proof.
  induction a as [|x a IH]; intros b Ha Hb; [reflexivity|]. induction b as [|y b IHb]; [reflexivity|]. cbn [sort_m2_int sort_m2].
  rewrite isp_lt_key by (try (apply Ha; left; reflexivity); apply Hb; left; reflexivity). destruct (key_lt (fst y) (fst x)).
  - f_equal. apply IHb. intros z Hz. apply Hb. right. exact Hz.
  - f_equal. apply IH; [intros z Hz; apply Ha; right; exact Hz|exact Hb].
Qed.
Lemma sync_int_eq lf : leaf_ok lf -> shorts (l_kvs lf) -> sync_int lf = Ok (sync_sorted lf).
Proof.
  intros H Hs. unfold sync_int, sync_sorted. destruct (Nat.eqb (l_sorted lf) (length (l_kvs lf))); [reflexivity|].
  pose proof (lo_le _ H). replace (Nat.ltb (length (l_kvs lf)) (l_sorted lf)) with false by (symmetry; apply Nat.ltb_ge; lia).
  assert (shorts (firstn (l_sorted lf) (l_kvs lf)) /\ shorts (skipn (l_sorted lf) (l_kvs lf))) as [H1 H2].
  { split; intros x Hx; apply Hs; rewrite <- (firstn_skipn (l_sorted lf) (l_kvs lf)); apply in_or_app; auto. }
  rewrite sort_range_int_eq by exact H2. rewrite sort_m2_int_eq; [reflexivity|exact H1|]. intros x Hx. apply H2.
  apply (Permutation_in _ (Permutation_sym (proj2 (sort_range_ok _)))). exact Hx.
Qed.

(** ** adding a pair *)
Lemma insert_int_eq lf k v : (forall x, In x (l_kvs lf) -> fst x <> k) -> shorts (l_kvs lf) -> short k -> insert_int lf k v = leaf_insert lf k v.
Proof.
  intros Hn Hs Hk. unfold insert_int, leaf_insert. cbv zeta. f_equal. destruct (Nat.eqb (length (l_kvs lf)) (l_sorted lf)); [|reflexivity].
  destruct (length (l_kvs lf)) as [|n]; [reflexivity|]. destruct (nth_error (l_kvs lf) n) as [x|] eqn:E; [|reflexivity]. apply nth_error_In in E.
  rewrite isp_lt_key by (try assumption; apply Hs; exact E). destruct (klt_total k (fst x)) as [C|[C|C]].
  - pose proof (klt_kle _ _ C) as D. unfold klt in C. unfold kle in D. rewrite C, D. reflexivity.
  - exfalso. apply (Hn x E). symmetry. exact C.
  - pose proof (klt_kle _ _ C) as D. unfold klt in C. unfold kle in D. rewrite C, D. reflexivity.
Qed.
Lemma insert_sorted_le lf k v : leaf_ok lf -> (l_sorted lf <= l_sorted (leaf_insert lf k v))%nat.
Proof.
  intros H. unfold leaf_insert. cbn [l_sorted]. pose proof (lo_le _ H). destruct (Nat.eqb_spec (length (l_kvs lf)) (l_sorted lf)) as [E|E]; [|lia].
  destruct (length (l_kvs lf)) as [|n]; [lia|]. destruct (nth_error (l_kvs lf) n); [|lia]. destruct (key_lt (fst p) k); lia.
Qed.

(** ** removing a pair *)
Lemma remove_firstn lf i : (i < length (l_kvs lf))%nat -> firstn i (l_kvs (leaf_remove lf i)) = firstn i (l_kvs lf).
Proof.
  intros L. unfold leaf_remove. cbn [l_kvs]. rewrite firstn_firstn. replace (Nat.min i (length (l_kvs lf) - 1)) with i by lia.
  rewrite firstn_app, firstn_firstn, Nat.min_id. rewrite firstn_length. replace (i - Nat.min i (length (l_kvs lf)))%nat with O by lia. cbn [firstn]. apply app_nil_r.
Qed.

(** ** merging, as it should be *)
Lemma merge_int_ok : forall l lf, leaf_ok lf -> distinct (l_kvs lf ++ l) -> (length (l_kvs lf) + length l <= KPN)%nat -> shorts (l_kvs lf) -> shorts l ->
  let m := fold_left (fun a x => insert_int a (fst x) (snd x)) l lf in
  leaf_ok m /\ l_anchor m = l_anchor lf /\ l_kvs m = l_kvs lf ++ l /\ (l_sorted lf <= l_sorted m)%nat.
Proof.
  induction l as [|[k v] l IH]; intros lf H D Hc S1 S2; cbv zeta; cbn [fold_left].
  - rewrite app_nil_r. auto.
  - cbn [fst snd length] in *.
    assert (forall x, In x (l_kvs lf) -> fst x <> k) as Hn.
    { intros x Hx E. unfold distinct in D. rewrite map_app in D. cbn [map fst] in D. apply NoDup_remove_2 in D. apply D. apply in_or_app. left. rewrite <- E. apply in_map. exact Hx. }
    rewrite insert_int_eq by (try assumption; apply (S2 (k, v)); left; reflexivity).
    destruct (insert_ok lf k v H ltac:(lia) Hn) as (U1 & U2 & U3). pose proof (insert_sorted_le lf k v H) as Le.
    assert (l_kvs (leaf_insert lf k v) = l_kvs lf ++ [(k, v)]) as Ek by reflexivity. set (lf' := leaf_insert lf k v) in *. clearbody lf'.
    destruct (IH lf' U1) as (W1 & W2 & W3 & W4).
    + rewrite Ek, <- app_assoc. exact D.
    + rewrite Ek, app_length. cbn [length]. lia.
    + rewrite Ek. intros x Hx. apply in_app_or in Hx. destruct Hx as [Hx|[<-|[]]]; [apply S1; exact Hx|apply S2; left; reflexivity].
    + intros x Hx. apply S2. right. exact Hx.
    + cbv zeta in *. split; [exact W1|]. split; [congruence|]. split; [rewrite W3, Ek, <- app_assoc; reflexivity|lia].
Qed.

(** ** splitting *)
Lemma cut_loop_int_ok l alen target : (alen <= 8)%nat -> forall fuel lo hi, (hi - lo < fuel)%nat -> (lo < hi < length l)%nat ->
  exists r, cut_loop_int fuel l alen target lo hi = Ok r /\ (lo < r <= hi)%nat.
Proof.
  intros Ha. induction fuel as [|fuel IH]; intros lo hi Hf Hlo; [lia|]. cbn [cut_loop_int]. destruct (Nat.ltb_spec (lo + 1) hi) as [L|L]; [|exists hi; split; [reflexivity|lia]].
  set (m := ((lo + hi + 1) / 2)%nat). assert (lo < m < hi)%nat as Hm.
  { unfold m. pose proof (Nat.div_mod (lo + hi + 1) 2 ltac:(lia)). pose proof (Nat.mod_upper_bound (lo + hi + 1) 2 ltac:(lia)). lia. }
  clearbody m.
  destruct (nth_error l lo) as [kl|] eqn:El; [|apply nth_error_None in El; lia]. destruct (nth_error l m) as [km|] eqn:Em; [|apply nth_error_None in Em; lia].
  destruct (nth_error l hi) as [kh|] eqn:Eh; [|apply nth_error_None in Eh; lia].
  assert (forall k1 k2 : key, exists c, alen_check_int alen k1 k2 = Ok c) as Hchk.
  { intros k1 k2. unfold alen_check_int. destruct (Nat.ltb (length k1) alen); [eauto|]. replace (Nat.ltb 8 alen) with false by (symmetry; apply Nat.ltb_ge; exact Ha). eauto. }
  destruct (IH lo m) as (r1 & R1 & R2); [lia|lia|]. destruct (IH m hi) as (r2 & R3 & R4); [lia|lia|].
  destruct (Nat.leb m target).
  - destruct (Hchk (fst km) (fst kh)) as [b Eb]. rewrite Eb. cbn [bind]. destruct b; [exists r2; split; [exact R3|lia]|exists r1; split; [exact R1|lia]].
  - destruct (Hchk (fst kl) (fst km)) as [b Eb]. rewrite Eb. cbn [bind]. destruct b; [exists r1; split; [exact R1|lia]|exists r2; split; [exact R3|lia]].
Qed.
Lemma cut_search_int_ok l target : asc l -> (2 <= length l)%nat -> shorts l -> exists c, cut_search_int l target = Ok c /\ (1 <= c < length l)%nat.
Proof.
  intros A Ll Hs. unfold cut_search_int. set (h := (length l - 1)%nat).
  destruct (nth_error l 0) as [k0|] eqn:E0; [|apply nth_error_None in E0; lia]. destruct (nth_error l h) as [kh|] eqn:Eh; [|apply nth_error_None in Eh; unfold h in Eh; lia].
  assert (before k0 kh) as L0h by (apply (asc_nth l 0 h); [exact A|unfold h; lia|exact E0|exact Eh]).
  destruct (lcp_anchor _ _ L0h) as [La _]. destruct (Hs kh) as [_ L8]; [eapply nth_error_In; exact Eh|].
  destruct (cut_loop_int_ok l (S (lcp (fst k0) (fst kh))) target) with (fuel := S h) (lo := O) (hi := h) as (r & R1 & R2); [lia|lia|unfold h; lia|].
  exists r. split; [exact R1|]. unfold h in R2. lia.
Qed.
Lemma split_leaf_int_ok lf hn k v : leaf_ok lf -> (1 <= length (l_kvs lf))%nat -> (length (l_kvs lf) <= KPN)%nat ->
  (forall x, In x (l_kvs lf) -> fst x <> k) -> shorts (l_kvs lf) -> short k ->
  exists (l1 l2 : leaf V) (k1 k2 : key * V), split_leaf_int lf hn k v = Ok (l1, l2) /\ leaf_ok l1 /\ leaf_ok l2
  /\ l_anchor l1 = l_anchor lf
  /\ (forall x, In x (l_kvs l1) \/ In x (l_kvs l2) <-> x = (k, v) \/ In x (l_kvs lf))
  /\ In k1 (l_kvs l1) /\ In k2 (l_kvs l2)
  /\ (forall x, In x (l_kvs l1) -> kle (fst x) (fst k1)) /\ (forall x, In x (l_kvs l2) -> kle (fst k2) (fst x))
  /\ klt (fst k1) (l_anchor l2) /\ pfx (l_anchor l2) (fst k2) /\ full_sorted l1 /\ full_sorted l2.
Proof.
  intros H Hne Hcap Hk Hs Hsk. destruct (sync_ok lf H) as (S1 & S2 & S3 & S4). unfold split_leaf_int. rewrite sync_int_eq by assumption. cbn [bind].
  set (s := sync_sorted lf) in *. pose proof (full_asc s S1 S2) as A.
  assert (shorts (l_kvs s)) as Hss by (intros x Hx; apply Hs; apply (Permutation_in _ (Permutation_sym S3)); exact Hx).
  destruct (search_leaf_ok s k S1 Hss Hsk) as (r & R1 & R2 & R3 & R4).
  destruct (place_ok (l_kvs s) k v r) as [Aall Pall].
  { exact A. }
  { unfold full_sorted in S2. lia. }
  { intros x Hx. apply Hk. apply (Permutation_in _ (Permutation_sym S3)). exact Hx. }
  { intros j x Lj Hj. apply klt_kle. apply (R3 j x Lj Hj). }
  { intros j x Lj Hj. apply (R4 j x); [|exact Hj]. split; [exact Lj|]. unfold full_sorted in S2. rewrite S2. apply nth_error_Some. congruence. }
  rewrite R1. cbn [bind]. set (all := firstn r (l_kvs s) ++ (k, v) :: skipn r (l_kvs s)) in *.
  assert (forall x, In x all <-> x = (k, v) \/ In x (l_kvs lf)) as Hin.
  { intros x. split; intros Hx.
    - apply (Permutation_in _ (Permutation_sym Pall)) in Hx. destruct Hx as [<-|Hx]; [auto|]. right. apply (Permutation_in _ (Permutation_sym S3)). exact Hx.
    - apply (Permutation_in _ Pall). destruct Hx as [->|Hx]; [left; reflexivity|]. right. apply (Permutation_in _ S3). exact Hx. }
  assert (length all = S (length (l_kvs lf))) as Lall.
  { apply Permutation_length in Pall, S3. cbn [length] in Pall. lia. }
  destruct (cut_search_int_ok all (if hn then MID else MRG) Aall) as (c & C1 & C2); [lia| |].
  { intros x Hx. apply Hin in Hx. destruct Hx as [->|Hx]; [exact Hsk|apply Hs; exact Hx]. }
  rewrite C1. cbn [bind]. clearbody all.
  destruct (cut_parts lf k v all (l_anchor lf) c Aall) as (k1 & k2 & E1 & E2 & P1 & P2 & P3 & P4 & P5 & P6 & P7 & P8 & P9); [lia|lia|exact Hin|].
  rewrite E1, E2. eexists _, _, k1, k2. split; [reflexivity|]. split; [exact P1|]. split; [exact P2|]. split; [reflexivity|]. repeat (split; [assumption|]).
  split; unfold full_sorted; cbn [l_sorted l_kvs]; [rewrite firstn_length|rewrite skipn_length]; lia.
Qed.
End Leaf.

(** ** the index *)
Section Index.
Context {V : Type}.
Implicit Types (w : wormhole V) (l m : leaf V) (A B : list (leaf V)).
Definition small w : Prop := forall x, holds w x -> short (fst x).
Lemma small_leaf w l : small w -> In l (w_leaves w) -> shorts (l_kvs l).
Proof. intros H Hl x Hx. apply H. exists l. auto. Qed.
Lemma small_same w w' : small w -> same w w' -> small w'.
Proof. intros H (_ & S2 & _) x Hx. apply H. apply S2. exact Hx. Qed.

Lemma locate_parts : forall ls a B l A, locate ls a = Some (B, l, A) -> ls = B ++ l :: A /\ l_anchor l = a.
Proof.
  induction ls as [|x ls IH]; intros a B l A E; cbn [locate] in E; [discriminate|]. rewrite key_eq_dec in E. destruct (key_dec (l_anchor x) a) as [Ea|_].
  - injection E as <- <- <-. auto.
  - destruct (locate ls a) as [[[b y] r']|] eqn:El; [|discriminate]. injection E as <- <- <-. destruct (IH _ _ _ _ El) as [-> ?]. auto.
Qed.
Lemma iter_fix_int_eq : forall fuel w a is, winv w -> small w -> iter_fix_int fuel w a is = iter_fix fuel w a is.
Proof.
  induction fuel as [|fuel IH]; intros w a is H Hs; [reflexivity|]. cbn [iter_fix_int iter_fix]. destruct (locate (w_leaves w) a) as [[[B l] A]|] eqn:E; [|reflexivity].
  apply locate_parts in E. destruct E as [E _]. destruct (is <? Z.of_nat (l_sorted l)); [reflexivity|]. destruct A as [|x A]; [reflexivity|].
  assert (In x (w_leaves w)) as Hx by (rewrite E; apply in_or_app; right; right; left; reflexivity).
  rewrite sync_int_eq; [|apply (wi_own _ H x Hx)|eapply small_leaf; eassumption]. cbn [bind]. destruct w as [ls h mp]. cbn [w_leaves w_hmap w_maxplen] in *. subst ls.
  assert (same (mkwh (B ++ l :: x :: A) h mp) (mkwh (B ++ l :: sync_sorted x :: A) h mp)) as S.
  { replace (B ++ l :: x :: A) with ((B ++ [l]) ++ x :: A) in * by (rewrite <- app_assoc; reflexivity).
    replace (B ++ l :: sync_sorted x :: A) with ((B ++ [l]) ++ sync_sorted x :: A) by (rewrite <- app_assoc; reflexivity). apply sync_same. exact H. }
  apply IH; [apply S|eapply small_same; eassumption].
Qed.
Lemma iter_fix_rev_int_eq : forall fuel w a is, winv w -> small w -> iter_fix_rev_int fuel w a is = iter_fix_rev fuel w a is.
Proof.
  induction fuel as [|fuel IH]; intros w a is H Hs; [reflexivity|]. cbn [iter_fix_rev_int iter_fix_rev]. destruct (0 <=? is); [reflexivity|].
  destruct (locate (w_leaves w) a) as [[[B l] A]|] eqn:E; [|reflexivity].
  apply locate_parts in E. destruct E as [E _]. destruct (rev B) as [|x B'] eqn:EB; [reflexivity|].
  assert (B = rev B' ++ [x]) as -> by (rewrite <- (rev_involutive B), EB; reflexivity). rewrite <- app_assoc in E. cbn [app] in E.
  assert (In x (w_leaves w)) as Hx by (rewrite E; apply in_or_app; right; left; reflexivity).
  rewrite sync_int_eq; [|apply (wi_own _ H x Hx)|eapply small_leaf; eassumption]. cbn [bind]. destruct w as [ls h mp]. cbn [w_leaves w_hmap w_maxplen] in *. subst ls.
  pose proof (sync_same _ _ _ _ _ H) as S. apply IH; [apply S|eapply small_same; eassumption].
Qed.
Lemma skip1_int_eq w it : winv w -> small w -> iter_skip1_int w it = wh_iter_skip1 w it.
Proof. intros H Hs. destruct it as [[a is]|]; [apply iter_fix_int_eq; assumption|reflexivity]. Qed.
Lemma skip1_rev_int_eq w it : winv w -> small w -> iter_skip1_rev_int w it = wh_iter_skip1_rev w it.
Proof. intros H Hs. destruct it as [[a is]|]; [apply iter_fix_rev_int_eq; assumption|reflexivity]. Qed.
Lemma seek_int_eq w fp k : winv w -> small w -> short k -> iter_seek_int fp w k = wh_iter_seek fp w k.
Proof.
  intros H Hs Hk. unfold iter_seek_int, wh_iter_seek. destruct (jump (w_hmap w) fp (w_maxplen w) k) as [a| |]; [|reflexivity|reflexivity]. cbn [bind].
  destruct (locate (w_leaves w) a) as [[[B l] A]|] eqn:E; [|reflexivity]. apply locate_parts in E. destruct E as [E _].
  assert (In l (w_leaves w)) as Hl by (rewrite E; apply in_or_app; right; left; reflexivity). pose proof (wi_own _ H l Hl) as Ho. pose proof (small_leaf _ _ Hs Hl) as Hsl.
  rewrite sync_int_eq by (try assumption; apply Ho). cbn [bind]. cbv zeta. destruct (sync_ok l (proj1 Ho)) as (S1 & S2 & S3 & S4).
  assert (shorts (l_kvs (sync_sorted l))) as Hss by (intros x Hx; apply Hsl; apply (Permutation_in _ (Permutation_sym S3)); exact Hx).
  destruct (leaf_seek_ok (sync_sorted l) k S1 S2) as (r & R1 & R2 & R3 & R4). rewrite R1. cbn [bind].
  destruct (search_leaf_ok (sync_sorted l) k S1 Hss Hk) as (q & Q1 & Q2 & Q3 & Q4). unfold seek_int. rewrite Q1. cbn [bind]. rewrite S2 in Q2, Q4.
  assert (q = r) as ->.
  { destruct (Nat.lt_trichotomy q r) as [L|[L|L]]; [|exact L|]; exfalso.
    - destruct (nth_error (l_kvs (sync_sorted l)) q) as [x|] eqn:Ex; [|apply nth_error_None in Ex; lia]. specialize (R3 q x L Ex). apply klt_not in R3. apply R3. apply (Q4 q x); [lia|exact Ex].
    - destruct (nth_error (l_kvs (sync_sorted l)) r) as [x|] eqn:Ex; [|apply nth_error_None in Ex; lia]. specialize (Q3 r x L Ex). apply klt_not in Q3. apply Q3. apply (R4 r x); [lia|exact Ex]. }
  destruct w as [ls h mp]. cbn [w_leaves w_hmap w_maxplen] in *. subst ls. pose proof (sync_same _ _ _ _ _ H) as S. apply iter_fix_int_eq; [apply S|eapply small_same; eassumption].
Qed.

(** *** which keys are settled *)
Lemma same_leaf w l m x y : winv w -> In l (w_leaves w) -> In m (w_leaves w) -> In x (l_kvs l) -> In y (l_kvs m) -> fst x = fst y -> l = m.
Proof.
  intros H Hl Hm Hx Hy E. apply in_split in Hl. destruct Hl as (B & A & El). pose proof (wi_chain _ H) as C. rewrite El in C.
  destruct (chain_split _ _ _ C) as (_ & _ & C1 & C2 & _). rewrite El in Hm. apply in_app_or in Hm. destruct Hm as [Hm|[Hm|Hm]]; [|exact Hm|].
  - exfalso. destruct (C1 m Hm) as [_ K]. specialize (K y Hy). rewrite <- E in K. apply klt_not in K. apply K.
    apply (wi_own _ H l); [rewrite El; apply in_or_app; right; left; reflexivity|exact Hx].
  - exfalso. destruct (C2 m Hm) as [_ K]. specialize (K x Hx). rewrite E in K. apply klt_not in K. apply K.
    apply (wi_own _ H m); [rewrite El; apply in_or_app; right; right; exact Hm|exact Hy].
Qed.
Lemma pos_settled w it x : winv w -> pos w it x -> settled w (fst x).
Proof.
  intros H (l & i & Hl & F & _ & Hi) m j v Hm Hj. assert (l = m) as <-; [|rewrite F; apply nth_error_Some; congruence].
  eapply (same_leaf w l m x (fst x, v)); [exact H|exact Hl|exact Hm|eapply nth_error_In; exact Hi|eapply nth_error_In; exact Hj|reflexivity].
Qed.
Lemma distinct_nth (t : list (key * V)) i j k u v : distinct t -> nth_error t i = Some (k, u) -> nth_error t j = Some (k, v) -> i = j.
Proof.
  intros D Hi Hj. unfold distinct in D. rewrite NoDup_nth_error in D. apply D.
  - rewrite map_length. apply nth_error_Some. congruence.
  - rewrite !nth_error_map, Hi, Hj. reflexivity.
Qed.
Lemma settled_parts h mp B l A q : settled (mkwh (B ++ l :: A) h mp) q <-> (forall m i v, In m (B ++ A) -> nth_error (l_kvs m) i = Some (q, v) -> (i < l_sorted m)%nat)
  /\ (forall i v, nth_error (l_kvs l) i = Some (q, v) -> (i < l_sorted l)%nat).
Proof.
  unfold settled. cbn [w_leaves]. split.
  - intros S. split; [|intros i v; apply S; apply in_or_app; right; left; reflexivity]. intros m i v Hm. apply S. apply in_app_or in Hm. apply in_or_app. destruct Hm; [auto|right; right; assumption].
  - intros [S1 S2] m i v Hm. apply in_app_or in Hm. destruct Hm as [Hm|[<-|Hm]]; [|apply S2|]; apply S1; apply in_or_app; auto.
Qed.

Theorem put_int_ok w fp k v : winv w -> small w -> short k -> ((forall u, ~ holds w (k, u)) \/ settled w k) ->
  exists w', put_int fp w k v = Ok (w', true) /\ winv w' /\ small w'
  /\ (forall x, holds w' x <-> x = (k, v) \/ holds w x /\ fst x <> k)
  /\ (forall q, settled w q -> (q = k -> exists u, holds w (k, u)) -> settled w' q)
  /\ (forall ks, length (w_leaves w) = 1%nat -> (forall x, holds w' x -> In (fst x) ks) -> (length ks <= KPN)%nat -> length (w_leaves w') = 1%nat).
Proof.
  intros H Hs Hk Hp. pose proof (short_ok _ Hk) as Hko. destruct Hko as [Hkb Hkl].
  destruct (find_leaf w fp k H Hkb) as (B & l & A & El & J & Lo & L1 & L2 & L3 & L4). unfold put_int. rewrite J. cbn [bind]. rewrite Lo.
  assert (In l (w_leaves w)) as Hl by (rewrite El; apply in_or_app; right; left; reflexivity). pose proof (small_leaf _ _ Hs Hl) as Hsl.
  destruct w as [ls h mp]. cbn [w_leaves w_hmap w_maxplen] in *. subst ls.
  pose proof (wi_own _ H l Hl) as Ho. destruct Ho as [Ho1 Ho2].
  pose proof (wi_chain _ H) as C. cbn [w_leaves] in C. destruct (chain_split _ _ _ C) as (C1 & C2 & C3 & C4 & C5).
  assert (forall m x, In m (B ++ A) -> In x (l_kvs m) -> fst x <> k) as Hoth.
  { intros m x Hm Hx E. apply in_app_or in Hm. destruct Hm as [Hm|Hm]; [specialize (L3 m x Hm Hx)|specialize (L4 m x Hm Hx)]; rewrite E in *; eapply klt_irrefl; eassumption. }
  assert (forall w', (forall x, holds w' x <-> x = (k, v) \/ holds (mkwh (B ++ l :: A) h mp) x /\ fst x <> k) -> small w') as Hsm.
  { intros w' G x Hx. apply G in Hx. destruct Hx as [->|[Hx _]]; [exact Hk|apply Hs; exact Hx]. }
  destruct (search_eq_ok l k Ho1 Hsl Hk) as (o & E & Eo). rewrite E. cbn [bind]. destruct o as [i|].
  - destruct Eo as [v0 Ev]. destruct (update_ok l i k v v0 Ho1 Ev) as (U1 & U2 & U3 & _ & U5).
    assert (forall x, holds (mkwh (B ++ leaf_update l i k v :: A) h mp) x <-> x = (k, v) \/ holds (mkwh (B ++ l :: A) h mp) x /\ fst x <> k) as Hh.
    { intros x. rewrite !holds_at, U5. split; [intros [(m & Hm & Hx)|[->|[Hx N]]]|intros [->|[[(m & Hm & Hx)|Hx] N]]]; eauto 6.
      right. split; [left; eauto|]. eapply Hoth; eauto. }
    eexists. split; [reflexivity|]. split; [|split; [apply Hsm; exact Hh|split; [exact Hh|split]]].
    + eapply upd_inv; [exact H| |exact U2|].
      * split; [exact U1|]. intros x Hx. rewrite U2. apply U5 in Hx. destruct Hx as [->|[Hx _]]; [cbn [fst]; repeat split; assumption|apply Ho2; exact Hx].
      * intros a x Ha Hx. apply U5 in Hx. destruct Hx as [->|[Hx _]]; [apply L2; exact Ha|apply (C4 a Ha); exact Hx].
    + intros q Sq _. apply settled_parts in Sq. apply settled_parts. destruct Sq as [S1 S2]. split; [exact S1|]. intros j u Hj. change (l_sorted (leaf_update l i k v)) with (l_sorted l).
      assert (nth_error (map fst (l_kvs l)) j = Some q) as G by (rewrite <- U3, nth_error_map, Hj; reflexivity). rewrite nth_error_map in G.
      destruct (nth_error (l_kvs l) j) as [[q' u']|] eqn:Eq; [|discriminate]. cbn [option_map fst] in G. injection G as ->. apply (S2 j u'). exact Eq.
    + intros ks Hn _ _. cbn [w_leaves] in *. rewrite app_length in *. exact Hn.
  - assert (forall x, In x (l_kvs l) -> fst x <> k) as Nk.
    { intros [q u] Hx Eq. cbn [fst] in Eq. subst q. destruct Hp as [Hp|Hp]; [apply (Hp u); exists l; auto|]. apply In_nth_error in Hx. destruct Hx as [j Hj].
      specialize (Hp l j u Hl Hj). specialize (Eo j u Hj). lia. }
    destruct (Nat.ltb_spec (length (l_kvs l)) KPN) as [Lt|Ge].
    + rewrite insert_int_eq by assumption. destruct (insert_ok l k v Ho1 Lt Nk) as (U1 & U2 & U5). pose proof (insert_sorted_le l k v Ho1) as Le.
      assert (forall x, holds (mkwh (B ++ leaf_insert l k v :: A) h mp) x <-> x = (k, v) \/ holds (mkwh (B ++ l :: A) h mp) x /\ fst x <> k) as Hh.
      { intros x. rewrite !holds_at, U5. split; [intros [(m & Hm & Hx)|[->|Hx]]|intros [->|[[(m & Hm & Hx)|Hx] N]]]; eauto 6.
        right. split; [left; eauto|]. eapply Hoth; eauto. }
      eexists. split; [reflexivity|]. split; [|split; [apply Hsm; exact Hh|split; [exact Hh|split]]].
      * eapply upd_inv; [exact H| |exact U2|].
        -- split; [exact U1|]. intros x Hx. rewrite U2. apply U5 in Hx. destruct Hx as [->|Hx]; [cbn [fst]; repeat split; assumption|apply Ho2; exact Hx].
        -- intros a x Ha Hx. apply U5 in Hx. destruct Hx as [->|Hx]; [apply L2; exact Ha|apply (C4 a Ha); exact Hx].
      * intros q Sq Hq. apply settled_parts in Sq. apply settled_parts. destruct Sq as [S1 S2]. split; [exact S1|]. intros j u Hj.
        change (l_kvs (leaf_insert l k v)) with (l_kvs l ++ [(k, v)]) in Hj. destruct (Nat.lt_ge_cases j (length (l_kvs l))) as [L|L].
        -- rewrite nth_error_app1 in Hj by exact L. specialize (S2 j u Hj). lia.
        -- exfalso. rewrite nth_error_app2 in Hj by exact L. destruct (j - length (l_kvs l))%nat as [|n]; [|destruct n; discriminate]. cbn in Hj. injection Hj as <- <-.
           destruct (Hq eq_refl) as [u Hu]. apply holds_at in Hu. destruct Hu as [(m & Hm & Hu)|Hu]; [apply (Hoth m _ Hm Hu)|apply (Nk _ Hu)]; reflexivity.
      * intros ks Hn _ _. cbn [w_leaves] in *. rewrite app_length in *. exact Hn.
    + assert (length (l_kvs l) <= KPN)%nat as Cap by apply (lo_cap _ Ho1).
      destruct (split_leaf_int_ok l (match A with [] => false | _ => true end) k v Ho1) as (l1 & l2 & k1 & k2 & S1 & S2 & S3 & S4 & S5 & S6 & S7 & S8 & S9 & S10 & S11 & S12 & S13);
        [unfold KPN in Ge; lia|exact Cap|exact Nk|exact Hsl|exact Hk|].
      rewrite S1. cbn [bind].
      destruct (split_inv h mp B l A l1 l2 k1 k2 k v) as (h' & mp' & M1 & M2 & M3); try assumption; [split; assumption|].
      rewrite M1. cbn [bind]. eexists. split; [reflexivity|]. split; [exact M2|]. split; [apply Hsm; exact M3|]. split; [exact M3|]. split.
      * intros q Sq Hq. apply settled_parts in Sq. destruct Sq as [T1 T2]. apply settled_parts. split.
        -- intros m j u Hm Hj. apply in_app_or in Hm. destruct Hm as [Hm|[<-|Hm]]; [apply (T1 m j u); [apply in_or_app; auto|exact Hj]| |apply (T1 m j u); [apply in_or_app; auto|exact Hj]].
           rewrite S13. apply nth_error_Some. congruence.
        -- intros j u Hj. rewrite S12. apply nth_error_Some. congruence.
      * intros ks Hn Hks Hc. exfalso. cbn [w_leaves] in Hn. rewrite app_length in Hn. cbn [length] in Hn.
        assert (length (map fst ((k, v) :: l_kvs l)) <= length ks)%nat as G.
        { apply NoDup_incl_length.
          - cbn [map fst]. constructor; [|apply Ho1]. intros G. apply in_map_iff in G. destruct G as (x & G & Hx). apply (Nk x Hx G).
          - intros q Hq. apply in_map_iff in Hq. destruct Hq as (x & <- & Hx). apply Hks. apply M3. destruct Hx as [<-|Hx]; [auto|]. right. split; [apply holds_at; auto|apply Nk; exact Hx]. }
        rewrite map_length in G. cbn [length] in G. lia.
Qed.

Theorem del_int_ok again w fp k : winv w -> small w -> short k -> ((forall u, ~ holds w (k, u)) \/ settled w k) -> (again = true -> length (w_leaves w) = 1%nat) ->
  exists w' b, del_int again fp w k = Ok (w', b) /\ winv w' /\ small w'
  /\ (forall x, holds w' x <-> holds w x /\ fst x <> k) /\ (b = true <-> exists v, holds w (k, v))
  /\ (forall q, settled w q -> klt q k -> settled w' q)
  /\ (length (w_leaves w) = 1%nat -> length (w_leaves w') = 1%nat).
Proof.
  intros H Hs Hk Hp Hag. pose proof (short_ok _ Hk) as Hko. destruct Hko as [Hkb Hkl].
  destruct (find_leaf w fp k H Hkb) as (B & l & A & El & J & Lo & L1 & L2 & L3 & L4). unfold del_int. rewrite J. cbn [bind]. rewrite Lo.
  assert (In l (w_leaves w)) as Hl by (rewrite El; apply in_or_app; right; left; reflexivity). pose proof (small_leaf _ _ Hs Hl) as Hsl.
  destruct w as [ls h mp]. cbn [w_leaves w_hmap w_maxplen] in *. subst ls.
  pose proof (wi_own _ H l Hl) as Ho. destruct Ho as [Ho1 Ho2].
  pose proof (wi_chain _ H) as C. cbn [w_leaves] in C. destruct (chain_split _ _ _ C) as (C1 & C2 & C3 & C4 & C5).
  assert (forall m x, In m (B ++ A) -> In x (l_kvs m) -> fst x <> k) as Hoth.
  { intros m x Hm Hx E. apply in_app_or in Hm. destruct Hm as [Hm|Hm]; [specialize (L3 m x Hm Hx)|specialize (L4 m x Hm Hx)]; rewrite E in *; eapply klt_irrefl; eassumption. }
  assert (forall w', (forall x, holds w' x <-> holds (mkwh (B ++ l :: A) h mp) x /\ fst x <> k) -> small w') as Hsm.
  { intros w' G x Hx. apply G in Hx. apply Hs. apply Hx. }
  destruct (search_eq_ok l k Ho1 Hsl Hk) as (o & E & Eo). rewrite E. cbn [bind]. destruct o as [i|].
  2:{ assert (forall x, In x (l_kvs l) -> fst x <> k) as Nk.
      { intros [q u] Hx Eq. cbn [fst] in Eq. subst q. destruct Hp as [Hp|Hp]; [apply (Hp u); exists l; auto|]. apply In_nth_error in Hx. destruct Hx as [j Hj].
        specialize (Hp l j u Hl Hj). specialize (Eo j u Hj). lia. }
      eexists _, false. split; [reflexivity|]. split; [exact H|]. split; [exact Hs|]. split; [|split; [|split]].
      - intros x. split; [|tauto]. intros Hx. split; [exact Hx|]. apply holds_at in Hx. destruct Hx as [(m & Hm & Hx)|Hx]; [eapply Hoth; eauto|apply Nk; exact Hx].
      - split; [discriminate|]. intros [v Hv]. exfalso. apply holds_at in Hv. destruct Hv as [(m & Hm & Hx)|Hx]; [apply (Hoth m _ Hm Hx)|apply (Nk _ Hx)]; reflexivity.
      - auto.
      - auto. }
  destruct Eo as [v0 Ev]. destruct (remove_ok l i (k, v0) Ho1 Ev) as (U1 & U2 & U3 & U5). cbn [fst] in U5.
  assert (exists v, holds (mkwh (B ++ l :: A) h mp) (k, v)) as Hex.
  { exists v0. apply holds_at. right. eapply nth_error_In. exact Ev. }
  assert (i < length (l_kvs l))%nat as Li by (apply nth_error_Some; congruence).
  assert (i < l_sorted l)%nat as Lis.
  { destruct Hp as [Hp|Hp]; [exfalso; apply (Hp v0); exists l; split; [exact Hl|eapply nth_error_In; exact Ev]|]. apply (Hp l i v0 Hl Ev). }
  (* the keys of this leaf below k stay where they are *)
  assert (forall q j u, (forall j u, nth_error (l_kvs l) j = Some (q, u) -> (j < l_sorted l)%nat) -> klt q k -> nth_error (l_kvs (leaf_remove l i)) j = Some (q, u) -> (j < i)%nat) as Hstay.
  { intros q j u Sq Lq Hj. assert (In (q, u) (l_kvs l)) as Hin by (apply U5; eapply nth_error_In; exact Hj). apply In_nth_error in Hin. destruct Hin as [j0 Hj0]. specialize (Sq j0 u Hj0).
    assert (j0 < i)%nat as L0.
    { destruct (Nat.lt_ge_cases j0 i) as [L|L]; [exact L|]. exfalso. destruct (Nat.eq_dec i j0) as [<-|Ne].
      - rewrite Ev in Hj0. injection Hj0 as -> _. exact (klt_irrefl _ Lq).
      - apply (klt_irrefl q). eapply klt_trans; [exact Lq|]. apply (asc_nth (firstn (l_sorted l) (l_kvs l)) i j0 (k, v0) (q, u)); [apply Ho1|lia| |];
          (pose proof (lo_le _ Ho1); rewrite <- (firstn_skipn (l_sorted l) (l_kvs l)) in Ev, Hj0; rewrite nth_error_app1 in Ev, Hj0 by (rewrite firstn_length; lia); assumption). }
    assert (nth_error (l_kvs (leaf_remove l i)) j0 = Some (q, u)) as Hr.
    { pose proof (remove_firstn l i Li) as Rf. rewrite <- (firstn_skipn i (l_kvs (leaf_remove l i))). rewrite Rf. rewrite nth_error_app1 by (rewrite firstn_length; lia).
      rewrite <- (firstn_skipn i (l_kvs l)) in Hj0. rewrite nth_error_app1 in Hj0 by (rewrite firstn_length; lia). exact Hj0. }
    assert (j = j0) as -> by (eapply distinct_nth; [apply U1|exact Hj|exact Hr]). exact L0. }
  assert (l_sorted (leaf_remove l i) = i) as Es by (unfold leaf_remove; cbn [l_sorted]; replace (Nat.ltb i (l_sorted l)) with true by (symmetry; apply Nat.ltb_lt; exact Lis); reflexivity).
  set (l' := leaf_remove l i) in *.
  assert (lown l') as Ho'. { split; [exact U1|]. intros x Hx. rewrite U2. apply Ho2. apply U5. exact Hx. }
  assert (winv (mkwh (B ++ l' :: A) h mp)) as H'.
  { eapply upd_inv; [exact H|exact Ho'|exact U2|]. intros a x Ha Hx. apply (C4 a Ha). apply U5. exact Hx. }
  assert (forall x, holds (mkwh (B ++ l' :: A) h mp) x <-> holds (mkwh (B ++ l :: A) h mp) x /\ fst x <> k) as Hh.
  { intros x. rewrite !holds_at, U5. split; [|tauto]. intros [(m & Hm & Hx)|Hx]; [|tauto]. split; [left; eauto|]. eapply Hoth; eauto. }
  assert (forall q, settled (mkwh (B ++ l :: A) h mp) q -> klt q k -> settled (mkwh (B ++ l' :: A) h mp) q) as Hset.
  { intros q Sq Lq. apply settled_parts in Sq. destruct Sq as [T1 T2]. apply settled_parts. split; [exact T1|]. intros j u Hj. rewrite Es. eapply Hstay; eassumption. }
  clearbody l'. destruct A as [|y A].
  - eexists _, true. split; [reflexivity|]. split; [exact H'|]. split; [apply Hsm; exact Hh|]. split; [exact Hh|]. split; [tauto|]. split; [exact Hset|].
    cbn [w_leaves]. rewrite !app_length. auto.
  - cbv zeta. destruct ((Nat.eqb (length (l_kvs l')) 0 || Nat.ltb (length (l_kvs l') + length (l_kvs y)) MRG) && Nat.leb (length (l_kvs l') + length (l_kvs y)) KPN) eqn:Eif.
    2:{ eexists _, true. split; [reflexivity|]. split; [exact H'|]. split; [apply Hsm; exact Hh|]. split; [exact Hh|]. split; [tauto|]. split; [exact Hset|].
        cbn [w_leaves]. rewrite !app_length. auto. }
    apply andb_true_iff in Eif. destruct Eif as [_ Ec]. apply Nat.leb_le in Ec.
    assert (again = false) as -> by (destruct again; [exfalso; specialize (Hag eq_refl); rewrite app_length in Hag; cbn [length] in Hag; lia|reflexivity]).
    pose proof (wi_chain _ H') as D. cbn [w_leaves] in D. destruct (chain_split _ _ _ D) as (_ & _ & _ & D4 & _).
    pose proof (wi_own _ H' y ltac:(cbn [w_leaves]; apply in_or_app; right; right; left; reflexivity)) as Oy.
    assert (forall x z, In x (l_kvs l') -> In z (l_kvs y) -> before x z) as Hb.
    { intros x z Hx Hz. eapply klt_le; [apply (D4 y (or_introl eq_refl)); exact Hx|]. apply Oy. exact Hz. }
    assert (shorts (l_kvs y)) as Hsy by (apply (small_leaf _ _ Hs); apply in_or_app; right; right; left; reflexivity).
    assert (shorts (l_kvs l')) as Hsl' by (intros x Hx; apply Hsl; apply U5; exact Hx).
    destruct (merge_int_ok (l_kvs y) l' U1) as (G1 & G2 & G3 & G4); [| |exact Hsl'|exact Hsy|].
    { unfold distinct. rewrite map_app. apply NoDup_app_intro; [apply U1|apply Oy|]. intros q Hq Hq'. apply in_map_iff in Hq, Hq'. destruct Hq as (x & Ex & Hx). destruct Hq' as (z & Ez & Hz).
      specialize (Hb x z Hx Hz). unfold before in Hb. rewrite Ex, Ez in Hb. exact (klt_irrefl _ Hb). }
    { exact Ec. }
    unfold merge_int. cbn [andb]. set (f := fold_left (fun (a : leaf V) (x : key * V) => insert_int a (fst x) (snd x)) (l_kvs y) l') in *. cbv zeta in G1, G2, G3, G4.
    assert (mkleaf (l_anchor f) (l_kvs f) (l_sorted f) = f) as Ef by (destruct f; reflexivity). rewrite Ef. clearbody f. clear Ef.
    destruct (merge_inv h mp B l' y A f H' G1 G2) as (h' & M1 & M2 & M3).
    { intros x. rewrite G3. apply in_app_iff. }
    assert (forall x, holds (mkwh (B ++ f :: A) h' mp) x <-> holds (mkwh (B ++ l :: y :: A) h mp) x /\ fst x <> k) as Hh' by (intros x; rewrite M3; apply Hh).
    rewrite M1. cbn [bind]. eexists _, true. split; [reflexivity|]. split; [exact M2|]. split; [apply Hsm; exact Hh'|]. split; [exact Hh'|]. split; [tauto|]. split.
    + intros q Sq Lq. pose proof (Hset q Sq Lq) as Sq'. apply settled_parts in Sq'. destruct Sq' as [T1 T2]. apply settled_parts. split.
      * intros m j u Hm. apply T1. apply in_app_or in Hm. apply in_or_app. destruct Hm; [auto|right; right; assumption].
      * intros j u Hj. rewrite G3 in Hj. destruct (Nat.lt_ge_cases j (length (l_kvs l'))) as [L|L].
        -- rewrite nth_error_app1 in Hj by exact L. specialize (T2 j u Hj). lia.
        -- exfalso. rewrite nth_error_app2 in Hj by exact L. apply nth_error_In in Hj. specialize (L4 y (q, u) (or_introl eq_refl) Hj). cbn [fst] in L4.
           apply (klt_irrefl q). eapply klt_trans; eassumption.
    + cbn [w_leaves]. rewrite !app_length. cbn [length]. lia.
Qed.
End Index.
