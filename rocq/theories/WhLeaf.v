(** The leaves of the index: sorting, searching, inserting, removing, splitting. *)
From Coq Require Import ZArith List Bool Lia Arith Sorted Permutation.
From Verif Require Import Base Key KeyOrder Wormhole WhKey.
Import ListNotations.
Open Scope Z_scope.

Section Leaf.
Context {V : Type}.
Implicit Types (l a b : list (key * V)) (x y : key * V).

Definition before x y : Prop := klt (fst x) (fst y).
Definition notafter x y : Prop := kle (fst x) (fst y).
Definition asc l : Prop := StronglySorted before l.
Definition weak l : Prop := StronglySorted notafter l.
Definition distinct l : Prop := NoDup (map fst l).

Lemma asc_weak l : asc l -> weak l.
Proof.
  induction 1 as [|x l H IH F]; constructor; [exact IH|]. eapply Forall_impl; [|exact F]. intros y. apply klt_kle.
Qed.
Lemma weak_asc l : weak l -> distinct l -> asc l.
Proof.
  induction 1 as [|x l H IH F]; intros D; constructor; apply NoDup_cons_iff in D; destruct D as [D1 D2]; [apply IH; exact D2|].
  apply Forall_forall. intros y Hy. rewrite Forall_forall in F. specialize (F y Hy). apply kle_cases in F. destruct F as [F|F]; [|exact F].
  exfalso. apply D1. rewrite F. apply in_map. exact Hy.
Qed.
Lemma asc_distinct l : asc l -> distinct l.
Proof.
  induction 1 as [|x l H IH F]; constructor; [|exact IH]. intros C. apply in_map_iff in C. destruct C as (y & E & Hy).
  rewrite Forall_forall in F. specialize (F y Hy). unfold before in F. rewrite E in F. exact (klt_irrefl _ F).
Qed.
Lemma asc_app a b : asc (a ++ b) <-> asc a /\ asc b /\ forall x y, In x a -> In y b -> before x y.
Proof.
  induction a as [|x a IH]; cbn [app].
  - split; [intros H; repeat split; [constructor|exact H|intros ? ? []]|tauto].
  - split.
    + intros H. inversion H as [|? ? H1 H2]; subst. apply IH in H1. destruct H1 as (A1 & A2 & A3). rewrite Forall_forall in H2. repeat split.
      * constructor; [exact A1|]. apply Forall_forall. intros y Hy. apply H2. apply in_or_app. auto.
      * exact A2.
      * intros y z [<-|Hy] Hz; [apply H2; apply in_or_app; auto|apply A3; assumption].
    + intros (A1 & A2 & A3). inversion A1 as [|? ? H1 H2]; subst. constructor.
      * apply IH. repeat split; [exact H1|exact A2|]. intros y z Hy Hz. apply A3; [right; exact Hy|exact Hz].
      * apply Forall_forall. intros y Hy. apply in_app_or in Hy. destruct Hy as [Hy|Hy]; [rewrite Forall_forall in H2; apply H2; exact Hy|apply A3; [left; reflexivity|exact Hy]].
Qed.
Lemma asc_nth l i j x y : asc l -> (i < j)%nat -> nth_error l i = Some x -> nth_error l j = Some y -> before x y.
Proof.
  revert i j. induction l as [|z l IH]; intros i j H L Hi Hj; [destruct i; discriminate|]. inversion H as [|? ? H1 H2]; subst.
  destruct j as [|j]; [lia|]. cbn [nth_error] in Hj. destruct i as [|i].
  - injection Hi as ->. rewrite Forall_forall in H2. apply H2. eapply nth_error_In. exact Hj.
  - cbn [nth_error] in Hi. eapply IH; [exact H1| |exact Hi|exact Hj]. lia.
Qed.
(** two sorted lists with the same members are equal *)
Lemma asc_ext a b : asc a -> asc b -> (forall x, In x a <-> In x b) -> a = b.
Proof.
  revert b. induction a as [|x a IH]; intros b Ha Hb H.
  - destruct b as [|y b]; [reflexivity|]. exfalso. apply (H y). left. reflexivity.
  - destruct b as [|y b]; [exfalso; apply (H x); left; reflexivity|].
    inversion Ha as [|? ? A1 A2]; subst. inversion Hb as [|? ? B1 B2]; subst. rewrite Forall_forall in A2, B2.
    assert (x = y) as <-.
    { destruct (proj1 (H x) (or_introl eq_refl)) as [E|E]; [congruence|]. destruct (proj2 (H y) (or_introl eq_refl)) as [F|F]; [exact F|].
      exfalso. apply (klt_irrefl (fst x)). eapply klt_trans; [apply (A2 y F)|apply (B2 x E)]. }
    f_equal. apply IH; [exact A1|exact B1|]. intros z. split; intros Hz.
    + destruct (proj1 (H z) (or_intror Hz)) as [E|E]; [|exact E]. exfalso. subst z. apply (klt_irrefl (fst x)). apply (A2 x Hz).
    + destruct (proj2 (H z) (or_intror Hz)) as [E|E]; [|exact E]. exfalso. subst z. apply (klt_irrefl (fst x)). apply (B2 x Hz).
Qed.
Lemma asc_firstn n l : asc l -> asc (firstn n l).
Proof. intros H. rewrite <- (firstn_skipn n l) in H. apply asc_app in H. tauto. Qed.
Lemma asc_skipn n l : asc l -> asc (skipn n l).
Proof. intros H. rewrite <- (firstn_skipn n l) in H. apply asc_app in H. tauto. Qed.
Lemma distinct_perm a b : Permutation a b -> distinct a -> distinct b.
Proof. intros P D. eapply Permutation_NoDup; [apply Permutation_map; exact P|exact D]. Qed.
Lemma distinct_eq l x y : distinct l -> In x l -> In y l -> fst x = fst y -> x = y.
Proof.
  intros D Hx Hy E. induction l as [|z l IH]; [destruct Hx|]. apply NoDup_cons_iff in D. destruct D as [D1 D2].
  destruct Hx as [->|Hx], Hy as [->|Hy]; auto.
  - exfalso. apply D1. rewrite E. apply in_map. exact Hy.
  - exfalso. apply D1. rewrite <- E. apply in_map. exact Hx.
Qed.

(** ** sorting *)
Lemma insert_sorted_perm x l : Permutation (x :: l) (insert_sorted x l).
Proof.
  induction l as [|y l IH]; cbn [insert_sorted]; [apply Permutation_refl|]. destruct (key_lt (fst x) (fst y)); [apply Permutation_refl|].
  eapply perm_trans; [apply perm_swap|]. apply perm_skip. exact IH.
Qed.
Lemma insert_sorted_weak x l : weak l -> weak (insert_sorted x l).
Proof.
  induction 1 as [|y l H IH F]; cbn [insert_sorted]; [constructor; constructor|]. destruct (key_lt (fst x) (fst y)) eqn:E.
  - constructor; [constructor; assumption|]. constructor; [apply klt_kle; exact E|]. eapply Forall_impl; [|exact F]. intros z Hz.
    eapply kle_trans; [apply klt_kle; exact E|exact Hz].
  - constructor; [exact IH|]. apply Forall_forall. intros z Hz. apply (Permutation_in _ (Permutation_sym (insert_sorted_perm x l))) in Hz.
    destruct Hz as [<-|Hz]; [exact E|]. rewrite Forall_forall in F. apply F. exact Hz.
Qed.
Lemma fold_sort l : forall acc, weak acc -> weak (fold_left (fun acc x => insert_sorted x acc) l acc)
  /\ Permutation (l ++ acc) (fold_left (fun acc x => insert_sorted x acc) l acc).
Proof.
  induction l as [|x l IH]; intros acc H; cbn [fold_left app]; [auto|]. destruct (IH (insert_sorted x acc) (insert_sorted_weak x acc H)) as [H1 H2].
  split; [exact H1|]. eapply perm_trans; [|exact H2]. eapply perm_trans; [apply Permutation_middle|]. apply Permutation_app_head. apply insert_sorted_perm.
Qed.
Lemma sort_range_ok l : weak (sort_range l) /\ Permutation l (sort_range l).
Proof. destruct (fold_sort l []) as [H1 H2]; [constructor|]. rewrite app_nil_r in H2. auto. Qed.

Lemma sort_m2_perm : forall a b, Permutation (a ++ b) (sort_m2 a b).
Proof.
  induction a as [|x a IH]; intros b; cbn [app]; [apply Permutation_refl|].
  induction b as [|y b IHb]; cbn [sort_m2]; [rewrite app_nil_r; apply Permutation_refl|]. destruct (key_lt (fst y) (fst x)).
  - eapply perm_trans; [|apply perm_skip; exact IHb]. apply Permutation_sym. apply (Permutation_middle (x :: a) b y).
  - apply perm_skip. apply IH.
Qed.
Lemma sort_m2_weak : forall a b, weak a -> weak b -> weak (sort_m2 a b).
Proof.
  induction a as [|x a IH]; intros b Ha Hb; [exact Hb|].
  induction b as [|y b IHb]; cbn [sort_m2]; [exact Ha|]. inversion Ha as [|? ? A1 A2]; subst. inversion Hb as [|? ? B1 B2]; subst.
  rewrite Forall_forall in A2, B2. destruct (key_lt (fst y) (fst x)) eqn:E.
  - constructor; [apply IHb; exact B1|]. apply Forall_forall. intros z Hz. apply (Permutation_in _ (Permutation_sym (sort_m2_perm (x :: a) b))) in Hz.
    apply in_app_or in Hz. destruct Hz as [[<-|Hz]|Hz].
    + apply klt_kle. exact E.
    + eapply kle_trans; [apply klt_kle; exact E|]. apply A2. exact Hz.
    + apply B2. exact Hz.
  - constructor; [apply IH; [exact A1|exact Hb]|]. apply Forall_forall. intros z Hz. apply (Permutation_in _ (Permutation_sym (sort_m2_perm a (y :: b)))) in Hz.
    apply in_app_or in Hz. destruct Hz as [Hz|[<-|Hz]].
    + apply A2. exact Hz.
    + exact E.
    + eapply kle_trans; [exact E|]. apply B2. exact Hz.
Qed.

(** ** a well-formed leaf *)
Record leaf_ok (lf : leaf V) : Prop := mkleafok {
  lo_distinct : distinct (l_kvs lf);
  lo_le : (l_sorted lf <= length (l_kvs lf))%nat;
  lo_asc : asc (firstn (l_sorted lf) (l_kvs lf));
  lo_cap : (length (l_kvs lf) <= KPN)%nat }.
Definition full_sorted (lf : leaf V) : Prop := l_sorted lf = length (l_kvs lf).

Lemma full_asc lf : leaf_ok lf -> full_sorted lf -> asc (l_kvs lf).
Proof. intros H E. pose proof (lo_asc _ H) as A. rewrite E, firstn_all in A. exact A. Qed.

Lemma sync_ok lf : leaf_ok lf -> leaf_ok (sync_sorted lf) /\ full_sorted (sync_sorted lf) /\ Permutation (l_kvs lf) (l_kvs (sync_sorted lf)) /\ l_anchor (sync_sorted lf) = l_anchor lf.
Proof.
  intros H. unfold sync_sorted. destruct (Nat.eqb_spec (l_sorted lf) (length (l_kvs lf))) as [E|E]; [auto using Permutation_refl|].
  set (s := l_sorted lf). set (kvs := l_kvs lf). set (m := sort_m2 (firstn s kvs) (sort_range (skipn s kvs))).
  assert (Permutation kvs m) as P.
  { eapply perm_trans; [|apply sort_m2_perm]. rewrite <- (firstn_skipn s kvs) at 1. apply Permutation_app_head. apply sort_range_ok. }
  assert (distinct m) as D by (eapply distinct_perm; [exact P|apply H]).
  assert (asc m) as A. { apply weak_asc; [|exact D]. apply sort_m2_weak; [apply asc_weak; apply H|apply sort_range_ok]. }
  assert (length kvs = length m) as Lm by (apply Permutation_length; exact P).
  split; [|split; [exact Lm|split; [exact P|reflexivity]]]. constructor; cbn [l_kvs l_sorted].
  - exact D.
  - fold m. lia.
  - fold m. fold kvs. rewrite Lm, firstn_all. exact A.
  - fold m. rewrite <- Lm. apply H.
Qed.

Lemma find_pos_some l k i : find_pos l k = Some i -> exists v, nth_error l i = Some (k, v).
Proof.
  revert i. induction l as [|[a v] l IH]; intros i H; cbn [find_pos] in H; [discriminate|]. cbn [fst] in H. destruct (key_eq a k) eqn:E.
  - injection H as <-. apply key_eq_iff in E. subst. exists v. reflexivity.
  - destruct (find_pos l k) as [j|]; [|discriminate]. injection H as <-. apply IH. reflexivity.
Qed.
Lemma find_pos_none l k : find_pos l k = None -> forall x, In x l -> fst x <> k.
Proof.
  induction l as [|[a v] l IH]; intros H x Hx; [destruct Hx|]. cbn [find_pos fst] in H. rewrite key_eq_dec in H. destruct (key_dec a k) as [->|E]; [discriminate|].
  destruct (find_pos l k); [discriminate|]. destruct Hx as [<-|Hx]; [exact E|apply IH; auto].
Qed.

(** ** binary search *)
Lemma search_ss_ok l k n : asc (firstn n l) -> (n <= length l)%nat -> forall fuel lo hi, (hi - lo < fuel)%nat -> (lo <= hi <= n)%nat ->
  (forall i x, (i < lo)%nat -> nth_error l i = Some x -> kle (fst x) k) ->
  (forall i x, (hi <= i < n)%nat -> nth_error l i = Some x -> klt k (fst x)) ->
  exists r, search_ss fuel l k lo hi = Ok r /\ (r <= n)%nat
    /\ (forall i x, (i < r)%nat -> nth_error l i = Some x -> kle (fst x) k)
    /\ (forall i x, (r <= i < n)%nat -> nth_error l i = Some x -> klt k (fst x)).
Proof.
  intros A Ln. assert (forall i j x y, (i < j < n)%nat -> nth_error l i = Some x -> nth_error l j = Some y -> before x y) as Aij.
  { intros i j x y L Hi Hj. eapply asc_nth; [exact A|apply (proj1 L)| |];
      (rewrite <- (firstn_skipn n l) in Hi, Hj; rewrite nth_error_app1 in Hi, Hj by (rewrite firstn_length; lia); eassumption). }
  induction fuel as [|fuel IH]; intros lo hi Hf Hlo H1 H2; [lia|]. cbn [search_ss]. destruct (Nat.ltb_spec lo hi) as [L|L].
  - set (i := ((lo + hi) / 2)%nat). assert (lo <= i < hi)%nat as Hi.
    { unfold i. pose proof (Nat.div_mod (lo + hi) 2 ltac:(lia)). pose proof (Nat.mod_upper_bound (lo + hi) 2 ltac:(lia)). lia. }
    clearbody i. destruct (nth_error l i) as [x|] eqn:Ex; [|apply nth_error_None in Ex; lia].
    destruct (key_lt k (fst x)) eqn:E.
    + apply IH; [lia|lia|exact H1|]. intros j y Hj Hy. destruct (Nat.eq_dec j i) as [->|]; [rewrite Ex in Hy; injection Hy as <-; exact E|].
      eapply klt_trans; [exact E|]. eapply (Aij i j); eauto. lia.
    + apply IH; [lia|lia| |exact H2]. intros j y Hj Hy. destruct (Nat.eq_dec j i) as [->|]; [rewrite Ex in Hy; injection Hy as <-; exact E|].
      eapply kle_trans; [|exact E]. apply klt_kle. eapply (Aij j i); eauto. lia.
  - exists lo. split; [reflexivity|]. split; [lia|]. split; [exact H1|]. intros j y Hj Hy. apply (H2 j y); [lia|exact Hy].
Qed.

(** ** the position of a key in a sorted leaf *)
Lemma leaf_seek_ok lf k : leaf_ok lf -> full_sorted lf -> exists r, leaf_seek lf k = Ok r /\ (r <= length (l_kvs lf))%nat
  /\ (forall i x, (i < r)%nat -> nth_error (l_kvs lf) i = Some x -> klt (fst x) k)
  /\ (forall i x, (r <= i)%nat -> nth_error (l_kvs lf) i = Some x -> kle k (fst x)).
Proof.
  intros H F. pose proof (full_asc lf H F) as A. unfold leaf_seek. destruct (find_pos (l_kvs lf) k) as [i|] eqn:E.
  - destruct (find_pos_some _ _ _ E) as [v Hv]. exists i. split; [reflexivity|]. split; [apply Nat.lt_le_incl; apply nth_error_Some; congruence|]. split.
    + intros j x Hj Hx. apply (asc_nth _ j i x (k, v) A Hj Hx Hv).
    + intros j x Hj Hx. destruct (Nat.eq_dec j i) as [->|]; [rewrite Hv in Hx; injection Hx as <-; apply kle_refl|].
      apply klt_kle. apply (asc_nth _ i j (k, v) x A ltac:(lia) Hv Hx).
  - pose proof (find_pos_none _ _ E) as N. destruct (search_ss_ok (l_kvs lf) k (l_sorted lf)) with (fuel := S (l_sorted lf)) (lo := O) (hi := l_sorted lf) as (r & R1 & R2 & R3 & R4);
      [apply H|apply H|lia|lia|intros; lia|intros; lia|].
    exists r. rewrite F in R2, R4. split; [exact R1|]. split; [exact R2|]. split.
    + intros j x Hj Hx. pose proof (R3 j x Hj Hx) as C. apply kle_cases in C. destruct C as [C|C]; [|exact C]. exfalso. apply (N x); [eapply nth_error_In; exact Hx|exact C].
    + intros j x Hj Hx. apply klt_kle. apply (R4 j x); [|exact Hx]. split; [exact Hj|]. apply nth_error_Some. congruence.
Qed.

(** ** updating a pair *)
Lemma update_ok lf i k v v0 : leaf_ok lf -> nth_error (l_kvs lf) i = Some (k, v0) ->
  leaf_ok (leaf_update lf i k v) /\ l_anchor (leaf_update lf i k v) = l_anchor lf
  /\ map fst (l_kvs (leaf_update lf i k v)) = map fst (l_kvs lf)
  /\ (full_sorted lf -> full_sorted (leaf_update lf i k v))
  /\ (forall x, In x (l_kvs (leaf_update lf i k v)) <-> x = (k, v) \/ In x (l_kvs lf) /\ fst x <> k).
Proof.
  intros H E. destruct (nth_error_split _ _ E) as (a & b & Eab & La).
  assert (l_kvs (leaf_update lf i k v) = a ++ (k, v) :: b) as Ek.
  { unfold leaf_update. cbn [l_kvs]. rewrite Eab. rewrite firstn_app, skipn_app. subst i. rewrite Nat.sub_diag, firstn_all. cbn [firstn]. rewrite app_nil_r.
    rewrite skipn_all2 by lia. replace (S (length a) - length a)%nat with 1%nat by lia. reflexivity. }
  assert (map fst (l_kvs (leaf_update lf i k v)) = map fst (l_kvs lf)) as Em by (rewrite Ek, Eab, !map_app; reflexivity).
  assert (length (l_kvs (leaf_update lf i k v)) = length (l_kvs lf)) as El by (rewrite <- (map_length fst), Em, map_length; reflexivity).
  assert (forall l l' : list (key * V), map fst l = map fst l' -> asc l -> asc l') as Hasc.
  { clear. induction l as [|x l IH]; intros [|y l'] E A; try discriminate; [constructor|]. injection E as E1 E2. inversion A as [|? ? A1 A2]; subst.
    constructor; [apply IH; assumption|]. rewrite Forall_forall in *. intros z Hz. apply (in_map fst) in Hz. rewrite <- E2 in Hz. apply in_map_iff in Hz.
    destruct Hz as (w & W1 & W2). unfold before. rewrite <- E1, <- W1. apply A2. exact W2. }
  split; [|split; [reflexivity|split; [exact Em|split]]].
  - constructor.
    + unfold distinct. rewrite Em. apply H.
    + rewrite El. apply H.
    + change (l_sorted (leaf_update lf i k v)) with (l_sorted lf). apply (Hasc (firstn (l_sorted lf) (l_kvs lf))); [|apply H].
      rewrite <- !firstn_map. rewrite Em. reflexivity.
    + rewrite El. apply H.
  - unfold full_sorted. rewrite El. intros F. exact F.
  - intros x. rewrite Ek, Eab. pose proof (lo_distinct _ H) as D. unfold distinct in D. rewrite Eab, map_app in D. cbn [map fst] in D. apply NoDup_remove in D. destruct D as [D1 D2].
    rewrite !in_app_iff. cbn [In]. split.
    + intros [Hx|[Hx|Hx]]; [right|left; auto|right]; (split; [auto|]); intros E'; apply D2; rewrite <- E'; apply in_or_app; [left|right]; apply in_map; exact Hx.
    + intros [->|[[Hx|[Hx|Hx]] N]]; auto. subst x. cbn [fst] in N. congruence.
Qed.

(** ** adding a pair to a leaf with room *)
Lemma insert_ok lf k v : leaf_ok lf -> (length (l_kvs lf) < KPN)%nat -> (forall x, In x (l_kvs lf) -> fst x <> k) ->
  leaf_ok (leaf_insert lf k v) /\ l_anchor (leaf_insert lf k v) = l_anchor lf
  /\ (forall x, In x (l_kvs (leaf_insert lf k v)) <-> x = (k, v) \/ In x (l_kvs lf)).
Proof.
  intros H Hc Hk. split; [|split; [reflexivity|]].
  - assert (l_sorted (leaf_insert lf k v) = l_sorted lf \/ (l_sorted (leaf_insert lf k v) = S (length (l_kvs lf)) /\ full_sorted lf /\ forall x, In x (l_kvs lf) -> klt (fst x) k)) as Hs.
    { unfold leaf_insert. cbn [l_sorted]. destruct (Nat.eqb_spec (length (l_kvs lf)) (l_sorted lf)) as [E|E]; [|left; reflexivity].
      assert (full_sorted lf) as F by (unfold full_sorted; congruence). pose proof (full_asc lf H F) as A.
      destruct (length (l_kvs lf)) as [|n] eqn:En.
      - right. split; [reflexivity|]. split; [exact F|]. apply length_zero_iff_nil in En. rewrite En. intros x [].
      - destruct (nth_error (l_kvs lf) n) as [y|] eqn:Ey; [|left; reflexivity]. destruct (key_lt (fst y) k) eqn:Ek; [|left; reflexivity].
        right. split; [reflexivity|]. split; [exact F|]. intros x Hx. apply In_nth_error in Hx. destruct Hx as [i Hi].
        assert (i < S n)%nat as Li by (rewrite <- En; apply nth_error_Some; congruence). destruct (Nat.eq_dec i n) as [->|].
        + rewrite Ey in Hi. injection Hi as <-. exact Ek.
        + eapply klt_trans; [|exact Ek]. apply (asc_nth _ i n x y A); [lia|exact Hi|exact Ey]. }
    assert (l_kvs (leaf_insert lf k v) = l_kvs lf ++ [(k, v)]) as Ekv by reflexivity.
    constructor; rewrite Ekv.
    + unfold distinct. rewrite map_app. cbn [map fst]. apply (Permutation_NoDup (l := k :: map fst (l_kvs lf))); [apply Permutation_cons_append|].
      constructor; [|apply H]. intros C. apply in_map_iff in C. destruct C as (x & E & Hx). exact (Hk x Hx E).
    + rewrite app_length. cbn [length]. pose proof (lo_le _ H). destruct Hs as [Hs|[Hs _]]; rewrite Hs; lia.
    + destruct Hs as [Hs|(Hs & F & Hlt)]; rewrite Hs.
      * rewrite firstn_app. pose proof (lo_le _ H). replace (l_sorted lf - length (l_kvs lf))%nat with O by lia. cbn [firstn]. rewrite app_nil_r. apply H.
      * rewrite firstn_all2 by (rewrite app_length; cbn [length]; lia). apply asc_app. split; [apply full_asc; assumption|]. split; [constructor; constructor|].
        intros x y Hx [<-|[]]. apply Hlt. exact Hx.
    + rewrite app_length. cbn [length]. lia.
  - intros x. cbn [leaf_insert l_kvs]. rewrite in_app_iff. cbn [In]. split; [intros [?|[?|[]]]; auto|intros [->|?]; auto].
Qed.

(** ** removing a pair *)
Lemma remove_ok lf i x0 : leaf_ok lf -> nth_error (l_kvs lf) i = Some x0 ->
  leaf_ok (leaf_remove lf i) /\ l_anchor (leaf_remove lf i) = l_anchor lf
  /\ length (l_kvs (leaf_remove lf i)) = (length (l_kvs lf) - 1)%nat
  /\ (forall x, In x (l_kvs (leaf_remove lf i)) <-> In x (l_kvs lf) /\ fst x <> fst x0).
Proof.
  intros H E. destruct (nth_error_split _ _ E) as (a & b & Eab & La).
  assert (Permutation (x0 :: l_kvs (leaf_remove lf i)) (l_kvs lf) /\ firstn i (l_kvs (leaf_remove lf i)) = a) as [P Fa].
  { unfold leaf_remove. cbn [l_kvs]. rewrite Eab. set (n := length (a ++ x0 :: b)). assert (n = length a + S (length b))%nat as En by (unfold n; rewrite app_length; reflexivity).
    assert (firstn i (a ++ x0 :: b) = a) as F1 by (rewrite firstn_app; subst i; rewrite Nat.sub_diag, firstn_all; cbn [firstn]; apply app_nil_r).
    assert (skipn (S i) (a ++ x0 :: b) = b) as F2.
    { rewrite skipn_app. subst i. rewrite skipn_all2 by lia. replace (S (length a) - length a)%nat with 1%nat by lia. reflexivity. }
    rewrite F1, F2. destruct b as [|y b].
    - cbn [length] in En. replace (n - 1)%nat with (length a) by lia.
      assert (skipn (length a) (a ++ [x0]) = [x0]) as -> by (rewrite skipn_app, skipn_all, Nat.sub_diag; reflexivity).
      cbn [app]. split.
      + rewrite firstn_app, firstn_all, Nat.sub_diag. cbn [firstn]. rewrite app_nil_r. apply Permutation_cons_append.
      + rewrite firstn_app, firstn_all, Nat.sub_diag. cbn [firstn]. rewrite app_nil_r. subst i. apply firstn_all.
    - destruct (exists_last (l := y :: b)) as (c & z & Ec); [discriminate|]. rewrite Ec. assert (length (y :: b) = S (length c)) as Lc by (rewrite Ec, app_length; cbn [length]; lia).
      assert (skipn (n - 1) (a ++ x0 :: c ++ [z]) = [z]) as ->.
      { replace (a ++ x0 :: c ++ [z]) with ((a ++ x0 :: c) ++ [z]) by (rewrite <- app_assoc; reflexivity). rewrite skipn_app.
        rewrite skipn_all2 by (rewrite app_length; cbn [length]; lia). replace (n - 1 - length (a ++ x0 :: c))%nat with O by (rewrite app_length; cbn [length]; lia). reflexivity. }
      assert (firstn (n - 1) (a ++ [z] ++ c ++ [z]) = a ++ z :: c) as ->.
      { replace (a ++ [z] ++ c ++ [z]) with ((a ++ z :: c) ++ [z]) by (rewrite <- app_assoc; reflexivity). rewrite firstn_app.
        rewrite firstn_all2 by (rewrite app_length; cbn [length]; lia). replace (n - 1 - length (a ++ z :: c))%nat with O by (rewrite app_length; cbn [length]; lia). cbn [firstn]. apply app_nil_r. }
      split.
      + eapply perm_trans; [apply Permutation_middle|]. apply Permutation_app_head. apply perm_skip. apply Permutation_cons_append.
      + rewrite firstn_app. subst i. rewrite Nat.sub_diag, firstn_all. cbn [firstn]. apply app_nil_r. }
  assert (distinct (x0 :: l_kvs (leaf_remove lf i))) as D by (eapply distinct_perm; [apply Permutation_sym; exact P|apply H]).
  apply NoDup_cons_iff in D. destruct D as [D1 D2].
  assert (length (l_kvs (leaf_remove lf i)) = length (l_kvs lf) - 1)%nat as Ln by (apply Permutation_length in P; cbn [length] in P; lia).
  assert (i < length (l_kvs lf))%nat as Li by (apply nth_error_Some; congruence).
  split; [|split; [reflexivity|split; [exact Ln|]]].
  - constructor.
    + exact D2.
    + rewrite Ln. change (l_sorted (leaf_remove lf i)) with (if Nat.ltb i (l_sorted lf) then i else l_sorted lf). destruct (Nat.ltb_spec i (l_sorted lf)); lia.
    + change (l_sorted (leaf_remove lf i)) with (if Nat.ltb i (l_sorted lf) then i else l_sorted lf).
      assert (firstn i (l_kvs lf) = a) as Fl by (rewrite Eab, firstn_app; subst i; rewrite Nat.sub_diag, firstn_all; cbn [firstn]; apply app_nil_r).
      destruct (Nat.ltb_spec i (l_sorted lf)) as [L|L].
      * rewrite Fa, <- Fl. replace i with (Nat.min i (l_sorted lf)) by lia. rewrite <- firstn_firstn. apply asc_firstn. apply H.
      * replace (l_sorted lf) with (Nat.min (l_sorted lf) i) by lia. rewrite <- firstn_firstn, Fa, <- Fl, firstn_firstn. replace (Nat.min (l_sorted lf) i) with (l_sorted lf) by lia. apply H.
    + rewrite Ln. pose proof (lo_cap _ H). lia.
  - intros x. split.
    + intros Hx. split; [apply (Permutation_in _ P); right; exact Hx|]. intros E'. apply D1. rewrite <- E'. apply in_map. exact Hx.
    + intros [Hx N]. apply (Permutation_in _ (Permutation_sym P)) in Hx. destruct Hx as [<-|Hx]; [congruence|exact Hx].
Qed.

(** ** merging two leaves *)
Lemma merge_ok (l1 l2 : leaf V) : leaf_ok l1 -> leaf_ok l2 -> (length (l_kvs l1) + length (l_kvs l2) <= KPN)%nat ->
  (forall x y, In x (l_kvs l1) -> In y (l_kvs l2) -> before x y) ->
  leaf_ok (leaf_merge l1 l2) /\ l_anchor (leaf_merge l1 l2) = l_anchor l1
  /\ (forall x, In x (l_kvs (leaf_merge l1 l2)) <-> In x (l_kvs l1) \/ In x (l_kvs l2)).
Proof.
  intros H1 H2 Hc Hb. split; [|split; [reflexivity|intros x; apply in_app_iff]].
  pose proof (lo_le _ H1). pose proof (lo_le _ H2). unfold leaf_merge. constructor; cbn [l_kvs l_sorted].
  - unfold distinct. rewrite map_app. assert (forall a b : list key, NoDup a -> NoDup b -> (forall z : key, In z a -> ~ In z b) -> NoDup (a ++ b)) as ND.
    { clear. induction a as [|x a IH]; intros b Ha Hb Hd; [exact Hb|]. cbn [app]. apply NoDup_cons_iff in Ha. destruct Ha as [A1 A2]. constructor.
      - intros C. apply in_app_or in C. destruct C as [C|C]; [exact (A1 C)|exact (Hd x (or_introl eq_refl) C)].
      - apply IH; [exact A2|exact Hb|]. intros y Hy. apply Hd. right. exact Hy. }
    apply ND; [apply H1|apply H2|]. intros k Hk C. apply in_map_iff in Hk, C. destruct Hk as (x & <- & Hx), C as (y & E & Hy).
    apply (klt_ne _ _ (Hb x y Hx Hy)). symmetry. exact E.
  - rewrite app_length. destruct (Nat.eqb (length (l_kvs l1)) (l_sorted l1)); lia.
  - destruct (Nat.eqb_spec (length (l_kvs l1)) (l_sorted l1)) as [E|E].
    + rewrite <- E. rewrite firstn_app_2. apply asc_app. split; [apply full_asc; [exact H1|unfold full_sorted; congruence]|]. split; [apply H2|].
      intros x y Hx Hy. apply Hb; [exact Hx|]. rewrite <- (firstn_skipn (l_sorted l2) (l_kvs l2)). apply in_or_app. auto.
    + rewrite firstn_app. replace (l_sorted l1 - length (l_kvs l1))%nat with O by lia. cbn [firstn]. rewrite app_nil_r. apply H1.
  - rewrite app_length. exact Hc.
Qed.

(** ** splitting a full leaf *)
Lemma cut_loop_ok l alen target : (forall i x, (0 < i)%nat -> nth_error l i = Some x -> (alen <= length (fst x))%nat) -> (1 <= alen)%nat ->
  forall fuel lo hi, (hi - lo < fuel)%nat -> (lo < hi < length l)%nat ->
  exists r, cut_loop fuel l alen target lo hi = Ok r /\ (lo < r <= hi)%nat.
Proof.
  intros Hl Ha. induction fuel as [|fuel IH]; intros lo hi Hf Hlo; [lia|]. cbn [cut_loop]. destruct (Nat.ltb_spec (lo + 1) hi) as [L|L]; [|exists hi; split; [reflexivity|lia]].
  set (m := ((lo + hi + 1) / 2)%nat). assert (lo < m < hi)%nat as Hm.
  { unfold m. pose proof (Nat.div_mod (lo + hi + 1) 2 ltac:(lia)). pose proof (Nat.mod_upper_bound (lo + hi + 1) 2 ltac:(lia)). lia. }
  clearbody m.
  destruct (nth_error l lo) as [kl|] eqn:El; [|apply nth_error_None in El; lia]. destruct (nth_error l m) as [km|] eqn:Em; [|apply nth_error_None in Em; lia].
  destruct (nth_error l hi) as [kh|] eqn:Eh; [|apply nth_error_None in Eh; lia].
  assert (forall k1 k2 : key, (alen <= length k2)%nat -> exists c, alen_check alen k1 k2 = Ok c) as Hchk.
  { intros k1 k2 L2. unfold alen_check. destruct (Nat.ltb_spec (length k1) alen) as [C|C]; [eauto|].
    destruct (nth_error k1 (alen - 1)) eqn:E1; [|apply nth_error_None in E1; lia]. destruct (nth_error k2 (alen - 1)) eqn:E2; [|apply nth_error_None in E2; lia]. eauto. }
  destruct (Nat.leb m target).
  - destruct (Hchk (fst km) (fst kh)) as [b Eb]; [apply (Hl hi); [lia|exact Eh]|]. rewrite Eb. cbn [bind]. destruct b.
    + destruct (IH m hi) as (r & R1 & R2); [lia|lia|]. exists r. split; [exact R1|lia].
    + destruct (IH lo m) as (r & R1 & R2); [lia|lia|]. exists r. split; [exact R1|lia].
  - destruct (Hchk (fst kl) (fst km)) as [b Eb]; [apply (Hl m); [lia|exact Em]|]. rewrite Eb. cbn [bind]. destruct b.
    + destruct (IH lo m) as (r & R1 & R2); [lia|lia|]. exists r. split; [exact R1|lia].
    + destruct (IH m hi) as (r & R1 & R2); [lia|lia|]. exists r. split; [exact R1|lia].
Qed.

Lemma cut_search1_ok l target : asc l -> (2 <= length l)%nat -> (forall x, In x l -> (length (fst x) <= PBUF)%nat) ->
  exists c, cut_search1 l target = Ok (Some c) /\ (1 <= c < length l)%nat.
Proof.
  intros A Ll Hlen. unfold cut_search1. set (h := (length l - 1)%nat).
  destruct (nth_error l 0) as [k0|] eqn:E0; [|apply nth_error_None in E0; lia]. destruct (nth_error l h) as [kh|] eqn:Eh; [|apply nth_error_None in Eh; unfold h in Eh; lia].
  assert (before k0 kh) as L0h by (apply (asc_nth l 0 h); [exact A|unfold h; lia|exact E0|exact Eh]).
  destruct (lcp_anchor _ _ L0h) as [La _]. set (c := lcp (fst k0) (fst kh)) in *.
  assert (Nat.ltb U16MAX (S c) = false) as ->.
  { apply Nat.ltb_ge. pose proof (Hlen kh ltac:(eapply nth_error_In; exact Eh)) as G. unfold PBUF in G. lia. }
  destruct (cut_loop_ok l (S c) target) with (fuel := S h) (lo := O) (hi := h) as (r & R1 & R2); [|lia|lia|unfold h; lia|].
  - intros i x Hi Hx. assert (before k0 x) as B0 by (eapply asc_nth; eassumption).
    assert (kle (fst x) (fst kh)) as Bh.
    { assert (i < length l)%nat by (apply nth_error_Some; congruence). destruct (Nat.eq_dec i h) as [->|]; [rewrite Hx in Eh; injection Eh as ->; apply kle_refl|].
      apply klt_kle. eapply (asc_nth l i h); [exact A|unfold h in *; lia|exact Hx|exact Eh]. }
    pose proof (lcp_mid _ _ _ (klt_kle _ _ B0) Bh) as P. fold c in P. assert (c <= length (fst k0))%nat as Lc by apply lcp_len.
    destruct (Nat.lt_ge_cases c (length (fst x))) as [L|L]; [lia|]. exfalso.
    assert (firstn c (fst k0) = fst x) as E by (apply pfx_anti; [exact P|rewrite firstn_len by exact Lc; exact L]).
    pose proof (pfx_kle _ _ (pfx_firstn c (fst k0))) as K. rewrite E in K. apply kle_not in K. contradiction.
  - rewrite R1. cbn [bind]. exists r. split; [reflexivity|]. unfold h in R2. lia.
Qed.

Lemma place_ok (l : list (key * V)) k v r : asc l -> (r <= length l)%nat -> (forall x, In x l -> fst x <> k) ->
  (forall j x, (j < r)%nat -> nth_error l j = Some x -> kle (fst x) k) -> (forall j x, (r <= j)%nat -> nth_error l j = Some x -> kle k (fst x)) ->
  asc (firstn r l ++ (k, v) :: skipn r l) /\ Permutation ((k, v) :: l) (firstn r l ++ (k, v) :: skipn r l).
Proof.
  intros A Lr Hk R3 R4. split; [|eapply perm_trans; [|apply Permutation_middle]; apply perm_skip; rewrite firstn_skipn; apply Permutation_refl].
  apply asc_app. split; [apply asc_firstn; exact A|]. rewrite <- (firstn_skipn r l) in A. apply asc_app in A. destruct A as (A1 & A2 & A3).
  assert (forall x, In x (firstn r l) -> klt (fst x) k) as Hlo.
  { intros x Hx. assert (In x l) as Hx' by (rewrite <- (firstn_skipn r l); apply in_or_app; auto).
    apply In_nth_error in Hx. destruct Hx as [i Hi]. assert (i < r)%nat as Li.
    { pose proof (nth_error_Some (firstn r l) i) as N. rewrite firstn_length in N. assert (nth_error (firstn r l) i <> None) as N' by congruence. apply N in N'. lia. }
    assert (nth_error l i = Some x) as Hi'. { rewrite <- (firstn_skipn r l). rewrite nth_error_app1; [exact Hi|]. apply nth_error_Some. congruence. }
    pose proof (R3 i x Li Hi') as C. apply kle_cases in C. destruct C as [C|C]; [|exact C]. exfalso. apply (Hk x Hx'). exact C. }
  assert (forall x, In x (skipn r l) -> klt k (fst x)) as Hhi.
  { intros x Hx. assert (In x l) as Hx' by (rewrite <- (firstn_skipn r l); apply in_or_app; auto).
    apply In_nth_error in Hx. destruct Hx as [i Hi]. assert (nth_error l (r + i) = Some x) as Hi'.
    { rewrite <- (firstn_skipn r l). rewrite nth_error_app2 by (rewrite firstn_length; lia). replace (r + i - length (firstn r l))%nat with i by (rewrite firstn_length; lia). exact Hi. }
    pose proof (R4 (r + i)%nat x ltac:(lia) Hi') as C. apply kle_cases in C. destruct C as [C|C]; [|exact C]. exfalso. apply (Hk x Hx'). symmetry. exact C. }
  split.
  - constructor; [exact A2|]. apply Forall_forall. intros x Hx. apply Hhi. exact Hx.
  - intros x y Hx [<-|Hy]; [apply Hlo; exact Hx|apply A3; assumption].
Qed.

Lemma cut_parts lf k v (all : list (key * V)) an c : asc all -> (length all <= S KPN)%nat -> (1 <= c < length all)%nat ->
  (forall x, In x all <-> x = (k, v) \/ In x (l_kvs lf)) ->
  exists k1 k2 : key * V, nth_error all (c - 1) = Some k1 /\ nth_error all c = Some k2 /\
  let l1 := mkleaf an (firstn c all) c in
  let l2 := mkleaf (firstn (S (lcp (fst k1) (fst k2))) (fst k2)) (skipn c all) (length all - c) in
  leaf_ok l1 /\ leaf_ok l2
  /\ (forall x, In x (l_kvs l1) \/ In x (l_kvs l2) <-> x = (k, v) \/ In x (l_kvs lf))
  /\ In k1 (l_kvs l1) /\ In k2 (l_kvs l2)
  /\ (forall x, In x (l_kvs l1) -> kle (fst x) (fst k1)) /\ (forall x, In x (l_kvs l2) -> kle (fst k2) (fst x))
  /\ klt (fst k1) (l_anchor l2) /\ pfx (l_anchor l2) (fst k2).
Proof.
  intros Aall Lall C2 Hin.
  destruct (nth_error all (c - 1)) as [k1|] eqn:E1; [|apply nth_error_None in E1; lia]. destruct (nth_error all c) as [k2|] eqn:E2; [|apply nth_error_None in E2; lia].
  assert (before k1 k2) as B12 by (eapply (asc_nth all (c - 1) c); [exact Aall|lia|exact E1|exact E2]).
  destruct (lcp_anchor _ _ B12) as [La1 La2].
  pose proof Aall as Asp. rewrite <- (firstn_skipn c all) in Asp. apply asc_app in Asp. destruct Asp as (A1 & A2 & A3).
  assert (length (firstn c all) = c) as Lf by (rewrite firstn_length; lia). assert (length (skipn c all) = length all - c)%nat as Ls by apply skipn_length.
  assert (nth_error (firstn c all) (c - 1) = Some k1) as E1'. { rewrite <- E1. rewrite <- (firstn_skipn c all) at 2. rewrite nth_error_app1 by lia. reflexivity. }
  assert (nth_error (skipn c all) 0 = Some k2) as E2'. { rewrite <- E2. rewrite <- (firstn_skipn c all) at 2. rewrite nth_error_app2 by lia. rewrite Lf, Nat.sub_diag. reflexivity. }
  exists k1, k2. split; [reflexivity|]. split; [reflexivity|]. cbv zeta. cbn [l_kvs l_anchor l_sorted].
  split; [|split; [|split; [|split; [|split; [|split; [|split; [|split]]]]]]].
  - constructor; cbn [l_kvs l_sorted].
    + apply asc_distinct. exact A1.
    + lia.
    + rewrite firstn_firstn, Nat.min_id. exact A1.
    + lia.
  - constructor; cbn [l_kvs l_sorted].
    + apply asc_distinct. exact A2.
    + lia.
    + rewrite <- Ls, firstn_all. exact A2.
    + lia.
  - intros x. rewrite <- Hin. rewrite <- (firstn_skipn c all) at 3. rewrite in_app_iff. reflexivity.
  - eapply nth_error_In. exact E1'.
  - eapply nth_error_In. exact E2'.
  - intros x Hx. apply In_nth_error in Hx. destruct Hx as [i Hi]. assert (i < c)%nat as Li by (rewrite <- Lf; apply nth_error_Some; congruence).
    destruct (Nat.eq_dec i (c - 1)) as [->|]; [rewrite E1' in Hi; injection Hi as <-; apply kle_refl|]. apply klt_kle. eapply (asc_nth _ i (c - 1)); [exact A1|lia|exact Hi|exact E1'].
  - intros x Hx. apply In_nth_error in Hx. destruct Hx as [i Hi].
    destruct (Nat.eq_dec i 0) as [->|]; [rewrite E2' in Hi; injection Hi as <-; apply kle_refl|]. apply klt_kle. eapply (asc_nth _ 0 i); [exact A2|lia|exact E2'|exact Hi].
  - exact La2.
  - apply pfx_firstn.
Qed.

Theorem split_leaf_ok lf hn k v : leaf_ok lf -> (1 <= length (l_kvs lf))%nat -> (length (l_kvs lf) <= KPN)%nat ->
  (forall x, In x (l_kvs lf) -> fst x <> k) -> (forall x, In x (l_kvs lf) -> (length (fst x) <= PBUF)%nat) -> (length k <= PBUF)%nat ->
  exists (l1 l2 : leaf V) (k1 k2 : key * V), split_leaf lf hn k v = Ok (Some (l1, l2)) /\ leaf_ok l1 /\ leaf_ok l2
  /\ l_anchor l1 = l_anchor lf
  /\ (forall x, In x (l_kvs l1) \/ In x (l_kvs l2) <-> x = (k, v) \/ In x (l_kvs lf))
  /\ In k1 (l_kvs l1) /\ In k2 (l_kvs l2)
  /\ (forall x, In x (l_kvs l1) -> kle (fst x) (fst k1)) /\ (forall x, In x (l_kvs l2) -> kle (fst k2) (fst x))
  /\ klt (fst k1) (l_anchor l2) /\ pfx (l_anchor l2) (fst k2).
Proof.
  intros H Hne Hcap Hk Hlen Hlk. destruct (sync_ok lf H) as (S1 & S2 & S3 & S4). unfold split_leaf.
  set (s := sync_sorted lf) in *. pose proof (full_asc s S1 S2) as A.
  destruct (search_ss_ok (l_kvs s) k (l_sorted s)) with (fuel := S (l_sorted s)) (lo := O) (hi := l_sorted s) as (r & R1 & R2 & R3 & R4);
    [apply S1|apply S1|lia|lia|intros; lia|intros; lia|].
  destruct (place_ok (l_kvs s) k v r) as [Aall Pall].
  { exact A. }
  { unfold full_sorted in S2. lia. }
  { intros x Hx. apply Hk. apply (Permutation_in _ (Permutation_sym S3)). exact Hx. }
  { exact R3. }
  { intros j x Lj Hj. apply klt_kle. apply (R4 j x); [|exact Hj]. split; [exact Lj|]. unfold full_sorted in S2. rewrite S2. apply nth_error_Some. congruence. }
  rewrite R1. cbn [bind]. set (all := firstn r (l_kvs s) ++ (k, v) :: skipn r (l_kvs s)) in *.
  assert (forall x, In x all <-> x = (k, v) \/ In x (l_kvs lf)) as Hin.
  { intros x. split; intros Hx.
    - apply (Permutation_in _ (Permutation_sym Pall)) in Hx. destruct Hx as [<-|Hx]; [auto|]. right. apply (Permutation_in _ (Permutation_sym S3)). exact Hx.
    - apply (Permutation_in _ Pall). destruct Hx as [->|Hx]; [left; reflexivity|]. right. apply (Permutation_in _ S3). exact Hx. }
  assert (length all = S (length (l_kvs lf))) as Lall.
  { apply Permutation_length in Pall, S3. cbn [length] in Pall. lia. }
  destruct (cut_search1_ok all (if hn then MID else MRG) Aall) as (c & C1 & C2); [lia| |].
  { intros x Hx. apply Hin in Hx. destruct Hx as [->|Hx]; [exact Hlk|apply Hlen; exact Hx]. }
  rewrite C1. cbn [bind]. clearbody all.
  destruct (cut_parts lf k v all (l_anchor lf) c Aall) as (k1 & k2 & E1 & E2 & P1 & P2 & P3 & P4 & P5 & P6 & P7 & P8 & P9); [lia|lia|exact Hin|].
  rewrite E1, E2. eexists _, _, k1, k2. split; [reflexivity|]. split; [exact P1|]. split; [exact P2|]. split; [reflexivity|]. repeat (split; [assumption|]). assumption.
Qed.
End Leaf.
