(** Exact contents of a filter without splits: between two neighbouring boundary
    keys the block holds one infix for every stored key of the interval. *)
From Coq Require Import ZArith List Bool Lia Sorted Permutation.
From Coq Require Import ZifyBool ZifyNat.
From Verif Require Import Base Util Store Bits Cells Lowbit Key KeyBits KeyOrder Diva Tree StoreRep Spec Filter.
Import ListNotations.
Open Scope Z_scope.

(** *** positions in a tree *)
Lemma adj_iff P t : adj P t <-> forall A a st b w B, t = A ++ (a, st) :: (b, w) :: B -> P a st b.
Proof.
  split.
  - intros H A a st b w B ->. apply adj_app in H as [_ H]. apply H.
  - induction t as [|[a st] t IH]; intros H; [exact I|]. destruct t as [|[b w] t]; [simpl; auto|].
    rewrite adj_cons. split; [apply (H [] a st b w t eq_refl)|]. apply IH. intros A a' st' b' w' B E.
    apply (H ((a, st) :: A) a' st' b' w' B). simpl. rewrite E. reflexivity.
Qed.
Lemma adj_conj P P' t : adj P t -> adj P' t -> adj (fun a st b => P a st b /\ P' a st b) t.
Proof. rewrite !adj_iff. intros H1 H2 A a st b w B E. split; [eapply H1|eapply H2]; exact E. Qed.
Lemma in_fst (t : tree) x : In x t -> In (fst x) (map fst t).
Proof. intros. apply in_map. assumption. Qed.
(** a tree key above [a] is not below its successor *)
Lemma adj_next A a st b w B k : sorted (A ++ (a, st) :: (b, w) :: B) -> In k (map fst (A ++ (a, st) :: (b, w) :: B)) ->
  key_lt a k = true -> key_lt k b = false.
Proof.
  intros Hs Hk Hlt. apply in_map_iff in Hk as ([k' v] & E & Hk). simpl in E. subst k'. apply in_app_or in Hk as [Hk|[Hk|[Hk|Hk]]].
  - pose proof (sorted_app_below _ _ _ Hs _ Hk) as H. simpl in H. rewrite (key_lt_asym _ _ H) in Hlt. discriminate.
  - inversion Hk; subst. rewrite key_lt_irrefl in Hlt. discriminate.
  - inversion Hk; subst. apply key_lt_irrefl.
  - apply sorted_tail in Hs. destruct Hs as [_ Hs]. pose proof (sorted_below _ _ Hs _ Hk) as H. simpl in H. apply key_lt_asym. exact H.
Qed.

Definition inside (pk nk k : key) : bool := negb (key_lt k pk) && key_lt k nk.
Lemma inside_unique t A a st b w B A' a' st' b' w' B' k : sorted t -> t = A ++ (a, st) :: (b, w) :: B -> t = A' ++ (a', st') :: (b', w') :: B' ->
  inside a b k = true -> inside a' b' k = true -> a = a' /\ b = b'.
Proof.
  intros Hs E E' H H'. unfold inside in *. apply andb_true_iff in H as [H1 H2]. apply andb_true_iff in H' as [H1' H2'].
  apply negb_true_iff in H1, H1'.
  assert (X : forall A a st b w B A' a' st' b' w' B', t = A ++ (a, st) :: (b, w) :: B -> t = A' ++ (a', st') :: (b', w') :: B' ->
    key_lt k b = true -> key_lt k a' = false -> key_lt a a' = false).
  { clear -Hs. intros A a st b w B A' a' st' b' w' B' E E' H H'. destruct (key_lt a a') eqn:L; [|reflexivity].
    assert (Hi : In a' (map fst t)) by (rewrite E', map_app; apply in_or_app; right; left; reflexivity).
    rewrite E in Hs, Hi. pose proof (adj_next _ _ _ _ _ _ _ Hs Hi L) as N.
    pose proof (lt_nlt_trans _ _ _ H N). congruence. }
  pose proof (X _ _ _ _ _ _ _ _ _ _ _ _ E E' H2 H1') as N1. pose proof (X _ _ _ _ _ _ _ _ _ _ _ _ E' E H2' H1) as N2.
  assert (Ea : a = a') by (destruct (nlt_cases _ _ N1) as [->|L]; [reflexivity|congruence]).
  subst a'. split; [reflexivity|].
  assert (Y : forall A a st b w B A' st' b' w' B', t = A ++ (a, st) :: (b, w) :: B -> t = A' ++ (a, st') :: (b', w') :: B' -> key_lt b' b = false).
  { clear -Hs. intros A a st b w B A' st' b' w' B' E E'.
    assert (Hi : In b' (map fst t)) by (rewrite E', map_app; apply in_or_app; right; right; left; reflexivity).
    rewrite E in Hs, Hi. apply (adj_next _ _ _ _ _ _ _ Hs Hi).
    rewrite <- E in Hs. rewrite E' in Hs. apply sorted_tail in Hs. apply Hs. }
  pose proof (Y _ _ _ _ _ _ _ _ _ _ _ E E') as M1. pose proof (Y _ _ _ _ _ _ _ _ _ _ _ E' E) as M2.
  destruct (nlt_cases _ _ M1) as [->|L]; [reflexivity|congruence].
Qed.

Section F.
Variable c : cfg.
Variable s : Z.
Hypothesis Hs : 1 <= s <= 46.
Hypothesis T : tables_ok c.
Hypothesis Hf : fits c s.

Notation inf := (inf c s).
Notation tot := (tot c).
Notation gapok := (gapok c s).
Notation gcov := (gcov c s).

(** the integer stored for key [k] between [pk] and [nk] *)
Definition infx (pk nk k : key) : Z := Z.lor (inf pk nk k) 1.
Definition exact (X : list key) (pk : key) (st : store) (nk : key) : Prop :=
  is_partial_key st = false /\
  exists L, get_infix_list c s st = Ok L /\ Permutation L (map (infx pk nk) (filter (inside pk nk) X)).

Definition inv (X : list key) (lo hi : key) (d : diva) : Prop :=
  d_size d = s /\ d_tree d <> [] /\ hd_key (d_tree d) = lo /\ last_key (d_tree d) = hi /\
  adj gapok (d_tree d) /\ adj (exact X) (d_tree d).

Lemma filter_len {A} (f : A -> bool) l : (length (filter f l) <= length l)%nat.
Proof. induction l as [|a l IH]; simpl; [lia|]. destruct (f a); simpl; lia. Qed.
Lemma filter_none {A} (f : A -> bool) l : (forall x, In x l -> f x = false) -> filter f l = [].
Proof. induction l as [|a l IH]; intros H; [reflexivity|]. simpl. rewrite (H a) by (left; reflexivity). apply IH. intros. apply H. right. assumption. Qed.
Lemma filter_all {A} (f : A -> bool) l : (forall x, In x l -> f x = true) -> filter f l = l.
Proof. induction l as [|a l IH]; intros H; [reflexivity|]. simpl. rewrite (H a) by (left; reflexivity). f_equal. apply IH. intros. apply H. right. assumption. Qed.

(** keys in [X] are covered *)
Lemma exact_gcov X pk st nk k : exact X pk st nk -> gapok pk st nk -> In k X -> kok k -> inside pk nk k = true -> gcov pk st nk k.
Proof.
  intros (Hp & L & EL & HP) (K1 & K2 & K3 & _) Hi Hk Hin. right. exists L, (infx pk nk k). split; [exact EL|]. split.
  - apply (Permutation_in _ (Permutation_sym HP)). apply in_map. apply filter_In. auto.
  - unfold inside in Hin. apply andb_true_iff in Hin as [H1 H2]. apply negb_true_iff in H1.
    destruct (seg_ex c pk nk K1 K2 K3) as (sh & ig & isz & HS).
    destruct (inf_range c s Hs _ _ _ _ _ k HS (nlt_ple _ _ K1 Hk H1) (key_lt_ple _ _ Hk K2 H2)) as (I1 & I2 & I3).
    apply hit_self; [lia|]. assert (2 ^ 56 < 2 ^ 63) by (vm_compute; reflexivity). lia.
Qed.
Lemma inv_sorted X lo hi d : inv X lo hi d -> sorted (d_tree d).
Proof. intros (_ & _ & _ & _ & H & _). eapply gapok_sorted; eauto. Qed.
Lemma inv_covt X lo hi d k : inv X lo hi d -> In k X -> kok k -> key_lt k lo = false -> key_lt k hi = true -> covt gcov (d_tree d) k.
Proof.
  intros HI Hi Hk H1 H2. pose proof (inv_sorted _ _ _ _ HI) as Hso. destruct HI as (_ & Hne & <- & <- & Ha & Hx).
  destruct (find_gap _ _ Hso Hne H1 H2) as (A & pk & st & nk & st' & B & E & G1 & G2). rewrite E in *.
  destruct (nlt_cases _ _ G1) as [->|Hlt].
  - apply covt_tree.
  - apply covt_gap; [exact Hso|exact Hlt|exact G2|].
    apply (exact_gcov X); [|apply (adj_at _ _ _ _ _ _ _ _ Ha)|exact Hi|exact Hk|unfold inside; rewrite G1, G2; reflexivity].
    apply adj_app in Hx as [_ Hx]. apply Hx.
Qed.

(** ** InsertSimple *)
Theorem insert_simple_inv X lo hi d k : inv X lo hi d -> kok k -> key_lt k lo = false -> key_lt k hi = true ->
  (forall A a st b w B, d_tree d = A ++ (a, st) :: (b, w) :: B -> inside a b k = true -> Z.of_nat (length (filter (inside a b) X)) + 1 < 2 ^ 20) ->
  exists d', insert_simple c d k = Ok d' /\ inv (k :: X) lo hi d' /\ map fst (d_tree d') = map fst (d_tree d) /\ last_st (d_tree d') = last_st (d_tree d).
Proof.
  intros HI Hk H1 H2 HN. pose proof (inv_sorted _ _ _ _ HI) as Hso. destruct HI as (Hds & Hne & Hlo & Hhi & Ha & Hx). subst lo hi.
  destruct (find_gap _ _ Hso Hne H1 H2) as (A & pk & st & nk & st' & B & E & G1 & G2).
  assert (HN2 : forall L, get_infix_list c s st = Ok L -> Z.of_nat (length L) + 1 < 2 ^ 20).
  { intros L EL. rewrite adj_iff in Hx. destruct (Hx _ _ _ _ _ _ E) as (_ & L2 & EL2 & HP). rewrite EL in EL2. injection EL2 as <-.
    rewrite (Permutation_length HP), map_length. apply (HN _ _ _ _ _ _ E). unfold inside. rewrite G1, G2. reflexivity. }
  destruct (insert_simple_spec c s Hs T Hf d A pk st nk st' B k Hds E Ha Hk G1 G2 HN2) as (st2 & E1 & Ha2 & _ & _ & Hfl & L & L' & EL & EL' & Hins).
  exists (mkdiva s (A ++ (pk, st2) :: (nk, st') :: B)). split; [exact E1|]. split.
  - split; [reflexivity|]. cbn [d_tree]. split; [destruct A; discriminate|].
    split; [rewrite E; destruct A as [|[a w] A]; reflexivity|].
    split; [rewrite E; rewrite !last_app_cons; change ((pk, st) :: (nk, st') :: B) with ([(pk, st)] ++ (nk, st') :: B); change ((pk, st2) :: (nk, st') :: B) with ([(pk, st2)] ++ (nk, st') :: B); rewrite !last_app_cons; reflexivity|].
    split; [exact Ha2|].
    rewrite E in Hx, Hso. apply adj_iff. intros A1 a sa b wb B1 E2.
    assert (Hso2 : sorted (A ++ (pk, st2) :: (nk, st') :: B)) by (eapply gapok_sorted; exact Ha2).
    destruct (inside a b k) eqn:Hin.
    + (* the gap of k *)
      destruct (inside_unique _ A pk st2 nk st' B A1 a sa b wb B1 k Hso2 eq_refl E2) as [<- <-].
      { unfold inside. rewrite G1, G2. reflexivity. } { exact Hin. }
      assert (sa = st2).
      { assert (I1 : In (pk, sa) (A ++ (pk, st2) :: (nk, st') :: B)) by (rewrite E2; apply in_or_app; right; left; reflexivity).
        apply in_app_or in I1 as [I1|[I1|I1]]; [|congruence|].
        - pose proof (sorted_app_below _ _ _ Hso2 _ I1) as Hb. simpl in Hb. rewrite key_lt_irrefl in Hb. discriminate.
        - apply sorted_tail in Hso2. pose proof (sorted_below _ _ Hso2 _ I1) as Hb. simpl in Hb. rewrite key_lt_irrefl in Hb. discriminate. }
      subst sa. apply adj_app in Hx as [_ Hx]. destruct Hx as [(Hp & L0 & EL0 & HP) _]. rewrite EL in EL0. inversion EL0; subst L0.
      split; [destruct (flags_part _ _ Hfl) as [-> _]; exact Hp|]. exists L'. split; [exact EL'|].
      cbn [filter]. rewrite Hin. cbn [map]. destruct Hins as (L1 & L2 & -> & -> & _).
      etransitivity; [symmetry; apply Permutation_middle|]. constructor. exact HP.
    + (* other gaps *)
      assert (Hold : exact X a sa b).
      { clear EL EL' Hins. 
        assert (Hx2 : forall A0 a0 sa0 b0 wb0 B0, A ++ (pk, st) :: (nk, st') :: B = A0 ++ (a0, sa0) :: (b0, wb0) :: B0 -> exact X a0 sa0 b0) by (apply adj_iff; exact Hx).
        assert (Hne2 : a <> pk).
        { intros ->. assert (b = nk).
          { assert (key_lt nk b = false /\ key_lt b nk = false) as [N1 N2]; [|destruct (nlt_cases _ _ N1) as [->|L1]; [reflexivity|congruence]].
            split.
            - apply (adj_next A1 pk sa b wb B1); [rewrite <- E2; exact Hso2|rewrite <- E2, map_app; apply in_or_app; right; right; left; reflexivity|].
              apply sorted_tail in Hso2. apply Hso2.
            - apply (adj_next A pk st2 nk st' B); [exact Hso2|rewrite E2, map_app; apply in_or_app; right; right; left; reflexivity|].
              rewrite E2 in Hso2. apply sorted_tail in Hso2. apply Hso2. }
          subst b. unfold inside in Hin. rewrite G1, G2 in Hin. discriminate. }
        assert (Hput : forall C C' v1 v2 (x y : key * store) D D', C ++ (pk, v1) :: D = C' ++ x :: y :: D' -> fst x <> pk ->
                  exists y' C2 D2, C ++ (pk, v2) :: D = C2 ++ x :: y' :: D2 /\ fst y' = fst y).
        { clear. intros C. induction C as [|z C IH]; intros C' v1 v2 x y D D' EC Hn.
          - destruct C' as [|z' C']; cbn [app] in EC; inversion EC; subst; [simpl in Hn; congruence|].
            exists y, ((pk, v2) :: C'), D'. split; reflexivity.
          - destruct C' as [|z' C']; cbn [app] in EC; inversion EC; subst.
            + destruct C as [|z C]; cbn [app] in *.
              * inversion H1; subst. exists (pk, v2), [], D'. split; reflexivity.
              * inversion H1; subst. exists y, [], (C ++ (pk, v2) :: D). split; reflexivity.
            + destruct (IH C' v1 v2 x y D D' H1 Hn) as (y' & C2 & D2 & E1 & E2). exists y', (z' :: C2), D2. cbn [app]. rewrite E1. auto. }
        destruct (Hput _ _ _ st _ _ _ _ E2 Hne2) as ([b' wb'] & C2 & D2 & E3 & E4). simpl in E4. subst b'.
        apply (Hx2 _ _ _ _ _ _ E3). }
      destruct Hold as (Hp & L0 & EL0 & HP). split; [exact Hp|]. exists L0. split; [exact EL0|]. cbn [filter]. rewrite Hin. exact HP.
  - cbn [d_tree]. rewrite E, !map_app, !last_st_app. split; reflexivity.
Qed.
End F.
