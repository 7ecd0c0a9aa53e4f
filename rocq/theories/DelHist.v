(** Histories with deletions of keys that are not boundaries. *)
From Coq Require Import ZArith List Bool Lia Sorted Permutation.
From Coq Require Import ZifyBool ZifyNat.
From Verif Require Import Base Util Store Bits Cells Lowbit Key KeyBits KeyOrder Diva Tree StoreRep Spec StoreDelete Filter Contents Bulk SpecFilter Hist.
Import ListNotations.
Open Scope Z_scope.

Section F.
Variable c : cfg.
Variable s : Z.
Hypothesis Hs : 1 <= s <= 46.
Hypothesis T : tables_ok c.
Hypothesis Hf : fits c s.

Notation inf := (inf c s).
Notation tot := (tot c).
Notation gapok := (gapok c s).
Notation exact := (exact c s).
Notation inv := (inv c s).
Notation infx := (infx c s).

(** one block changes *)
Lemma gap_update X X' lo hi d A pk st nk st' B st2 k : inv X lo hi d -> d_tree d = A ++ (pk, st) :: (nk, st') :: B -> inside pk nk k = true ->
  gapok pk st2 nk -> exact X' pk st2 nk ->
  (forall a b, inside a b k = false -> Permutation (filter (inside a b) X) (filter (inside a b) X')) ->
  inv X' lo hi (mkdiva s (A ++ (pk, st2) :: (nk, st') :: B)).
Proof.
  intros HI E Gk Hg2 Hex Hperm. pose proof (inv_sorted _ _ _ _ _ _ HI) as Hso. destruct HI as (Hds & Hne & Hlo & Hhi & Ha & Hx). subst lo hi.
  rewrite E in Ha. pose proof (adj_put c s Hs A pk st st2 nk st' B Ha Hg2) as Ha2.
  split; [reflexivity|]. cbn [d_tree]. split; [destruct A; discriminate|].
  split; [rewrite E; destruct A as [|[a w] A]; reflexivity|].
  split; [rewrite E; rewrite !last_app_cons; change ((pk, st) :: (nk, st') :: B) with ([(pk, st)] ++ (nk, st') :: B); change ((pk, st2) :: (nk, st') :: B) with ([(pk, st2)] ++ (nk, st') :: B); rewrite !last_app_cons; reflexivity|].
  split; [exact Ha2|].
  rewrite E in Hx, Hso. apply adj_iff. intros A1 a sa b wb B1 E2.
  assert (Hso2 : sorted (A ++ (pk, st2) :: (nk, st') :: B)) by (eapply gapok_sorted; exact Ha2).
  destruct (inside a b k) eqn:Hin.
  + destruct (inside_unique _ A pk st2 nk st' B A1 a sa b wb B1 k Hso2 eq_refl E2 Gk Hin) as [<- <-].
    assert (sa = st2); [|subst sa; exact Hex].
    assert (I1 : In (pk, sa) (A ++ (pk, st2) :: (nk, st') :: B)) by (rewrite E2; apply in_or_app; right; left; reflexivity).
    apply in_app_or in I1 as [I1|[I1|I1]]; [|congruence|].
    * pose proof (sorted_app_below _ _ _ Hso2 _ I1) as Hb. simpl in Hb. rewrite key_lt_irrefl in Hb. discriminate.
    * apply sorted_tail in Hso2. pose proof (sorted_below _ _ Hso2 _ I1) as Hb. simpl in Hb. rewrite key_lt_irrefl in Hb. discriminate.
  + assert (Hold : exact X a sa b).
    { assert (Hx2 : forall A0 a0 sa0 b0 wb0 B0, A ++ (pk, st) :: (nk, st') :: B = A0 ++ (a0, sa0) :: (b0, wb0) :: B0 -> exact X a0 sa0 b0) by (apply adj_iff; exact Hx).
      assert (Hne2 : a <> pk).
      { intros ->. assert (b = nk).
        { assert (key_lt nk b = false /\ key_lt b nk = false) as [N1 N2]; [|destruct (nlt_cases _ _ N1) as [->|L1]; [reflexivity|congruence]].
          split.
          - apply (adj_next A1 pk sa b wb B1); [rewrite <- E2; exact Hso2|rewrite <- E2, map_app; apply in_or_app; right; right; left; reflexivity|].
            apply sorted_tail in Hso2. apply Hso2.
          - apply (adj_next A pk st2 nk st' B); [exact Hso2|rewrite E2, map_app; apply in_or_app; right; right; left; reflexivity|].
            rewrite E2 in Hso2. apply sorted_tail in Hso2. apply Hso2. }
        subst b. congruence. }
      assert (Hput : forall C C' v1 v2 (x y : key * store) D D', C ++ (pk, v1) :: D = C' ++ x :: y :: D' -> fst x <> pk ->
                exists y' C2 D2, C ++ (pk, v2) :: D = C2 ++ x :: y' :: D2 /\ fst y' = fst y).
      { clear. intros C. induction C as [|z C IH]; intros C' v1 v2 x y D D' EC Hn.
        - destruct C' as [|z' C']; cbn [app] in EC; inversion EC; subst; [simpl in Hn; congruence|].
          exists y, ((pk, v2) :: C'), D'. split; reflexivity.
        - destruct C' as [|z' C']; cbn [app] in EC; inversion EC; subst.
          + destruct C as [|z C]; cbn [app] in *.
            * inversion H1; subst. exists (pk, v2), [], D'. split; reflexivity.
            * inversion H1; subst. exists y, [], (C ++ (pk, v2) :: D). split; reflexivity.
          + destruct (IH C' v1 v2 x y D D' H1 Hn) as (y' & C2 & D2 & E1 & E2). exists y', (z' :: C2), D2. cbn [app]. rewrite E1. auto. }
      destruct (Hput _ _ _ st _ _ _ _ E2 Hne2) as ([b' wb'] & C2 & D2 & E3 & E4). simpl in E4. subst b'.
      apply (Hx2 _ _ _ _ _ _ E3). }
    destruct Hold as (Hp & L0 & EL0 & HP). split; [exact Hp|]. exists L0. split; [exact EL0|]. etransitivity; [exact HP|]. apply Permutation_map. apply Hperm. exact Hin.
Qed.

Lemma filter_perm {A} (f : A -> bool) l l' : Permutation l l' -> Permutation (filter f l) (filter f l').
Proof.
  induction 1; cbn [filter]; try (destruct (f x)); try (destruct (f y)); try constructor; try assumption; try reflexivity. etransitivity; eassumption.
Qed.
Lemma hit_odd_eq x y : 0 < x < 2 ^ 63 -> 0 < y < 2 ^ 63 -> Z.odd x = true -> Z.odd y = true -> hit x x y -> y = x.
Proof.
  intros Hx Hy Ox Oy [H1 H2]. assert (H63 : 2 ^ 63 < 2 ^ 64) by (vm_compute; reflexivity). unfold lbase in *. rewrite lowbit_odd in * by (try lia; assumption).
  destruct (Z.eq_dec y x) as [E|N]; [exact E|]. assert (E : y = x + 1) by lia. rewrite E, Z.odd_add, Ox in Oy. discriminate.
Qed.

(** ** Delete of a key strictly between two boundaries *)
Theorem delete_inv X X' lo hi d k : inv X lo hi d -> Permutation X (k :: X') -> Forall kok X -> key_lt k lo = false -> key_lt k hi = true ->
  ~ In k (map fst (d_tree d)) -> uncrammed c d k ->
  exists d', delete c d k = Ok d' /\ inv X' lo hi d' /\ map fst (d_tree d') = map fst (d_tree d) /\ last_st (d_tree d') = last_st (d_tree d).
Proof.
  intros HI HP HX H1 H2 Hnb Hun. pose proof (inv_sorted _ _ _ _ _ _ HI) as Hso. pose proof HI as (Hds & Hne & Hlo & Hhi & Ha & Hx). subst lo hi.
  assert (Hk : kok k) by (rewrite Forall_forall in HX; apply HX; apply (Permutation_in _ (Permutation_sym HP)); left; reflexivity).
  destruct (find_gap _ _ Hso Hne H1 H2) as (A & pk & st & nk & st' & B & E & G1 & G2).
  assert (G3 : key_lt pk k = true).
  { destruct (nlt_cases _ _ G1) as [->|]; [|assumption]. exfalso. apply Hnb. rewrite E, map_app. apply in_or_app. right. left. reflexivity. }
  assert (Gk : inside pk nk k = true) by (unfold inside; rewrite G1, G2; reflexivity).
  assert (Hex : exact X pk st nk) by (rewrite adj_iff in Hx; exact (Hx _ _ _ _ _ _ E)).
  unfold delete. rewrite Hds, E. rewrite E in Hso, Ha. rewrite seek_q by (try assumption; apply key_lt_asym; assumption). cbn [peek snd bind skip1_rev].
  destruct (key_eq nk k) eqn:Ee; [apply key_eq_iff in Ee; rewrite Ee, key_lt_irrefl in G2; discriminate|]. cbn [andb].
  pose proof (adj_at _ _ _ _ _ _ _ _ Ha) as (K1 & K2 & K3 & K4 & L & K5). cbn [bind peek snd].
  destruct (seg_ex c pk nk K1 K2 K3) as (sh & ig & isz & HS). rewrite (segment_eq c s Hs _ _ _ _ _ HS) by auto. cbn [bind].
  pose proof (key_lt_ple pk k K1 Hk G3) as P1. pose proof (key_lt_ple k nk Hk K2 G2) as P2.
  destruct (extract_key_seg c s Hs _ _ _ _ _ k HS K1 Hk P1 P2) as (e & Ee2 & E1 & E2). rewrite Ee2. cbn [bind]. rewrite E2.
  destruct Hex as (Hp & L0 & EL & HPL). rewrite Hp. cbn [bind].
  destruct (inf_range c s Hs _ _ _ _ _ k HS P1 P2) as (I1 & I2 & I3). destruct (lor1_range (inf pk nk k) ltac:(lia)) as [R1 R2].
  assert (R4 : Z.lor (inf pk nk k) 1 < 1024 * 2 ^ s).
  { rewrite lor1 by lia. pose proof (Z.div_mod (inf pk nk k) 2 ltac:(lia)). pose proof (Z.mod_pos_bound (inf pk nk k) 2 ltac:(lia)).
    replace s with (1 + (s - 1)) in * by lia. rewrite Z.pow_add_r in * by lia. change (2 ^ 1) with 2 in *. lia. }
  assert (H5663 : 2 ^ 56 < 2 ^ 63) by (vm_compute; reflexivity).
  rewrite (rep_list _ _ _ _ _ _ K5) in EL. injection EL as <-.
  assert (Hodds : forall y, In y L -> 0 < y < 2 ^ 63 /\ Z.odd y = true).
  { intros y Hy. apply (Permutation_in _ HPL) in Hy. apply in_map_iff in Hy as (k' & <- & Hk'). apply filter_In in Hk' as [Hk' Hi].
    rewrite Forall_forall in HX. unfold inside in Hi. apply andb_true_iff in Hi as [N1 N2]. apply negb_true_iff in N1.
    destruct (inf_range c s Hs _ _ _ _ _ k' HS (nlt_ple _ _ K1 (HX k' Hk') N1) (key_lt_ple _ _ (HX k' Hk') K2 N2)) as (J1 & J2 & J3).
    unfold Contents.infx. destruct (lor1_range (inf pk nk k') ltac:(lia)) as [R5 R6]. split; [|exact R6]. assert (Z.lor (inf pk nk k') 1 <> 0) by (intros E0; rewrite E0 in R6; discriminate). lia. }
  assert (HfX : Permutation (filter (inside pk nk) X) (k :: filter (inside pk nk) X')).
  { etransitivity; [apply filter_perm; exact HP|]. cbn [filter]. rewrite Gk. reflexivity. }
  assert (Hin : In (infx pk nk k) L).
  { apply (Permutation_in _ (Permutation_sym HPL)). apply in_map. apply (Permutation_in _ (Permutation_sym HfX)). left. reflexivity. }
  destruct (Hodds _ Hin) as [Hrk _].
  assert (Hw : wp (delete_raw c s st (infx pk nk k) (tot pk nk)) (fun st2 => exists L', rep c s (tot pk nk) true st2 L' /\ dels (infx pk nk k) L L' /\ flags st2 = flags st)).
  { apply (delete_raw_rep c T s (tot pk nk) st L); [exact Hf|exact K5|unfold Contents.infx; lia|exact R2| | |eauto].
    - intros st1 Est1. rewrite <- Hds in Est1 |- *. eapply (Hun A pk st nk st' B); [exact E|apply le_iff; exact G1|apply lt_iff; exact G2| |exact Est1].
      rewrite Hds. apply (segment_eq c s Hs _ _ _ _ _ HS); auto.
    - exists (infx pk nk k). split; [exact Hin|]. unfold Contents.infx in *. unfold hit, lbase.
      assert (H64 : 2 ^ 63 < 2 ^ 64) by (vm_compute; reflexivity). rewrite lowbit_odd by (try lia; exact R2). lia. }
  apply wp_exists in Hw as (st2 & Ed & L' & K7 & (LA & y & LB & EL1 & EL2 & Hhit & _) & K9). unfold Contents.infx in Ed at 1. rewrite Ed. cbn [bind].
  unfold with_tree. rewrite put_hit by (apply (sorted_app_below _ (pk, st) _ Hso)). rewrite Hds.
  eexists. split; [reflexivity|]. cbn [d_tree].
  assert (Ey : y = infx pk nk k).
  { destruct (Hodds y) as [Hy1 Hy2]; [rewrite EL1; apply in_or_app; right; left; reflexivity|]. apply hit_odd_eq; auto. }
  split; [|rewrite !map_app, !last_st_app; split; reflexivity].
  apply (gap_update X X' _ _ d A pk st nk st' B st2 k); auto.
  - rewrite <- E. exact HI.
  - split; [exact K1|]. split; [exact K2|]. split; [exact K3|]. split; [apply (flags_part_ok st); auto|]. exists L'. exact K7.
  - split; [destruct (flags_part _ _ K9) as [-> _]; exact Hp|]. exists L'. split; [exact (rep_list _ _ _ _ _ _ K7)|].
    apply (Permutation_cons_inv (a := infx pk nk k)). rewrite <- Ey at 1. rewrite EL2.
    etransitivity; [apply Permutation_middle|]. rewrite <- EL1. etransitivity; [exact HPL|].
    etransitivity; [apply Permutation_map; exact HfX|]. reflexivity.
  - intros a b Hi. etransitivity; [apply filter_perm; exact HP|]. cbn [filter]. rewrite Hi. reflexivity.
Qed.

Lemma inv_perm X Y lo hi d : Permutation X Y -> inv X lo hi d -> inv Y lo hi d.
Proof.
  intros HP (U1 & U2 & U3 & U4 & U5 & U6). split; [exact U1|]. split; [exact U2|]. split; [exact U3|]. split; [exact U4|]. split; [exact U5|].
  eapply adj_mono; [|exact U6]. intros a st b. apply exact_perm; exact HP.
Qed.
Lemma same_key_iff a b : same_key a b = true <-> a = b.
Proof. unfold same_key. destruct (list_eq_dec Z.eq_dec a b); split; congruence. Qed.
Lemma remove_one_perm k l : In k l -> Permutation l (k :: remove_one k l).
Proof.
  induction l as [|x l IH]; intros H; [destruct H|]. cbn [remove_one]. destruct (same_key x k) eqn:E.
  - apply same_key_iff in E. subst x. reflexivity.
  - destruct H as [->|H]; [rewrite (proj2 (same_key_iff k k) eq_refl) in E; discriminate|]. etransitivity; [apply perm_skip; apply IH; exact H|]. apply perm_swap.
Qed.
(** the keys of a loaded filter that are stored in its blocks *)
Definition interior (d : diva) (keys : list key) : list key :=
  filter (fun k => negb (existsb (same_key k) (boundaries d))) keys.
Lemma interior_iff d keys k : In k (interior d keys) <-> In k keys /\ ~ In k (boundaries d).
Proof.
  unfold interior. rewrite filter_In, negb_true_iff. assert (H : existsb (same_key k) (boundaries d) = true <-> In k (boundaries d)).
  { rewrite existsb_exists. split; [intros (x & Hx & E); apply same_key_iff in E; subst; exact Hx|intros Hx; exists k; split; [exact Hx|apply same_key_iff; reflexivity]]. }
  destruct (existsb (same_key k) (boundaries d)); split; intros [H1 H2]; (split; [exact H1|]); try discriminate; try tauto; try reflexivity.
  - intros Hin. apply H in Hin. discriminate.
Qed.

(** the keys in the blocks are well formed and inside the ends *)
Definition within (lo hi : key) (ks : list key) : Prop := Forall (fun k => kok k /\ key_lt k lo = false /\ key_lt k hi = true) ks.
Lemma within_kok lo hi ks : within lo hi ks -> Forall kok ks.
Proof. apply Forall_impl. intros k H. apply H. Qed.

Lemma loaded_interior m keys : loadable m keys -> exists d, load c s m keys = Ok d /\ inv (interior d keys) (low_end m keys) (high_end m keys) d /\
  within (low_end m keys) (high_end m keys) (interior d keys) /\ In (low_end m keys) (boundaries d) /\ In (high_end m keys) (boundaries d).
Proof.
  intros HL. destruct (loaded_nd c s Hs T Hf m keys HL) as (d & X & E & HI & HN & _ & HX & _ & B1 & B2). exists d. split; [exact E|].
  assert (HP : Permutation X (interior d keys)).
  { apply NoDup_Permutation; [exact HN| |intros k; rewrite interior_iff; apply HX]. unfold interior. apply NoDup_filter.
    destruct HL as [Hb _ _ Hk]. assert (Hnd : forall R : key -> key -> Prop, (forall x y, kok x -> R x y -> x <> y) -> StronglySorted R keys -> NoDup keys).
    { clear -Hb. intros R HR. induction keys as [|x l IH]; intros HS; constructor; inversion HS; inversion Hb; subst; [|apply IH; assumption].
      intros Hin. match goal with H : Forall (R x) l |- _ => rewrite Forall_forall in H; specialize (H x Hin); revert H end. intros H. eapply HR; [|exact H|reflexivity]. assumption. }
    assert (Hpl : forall x y, kok x -> padlt x y -> x <> y).
    { intros x y Kx H ->. apply padlt_plt in H; auto. apply plt_key_lt in H; auto. rewrite key_lt_irrefl in H. discriminate. }
    destruct m as [len| |].
    - destruct Hk as [_ Hso]. apply (Hnd lt); [|exact Hso]. intros x y _ H ->. apply lt_iff in H. rewrite key_lt_irrefl in H. discriminate.
    - destruct Hk as [Hso _]. apply (Hnd padlt); auto.
    - destruct Hk as [Hso _]. apply (Hnd padlt); auto. }
  split; [eapply inv_perm; eassumption|]. split; [|split; assumption].
  apply Forall_forall. intros k Hk. apply interior_iff in Hk as [Hk1 Hk2]. destruct (key_bounds m keys k HL Hk1) as [K1 K2].
  split; [pose proof (ld_bytes _ _ HL) as F; rewrite Forall_forall in F; apply F; exact Hk1|]. split; [exact K1|]. destruct K2 as [->|K2]; [contradiction|exact K2].
Qed.
End F.
