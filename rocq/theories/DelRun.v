(** Histories with deletions of boundaries and of other keys. *)
From Coq Require Import ZArith List Bool Lia Sorted Permutation.
From Coq Require Import ZifyBool ZifyNat.
From Verif Require Import Base Util Store Bits Cells Lowbit Key KeyBits KeyOrder Diva Tree StoreRep Spec StoreDelete Filter Contents Bulk SpecFilter Hist DelHist MergeTree.
Import ListNotations.
Open Scope Z_scope.

Lemma loadable_nodup m keys : loadable m keys -> NoDup keys.
Proof.
  intros HL. destruct HL as [Hb _ _ Hk]. assert (Hnd : forall R : key -> key -> Prop, (forall x y, kok x -> R x y -> x <> y) -> StronglySorted R keys -> NoDup keys).
  { clear -Hb. intros R HR. induction keys as [|x l IH]; intros HS; constructor; inversion HS; inversion Hb; subst; [|apply IH; assumption].
    intros Hin. match goal with H : Forall (R x) l |- _ => rewrite Forall_forall in H; specialize (H x Hin); revert H end. intros H. eapply HR; [|exact H|reflexivity]. assumption. }
  assert (Hpl : forall x y, kok x -> padlt x y -> x <> y).
  { intros x y Kx H ->. apply padlt_plt in H; auto. apply plt_key_lt in H; auto. rewrite key_lt_irrefl in H. discriminate. }
  destruct m as [len| |].
  - destruct Hk as [_ Hso]. apply (Hnd lt); [|exact Hso]. intros x y _ H ->. apply lt_iff in H. rewrite key_lt_irrefl in H. discriminate.
  - destruct Hk as [Hso _]. apply (Hnd padlt); auto.
  - destruct Hk as [Hso _]. apply (Hnd padlt); auto.
Qed.
Lemma existsb_same k l : existsb (same_key k) l = true <-> In k l.
Proof. rewrite existsb_exists. split; [intros (x & Hx & E); apply same_key_iff in E; subst; exact Hx|intros Hx; exists k; split; [exact Hx|apply same_key_iff; reflexivity]]. Qed.

(** the loaded keys that are stored as boundaries *)
Definition bkeys (B keys : list key) : list key := filter (fun k => existsb (same_key k) B) keys.
Lemma bkeys_iff B keys k : In k (bkeys B keys) <-> In k keys /\ In k B.
Proof. unfold bkeys. rewrite filter_In, existsb_same. reflexivity. Qed.
Lemma bkeys_split d keys : Permutation keys (interior d keys ++ bkeys (boundaries d) keys).
Proof.
  unfold interior, bkeys. induction keys as [|k l IH]; [reflexivity|]. cbn [filter]. destruct (existsb (same_key k) (boundaries d)); cbn [negb].
  - apply Permutation_cons_app. exact IH.
  - apply perm_skip. exact IH.
Qed.
Lemma bkeys_drop B1 k B2 keys : NoDup (B1 ++ k :: B2) -> NoDup keys -> In k keys -> Permutation (bkeys (B1 ++ k :: B2) keys) (k :: bkeys (B1 ++ B2) keys).
Proof.
  intros HB HK Hin. apply NoDup_Permutation.
  - apply NoDup_filter. exact HK.
  - constructor; [|apply NoDup_filter; exact HK]. rewrite bkeys_iff. intros [_ H]. apply NoDup_remove_2 in HB. contradiction.
  - intros x. cbn [In]. rewrite !bkeys_iff, !in_app_iff. cbn [In]. split; [intros (H1 & [H2|[H2|H2]])|intros [<-|(H1 & [H2|H2])]]; auto.
Qed.
Lemma remove_all R : forall X ks, Permutation ks (X ++ R) -> Permutation (fold_right remove_one ks R) X.
Proof.
  induction R as [|r R IH]; intros X ks HP; cbn [fold_right]; [rewrite app_nil_r in HP; exact HP|].
  assert (H1 : Permutation (fold_right remove_one ks R) (r :: X)).
  { apply IH. etransitivity; [exact HP|]. etransitivity; [symmetry; apply Permutation_middle|]. reflexivity. }
  assert (H2 : In r (fold_right remove_one ks R)) by (eapply Permutation_in; [symmetry; exact H1|left; reflexivity]).
  apply remove_one_perm in H2. apply (Permutation_cons_inv (a := r)). etransitivity; [symmetry; exact H2|exact H1].
Qed.

Section F.
Variable c : cfg.
Variable s : Z.
Hypothesis Hs : 1 <= s <= 46.
Hypothesis T : tables_ok c.
Hypothesis Hf : fits c s.
Hypothesis Hc : c_strict c = false.

Notation inv := (inv c s).

(** What a filter holds after loading [keys] and some operations: the held keys
    are those in the blocks and the boundaries among the loaded keys. *)
Definition holds (m : loader) (keys : list key) (d : diva) (ks : list key) : Prop :=
  exists X, Permutation ks (X ++ bkeys (boundaries d) keys) /\ inv X (low_end m keys) (high_end m keys) d /\
  within (low_end m keys) (high_end m keys) X /\
  (forall k, In k (boundaries d) -> In k keys \/ k = low_end m keys \/ k = high_end m keys) /\
  In (high_end m keys) (boundaries d).

Lemma loaded_holds m keys : loadable m keys -> exists d, load c s m keys = Ok d /\ holds m keys d keys /\ last_st (d_tree d) = blankst c s.
Proof.
  intros HL. destruct (loaded_interior c s Hs T Hf m keys HL) as (d & E & HI & HW & H1 & H2). exists d. split; [exact E|]. split; [|eapply loaded_last; eassumption].
  exists (interior d keys). split; [apply bkeys_split|]. split; [exact HI|]. split; [exact HW|]. split; [|exact H2].
  destruct (loaded_nd c s Hs T Hf m keys HL) as (d' & X & E' & _ & _ & _ & _ & H & _). rewrite E in E'. injection E' as <-. exact H.
Qed.

Lemma sorted_nodup (t : tree) : sorted t -> NoDup (map fst t).
Proof.
  induction t as [|[a st] t IH]; intros H; cbn [map]; constructor.
  - intros Hin. apply in_map_iff in Hin as ([b w] & E & Hb). pose proof (sorted_below _ _ H _ Hb) as L. cbn [fst] in *. subst b. rewrite key_lt_irrefl in L. discriminate.
  - apply IH. destruct t as [|x t]; [exact I|apply H].
Qed.

(** the boundaries that are left: only deleting a boundary changes them *)
Definition drop_key (k : key) (B : list key) : list key := filter (fun x => negb (same_key x k)) B.
Fixpoint left_bounds (B : list key) (ops : list op) : list key :=
  match ops with [] => B | Ins _ :: rest => left_bounds B rest | Del k :: rest => left_bounds (drop_key k B) rest end.
Lemma same_key_iff a b : same_key a b = true <-> a = b.
Proof. unfold same_key. destruct (list_eq_dec Z.eq_dec a b); split; congruence. Qed.
Lemma drop_absent k B : ~ In k B -> drop_key k B = B.
Proof.
  unfold drop_key. induction B as [|x B IH]; intros H; [reflexivity|]. cbn [filter]. destruct (same_key x k) eqn:E.
  - apply same_key_iff in E. exfalso. apply H. left. exact E.
  - cbn [negb]. rewrite IH; [reflexivity|]. intros Hx. apply H. right. exact Hx.
Qed.
Lemma drop_mid k B1 B2 : ~ In k (B1 ++ B2) -> drop_key k (B1 ++ k :: B2) = B1 ++ B2.
Proof.
  intros H. unfold drop_key. rewrite filter_app. cbn [filter]. rewrite (proj2 (same_key_iff k k) eq_refl). cbn [negb].
  fold (drop_key k B1). fold (drop_key k B2). rewrite !drop_absent; auto; intros Hx; apply H; apply in_or_app; auto.
Qed.
Lemma left_incl ops : forall B, incl (left_bounds B ops) B.
Proof.
  induction ops as [|[k|k] ops IH]; intros B; cbn [left_bounds]; [apply incl_refl|apply IH|]. eapply incl_tran; [apply IH|]. intros x Hx. apply filter_In in Hx. apply Hx.
Qed.

Lemma run_op_holds m keys d ks o : loadable m keys -> holds m keys d ks -> lawful c m keys d ks [o] ->
  exists d', run_op c d o = Ok d' /\ holds m keys d' (remaining ks [o]) /\ boundaries d' = left_bounds (boundaries d) [o] /\ last_st (d_tree d') = last_st (d_tree d).
Proof.
  intros HL (X & HP & HI & HW & HB & HE). destruct o as [k|k]; cbn [lawful remaining run_op insert]; intros [H _].
  - destruct H as (H1 & H2 & H3 & H4). apply le_iff in H2. apply lt_iff in H3.
    destruct (insert_simple_inv c s Hs T Hf X _ _ d k HI H1 H2 H3) as (d' & E & HI' & Em & El).
    { intros A a st b w B E Hin. destruct HI as (_ & _ & _ & _ & Ha & Hx). rewrite adj_iff in Ha, Hx. destruct (Hx _ _ _ _ _ _ E) as (_ & L & EL & HP').
      destruct (Ha _ _ _ _ _ _ E) as (_ & _ & _ & _ & L2 & HR). rewrite (rep_list _ _ _ _ _ _ HR) in EL. injection EL as <-.
      apply Permutation_length in HP'. rewrite map_length in HP'. rewrite <- HP'. destruct (rep_count c T _ _ _ _ _ HR) as (EC & _). rewrite <- EC.
      unfold counters_free in H4. rewrite E in H4. rewrite Forall_forall in H4. apply (H4 (a, st)). apply in_or_app. right. left. reflexivity. }
    assert (Eb : boundaries d' = boundaries d) by exact Em.
    exists d'. split; [exact E|]. split; [|split; [exact Eb|exact El]].
    exists (k :: X). rewrite Eb. split; [cbn [app]; apply perm_skip; exact HP|]. split; [exact HI'|]. split; [constructor; auto|]. split; [exact HB|exact HE].
  - destruct H as (H1 & H2 & H3). destruct (in_dec (list_eq_dec Z.eq_dec) k (boundaries d)) as [Hin|Hin].
    + clear H3. destruct (H2 Hin) as (A & a & sta & stk & b & stb & B & E & Hct & La & Lk & Lb).
      destruct (delete_merge_inv c s Hs T Hf Hc X _ _ d A a sta k stk b stb B HI (within_kok _ _ _ HW) E La Lk Lb Hct) as (st & ED & HI').
      pose proof (inv_sorted _ _ _ _ _ _ HI) as Hso. pose proof (sorted_nodup _ Hso) as Hnd.
      assert (Eb : boundaries d = (map fst A ++ [a]) ++ k :: b :: map fst B).
      { unfold boundaries. rewrite E, map_app, <- app_assoc. reflexivity. }
      assert (Eb' : boundaries (mkdiva s (A ++ (a, st) :: (b, stb) :: B)) = (map fst A ++ [a]) ++ b :: map fst B).
      { unfold boundaries. cbn [d_tree]. rewrite map_app, <- app_assoc. reflexivity. }
      assert (Hnk : ~ In k ((map fst A ++ [a]) ++ b :: map fst B)).
      { apply NoDup_remove_2. change (NoDup (boundaries d)) in Hnd. rewrite Eb in Hnd. exact Hnd. }
      assert (Hlo : k <> low_end m keys).
      { intros Ek. apply Hnk. destruct HI as (_ & _ & Hh & _). rewrite Ek, <- Hh, E. apply in_or_app. left. destruct A as [|[x w] A]; cbn; auto. }
      assert (Hhi : k <> high_end m keys).
      { intros Ek. apply Hnk. destruct HI as (_ & _ & _ & Hh & _). rewrite Ek, <- Hh, E.
        change ((a, sta) :: (k, stk) :: (b, stb) :: B) with ([(a, sta); (k, stk)] ++ (b, stb) :: B). rewrite app_assoc, last_app_cons. apply in_or_app. right.
        destruct (last_key_in (b, stb) B) as (y & Hy & <-). change (b :: map fst B) with (map fst ((b, stb) :: B)). apply in_map. exact Hy. }
      assert (Hk : In k keys). { destruct (HB k Hin) as [H|[H|H]]; [exact H|contradiction|contradiction]. }
      exists (mkdiva s (A ++ (a, st) :: (b, stb) :: B)). split; [exact ED|]. split; [|split].
      * exists X. split; [|split; [exact HI'|split; [exact HW|split]]].
        -- rewrite Eb'. apply (Permutation_cons_inv (a := k)). etransitivity; [symmetry; apply remove_one_perm; exact H1|]. etransitivity; [exact HP|].
           etransitivity; [|symmetry; apply Permutation_middle]. apply Permutation_app_head. rewrite Eb. apply bkeys_drop; [rewrite <- Eb; exact Hnd|eapply loadable_nodup; exact HL|exact Hk].
        -- intros x Hx. apply HB. rewrite Eb. rewrite Eb' in Hx. apply in_app_or in Hx as [Hx|Hx]; apply in_or_app; [left; exact Hx|right; right; exact Hx].
        -- rewrite Eb'. rewrite Eb in HE. apply in_app_or in HE as [Hx|[Hx|Hx]]; apply in_or_app; [left; exact Hx|congruence|right; exact Hx].
      * cbn [left_bounds]. rewrite Eb, Eb'. symmetry. apply drop_mid. exact Hnk.
      * cbn [d_tree]. rewrite E. change ((a, sta) :: (k, stk) :: (b, stb) :: B) with ([(a, sta); (k, stk)] ++ (b, stb) :: B).
        change ((a, st) :: (b, stb) :: B) with ([(a, st)] ++ (b, stb) :: B). rewrite !app_assoc, !last_st_app. reflexivity.
    + clear H2. specialize (H3 Hin).
      assert (HX : In k X). { apply (Permutation_in _ HP) in H1. apply in_app_or in H1 as [H1|H1]; [exact H1|]. apply bkeys_iff in H1 as [_ H1]. contradiction. }
      pose proof (remove_one_perm _ _ HX) as HPX. pose proof (remove_one_perm _ _ H1) as HPk.
      unfold within in HW. rewrite Forall_forall in HW. pose proof (HW k HX) as (K1 & K2 & K3). rewrite <- Forall_forall in HW.
      destruct (delete_inv c s Hs T Hf X (remove_one k X) _ _ d k HI HPX (within_kok _ _ _ HW) K2 K3 Hin H3) as (d' & E & HI' & Em & El).
      assert (Eb : boundaries d' = boundaries d) by exact Em.
      exists d'. split; [exact E|]. split; [|split; [cbn [left_bounds]; rewrite drop_absent by exact Hin; exact Eb|exact El]].
      exists (remove_one k X). rewrite Eb. split; [|split; [exact HI'|split; [|split; assumption]]].
      * apply (Permutation_cons_inv (a := k)). etransitivity; [symmetry; exact HPk|]. etransitivity; [exact HP|].
        change (k :: remove_one k X ++ ?z) with ((k :: remove_one k X) ++ z). apply Permutation_app_tail. exact HPX.
      * unfold within in *. apply (Permutation_Forall HPX) in HW. inversion HW; assumption.
Qed.

Lemma remaining_app ks o ops : remaining ks (o :: ops) = remaining (remaining ks [o]) ops.
Proof. destruct o; reflexivity. Qed.
Lemma run_ops_holds m keys ops : loadable m keys -> forall d ks, holds m keys d ks -> lawful c m keys d ks ops ->
  exists d', run_ops c d ops = Ok d' /\ holds m keys d' (remaining ks ops) /\ boundaries d' = left_bounds (boundaries d) ops /\ last_st (d_tree d') = last_st (d_tree d).
Proof.
  intros HL. induction ops as [|o ops IH]; intros d ks HH HA.
  - exists d. split; [reflexivity|]. split; [exact HH|]. split; reflexivity.
  - cbn [lawful] in HA. destruct HA as [H1 H2]. destruct (run_op_holds m keys d ks o HL HH) as (d1 & E1 & I1 & B1 & L1).
    { cbn [lawful]. auto. }
    destruct (IH d1 _ I1 (H2 d1 E1)) as (d2 & E2 & I2 & B2 & L2). exists d2. cbn [run_ops]. rewrite E1. cbn [bind].
    rewrite remaining_app. split; [exact E2|]. split; [exact I2|]. split; [rewrite B2, B1; destruct o; reflexivity|congruence].
Qed.
Lemma history_holds m keys ops : loadable m keys -> lawful_history c s m keys ops ->
  exists d0 d, load c s m keys = Ok d0 /\ history c s m keys ops = Ok d /\ holds m keys d (remaining keys ops) /\ boundaries d = left_bounds (boundaries d0) ops /\ last_st (d_tree d) = blankst c s.
Proof.
  intros HL HA. destruct (loaded_holds m keys HL) as (d0 & E0 & H0 & L0). destruct (run_ops_holds m keys ops HL d0 keys H0 (HA d0 E0)) as (d & E & H & B & L).
  exists d0, d. unfold history. rewrite E0. cbn [bind]. repeat split; auto. congruence.
Qed.
Lemma remaining_count m keys ops : loadable m keys -> forall d ks, holds m keys d ks -> lawful c m keys d ks ops ->
  Permutation (remaining ks ops ++ deleted ops) (ks ++ inserted ops).
Proof.
  intros HL. induction ops as [|o ops IH]; intros d ks HH HA; [reflexivity|].
  cbn [lawful] in HA. destruct HA as [H1 H2]. destruct (run_op_holds m keys d ks o HL HH) as (d1 & E1 & I1 & _). { cbn [lawful]. auto. }
  specialize (IH d1 _ I1 (H2 d1 E1)). destruct o as [k|k]; cbn [remaining deleted inserted flat_map app] in *.
  + etransitivity; [exact IH|]. apply Permutation_middle.
  + etransitivity; [symmetry; apply Permutation_middle|]. etransitivity; [apply perm_skip; exact IH|].
    etransitivity; [|apply Permutation_app_tail; symmetry; apply remove_one_perm; apply H1]. reflexivity.
Qed.

(** *** no false negatives *)
Lemma holds_cov m keys d ks k : loadable m keys -> holds m keys d ks -> In k ks -> kok k /\ covt (gcov c s) (d_tree d) k.
Proof.
  intros HL (X & HP & HI & HW & _ & _) Hk. apply (Permutation_in _ HP) in Hk. apply in_app_or in Hk as [Hk|Hk].
  - unfold within in HW. rewrite Forall_forall in HW. destruct (HW k Hk) as (K1 & K2 & K3). split; [exact K1|]. eapply inv_stored; [exact Hs|exact HI|exact K1|]. auto.
  - apply bkeys_iff in Hk as [H1 H2]. assert (K : kok k) by (pose proof (ld_bytes _ _ HL) as F; rewrite Forall_forall in F; apply F; exact H1).
    split; [exact K|]. eapply inv_stored; [exact Hs|exact HI|exact K|]. auto.
Qed.
(** *** the keys in the blocks *)
Lemma holds_inner m keys d ks : holds m keys d ks -> inv (in_blocks_of d keys ks) (low_end m keys) (high_end m keys) d /\ Forall kok (in_blocks_of d keys ks).
Proof.
  intros (X & HP & HI & HW & _ & _). pose proof (remove_all _ _ _ HP) as H. fold (bkeys (boundaries d) keys) in *. unfold in_blocks_of. fold (bkeys (boundaries d) keys).
  split; [eapply inv_perm; [symmetry; exact H|exact HI]|]. eapply Permutation_Forall; [symmetry; exact H|]. eapply within_kok; exact HW.
Qed.
Lemma history_answers m keys ops ops' d d' : loadable m keys -> lawful_history c s m keys ops -> lawful_history c s m keys ops' ->
  Permutation (inserted ops ++ deleted ops') (inserted ops' ++ deleted ops) ->
  history c s m keys ops = Ok d -> history c s m keys ops' = Ok d' -> boundaries d = boundaries d' ->
  (forall k, bytes k -> point_query c d k = point_query c d' k) /\
  (forall i l r, bytes l -> bytes r -> le l r -> int_ok i d l r -> range_query i c d l r = range_query i c d' l r).
Proof.
  intros HL HA HA' HP E E' EB. destruct (history_holds m keys ops HL HA) as (d0 & d1 & E0 & E1 & (X & HX & HI & W & _) & _). rewrite E in E1. injection E1 as <-.
  destruct (history_holds m keys ops' HL HA') as (d0' & d1 & E0' & E1 & (X' & HX' & HI' & W' & _) & _). rewrite E' in E1. injection E1 as <-. rewrite E0 in E0'. injection E0' as <-.
  destruct (loaded_holds m keys HL) as (dl & El & Il & _). rewrite E0 in El. injection El as <-.
  pose proof (remaining_count m keys ops HL d0 _ Il (HA _ E0)) as P1. pose proof (remaining_count m keys ops' HL d0 _ Il (HA' _ E0)) as P2.
  assert (HP1 : Permutation (remaining keys ops') (remaining keys ops)).
  { apply (Permutation_app_inv_r (deleted ops ++ deleted ops')).
    etransitivity; [|rewrite app_assoc; apply Permutation_app_tail; symmetry; exact P1].
    etransitivity; [apply Permutation_app_head; apply Permutation_app_comm|].
    rewrite app_assoc. etransitivity; [apply Permutation_app_tail; exact P2|]. rewrite <- !app_assoc. apply Permutation_app_head. symmetry. exact HP. }
  assert (HP2 : Permutation X' X).
  { apply (Permutation_app_inv_r (bkeys (boundaries d) keys)). etransitivity; [|exact HX]. etransitivity; [|exact HP1]. rewrite EB. symmetry. exact HX'. }
  apply (inv_perm _ _ _ _ _ _ _ HP2) in HI'.
  assert (Hr : forall i l r, bytes l -> bytes r -> le l r -> int_ok i d l r -> range_query i c d l r = range_query i c d' l r).
  { intros i l r Kl Kr Hle Hi. apply le_iff in Hle. apply (same_answers c s Hs _ _ _ d d' i l r HI HI' EB (within_kok _ _ _ W) Kl Kr Hi Hle). }
  split; [|exact Hr]. intros k Kk.
  rewrite (point_is_range c s Hs false d k (inv_valid _ _ _ _ _ _ HI) Kk ltac:(intros Hd; discriminate)).
  rewrite (point_is_range c s Hs false d' k (inv_valid _ _ _ _ _ _ HI') Kk ltac:(intros Hd; discriminate)).
  apply Hr; auto; [left; reflexivity|intros Hd; discriminate].
Qed.
(** *** merging *)
Lemma merge_holds m keys d ks k : holds m keys d ks -> mergeable d k ->
  exists d', delete c d k = Ok d' /\ (exists before after, boundaries d = before ++ k :: after /\ boundaries d' = before ++ after) /\
  inv (in_blocks_of d keys ks) (low_end m keys) (high_end m keys) d' /\ within (low_end m keys) (high_end m keys) (in_blocks_of d keys ks).
Proof.
  intros (X & HP & HI & HW & HB & HE) (A & a & sta & stk & b & stb & B & E & Hct & La & Lk & Lb).
  destruct (delete_merge_inv c s Hs T Hf Hc X _ _ d A a sta k stk b stb B HI (within_kok _ _ _ HW) E La Lk Lb Hct) as (st & ED & HI').
  exists (mkdiva s (A ++ (a, st) :: (b, stb) :: B)). split; [exact ED|]. split; [|split].
  - exists (map fst A ++ [a]), (b :: map fst B). unfold boundaries. rewrite E. cbn [d_tree]. rewrite !map_app, <- !app_assoc. split; reflexivity.
  - eapply inv_perm; [symmetry; apply remove_all; exact HP|exact HI'].
  - unfold within in *. eapply Permutation_Forall; [symmetry; apply remove_all; exact HP|exact HW].
Qed.
End F.
