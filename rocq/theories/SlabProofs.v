(** The allocator of the index: the free objects and the blocks are lists in memory that
    the owners of objects cannot reach. *)
From Coq Require Import ZArith List Bool Lia Permutation.
From Verif Require Import Base Slab SpecSlab.
Import ListNotations.
Open Scope Z_scope.

(** the list [l] in memory from [p] *)
Fixpoint chain (mem : Z -> Z) (p : Z) (l : list Z) : Prop :=
  match l with
  | [] => p = 0
  | x :: r => p = x /\ x <> 0 /\ chain mem (mem x) r
  end.
Lemma chain_ext mem mem' l : (forall x, In x l -> mem' x = mem x) -> forall p, chain mem p l -> chain mem' p l.
Proof.
  induction l as [|x l IH]; intros E p H; [exact H|]. cbn [chain] in *. destruct H as (H1 & H2 & H3). split; [exact H1|]. split; [exact H2|].
  rewrite (E x (or_introl eq_refl)). apply IH; [intros y Hy; apply E; right; exact Hy|exact H3].
Qed.
Lemma poke_same mem a v : poke mem a v a = v. Proof. unfold poke. rewrite Z.eqb_refl. reflexivity. Qed.
Lemma poke_other mem a v x : x <> a -> poke mem a v x = mem x.
Proof. intros H. unfold poke. destruct (Z.eqb_spec x a); [contradiction|reflexivity]. Qed.
Lemma chain_poke mem a v p l : ~ In a l -> chain mem p l -> chain (poke mem a v) p l.
Proof. intros H. apply chain_ext. intros x Hx. apply poke_other. intros ->. contradiction. Qed.
Lemma ptr_m1 safe m p : 0 <= p < 2 ^ 48 -> astk_ptr (astk_m1 safe m p) = p.
Proof.
  intros H. unfold astk_ptr, astk_m1. rewrite Z.shiftr_div_pow2 by lia.
  assert (E : (p * 2 ^ 16) mod 2 ^ 64 = p * 2 ^ 16) by (apply Z.mod_small; lia). rewrite E.
  destruct safe; [|apply Z.div_mul; lia]. pose proof (Z.mod_pos_bound (m + 1) (2 ^ 16) ltac:(lia)) as B.
  rewrite Z.div_add by lia. rewrite Z.div_small by exact B. lia.
Qed.

(** ** Linking the objects of a block *)
Definition span (base size : Z) (i : nat) (n : nat) : list Z := map (fun j => base + Z.of_nat j * size) (seq i n).
Lemma link_ok base size : 0 < size -> 0 < base -> forall n i mem h F,
  (forall x, In x F -> ~ In x (span base size i (S n))) -> chain mem h F ->
  let '(mem', last) := link n (Z.of_nat (S i)) mem base size (base + Z.of_nat i * size) in
  chain (poke mem' last h) (base + Z.of_nat i * size) (span base size i (S n) ++ F)
  /\ (forall a, ~ In a (span base size i (S n)) -> mem' a = mem a) /\ In last (span base size i (S n)).
Proof.
  intros Sz Bs. induction n as [|n IH]; intros i mem h F D H; cbn [link].
  - split; [|split; [reflexivity|left; reflexivity]]. cbn [span seq map app chain]. split; [reflexivity|]. split; [nia|]. rewrite poke_same.
    apply chain_poke; [|exact H]. intros C. apply (D _ C). left. reflexivity.
  - set (it := base + Z.of_nat i * size) in *. set (nx := base + Z.of_nat (S i) * size).
    specialize (IH (S i) (poke mem it nx) h F).
    replace (Z.of_nat (S i) + 1) with (Z.of_nat (S (S i))) by lia.
    assert (Sp : span base size i (S (S n)) = it :: span base size (S i) (S n)) by reflexivity.
    assert (NI : ~ In it (span base size (S i) (S n))).
    { intros C. apply in_map_iff in C. destruct C as (j & E & Hj). apply in_seq in Hj. unfold it in E. assert (Z.of_nat j = Z.of_nat i) by nia. lia. }
    fold nx in IH. destruct (link n (Z.of_nat (S (S i))) (poke mem it nx) base size nx) as [mem' last]. rewrite Sp in *.
    destruct IH as (C1 & C2 & C3).
    + intros x Hx C. apply (D x Hx). right. exact C.
    + apply chain_poke; [|exact H]. intros C. apply (D _ C). left. reflexivity.
    + split; [|split; [|right; exact C3]].
      * cbn [app chain]. split; [reflexivity|]. split; [unfold it; nia|].
        rewrite poke_other by (intros E; apply NI; rewrite E; exact C3). rewrite (C2 _ NI), poke_same. exact C1.
      * intros a Ha. rewrite C2 by (intros C; apply Ha; right; exact C). apply poke_other. intros ->. apply Ha. left. reflexivity.
Qed.

Section slab.
  Variables (safe : bool) (os0 : list (option Z)) (obj blk off per : Z).
  Hypothesis Os : good_os blk os0.
  Hypothesis Sobj : 8 <= obj.
  Hypothesis Sper : 1 <= per.
  Hypothesis Soff : 8 <= off.
  Hypothesis Sblk : off + per * obj <= blk.
  Hypothesis Aobj : obj mod 8 = 0.
  Hypothesis Aoff : off mod 8 = 0.

  Definition objs (b : Z) : list Z := span (b + off) obj 0 (Z.to_nat per).
  Definition all (A : list Z) : list Z := flat_map objs A.
  Lemma objs_in b p : In p (objs b) -> exists i, p = b + off + i * obj /\ 0 <= i < per.
  Proof.
    intros H. apply in_map_iff in H. destruct H as (j & <- & Hj). apply in_seq in Hj. exists (Z.of_nat j). split; [reflexivity|]. lia.
  Qed.
  Lemma objs_range b p : In p (objs b) -> b + 8 <= p /\ p + obj <= b + blk.
  Proof. intros H. destruct (objs_in b p H) as (i & -> & Hi). nia. Qed.
  Lemma all_in A p : In p (all A) -> exists b, In b A /\ In p (objs b).
  Proof. intros H. apply in_flat_map in H. exact H. Qed.
  Definition given (A : list Z) : Prop := NoDup A /\ incl A (blocks os0).
  Lemma page b A : given A -> In b A -> 0 < b /\ b mod 8 = 0 /\ b + blk <= 2 ^ 48.
  Proof. intros [_ I] H. apply (proj1 (proj2 Os)). apply I. exact H. Qed.
  Lemma pages_apart b c A : given A -> In b A -> In c A -> b <> c -> b + blk <= c \/ c + blk <= b.
  Proof. intros [_ I] H K. apply (proj2 (proj2 Os)); apply I; assumption. Qed.
  Lemma objs_apart A p q : given A -> In p (all A) -> In q (all A) -> p <> q -> p + obj <= q \/ q + obj <= p.
  Proof.
    intros G Hp Hq N. apply all_in in Hp, Hq. destruct Hp as (b & Hb & Hp), Hq as (c & Hc & Hq).
    destruct (Z.eq_dec b c) as [->|D].
    - apply objs_in in Hp, Hq. destruct Hp as (i & -> & Hi), Hq as (j & -> & Hj). assert (i <> j) by congruence. assert (i < j \/ j < i) as [C|C] by lia; [left|right]; nia.
    - apply objs_range in Hp, Hq. destruct (pages_apart b c A G Hb Hc D); [left|right]; lia.
  Qed.
  (** the word at the start of a block is in no object *)
  Lemma head_apart A p b : given A -> In b A -> In p (all A) -> ~ (p <= b < p + obj).
  Proof.
    intros G Hb Hp C. apply all_in in Hp. destruct Hp as (c & Hc & Hp). apply objs_range in Hp.
    destruct (Z.eq_dec b c) as [->|D]; [lia|]. destruct (pages_apart b c A G Hb Hc D); lia.
  Qed.
  Lemma given_perm A B : Permutation A B -> given A -> given B.
  Proof. intros P [N I]. split; [exact (Permutation_NoDup P N)|]. intros x Hx. apply I. exact (Permutation_in _ (Permutation_sym P) Hx). Qed.
  Lemma given_l A B : given (A ++ B) -> given A.
  Proof.
    intros [N I]. split; [|intros x Hx; apply I; apply in_or_app; auto]. clear I. induction A as [|x A IH]; [constructor|].
    cbn [app] in N. inversion N as [|? ? N1 N2]; subst. constructor; [intros C; apply N1; apply in_or_app; auto|exact (IH N2)].
  Qed.
  Lemma objs_nodup b : NoDup (objs b).
  Proof. apply FinFun.Injective_map_NoDup; [|apply seq_NoDup]. intros x y E. assert (Z.of_nat x = Z.of_nat y) by nia. lia. Qed.
  Lemma all_nodup A : given A -> NoDup (all A).
  Proof.
    induction A as [|b A IH]; intros G; [constructor|]. unfold all. cbn [flat_map].
    assert (GA : given A) by (destruct G as [N I]; inversion N; subst; split; [assumption|intros x Hx; apply I; right; exact Hx]).
    pose proof (IH GA) as NA. fold (all A).
    assert (D : forall x, In x (objs b) -> ~ In x (all A)).
    { intros x Hx Ha. apply all_in in Ha. destruct Ha as (c & Hc & Ha). apply objs_range in Hx, Ha.
      assert (b <> c) as N by (intros ->; destruct G as [N _]; inversion N; contradiction).
      destruct (pages_apart b c (b :: A) G (or_introl eq_refl) (or_intror Hc) N); lia. }
    revert D. pose proof (objs_nodup b) as NO. induction NO as [|x l N1 N2 IHl]; intros D; [exact NA|]. cbn [app]. constructor.
    - intros C. apply in_app_or in C. destruct C as [C|C]; [contradiction|exact (D x (or_introl eq_refl) C)].
    - apply IHl. intros y Hy. apply D. right. exact Hy.
  Qed.

  (** [F] are the free objects, [U] the objects in use, [A] and [B] the blocks of the two
      lists *)
  Record lists (s : slab) (U F A B : list Z) : Prop := mklists {
    l_obj : s_obj s = obj; l_blk : s_blk s = blk; l_off : s_off s = off; l_per : s_per s = per;
    l_free : chain (s_mem s) (astk_ptr (s_magic s)) F;
    l_active : chain (s_mem s) (s_active s) A;
    l_backup : chain (s_mem s) (s_backup s) B;
    l_all : Permutation (F ++ U) (all A);
    l_given : given ((A ++ B) ++ blocks (s_os s));
    l_ready : safe = false -> s_ready s = Z.of_nat (length F) }.

  Lemma l_ab s U F A B : lists s U F A B -> given (A ++ B).
  Proof. intros L. exact (given_l _ _ (l_given _ _ _ _ _ L)). Qed.
  Lemma l_nodup s U F A B : lists s U F A B -> NoDup (F ++ U).
  Proof. intros L. apply (Permutation_NoDup (Permutation_sym (l_all _ _ _ _ _ L))). apply all_nodup. exact (given_l _ _ (l_ab _ _ _ _ _ L)). Qed.
  Lemma in_all s U F A B p : lists s U F A B -> In p (F ++ U) -> In p (all A).
  Proof. intros L. apply Permutation_in. exact (l_all _ _ _ _ _ L). Qed.
  Lemma all_ab A B p : In p (all A) -> In p (all (A ++ B)).
  Proof. intros H. unfold all. rewrite flat_map_app. apply in_or_app. left. exact H. Qed.
  Lemma not_block s U F A B p a : lists s U F A B -> In p (F ++ U) -> p <= a < p + obj -> ~ In a (A ++ B).
  Proof. intros L Hp R C. apply (head_apart (A ++ B) p a (l_ab _ _ _ _ _ L) C); [|exact R]. apply all_ab. exact (in_all _ _ _ _ _ _ L Hp). Qed.
  Lemma obj_bounds A p : given A -> In p (all A) -> 0 < p < 2 ^ 48 /\ p mod 8 = 0 /\ exists b, In b (blocks os0) /\ b <= p /\ p + obj <= b + blk.
  Proof.
    intros G H. apply all_in in H. destruct H as (b & Hb & Hp). destruct (page b A G Hb) as (P1 & P2 & P3). pose proof (objs_range _ _ Hp) as R.
    split; [lia|]. split; [|exists b; split; [apply (proj2 G); exact Hb|lia]]. destruct (objs_in _ _ Hp) as (i & -> & _).
    rewrite Z.add_mod, Z.mul_mod, Aobj, Z.mul_0_r by lia. rewrite Z.mod_0_l, Z.add_0_r, Z.mod_mod, Z.add_mod, P2, Aoff by lia. reflexivity.
  Qed.
  Lemma chain_range s U F A B p l : lists s U F A B -> chain (s_mem s) p l -> (forall x, In x l -> In x (F ++ U)) -> 0 <= p < 2 ^ 48.
  Proof.
    intros L C I. destruct l as [|x l]; cbn [chain] in C; [lia|]. destruct C as (-> & _).
    pose proof (obj_bounds A x (given_l _ _ (l_ab _ _ _ _ _ L)) (in_all _ _ _ _ _ _ L (I x (or_introl eq_refl)))). lia.
  Qed.

  (** ** Taking an object *)
  Lemma pop_ok s U F A B : lists s U F A B ->
    match F with
    | [] => pop safe s = (s, 0)
    | p :: F' => exists s', pop safe s = (s', p) /\ s_mem s' = s_mem s /\ s_os s' = s_os s /\ s_ready s' = s_ready s
        /\ lists (with_ready s' (s_ready s' - 1)) (p :: U) F' A B /\ (safe = true -> lists s' (p :: U) F' A B)
    end.
  Proof.
    intros L. pose proof (l_free _ _ _ _ _ L) as C. unfold pop. destruct F as [|p F]; cbn [chain] in C.
    - rewrite C. reflexivity.
    - destruct C as (C1 & C2 & C3). rewrite C1. destruct (Z.eqb_spec p 0) as [|_]; [contradiction|]. eexists. split; [reflexivity|].
      assert (R : 0 <= s_mem s p < 2 ^ 48) by (apply (chain_range s U (p :: F) A B _ F L C3); intros x Hx; right; apply in_or_app; auto).
      cbn [with_mem s_mem s_os s_ready]. split; [reflexivity|]. split; [reflexivity|]. split; [reflexivity|].
      assert (P : Permutation (F ++ p :: U) (all A)) by (etransitivity; [apply Permutation_sym, Permutation_middle|exact (l_all _ _ _ _ _ L)]).
      destruct L. split; [|intros Hs]; constructor; cbn [with_mem with_ready s_mem s_os s_magic s_active s_backup s_ready s_obj s_blk s_per s_off]; auto;
        try (rewrite ptr_m1 by exact R; exact C3); try (intros Q; congruence).
      intros Q. rewrite (l_ready0 Q). cbn [length]. lia.
  Qed.

  (** ** A new block *)
  Definition used_same (s s' : slab) (U : list Z) : Prop := forall q a, In q U -> q <= a < q + obj -> s_mem s' a = s_mem s a.
  Lemma add_ok s U F A B b : lists s U F A B -> given (b :: (A ++ B) ++ blocks (s_os s)) ->
    lists (slab_add safe s b) U (objs b ++ F) (b :: A) B /\ used_same s (slab_add safe s b) U /\ s_os (slab_add safe s b) = s_os s
    /\ s_backup (slab_add safe s b) = s_backup s.
  Proof.
    intros L G. pose proof L as L'. destruct L' as [E1 E2 E3 E4 Cf Ca Cb P _ Rd].
    assert (Gb : given (b :: A ++ B)) by exact (given_l (b :: A ++ B) _ G).
    destruct (page b _ Gb (or_introl eq_refl)) as (B1 & B2 & B3).
    assert (NB : forall x, In x (objs b) -> ~ In x (A ++ B)).
    { intros x Hx C. apply (head_apart (b :: A ++ B) x x Gb); [right; exact C|apply in_flat_map; exists b; split; [left; reflexivity|exact Hx]|lia]. }
    assert (Nb : ~ In b (A ++ B)) by (destruct Gb as [N _]; inversion N; assumption).
    assert (ND : NoDup (all (b :: A))) by (apply all_nodup; exact (given_l (b :: A) B Gb)).
    assert (NF : forall x, In x (F ++ U) -> ~ In x (objs b) /\ forall a, x <= a < x + obj -> ~ In a (objs b) /\ a <> b).
    { intros x Hx. assert (Xa : In x (all A)) by (apply (Permutation_in _ P); exact Hx).
      assert (D : forall a, x <= a < x + obj -> ~ In a (objs b) /\ a <> b).
      { intros a Ra. apply all_in in Xa. destruct Xa as (c & Hc & Xc). apply objs_range in Xc.
        assert (b <> c) as N by (intros ->; apply Nb; apply in_or_app; auto).
        pose proof (pages_apart b c _ Gb (or_introl eq_refl) (or_intror (in_or_app _ _ _ (or_introl Hc))) N) as Q. split; [|lia].
        intros Ha. apply objs_range in Ha. lia. }
      split; [apply (D x); lia|exact D]. }
    set (mem := poke (s_mem s) b (s_active s)).
    assert (Cf1 : chain mem (astk_ptr (s_magic s)) F).
    { apply chain_poke; [|exact Cf]. intros C. destruct (NF b (in_or_app _ _ _ (or_introl C))) as [_ D]. apply (proj2 (D b ltac:(lia))). reflexivity. }
    pose proof (link_ok (b + off) obj ltac:(lia) ltac:(lia) (Z.to_nat (per - 1)) 0 mem (astk_ptr (s_magic s)) F) as K.
    replace (S (Z.to_nat (per - 1))) with (Z.to_nat per) in K by lia. fold (objs b) in K. change (Z.of_nat 0) with 0 in K. change (Z.of_nat 1) with 1 in K. rewrite Z.mul_0_l, Z.add_0_r in K.
    unfold slab_add. rewrite E1, E3, E4. fold mem. destruct (link (Z.to_nat (per - 1)) 1 mem (b + off) obj (b + off)) as [mem2 iter].
    destruct K as (K1 & K2 & K3); [|exact Cf1|]; [intros x Hx; apply NF; apply in_or_app; auto|].
    set (mm := poke mem2 iter (astk_ptr (s_magic s))) in *.
    assert (Same : forall a, ~ In a (objs b) -> a <> b -> mm a = s_mem s a).
    { intros a Ha Hb. unfold mm. rewrite poke_other by (intros ->; contradiction). rewrite (K2 a Ha). apply poke_other. exact Hb. }
    assert (Cx : forall l p, (forall x, In x l -> In x (A ++ B)) -> chain (s_mem s) p l -> chain mm p l).
    { intros l p I. apply chain_ext. intros x Hx. apply Same; [intros C; exact (NB x C (I x Hx))|intros ->; exact (Nb (I b Hx))]. }
    assert (Hb : mm b = s_active s).
    { assert (~ In b (objs b)) as N by (intros C; apply objs_range in C; lia). unfold mm. rewrite poke_other by (intros E; apply N; rewrite E at 1; exact K3). rewrite (K2 b N). apply poke_same. }
    assert (US : forall s', s_mem s' = mm -> used_same s s' U).
    { intros s' Em q a Hq Ha. rewrite Em. destruct (NF q (in_or_app _ _ _ (or_intror Hq))) as [_ D]. destruct (D a Ha). apply Same; assumption. }
    assert (Pt : astk_ptr (astk_m1 safe (s_magic s) (b + off)) = b + off).
    { apply ptr_m1. assert (off + obj <= blk) by nia. lia. }
    assert (Pn : Permutation ((objs b ++ F) ++ U) (all (b :: A))) by (rewrite <- app_assoc; apply Permutation_app_head; exact P).
    assert (Gn : given (((b :: A) ++ B) ++ blocks (s_os s))) by exact G.
    revert Pt. case_eq safe; intros Hs Pt.
    - split; [|split; [apply US; reflexivity|split; reflexivity]].
      constructor; cbn [push with_mem with_ready s_mem s_os s_magic s_active s_backup s_ready s_obj s_blk s_per s_off]; auto; try (intros Q; congruence).
      + rewrite Pt. exact K1.
      + cbn [chain]. split; [reflexivity|]. split; [lia|]. fold mm. rewrite Hb. apply Cx; [intros x Hx; apply in_or_app; auto|exact Ca].
      + fold mm. apply Cx; [intros x Hx; apply in_or_app; auto|exact Cb].
    - split; [|split; [apply US; reflexivity|split; reflexivity]].
      constructor; cbn [push with_mem with_ready s_mem s_os s_magic s_active s_backup s_ready s_obj s_blk s_per s_off]; auto.
      + rewrite Pt. exact K1.
      + cbn [chain]. split; [reflexivity|]. split; [lia|]. fold mm. rewrite Hb. apply Cx; [intros x Hx; apply in_or_app; auto|exact Ca].
      + fold mm. apply Cx; [intros x Hx; apply in_or_app; auto|exact Cb].
      + intros _. rewrite (Rd Hs), app_length. unfold objs, span. rewrite map_length, seq_length. lia.
  Qed.

  (** the blocks of the slab and those to come *)
  Definition pages (s : slab) (A B : list Z) : list Z := (A ++ B) ++ blocks (s_os s).
  Lemma used_trans s s1 s2 U : used_same s s1 U -> used_same s1 s2 U -> used_same s s2 U.
  Proof. intros H K q a Hq Ha. rewrite (K q a Hq Ha). exact (H q a Hq Ha). Qed.
  Lemma given_tail x l : given (x :: l) -> given l.
  Proof. intros [N I]. inversion N; subst. split; [assumption|]. intros y Hy. apply I. right. exact Hy. Qed.

  Lemma expand_ok s U F A B : lists s U F A B ->
    exists s' b, slab_expand safe s = (s', b) /\ used_same s s' U
    /\ (if b then exists x A' B', lists s' U (objs x ++ F) A' B' /\ Permutation (pages s' A' B') (pages s A B) /\ (s_os s' <> s_os s -> B = [])
        else hd None (s_os s) = None /\ lists s' U F A B /\ pages s' A B = pages s A B /\ B = []).
  Proof.
    intros L. pose proof L as L'. destruct L' as [E1 E2 E3 E4 Cf Ca Cb P G Rd]. unfold slab_expand.
    destruct B as [|x B]; cbn [chain] in Cb.
    - rewrite Cb. cbn [Z.eqb negb]. rewrite <- Cb. set (s1 := mkslab _ (tl (s_os s)) _ _ _ _ _ _ _ _).
      assert (L1 : given ((A ++ []) ++ blocks (tl (s_os s))) -> lists s1 U F A []).
      { intros G1. constructor; cbn [s1 s_mem s_os s_magic s_active s_backup s_ready s_obj s_blk s_per s_off]; auto. }
      assert (U1 : used_same s s1 U) by (intros q a _ _; reflexivity).
      destruct (s_os s) as [|[x|] os'] eqn:Eo; cbn [tl hd blocks flat_map app] in *.
      + exists s1, false. split; [reflexivity|]. split; [exact U1|]. split; [reflexivity|]. split; [auto|]. split; [unfold pages; cbn [s1 s_os]; rewrite Eo; reflexivity|reflexivity].
      + fold (blocks os') in *. assert (Gx : given (x :: (A ++ []) ++ blocks os')) by (eapply given_perm; [apply Permutation_sym, Permutation_middle|exact G]).
        destruct (add_ok s1 U F A [] x) as (K1 & K2 & K3 & _); [apply L1; exact (given_tail _ _ Gx)|exact Gx|].
        exists (slab_add safe s1 x), true. split; [reflexivity|]. split; [exact K2|]. exists x, (x :: A), []. split; [exact K1|]. split; [|reflexivity].
        unfold pages. rewrite K3, Eo. cbn [s1 s_os tl blocks flat_map app]. fold (blocks os'). apply Permutation_middle.
      + exists s1, false. split; [reflexivity|]. split; [exact U1|]. split; [reflexivity|]. split; [auto|]. split; [unfold pages; cbn [s1 s_os]; rewrite Eo; reflexivity|reflexivity].
    - destruct Cb as (C1 & C2 & C3). rewrite C1. destruct (Z.eqb_spec x 0) as [|_]; [contradiction|]. cbn [negb].
      set (s1 := mkslab _ _ _ _ _ _ _ _ _ _).
      assert (Gx : given (x :: (A ++ B) ++ blocks (s_os s))).
      { eapply given_perm; [|exact G]. rewrite app_comm_cons. apply Permutation_app_tail. apply Permutation_sym, Permutation_middle. }
      destruct (add_ok s1 U F A B x) as (K1 & K2 & K3 & _).
      + constructor; cbn [s1 s_mem s_os s_magic s_active s_backup s_ready s_obj s_blk s_per s_off]; auto. exact (given_tail _ _ Gx).
      + exact Gx.
      + exists (slab_add safe s1 x), true. split; [reflexivity|]. split; [exact K2|]. exists x, (x :: A), B. split; [exact K1|]. rewrite K3. cbn [s1 s_os]. split; [|intros C; exfalso; apply C; reflexivity].
        unfold pages. rewrite K3. cbn [s1 s_os]. apply Permutation_app_tail. cbn [app]. apply Permutation_middle.
  Qed.
  Lemma objs_cons x : exists p l, objs x = p :: l.
  Proof. unfold objs. destruct (Z.to_nat per) as [|n] eqn:E; [lia|]. cbn [span seq map]. eauto. Qed.
  Lemma head_nz s U p F A B : lists s U (p :: F) A B -> p <> 0.
  Proof. intros L. pose proof (l_free _ _ _ _ _ L) as C. cbn [chain] in C. tauto. Qed.

  Lemma alloc_ok s U F A B : lists s U F A B ->
    exists s' p, slab_alloc safe s = Ok (s', p) /\ used_same s s' U
    /\ (s_os s' <> s_os s -> F = [] /\ B = [])
    /\ (if p =? 0 then F = [] /\ hd None (s_os s) = None /\ lists s' U F A B /\ pages s' A B = pages s A B
        else exists F' A' B', lists s' (p :: U) F' A' B' /\ Permutation (pages s' A' B') (pages s A B) /\ forall q F0, F = q :: F0 -> F' = F0 /\ s_os s' = s_os s).
  Proof.
    intros L. pose proof (pop_ok s U F A B L) as Pk.
    assert (Same : forall s1 s2, s_mem s2 = s_mem s1 -> used_same s1 s2 U) by (intros s1 s2 E q a _ _; rewrite E; reflexivity).
    destruct F as [|p F].
    - destruct (expand_ok s U [] A B L) as (s2 & b & Ex & Us & K).
      destruct b.
      + destruct K as (x & A' & B' & L2 & Pg & Ne). destruct (objs_cons x) as (p & l & Eo). rewrite Eo in L2. cbn [app] in L2.
        pose proof (pop_ok s2 U (p :: l ++ []) A' B' L2) as (s3 & Q1 & Q2 & Q3 & Q4 & Q5 & Q6). pose proof (head_nz _ _ _ _ _ _ L2) as Nz.
        case_eq safe; intros Hs; unfold slab_alloc; rewrite Hs in *.
        * exists s3, p. unfold slab_alloc_safe. rewrite Pk. cbn [Z.eqb negb alloc_loop]. rewrite Pk. cbn [Z.eqb negb]. rewrite Ex. rewrite Q1.
          destruct (Z.eqb_spec p 0); [contradiction|]. cbn [negb]. split; [reflexivity|]. split; [apply (used_trans _ s2); [exact Us|apply Same; exact Q2]|].
          split; [rewrite Q3; auto|]. exists (l ++ []), A', B'. split; [exact (Q6 eq_refl)|]. split; [unfold pages in *; rewrite Q3; exact Pg|discriminate].
        * exists (with_ready s3 (s_ready s3 - 1)), p. unfold slab_alloc_unsafe. rewrite Pk. cbn [Z.eqb]. rewrite Ex, Q1. split; [reflexivity|].
          split; [apply (used_trans _ s2); [exact Us|apply Same; exact Q2]|].
          cbn [with_ready s_os]. split; [rewrite Q3; auto|].
          destruct (Z.eqb_spec p 0); [contradiction|]. exists (l ++ []), A', B'. split; [exact Q5|]. split; [unfold pages in *; cbn [with_ready s_os]; rewrite Q3; exact Pg|discriminate].
      + destruct K as (K1 & K2 & K3 & K4). exists s2, 0. cbn [Z.eqb]. split; [|split; [exact Us|split; auto]].
        case_eq safe; intros Hs; unfold slab_alloc; rewrite Hs in *.
        * unfold slab_alloc_safe. rewrite Pk. cbn [Z.eqb negb alloc_loop]. rewrite Pk. cbn [Z.eqb negb]. rewrite Ex. reflexivity.
        * unfold slab_alloc_unsafe. rewrite Pk. cbn [Z.eqb]. rewrite Ex. reflexivity.
    - destruct Pk as (s1 & Q1 & Q2 & Q3 & Q4 & Q5 & Q6). pose proof (head_nz _ _ _ _ _ _ L) as Nz.
      case_eq safe; intros Hs; unfold slab_alloc; rewrite Hs in *.
      + exists s1, p. unfold slab_alloc_safe. rewrite Q1. destruct (Z.eqb_spec p 0); [contradiction|]. cbn [negb]. split; [reflexivity|].
        split; [apply Same; exact Q2|]. split; [intros C; exfalso; apply C; exact Q3|].
        exists F, A, B. split; [exact (Q6 eq_refl)|]. split; [unfold pages; rewrite Q3; apply Permutation_refl|]. intros q F0 E. injection E as <- <-. auto.
      + exists (with_ready s1 (s_ready s1 - 1)), p. unfold slab_alloc_unsafe. rewrite Q1. destruct (Z.eqb_spec p 0); [contradiction|]. split; [reflexivity|].
        split; [apply Same; exact Q2|]. cbn [with_ready s_os]. split; [intros C; exfalso; apply C; exact Q3|].
        exists F, A, B. split; [exact Q5|]. split; [unfold pages; cbn [with_ready s_os]; rewrite Q3; apply Permutation_refl|]. intros q F0 E. injection E as <- <-. auto.
  Qed.

  (** ** Giving an object back *)
  Lemma in_middle (p : Z) F U U' : Permutation U (p :: U') -> In p (F ++ U).
  Proof. intros P. apply in_or_app. right. apply (Permutation_in _ (Permutation_sym P)). left. reflexivity. Qed.
  Lemma free_ok s U F A B p U' : lists s U F A B -> Permutation U (p :: U') ->
    lists (slab_free safe s p) U' (p :: F) A B /\ used_same s (slab_free safe s p) U'.
  Proof.
    intros L Pu. pose proof L as L'. destruct L' as [E1 E2 E3 E4 Cf Ca Cb P G Rd].
    assert (Ip : In p (F ++ U)) by exact (in_middle p F U U' Pu).
    assert (GA : given A) by exact (given_l _ _ (l_ab _ _ _ _ _ L)).
    assert (Pp : Permutation (F ++ U) (p :: F ++ U')) by (etransitivity; [apply Permutation_app_head; exact Pu|apply Permutation_sym, Permutation_middle]).
    pose proof (Permutation_NoDup Pp (l_nodup _ _ _ _ _ L)) as ND. inversion ND as [|? ? N1 N2]; subst.
    destruct (obj_bounds A p GA (in_all _ _ _ _ _ _ L Ip)) as (R & _).
    assert (NF : ~ In p F) by (intros C; apply N1; apply in_or_app; auto).
    assert (NAB : ~ In p (A ++ B)) by (apply (not_block s U F A B p p L Ip); lia).
    set (mm := poke (s_mem s) p (astk_ptr (s_magic s))).
    assert (Us : forall s', s_mem s' = mm -> used_same s s' U').
    { intros s' Em q a Hq Ha. rewrite Em. apply poke_other. intros ->.
      assert (Iq : In q (F ++ U)) by (apply (Permutation_in _ (Permutation_sym Pp)); right; apply in_or_app; auto).
      assert (q <> p) as D by (intros ->; apply N1; apply in_or_app; auto).
      destruct (objs_apart A q p GA (in_all _ _ _ _ _ _ L Iq) (in_all _ _ _ _ _ _ L Ip) D); lia. }
    assert (Pt : astk_ptr (astk_m1 safe (s_magic s) p) = p) by (apply ptr_m1; lia).
    assert (Cp : chain mm p (p :: F)) by (cbn [chain]; split; [reflexivity|]; split; [lia|]; unfold mm; rewrite poke_same; apply chain_poke; assumption).
    assert (Cx : forall l h, incl l (A ++ B) -> chain (s_mem s) h l -> chain mm h l) by (intros l h I; apply chain_poke; intros C; exact (NAB (I p C))).
    assert (Pa : Permutation ((p :: F) ++ U') (all A)) by (etransitivity; [apply Permutation_sym; exact Pp|exact P]).
    unfold slab_free. revert Pt. case_eq safe; intros Hs Pt.
    - split; [|apply Us; reflexivity].
      constructor; cbn [push with_mem with_ready s_mem s_os s_magic s_active s_backup s_ready s_obj s_blk s_per s_off]; auto; try (intros Q; congruence).
      + rewrite Pt. exact Cp.
      + apply Cx; [intros x Hx; apply in_or_app; auto|exact Ca].
      + apply Cx; [intros x Hx; apply in_or_app; auto|exact Cb].
    - split; [|apply Us; reflexivity].
      constructor; cbn [push with_mem with_ready s_mem s_os s_magic s_active s_backup s_ready s_obj s_blk s_per s_off]; auto.
      + rewrite Pt. exact Cp.
      + apply Cx; [intros x Hx; apply in_or_app; auto|exact Ca].
      + apply Cx; [intros x Hx; apply in_or_app; auto|exact Cb].
      + intros _. rewrite (Rd Hs). cbn [length]. lia.
  Qed.
  Lemma write_ok s U F A B p f : lists s U F A B -> In p U -> lists (owner_writes s p f) U F A B.
  Proof.
    intros L Hp. pose proof L as L'. destruct L' as [E1 E2 E3 E4 Cf Ca Cb P G Rd].
    assert (Ip : In p (F ++ U)) by (apply in_or_app; auto).
    assert (GA : given A) by exact (given_l _ _ (l_ab _ _ _ _ _ L)).
    assert (Out : forall x, (In x F \/ In x (A ++ B)) -> s_mem (owner_writes s p f) x = s_mem s x).
    { intros x Hx. unfold owner_writes. cbn [with_mem s_mem]. destruct (Z.leb_spec p x) as [C1|]; [|reflexivity]. destruct (Z.ltb_spec x (p + s_obj s)) as [C2|]; [|reflexivity].
      exfalso. rewrite E1 in C2. destruct Hx as [Hx|Hx]; [|exact (not_block s U F A B p x L Ip (conj C1 C2) Hx)].
      assert (x <> p) as D.
      { intros ->. pose proof (l_nodup _ _ _ _ _ L) as ND. apply in_split in Hx. destruct Hx as (F1 & F2 & ->). rewrite <- app_assoc in ND. apply NoDup_remove_2 in ND. apply ND.
        apply in_or_app. right. apply in_or_app. right. exact Hp. }
      assert (Ix : In x (F ++ U)) by (apply in_or_app; auto).
      destruct (objs_apart A x p GA (in_all _ _ _ _ _ _ L Ix) (in_all _ _ _ _ _ _ L Ip) D); lia. }
    constructor; try assumption.
    - eapply chain_ext; [|exact Cf]. intros x Hx. apply Out. auto.
    - eapply chain_ext; [|exact Ca]. intros x Hx. apply Out. right. apply in_or_app. auto.
    - eapply chain_ext; [|exact Cb]. intros x Hx. apply Out. right. apply in_or_app. auto.
  Qed.

  (** ** Reserving *)
  Lemma reserve_ok nr : safe = false -> forall fuel s U F A B, lists s U F A B ->
    match slab_reserve fuel s nr with
    | Ok (s', b) => used_same s s' U /\ exists F' A' B', lists s' U F' A' B' /\ Permutation (pages s' A' B') (pages s A B) /\ (b = true -> nr <= Z.of_nat (length F'))
    | UB => False
    | Fuel => (Z.of_nat fuel <= nr - Z.of_nat (length F) \/ fuel = 0%nat)
    end.
  Proof.
    intros Hs. induction fuel as [|fuel IH]; intros s U F A B L; cbn [slab_reserve]; [right; reflexivity|].
    rewrite (l_ready _ _ _ _ _ L Hs). destruct (Z.ltb_spec (Z.of_nat (length F)) nr) as [C|C].
    - destruct (expand_ok s U F A B L) as (s1 & b & Ex & Us & K). rewrite Hs in Ex. rewrite Ex. destruct b.
      + destruct K as (x & A' & B' & L1 & Pg & _). specialize (IH s1 U _ A' B' L1).
        assert (Lo : (1 <= length (objs x))%nat) by (destruct (objs_cons x) as (p & l & ->); cbn [length]; lia).
        rewrite app_length in IH. destruct (slab_reserve fuel s1 nr) as [[s' b]| |]; [|exact IH|].
        * destruct IH as (I1 & F' & A2 & B2 & I2 & I3 & I4). split; [exact (used_trans _ _ _ _ Us I1)|]. exists F', A2, B2. split; [exact I2|]. split; [etransitivity; [exact I3|exact Pg]|exact I4].
        * left. destruct IH as [I| ->]; lia.
      + destruct K as (_ & L1 & Pg & _). split; [exact Us|]. exists F, A, B. split; [exact L1|]. rewrite Pg. split; [apply Permutation_refl|discriminate].
    - split; [intros q a _ _; reflexivity|]. exists F, A, B. split; [exact L|]. split; [apply Permutation_refl|]. intros _. exact C.
  Qed.
  Lemma allocs_ok : forall n s U F A B, lists s U F A B -> (n <= length F)%nat -> exists r, allocs safe n s = Ok r /\ length r = n /\ Forall (fun p => p <> 0) r.
  Proof.
    induction n as [|n IH]; intros s U F A B L Le; [exists []; auto|]. cbn [allocs]. destruct F as [|p F]; [cbn [length] in Le; lia|].
    destruct (alloc_ok s U (p :: F) A B L) as (s' & q & E & _ & _ & K). rewrite E. cbn [bind]. destruct (Z.eqb_spec q 0) as [|N]; [destruct K; discriminate|].
    destruct K as (F' & A' & B' & L' & _ & Q). destruct (Q p F eq_refl) as [-> _]. destruct (IH s' _ F A' B' L' ltac:(cbn [length] in Le; lia)) as (r & R1 & R2 & R3).
    rewrite R1. cbn [bind]. exists (q :: r). cbn [length]. auto.
  Qed.
  Lemma no_more_ok s U F A B : lists s U F A B -> lists (no_more_blocks s) U F A B.
  Proof.
    intros [E1 E2 E3 E4 Cf Ca Cb P G Rd]. constructor; cbn [no_more_blocks s_mem s_os s_magic s_active s_backup s_ready s_obj s_blk s_per s_off]; auto.
    cbn [blocks flat_map]. rewrite app_nil_r. exact (given_l _ _ G).
  Qed.

  (** ** Giving everything back, counting *)
  Lemma last_ok mem x l : forall fuel p, chain mem p (l ++ [x]) -> last_block fuel mem p = if (length l <? fuel)%nat then Ok x else Fuel.
  Proof.
    induction l as [|y l IH]; intros fuel p C; cbn [app chain] in C; destruct C as (-> & Nz & C).
    - destruct fuel; cbn [last_block]; [reflexivity|]. cbn [chain] in C. rewrite C. reflexivity.
    - destruct fuel; cbn [last_block]; [reflexivity|].
      assert (N : mem y <> 0) by (destruct l; cbn [app chain] in C; destruct C as (-> & ? & _); assumption).
      destruct (Z.eqb_spec (mem y) 0); [contradiction|]. cbn [negb]. rewrite (IH fuel _ C). reflexivity.
  Qed.
  Lemma chain_join mem x h B : forall l p, chain mem p (l ++ [x]) -> NoDup (l ++ [x]) -> (forall y, In y B -> y <> x) -> chain mem h B -> chain (poke mem x h) p ((l ++ [x]) ++ B).
  Proof.
    induction l as [|y l IH]; intros p C ND D H; cbn [app chain] in *; destruct C as (-> & Nz & C).
    - split; [reflexivity|]. split; [exact Nz|]. rewrite poke_same. apply chain_poke; [|exact H]. intros K. exact (D x K eq_refl).
    - split; [reflexivity|]. split; [exact Nz|]. inversion ND as [|? ? N1 N2]; subst.
      rewrite poke_other by (intros ->; apply N1; apply in_or_app; right; left; reflexivity). apply IH; assumption.
  Qed.
  Lemma free_all_ok s U F A B fuel : lists s U F A B ->
    match slab_free_all fuel s with
    | Ok s' => lists s' [] [] [] (A ++ B) /\ pages s' [] (A ++ B) = pages s A B
    | UB => False
    | Fuel => (fuel <= length A)%nat
    end.
  Proof.
    intros L. pose proof L as L'. destruct L' as [E1 E2 E3 E4 Cf Ca Cb P G Rd]. unfold slab_free_all.
    destruct A as [|a A0]; cbn [chain] in Ca.
    - rewrite Ca. cbn [Z.eqb negb]. split; [|reflexivity]. constructor; cbn [s_mem s_os s_magic s_active s_backup s_ready s_obj s_blk s_per s_off]; auto; try reflexivity.
    - destruct (@exists_last _ (a :: A0) ltac:(discriminate)) as (l & x & El).
      destruct Ca as (Ea & Nz & Ca). destruct (Z.eqb_spec (s_active s) 0) as [|_]; [congruence|]. cbn [negb].
      assert (Cl : chain (s_mem s) (s_active s) (l ++ [x])) by (rewrite <- El; cbn [chain]; auto).
      rewrite (last_ok _ _ _ fuel _ Cl). pose proof (l_ab _ _ _ _ _ L) as [ND _]. rewrite El in *.
      assert (NDl : NoDup (l ++ [x])) by (apply (given_l (l ++ [x]) B); exact (l_ab _ _ _ _ _ L)).
      destruct (Nat.ltb_spec (length l) fuel) as [C|C]; cbn [bind]; [|rewrite app_length; lia].
      split; [|reflexivity]. constructor; cbn [s_mem s_os s_magic s_active s_backup s_ready s_obj s_blk s_per s_off]; auto; try reflexivity.
      apply chain_join; auto. intros y Hy ->. clear - ND Hy. induction l as [|z l IH]; cbn [app] in ND; inversion ND as [|? ? N1 N2]; subst; [contradiction|exact (IH N2)].
  Qed.
  Lemma len_ok mem l : forall fuel p, chain mem p l -> (length l < fuel)%nat -> list_len fuel mem p = Ok (Z.of_nat (length l)).
  Proof.
    induction l as [|x l IH]; intros [|fuel] p C F; cbn [length] in F; try lia; cbn [chain list_len] in *.
    - rewrite C. reflexivity.
    - destruct C as (-> & Nz & C). destruct (Z.eqb_spec x 0); [contradiction|]. cbn [negb]. rewrite (IH fuel _ C) by lia. cbn [bind length]. f_equal. lia.
  Qed.
  Lemma all_length A : Z.of_nat (length (all A)) = Z.of_nat (length A) * per.
  Proof.
    induction A as [|b A IH]; [reflexivity|]. unfold all in *. cbn [flat_map]. rewrite app_length. unfold objs at 1, span. rewrite map_length, seq_length. cbn [length]. lia.
  Qed.
  Lemma nalloc_ok s U F A B fuel : lists s U F A B -> (length A < fuel)%nat -> (length F < fuel)%nat -> slab_get_nalloc fuel s = Ok (Z.of_nat (length U)).
  Proof.
    intros [E1 E2 E3 E4 Cf Ca Cb P G Rd] LA LF. unfold slab_get_nalloc. rewrite (len_ok _ _ _ _ Ca LA), (len_ok _ _ _ _ Cf LF). cbn [bind]. f_equal.
    rewrite E4, <- all_length, <- (Permutation_length P), app_length. lia.
  Qed.
  Lemma step_ok s U s' U' F A B : lists s U F A B -> step safe s U s' U' ->
    (exists F' A' B', lists s' U' F' A' B' /\ Permutation (pages s' A' B') (pages s A B)) /\ forall q a, In q U -> In q U' -> q <= a < q + obj -> s_mem s' a = s_mem s a.
  Proof.
    intros L St. destruct St as [s U s' p E|s U p U' Pu|s U fuel nr s' b Hs E|s U fuel s' E].
    - destruct (alloc_ok s U F A B L) as (s2 & q & E' & Us & _ & K). rewrite E in E'. injection E' as <- <-.
      split; [|intros r a Hr _; exact (Us r a Hr)]. destruct (p =? 0); [destruct K as (_ & _ & K & Pg); exists F, A, B; rewrite Pg; split; [exact K|apply Permutation_refl]|].
      destruct K as (F' & A' & B' & K & Pg & _). exists F', A', B'. auto.
    - destruct (free_ok s U F A B p U' L Pu) as [K Us]. split; [exists (p :: F), A, B; split; [exact K|]; unfold pages, slab_free; destruct safe; apply Permutation_refl|]. intros q a _ Hq. exact (Us q a Hq).
    - pose proof (reserve_ok nr Hs fuel s U F A B L) as K. rewrite E in K. destruct K as (Us & F' & A' & B' & K & Pg & _). split; [exists F', A', B'; auto|]. intros q a Hq _. exact (Us q a Hq).
    - pose proof (free_all_ok s U F A B fuel L) as K. rewrite E in K. destruct K as [K Pg]. split; [exists [], [], (A ++ B); rewrite Pg; split; [exact K|apply Permutation_refl]|]. intros q a _ [].
  Qed.
End slab.

(** ** Histories *)
Lemma sizes_ok obj blk : 0 <= obj -> slab_check_sizes obj blk <> 0 -> let off := slab_check_sizes obj blk in
  8 <= obj /\ 1 <= (blk - off) / obj /\ 8 <= off /\ off + (blk - off) / obj * obj <= blk /\ obj mod 8 = 0 /\ off mod 8 = 0.
Proof.
  intros Ob. unfold slab_check_sizes. destruct (Z.eqb_spec obj 0) as [|O1]; [intros C; exfalso; apply C; reflexivity|].
  destruct (Z.eqb_spec (obj mod 8) 0) as [O2|O2]; [|intros C; exfalso; apply C; reflexivity].
  destruct (Z.ltb_spec blk 4096) as [|O3]; [intros C; exfalso; apply C; reflexivity|].
  destruct (Z.eqb_spec (Z.land blk (blk - 1)) 0) as [O4|O4]; [|intros C; exfalso; apply C; reflexivity]. cbn [orb negb].
  assert (8 <= obj) as O5 by (pose proof (Z.div_mod obj 8 ltac:(lia)); lia).
  assert (H : forall off, 8 <= off -> off mod 8 = 0 -> (if (blk <=? off) || (blk - off <? obj) then 0 else off) <> 0 ->
    let off' := (if (blk <=? off) || (blk - off <? obj) then 0 else off) in
    8 <= obj /\ 1 <= (blk - off') / obj /\ 8 <= off' /\ off' + (blk - off') / obj * obj <= blk /\ obj mod 8 = 0 /\ off' mod 8 = 0).
  { intros off F1 F2. destruct (Z.leb_spec blk off); cbn [orb]; [intros C; exfalso; apply C; reflexivity|].
    destruct (Z.ltb_spec (blk - off) obj); [intros C; exfalso; apply C; reflexivity|]. intros _. cbv zeta.
    split; [exact O5|]. split; [apply Z.div_le_lower_bound; lia|]. split; [exact F1|]. split; [|auto].
    pose proof (Z.mul_div_le (blk - off) obj ltac:(lia)). lia. }
  destruct (negb (Z.land obj (obj - 1) =? 0)); apply H; auto; lia.
Qed.

Section histories.
  Variables (safe : bool) (mem : Z -> Z) (os : list (option Z)) (obj blk : Z).
  Let off := slab_check_sizes obj blk.
  Let per := (blk - off) / obj.
  Hypothesis Ob : 0 <= obj.
  Hypothesis Os : good_os blk os.

  Lemma history_lists s U : history safe mem os obj blk s U -> off <> 0 /\ exists F A B, lists safe os obj blk off per s U F A B /\ Permutation (pages s A B) (blocks os).
  Proof.
    induction 1 as [s E|s U s' U' _ [Ho (F & A & B & L & Pg)] St|s U p f _ [Ho (F & A & B & L & Pg)] Hp].
    - unfold slab_create in E. fold off in E. destruct (Z.eqb_spec off 0) as [|N]; [discriminate|]. split; [exact N|]. injection E as <-.
      exists [], [], []. split; [|apply Permutation_refl]. constructor; cbn [s_mem s_os s_magic s_active s_backup s_ready s_obj s_blk s_per s_off]; try reflexivity; try constructor.
      + exact (proj1 Os).
      + intros x Hx. exact Hx.
    - split; [exact Ho|]. destruct (sizes_ok obj blk Ob Ho) as (H1 & H2 & H3 & H4 & H5 & H6).
      assert (K : (exists F' A' B', lists safe os obj blk off per s' U' F' A' B' /\ Permutation (pages s' A' B') (pages s A B)) /\ forall q a, In q U -> In q U' -> q <= a < q + obj -> s_mem s' a = s_mem s a) by (eapply step_ok; eassumption).
      destruct K as [(F' & A' & B' & K1 & K2) _]. exists F', A', B'. split; [exact K1|]. etransitivity; [exact K2|exact Pg].
    - split; [exact Ho|]. destruct (sizes_ok obj blk Ob Ho) as (H1 & H2 & H3 & H4 & H5 & H6). exists F, A, B.
      split; [eapply write_ok; eassumption|exact Pg].
  Qed.

  Theorem slab_apart s U : history safe mem os obj blk s U ->
    (forall p, In p U -> p <> 0 /\ p mod 8 = 0 /\ exists b, In b (blocks os) /\ b <= p /\ p + obj <= b + blk)
    /\ NoDup U /\ (forall p q, In p U -> In q U -> p <> q -> p + obj <= q \/ q + obj <= p).
  Proof.
    intros H. destruct (history_lists s U H) as (Ho & F & A & B & L & Pg). destruct (sizes_ok obj blk Ob Ho) as (H1 & H2 & H3 & H4 & H5 & H6).
    assert (I : forall p, In p U -> In p (all obj off per A)) by (intros p Hp; eapply in_all; [exact L|apply in_or_app; auto]).
    assert (G : given os A) by (eapply given_l; eapply l_ab; exact L).
    split; [|split].
    - intros p Hp. pose proof (I p Hp) as Ip.
      assert (K : 0 < p < 2 ^ 48 /\ p mod 8 = 0 /\ exists b, In b (blocks os) /\ b <= p /\ p + obj <= b + blk) by (eapply obj_bounds; eassumption). destruct K as (B1 & B2 & B3). split; [lia|auto].
    - assert (NoDup (F ++ U)) as ND by (eapply l_nodup; [..|exact L]; assumption).
      clear - ND. induction F as [|x F IH]; [exact ND|]. apply IH. cbn [app] in ND. inversion ND; assumption.
    - intros p q Hp Hq. apply I in Hp, Hq. revert p q Hp Hq. intros p q Hp Hq. eapply (objs_apart os obj blk off per); [..|exact G|exact Hp|exact Hq]; assumption.
  Qed.
  Theorem slab_kept s U s' U' : history safe mem os obj blk s U -> step safe s U s' U' ->
    forall q a, In q U -> In q U' -> q <= a < q + obj -> s_mem s' a = s_mem s a.
  Proof.
    intros H St. destruct (history_lists s U H) as (Ho & F & A & B & L & Pg). destruct (sizes_ok obj blk Ob Ho) as (H1 & H2 & H3 & H4 & H5 & H6).
    assert (K : (exists F' A' B', lists safe os obj blk off per s' U' F' A' B' /\ Permutation (pages s' A' B') (pages s A B)) /\ forall q a, In q U -> In q U' -> q <= a < q + obj -> s_mem s' a = s_mem s a) by (eapply step_ok; eassumption).
    exact (proj2 K).
  Qed.
  Theorem slab_answers s U : history safe mem os obj blk s U ->
    exists s' p, slab_alloc safe s = Ok (s', p) /\ (p = 0 -> hd None (s_os s) = None)
    /\ (s_os s' <> s_os s -> Z.of_nat (length U) = (Z.of_nat (length (blocks os)) - Z.of_nat (length (blocks (s_os s)))) * ((blk - slab_check_sizes obj blk) / obj)).
  Proof.
    intros H. destruct (history_lists s U H) as (Ho & F & A & B & L & Pg). destruct (sizes_ok obj blk Ob Ho) as (H1 & H2 & H3 & H4 & H5 & H6).
    assert (X : exists s' p, slab_alloc safe s = Ok (s', p) /\ used_same obj s s' U /\ (s_os s' <> s_os s -> F = [] /\ B = [])
    /\ (if p =? 0 then F = [] /\ hd None (s_os s) = None /\ lists safe os obj blk off per s' U F A B /\ pages s' A B = pages s A B
        else exists F' A' B', lists safe os obj blk off per s' (p :: U) F' A' B' /\ Permutation (pages s' A' B') (pages s A B) /\ forall q F0, F = q :: F0 -> F' = F0 /\ s_os s' = s_os s)) by (eapply alloc_ok; eassumption).
    destruct X as (s' & p & E & _ & Ne & K). exists s', p. split; [exact E|]. split; [intros ->; apply K|].
    intros N. destruct (Ne N) as [-> ->]. pose proof (Permutation_length (l_all _ _ _ _ _ _ _ _ _ _ _ L)) as La. cbn [app] in La.
    rewrite La. assert (Al : Z.of_nat (length (all obj off per A)) = Z.of_nat (length A) * per) by (eapply all_length; eassumption). rewrite Al. apply Permutation_length in Pg. unfold pages in Pg. rewrite app_nil_r, app_length in Pg.
    fold off. fold per. nia.
  Qed.
  Theorem slab_reserved s U nr : safe = false -> history safe mem os obj blk s U ->
    (forall fuel, (Z.to_nat nr < fuel)%nat -> exists s' b, slab_reserve fuel s nr = Ok (s', b))
    /\ forall fuel s', slab_reserve fuel s nr = Ok (s', true) ->
       exists r, allocs safe (Z.to_nat nr) (no_more_blocks s') = Ok r /\ length r = Z.to_nat nr /\ Forall (fun p => p <> 0) r.
  Proof.
    intros Hs H. destruct (history_lists s U H) as (Ho & F & A & B & L & Pg). destruct (sizes_ok obj blk Ob Ho) as (H1 & H2 & H3 & H4 & H5 & H6).
    assert (K : forall fuel, match slab_reserve fuel s nr with
      | Ok (s', b) => used_same obj s s' U /\ exists F' A' B', lists safe os obj blk off per s' U F' A' B' /\ Permutation (pages s' A' B') (pages s A B) /\ (b = true -> nr <= Z.of_nat (length F'))
      | UB => False | Fuel => (Z.of_nat fuel <= nr - Z.of_nat (length F) \/ fuel = 0%nat) end) by (intros fuel; eapply reserve_ok; eassumption). split.
    - intros fuel Hf. specialize (K fuel). destruct (slab_reserve fuel s nr) as [[s' b]| |]; [eauto|contradiction|]. exfalso. lia.
    - intros fuel s' E. specialize (K fuel). rewrite E in K. destruct K as (_ & F' & A' & B' & L' & _ & K). specialize (K eq_refl).
      pose proof (no_more_ok _ _ _ _ _ _ _ _ _ _ _ L') as L2. assert (Le : (Z.to_nat nr <= length F')%nat) by lia. eapply allocs_ok; [..|exact L2|exact Le]; assumption.
  Qed.
  Theorem slab_counts s U : history safe mem os obj blk s U ->
    exists n, forall fuel, (n <= fuel)%nat -> slab_get_nalloc fuel s = Ok (Z.of_nat (length U)) /\ exists s', slab_free_all fuel s = Ok s'.
  Proof.
    intros H. destruct (history_lists s U H) as (Ho & F & A & B & L & Pg). destruct (sizes_ok obj blk Ob Ho) as (H1 & H2 & H3 & H4 & H5 & H6).
    exists (S (length A + length F)). intros fuel Hf. split.
    - assert (LA : (length A < fuel)%nat) by lia. assert (LF : (length F < fuel)%nat) by lia. eapply nalloc_ok; [..|exact L|exact LA|exact LF]; assumption.
    - assert (K : match slab_free_all fuel s with Ok s' => lists safe os obj blk off per s' [] [] [] (A ++ B) /\ pages s' [] (A ++ B) = pages s A B | UB => False | Fuel => (fuel <= length A)%nat end) by (eapply free_all_ok; eauto).
      destruct (slab_free_all fuel s); [eauto|contradiction|lia].
  Qed.
End histories.
