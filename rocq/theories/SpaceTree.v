(** The space of whole filters: every block of a filter that loading, insertions
    and deletions can produce has the default number of slots at most, or few more
    than it has elements. *)
From Coq Require Import ZArith List Bool Lia Permutation Sorting.Sorted.
From Coq Require Import ZifyBool ZifyNat.
From Verif Require Import Base Util Store Tables Key Diva Bits StoreInsert Spec StoreList StoreRep TablesProofs KeyOrder Tree Filter Contents SpecFilter Bulk Hist DelHist DelRun SpecSpace Space.
Import ListNotations.
Open Scope Z_scope.

(** ** trees *)
Definition asc (t : tree) : Prop := StronglySorted (fun x y => key_lt (fst x) (fst y) = true) t.
Definition len (t : tree) : Z := Z.of_nat (length t).
Definition tot (t : tree) : Z := fold_right Z.add 0 (map (fun e => get_elem_count (snd e)) t).
Lemma tot_app a b : tot (a ++ b) = tot a + tot b.
Proof. unfold tot. rewrite map_app. induction (map (fun e : key * store => get_elem_count (snd e)) a) as [|x l IH]; simpl; lia. Qed.
Lemma tot_cons k st t : tot ((k, st) :: t) = get_elem_count st + tot t.
Proof. reflexivity. Qed.
Lemma len_app a b : len (a ++ b) = len a + len b.
Proof. unfold len. rewrite app_length. lia. Qed.
Lemma len_cons x t : len (x :: t) = 1 + len t.
Proof. unfold len. cbn [length]. lia. Qed.

Lemma put_all (P : key * store -> Prop) t k v : Forall P t -> P (k, v) -> Forall P (put t k v).
Proof.
  intros H Hp. induction H as [|[k' v'] t H0 H IH]; cbn [put]; [auto|]. destruct (key_eq k' k) eqn:E.
  - apply key_eq_iff in E as ->. auto.
  - destruct (key_lt k' k); auto.
Qed.
Lemma put_asc t k v : asc t -> asc (put t k v).
Proof.
  intros H. induction H as [|[k' v'] t H IH F]; cbn [put]; [constructor; constructor|]. destruct (key_eq k' k) eqn:E.
  - constructor; assumption.
  - destruct (key_lt k' k) eqn:L.
    + constructor; [exact IH|]. apply put_all; assumption.
    + assert (K : key_lt k k' = true).
      { destruct (key_lt_total k k') as [X|[X|X]]; [exact X| |congruence]. subst. rewrite key_eq_refl in E. discriminate. }
      constructor; [constructor; assumption|]. constructor; [exact K|]. eapply Forall_impl; [|exact F]. intros [k2 v2] X. simpl in *. eapply key_lt_trans; eassumption.
Qed.
Lemma put_size t k v : len (put t k v) <= len t + 1 /\ tot (put t k v) <= tot t + get_elem_count v.
Proof.
  induction t as [|[k' v'] t [I1 I2]]; cbn [put]; [rewrite len_cons, tot_cons; split; [|unfold tot]; simpl; lia|].
  pose proof (count_range v'). destruct (key_eq k' k); [|destruct (key_lt k' k)]; rewrite ?len_cons, ?tot_cons in *; lia.
Qed.
Lemma put_at A k v v' B : asc (A ++ (k, v) :: B) -> put (A ++ (k, v) :: B) k v' = A ++ (k, v') :: B.
Proof.
  intros H. apply put_hit. intros x Hx. unfold asc in H. induction A as [|a A IH]; [contradiction|]. inversion H as [|? ? H1 H2]; subst.
  destruct Hx as [->|Hx]; [|apply IH; assumption]. rewrite Forall_app in H2. destruct H2 as [_ H2]. inversion H2; subst. assumption.
Qed.
Lemma del_at A k v B : asc (A ++ (k, v) :: B) -> del (A ++ (k, v) :: B) k = A ++ B.
Proof.
  intros H. apply del_hit. intros x Hx. unfold asc in H. induction A as [|a A IH]; [contradiction|]. inversion H as [|? ? H1 H2]; subst.
  destruct Hx as [->|Hx]; [|apply IH; assumption]. rewrite Forall_app in H2. destruct H2 as [_ H2]. inversion H2; subst. assumption.
Qed.
Lemma asc_drop A x B : asc (A ++ x :: B) -> asc (A ++ B).
Proof.
  unfold asc. induction A as [|a A IH]; intros H; [inversion H; assumption|]. inversion H as [|? ? H1 H2]; subst. constructor; [apply IH, H1|].
  rewrite Forall_app in *. destruct H2 as [H2 H3]. inversion H3; subst. auto.
Qed.
Lemma asc_after A k v B : asc (A ++ (k, v) :: B) -> Forall (fun e => key_lt k (fst e) = true) B.
Proof. unfold asc. induction A as [|a A IH]; intros H; inversion H; subst; auto. Qed.
Lemma asc_same A k v B A' v' B' : asc (A ++ (k, v) :: B) -> A ++ (k, v) :: B = A' ++ (k, v') :: B' -> A = A' /\ v = v' /\ B = B'.
Proof.
  revert A'. induction A as [|a A IH]; intros A' H E.
  - destruct A' as [|a' A']; [inversion E; auto|]. exfalso. inversion E; subst. inversion H as [|? ? H1 H2]; subst. rewrite Forall_app in H2. destruct H2 as [_ H2]. inversion H2 as [|? ? X Y]; subst.
    simpl in X. rewrite key_lt_irrefl in X. discriminate.
  - destruct A' as [|a' A'].
    + exfalso. inversion E; subst. inversion H as [|? ? H1 H2]; subst. rewrite Forall_app in H2. destruct H2 as [_ H2]. inversion H2 as [|? ? X Y]; subst.
      simpl in X. rewrite key_lt_irrefl in X. discriminate.
    + inversion E; subst. inversion H; subst. destruct (IH A' ltac:(assumption) ltac:(assumption)) as (-> & -> & ->). auto.
Qed.

Lemma seek_parts t k : forall b0, let '(b, a) := seek_from b0 t k in
  exists b1, b = b1 ++ b0 /\ t = rev b1 ++ a /\ Forall (fun e => key_lt (fst e) k = true) b1 /\ match a with (x, _) :: _ => key_lt x k = false | [] => True end.
Proof.
  induction t as [|[x v] t IH]; intros b0; cbn [seek_from]; [exists []; auto|]. destruct (key_lt x k) eqn:E; [|exists []; auto].
  specialize (IH ((x, v) :: b0)). destruct (seek_from ((x, v) :: b0) t k) as [b a]. destruct IH as (b1 & -> & -> & F & M).
  exists (b1 ++ [(x, v)]). rewrite <- app_assoc. split; [reflexivity|]. rewrite rev_app_distr. split; [reflexivity|]. split; [|exact M]. apply Forall_app. auto.
Qed.
Lemma seek_split t k : exists b a, seek t k = (b, a) /\ t = rev b ++ a /\ Forall (fun e => key_lt (fst e) k = true) b /\ match a with (x, _) :: _ => key_lt x k = false | [] => True end.
Proof.
  unfold seek. pose proof (seek_parts t k []) as H. destruct (seek_from [] t k) as [b a]. destruct H as (b1 & E & H). rewrite app_nil_r in E. subst b1. eauto.
Qed.
Lemma locate_parts t k : pc (locate t k) (fun x => let '(pk, st, nk) := x in exists A B, t = A ++ (pk, st) :: B).
Proof.
  unfold locate. destruct (seek_split t k) as (b & a & -> & -> & F & M). unfold peek at 1. cbn [snd]. destruct a as [|[nk st] a]; [exact I|]. cbn [bind].
  destruct (key_eq nk k).
  - cbn [skip1]. unfold peek. cbn [snd]. destruct a as [|[nk' st'] a]; [exact I|]. cbn [bind pc]. eauto.
  - destruct b as [|[pk st'] b]; cbn [skip1_rev peek snd bind]; [exact I|]. cbn [pc rev]. exists (rev b), ((nk, st) :: a). rewrite <- app_assoc. reflexivity.
Qed.

Section T.
Variable c : cfg.
Variable s : Z.
Hypothesis T : tables_ok c.
Hypothesis tight : forall g, 56 <= g < 256 -> Z.shiftr (c_scal c grow_sep * (c_size c (g - 2) - 1)) scale_shift <= c_size c (g - 1).
Notation slim := (slim c s).

Definition good (d : diva) : Prop := d_size d = s /\ asc (d_tree d) /\ Forall (fun e => slim (snd e)) (d_tree d).
Lemma good_put d k v : good d -> slim v -> good (with_tree d (put (d_tree d) k v)).
Proof. intros (A & B & C) H. split; [exact A|]. split; [apply put_asc, B|]. apply put_all; assumption. Qed.

Lemma insert_simple_size d k : good d -> counters_free d ->
  pc (insert_simple c d k) (fun d' => good d' /\ tot (d_tree d') = tot (d_tree d) + 1 /\ boundaries d' = boundaries d).
Proof.
  intros G F. unfold insert_simple. eapply pc_seq; [apply locate_parts|]. intros [[pk st] nk] (A & B & E).
  apply pc_skip. intros [[[[shared ignore] isz] pim] total] _. apply pc_skip. intros e _.
  destruct G as (G1 & G2 & G3). rewrite G1.
  assert (Hst : slim st /\ get_elem_count st + 1 < 2 ^ 20).
  { unfold counters_free in F. rewrite E in F, G3. rewrite Forall_app in F, G3. destruct F as [_ F], G3 as [_ G3]. inversion F; inversion G3; subst. auto. }
  eapply pc_seq; [apply insert_raw_count; [exact T|exact tight|apply Hst|apply Hst]|]. intros st' [S' N']. unfold pc.
  split; [apply good_put; [split; auto|exact S']|]. unfold boundaries. cbn [d_tree with_tree]. rewrite E in *. rewrite put_at by exact G2.
  rewrite !tot_app, !tot_cons, N', !map_app. split; [lia|reflexivity].
Qed.

Lemma split_half_len shamt lo hi l : pc (split_half c s shamt lo hi l) (fun r => Z.of_nat (length r) < 2 ^ 20).
Proof.
  unfold split_half. apply pc_skip. intros [n ex] _. apply pc_skip. intros r _. destruct ((Z.of_nat (length r) =? n) && (n <? 2 ^ 20)) eqn:E; [|exact I]. unfold pc. lia.
Qed.
Lemma insert_split_size d k : good d -> counters_free d ->
  pc (insert_split c d k) (fun d' => good d' /\ len (d_tree d') <= len (d_tree d) + 1).
Proof.
  intros G F. assert (SI : pc (insert_simple c d k) (fun d' => good d' /\ len (d_tree d') <= len (d_tree d) + 1)).
  { eapply pc_mono; [apply insert_simple_size; assumption|]. intros d' (A & _ & B). split; [exact A|]. unfold boundaries in B. apply (f_equal (@length _)) in B. rewrite !map_length in B. unfold len. lia. }
  unfold insert_split. eapply pc_seq; [apply locate_parts|]. intros [[pk st] nk] (A & B & E).
  apply pc_skip. intros p _. destruct p; [exact SI|].
  apply pc_skip. intros [[shared ignore] isz] _. cbv zeta.
  apply pc_skip. intros ex _. apply pc_skip. intros pex _. apply pc_skip. intros nex _. apply pc_skip. intros infixes _.
  destruct (negb (Z.of_nat (length infixes) =? get_elem_count st)); [exact I|].
  apply pc_skip. intros [sl sr] _. apply pc_skip. intros [sp zp] _. apply pc_skip. intros ex' _.
  apply pc_skip. intros [[shl igl] isl] _. apply pc_skip. intros pel _. apply pc_skip. intros exl _. apply pc_skip. intros b1 _. apply pc_skip. intros b2 _. apply pc_skip. intros h1 _.
  apply pc_skip. intros [[shg igg] isg] _. apply pc_skip. intros exg _. apply pc_skip. intros neg _. apply pc_skip. intros b3 _. apply pc_skip. intros h2 _. apply pc_skip. intros b4 _. apply pc_skip. intros h3 _.
  match goal with |- pc (if ?b then _ else _) _ => destruct b end; [exact SI|].
  pose proof G as (G1 & G2 & G3). rewrite G1.
  eapply pc_seq; [apply split_half_len|]. intros left Hl. eapply pc_seq; [apply split_half_len|]. intros right Hr.
  eapply pc_seq; [apply alloc_slim; [exact T|exact tight|exact Hl]|]. intros slt [Sl _].
  apply (pc_seq _ _ (fun r' => Z.of_nat (length r') < 2 ^ 20 /\ (zp =? -1 = false -> Z.of_nat (length r') + 1 < 2 ^ 20))).
  { destruct (zp =? -1); [split; [exact Hr|discriminate]|]. destruct right as [|x t]; [exact I|]. cbn [length] in Hr. unfold pc. lia. }
  intros right' [Hr1 Hr2]. eapply pc_seq; [apply alloc_slim; [exact T|exact tight|exact Hr1]|]. intros sgt [Sg Ng]. apply pc_skip. intros _ _.
  set (slt' := set_partial_key (set_invalid_bits slt (get_invalid_bits st)) (is_partial_key st)).
  assert (Sl' : slim slt') by exact (proj1 (slim_partial c s tight _ _ (proj1 (slim_invalid c s tight _ _ Sl)))). clearbody slt'.
  assert (L1 : len (put (d_tree d) pk slt') = len (d_tree d)).
  { rewrite E in *. rewrite put_at by exact G2. rewrite !len_app, !len_cons. lia. }
  destruct (zp =? -1) eqn:Ez.
  - unfold pc. split.
    + pose proof (good_put (with_tree d (put (d_tree d) pk slt')) k sgt (good_put d pk slt' G Sl') Sg) as X. exact X.
    + cbn [d_tree with_tree]. pose proof (put_size (put (d_tree d) pk slt') k sgt). lia.
  - apply pc_skip. intros ke _. eapply pc_seq; [apply insert_raw_count; [exact T|exact tight|exact Sg|rewrite Ng; apply Hr2; reflexivity]|]. intros sgt' [Sg' _]. unfold pc.
    set (sgt2 := set_partial_key (set_invalid_bits sgt' (7 - Z.rem (zp - 1) 8)) true). assert (Sg2 : slim sgt2) by exact (proj1 (slim_partial c s tight _ _ (proj1 (slim_invalid c s tight _ _ Sg')))). clearbody sgt2.
    split.
    + pose proof (good_put (with_tree d (put (d_tree d) pk slt')) (edit_key k zp) sgt2 (good_put d pk slt' G Sl') Sg2) as X. exact X.
    + cbn [d_tree with_tree]. pose proof (put_size (put (d_tree d) pk slt') (edit_key k zp) sgt2). lia.
Qed.

(** ** deletions *)
Lemma map_res_len {A B} (f : A -> res B) l : pc (map_res f l) (fun r => length r = length l).
Proof.
  induction l as [|x l IH]; cbn [map_res]; [reflexivity|]. apply pc_skip. intros y _. eapply pc_seq; [exact IH|]. intros r Hr. cbn [pc length]. congruence.
Qed.
Lemma update_delete_len shared ignore isz a b l : pc (update_delete c s shared ignore isz a b l) (fun r => length r = length l).
Proof.
  unfold update_delete. apply pc_skip. intros [[os oi] oz] _. apply pc_skip. intros e _. apply map_res_len.
Qed.
Lemma delete_merge_size d b lk stl mk str a : good d -> d_tree d = rev b ++ (lk, stl) :: (mk, str) :: a -> get_elem_count stl + get_elem_count str < 2 ^ 20 ->
  pc (delete_merge c d ((lk, stl) :: b, (mk, str) :: a))
     (fun d' => good d' /\ tot (d_tree d') = tot (d_tree d) /\ len (d_tree d') = len (d_tree d) - 1).
Proof.
  intros (G1 & G2 & G3) E Hn. unfold delete_merge. rewrite G1. cbn [peek snd bind]. apply pc_skip. intros [rk str'] _. cbn [skip1_rev peek snd bind].
  apply pc_skip. intros [[shared ignore] isz] _. apply pc_skip. intros ll _. apply pc_skip. intros lr _.
  destruct ((Z.of_nat (length ll) =? get_elem_count stl) && (Z.of_nat (length lr) =? get_elem_count str)) eqn:El; cbn [negb]; [|exact I]. apply andb_true_iff in El as [El1 El2].
  eapply pc_seq; [apply update_delete_len|]. intros ll' L1. cbv beta in L1. eapply pc_seq; [apply update_delete_len|]. intros lr' L2. cbv beta in L2. apply pc_skip. intros e _. cbv zeta.
  apply pc_skip. intros _ _. apply pc_skip. intros _ _. apply pc_skip. intros e' _.
  set (infixes := map _ (ll' ++ lr')). assert (Li : Z.of_nat (length infixes) = get_elem_count stl + get_elem_count str) by (unfold infixes; rewrite map_length, app_length; lia).
  eapply pc_seq; [apply alloc_slim; [exact T|exact tight|lia]|]. intros st [S N]. unfold pc.
  set (st' := set_invalid_bits (set_partial_key st (is_partial_key stl)) (get_invalid_bits stl)).
  assert (S' : slim st') by exact (proj1 (slim_invalid c s tight _ _ (proj1 (slim_partial c s tight _ _ S)))).
  assert (N' : get_elem_count st' = get_elem_count stl + get_elem_count str).
  { unfold st'. rewrite (proj2 (slim_invalid c s tight _ _ (proj1 (slim_partial c s tight _ _ S)))), (proj2 (slim_partial c s tight _ _ S)). lia. }
  clearbody st'.
  assert (ED : del (d_tree d) mk = rev b ++ (lk, stl) :: a).
  { rewrite E in *. change ((lk, stl) :: (mk, str) :: a) with ([(lk, stl)] ++ (mk, str) :: a) in *. rewrite app_assoc in *. rewrite del_at by exact G2. rewrite <- app_assoc. reflexivity. }
  assert (GD : asc (rev b ++ (lk, stl) :: a)).
  { rewrite E in G2. change ((lk, stl) :: (mk, str) :: a) with ([(lk, stl)] ++ (mk, str) :: a) in G2. rewrite app_assoc in G2. apply asc_drop in G2. rewrite <- app_assoc in G2. exact G2. }
  assert (EP : put (del (d_tree d) mk) lk st' = rev b ++ (lk, st') :: a) by (rewrite ED; apply put_at, GD).
  split; [|cbn [d_tree with_tree]; rewrite EP, E, !tot_app, !len_app, !tot_cons, !len_cons; lia].
  split; [exact G1|]. cbn [d_tree with_tree]. split; [rewrite ED; apply put_asc, GD|]. apply put_all; [|exact S']. rewrite ED.
  rewrite E in G3. rewrite Forall_app in G3 |- *. destruct G3 as [X Y]. inversion Y as [|? ? Y1 Y2]; inversion Y2; subst. auto.
Qed.

Lemma last_cons_case {A} (l : list A) : l = [] \/ exists l' x, l = l' ++ [x].
Proof. destruct (rev l) as [|x r] eqn:E; [left|right]; apply (f_equal (@rev A)) in E; rewrite rev_involutive in E; [exact E|]. exists (rev r), x. exact E. Qed.

Lemma delete_size d k : good d -> deletable d k ->
  pc (delete c d k) (fun d' => good d' /\ tot (d_tree d') + len (d_tree d') = tot (d_tree d) + len (d_tree d) - 1 /\ len (d_tree d') <= len (d_tree d)).
Proof.
  intros G HD. pose proof G as (G1 & G2 & G3). unfold delete. rewrite G1. destruct (seek_split (d_tree d) k) as (b & a & -> & E & F & M).
  unfold peek at 1. cbn [snd]. destruct a as [|[nk st0] a]; [exact I|]. cbn [bind]. cbv zeta.
  assert (MG : forall b lk stl mk str a, d_tree d = rev b ++ (lk, stl) :: (mk, str) :: a -> get_elem_count stl + get_elem_count str < 2 ^ 20 ->
    pc (delete_merge c d ((lk, stl) :: b, (mk, str) :: a)) (fun d' => good d' /\ tot (d_tree d') + len (d_tree d') = tot (d_tree d) + len (d_tree d) - 1 /\ len (d_tree d') <= len (d_tree d))).
  { intros. eapply pc_mono; [apply delete_merge_size; eassumption|]. intros d' (X & Y & Z). split; [exact X|]. lia. }
  (* deleting from the block of [pk] *)
  assert (RAW : forall A pk st B x ti, d_tree d = A ++ (pk, st) :: B -> 0 < get_elem_count st ->
    pc (let* st' := delete_raw c s st x ti in Ok (with_tree d (put (d_tree d) pk st'))) (fun d' => good d' /\ tot (d_tree d') + len (d_tree d') = tot (d_tree d) + len (d_tree d) - 1 /\ len (d_tree d') <= len (d_tree d))).
  { intros A pk st B x ti E' Hn. assert (S : slim st) by (rewrite E' in G3; rewrite Forall_app in G3; destruct G3 as [_ X]; inversion X; assumption).
    eapply pc_seq; [apply delete_raw_count; [exact T|exact tight|exact S|exact Hn]|]. intros st' [S' N']. unfold pc. split; [apply good_put; [exact G|exact S']|].
    cbn [d_tree with_tree]. rewrite E' in *. rewrite put_at by exact G2. rewrite !tot_app, !len_app, !tot_cons, !len_cons, N'. lia. }
  destruct (key_eq nk k) eqn:Ek.
  - apply key_eq_iff in Ek. subst nk.
    assert (AF : Forall (fun e => lt k (fst e)) a).
    { rewrite E in G2. apply asc_after in G2. eapply Forall_impl; [|exact G2]. intros e He. unfold lt. rewrite ltb_key_lt. exact He. }
    destruct (HD _ _ _ _ E (or_introl eq_refl) AF) as [D1 D2].
    destruct (is_partial_key st0) eqn:Ep; cbn [negb andb].
    + destruct D1 as [[_ ?]|D1]; [discriminate|].
      unfold peek at 1. cbn [skip1 snd]. destruct a as [|[nk' st'] a]; [exact I|]. cbn [bind skip1_rev].
      apply pc_skip. intros [[[[shared ignore] isz] pim] total] _. apply pc_skip. intros e _. rewrite Ep. apply pc_skip. intros mg _. destruct mg.
      * destruct b as [|[lk stl] b]; [unfold delete_merge; cbn [peek snd bind]; apply pc_skip; intros [rk str] _; cbn [skip1_rev peek snd bind]; exact I|].
        cbn [rev] in E, D2. apply MG; [rewrite E, <- app_assoc; reflexivity|]. apply (D2 _ _ _ eq_refl). auto.
      * eapply RAW; [exact E|exact D1].
    + destruct b as [|[lk stl] b]; [unfold delete_merge; cbn [peek snd bind]; apply pc_skip; intros [rk str] _; cbn [skip1_rev peek snd bind]; exact I|].
      cbn [rev] in E, D2. apply MG; [rewrite E, <- app_assoc; reflexivity|]. apply (D2 _ _ _ eq_refl). auto.
  - cbn [andb]. destruct b as [|[pk st] b]; cbn [skip1_rev peek snd bind]; [exact I|]. inversion F as [|? ? F1 F2]; subst. cbn [fst] in F1.
    cbn [rev] in E. rewrite <- app_assoc in E. cbn [app] in E.
    assert (Lk : key_lt k nk = true). { destruct (nlt_cases _ _ M) as [->|X]; [rewrite key_eq_refl in Ek; discriminate|exact X]. }
    assert (AF : Forall (fun e => lt k (fst e)) ((nk, st0) :: a)).
    { constructor; [unfold lt; rewrite ltb_key_lt; exact Lk|]. rewrite E in G2. change (rev b ++ (pk, st) :: (nk, st0) :: a) with (rev b ++ [(pk, st)] ++ (nk, st0) :: a) in G2. rewrite app_assoc in G2. apply asc_after in G2.
      eapply Forall_impl; [|exact G2]. intros e He. unfold lt. rewrite ltb_key_lt. eapply key_lt_trans; eassumption. }
    assert (LE : le pk k) by (right; unfold lt; rewrite ltb_key_lt; exact F1).
    destruct (HD _ _ _ _ E LE AF) as [D1 D2].
    assert (Hn : 0 < get_elem_count st). { destruct D1 as [[-> _]|D1]; [rewrite key_lt_irrefl in F1; discriminate|exact D1]. }
    apply pc_skip. intros [[[[shared ignore] isz] pim] total] _. apply pc_skip. intros e _.
    apply (pc_seq _ _ (fun mg : bool => mg = true -> is_partial_key st = true)).
    { destruct (is_partial_key st); [apply pc_skip; intros l _; unfold pc; reflexivity|discriminate]. }
    intros mg Hm. destruct mg.
    + destruct b as [|[lk stl] b]; [unfold delete_merge; cbn [peek snd bind]; apply pc_skip; intros [rk str] _; cbn [skip1_rev peek snd bind]; exact I|].
      cbn [rev] in E, D2. apply MG; [rewrite E, <- app_assoc; reflexivity|]. apply (D2 _ _ _ eq_refl). auto.
    + eapply RAW; [exact E|exact Hn].
Qed.

(** ** loading *)
Lemma blank_slim : slim (new_store c (c_size c grow_sep) s grow_sep) /\ get_elem_count (new_store c (c_size c grow_sep) s grow_sep) = 0.
Proof.
  destruct (new_store_status c s (c_size c grow_sep) grow_sep ltac:(unfold grow_sep; lia)) as (A & B & C & D). split; [|exact D]. split; [exact A|].
  split; [unfold slots; rewrite C; exact B|]. left. rewrite C. unfold grow_sep. lia.
Qed.
Lemma chunk_slim grade left right mid : 0 <= grade < 256 -> Z.of_nat (length mid) < 2 ^ 20 -> grade <= 55 ->
  pc (chunk_store c s grade left right mid) (fun st => slim st /\ get_elem_count st = Z.of_nat (length mid)).
Proof.
  intros Hg Hl H5. unfold chunk_store. apply pc_skip. intros [[[[shared ignore] isz] pim] total] _.
  eapply pc_seq; [apply map_res_len|]. intros r Hr. cbv beta in Hr. eapply pc_mono; [apply load_new; [exact Hg|lia]|].
  intros st (A & B & C & D). split; [|lia]. split; [exact A|]. split; [exact B|]. left. lia.
Qed.
Lemma good_add d k : good d -> good (add_tree_key c d k) /\ len (d_tree (add_tree_key c d k)) <= len (d_tree d) + 1 /\ tot (d_tree (add_tree_key c d k)) <= tot (d_tree d).
Proof.
  intros G. pose proof G as (G1 & _). destruct blank_slim as [S N]. unfold add_tree_key. rewrite G1. split; [apply good_put; assumption|].
  cbn [d_tree with_tree]. pose proof (put_size (d_tree d) k (new_store c (c_size c grow_sep) s grow_sep)). lia.
Qed.
Lemma removelast_len {A} (l : list A) : length (removelast l) = (length l - 1)%nat.
Proof. induction l as [|x [|y l] IH]; [reflexivity|reflexivity|]. change (removelast (x :: y :: l)) with (x :: removelast (y :: l)). cbn [length] in *. lia. Qed.
Lemma load_tail_size d left rest : good d -> Z.of_nat (length rest) < 1024 ->
  pc (load_tail c d left rest) (fun d' => good d' /\ tot (d_tree d') + len (d_tree d') <= tot (d_tree d) + len (d_tree d) + 1 + Z.of_nat (length rest) /\ len (d_tree d') <= len (d_tree d) + 2).
Proof.
  intros G Hl. pose proof G as (G1 & _). unfold load_tail. rewrite G1. pose proof (removelast_len rest) as Em. set (mid := removelast rest) in *.
  pose proof (t_chunk c T) as Hch.
  destruct (least_grade c (Z.of_nat (length mid))) as (g & Hg & Hg1 & Hg2).
  { pose proof (size_le c T tight grow_sep 249 ltac:(unfold grow_sep; lia) ltac:(lia)). lia. }
  unfold lower_bound_grade. rewrite (alloc_grade_eq c _ g Hg Hg2 Hg1). cbn [bind].
  assert (g <= 55). { apply Z.nlt_ge. intros X. specialize (Hg2 55 ltac:(lia)). change 55 with grow_sep in Hg2. lia. }
  eapply pc_seq; [apply chunk_slim; [lia|lia|assumption]|]. intros st [S N]. cbv beta in N. unfold pc.
  pose proof (good_put d left st G S) as G'. set (d1 := with_tree d (put (d_tree d) left st)) in *.
  pose proof (put_size (d_tree d) left st) as [P1 P2]. change (put (d_tree d) left st) with (d_tree d1) in P1, P2.
  destruct rest as [|x rest].
  - cbn [length] in *. split; [exact G'|]. lia.
  - destruct (good_add d1 (last (x :: rest) left) G') as (A & B & C). split; [exact A|]. cbn [length] in *. lia.
Qed.
Lemma load_chunks_size fuel : forall d left rest, good d ->
  pc (load_chunks fuel c d left rest) (fun d' => good d' /\ tot (d_tree d') + len (d_tree d') <= tot (d_tree d) + len (d_tree d) + 1 + Z.of_nat (length rest) /\
     len (d_tree d') <= len (d_tree d) + 2 + Z.of_nat (length rest) / 1024).
Proof.
  induction fuel as [|fuel IH]; intros d left rest G; cbn [load_chunks]; [exact I|]. unfold target_size. destruct (Z.leb_spec 1024 (Z.of_nat (length rest))) as [H|H].
  - pose proof G as (G1 & _). rewrite G1. set (m := Z.to_nat (1024 - 1)). assert (Em : m = 1023%nat) by reflexivity. clearbody m.
    assert (Lm : length (firstn m rest) = 1023%nat) by (rewrite firstn_length; lia).
    eapply pc_seq; [apply chunk_slim; [unfold grow_sep; lia|lia|unfold grow_sep; lia]|]. intros st [S N]. cbv beta in N.
    pose proof (good_put d left st G S) as G'. set (d1 := with_tree d (put (d_tree d) left st)) in *.
    pose proof (put_size (d_tree d) left st) as [P1 P2]. change (put (d_tree d) left st) with (d_tree d1) in P1, P2.
    eapply pc_mono; [apply IH, G'|]. intros d' (A & B & C). split; [exact A|]. rewrite skipn_length in B, C.
    assert (Er : Z.of_nat (length rest - Datatypes.S m) = Z.of_nat (length rest) - 1 * 1024) by lia.
    assert (Ed : Z.of_nat (length rest - Datatypes.S m) / 1024 = Z.of_nat (length rest) / 1024 - 1) by (rewrite Er; rewrite <- Z.add_opp_r, <- Z.mul_opp_l, Z.div_add by lia; lia).
    rewrite Ed in C. lia.
  - eapply pc_mono; [apply load_tail_size; [exact G|lia]|]. intros d' (A & B & C). split; [exact A|]. split; [lia|]. assert (0 <= Z.of_nat (length rest) / 1024) by (apply Z.div_pos; lia). lia.
Qed.
Lemma load_keys_size d keys : good d ->
  pc (load_keys c d keys) (fun d' => good d' /\ tot (d_tree d') + len (d_tree d') <= tot (d_tree d) + len (d_tree d) + Z.of_nat (length keys) /\
     len (d_tree d') <= len (d_tree d) + 2 + Z.of_nat (length keys) / 1024).
Proof.
  intros G. unfold load_keys. destruct keys as [|lk rest]; [exact I|]. eapply pc_mono; [apply load_chunks_size, G|]. intros d' (A & B & C). split; [exact A|]. cbn [length].
  assert (Z.of_nat (length rest) / 1024 <= Z.of_nat (Datatypes.S (length rest)) / 1024) by (apply Z.div_le_mono; lia). lia.
Qed.

Lemma stream_add_size x k n : 
  let inv x n := good (fst x) /\ match sm_left (snd x) with
    | None => d_tree (fst x) = [] /\ sm_buf (snd x) = [] /\ n = 0
    | Some _ => Z.of_nat (length (sm_buf (snd x))) < 1024 /\ tot (d_tree (fst x)) + len (d_tree (fst x)) + 1 + Z.of_nat (length (sm_buf (snd x))) <= n /\
                1024 * len (d_tree (fst x)) + 1 + Z.of_nat (length (sm_buf (snd x))) <= n
    end in
  inv x n -> pc (stream_add c x k) (fun y => inv y (n + 1)).
Proof.
  destruct x as [d sm]. cbv zeta. cbn [fst snd]. intros [G H]. unfold stream_add. destruct (sm_left sm) as [lk|].
  - destruct H as (H1 & H2 & H3). unfold target_size. destruct (Z.ltb_spec (Z.of_nat (length (sm_buf sm))) (1024 - 1)) as [Hb|Hb].
    + cbn [pc fst snd sm_left sm_buf]. rewrite app_length. cbn [length]. split; [exact G|]. lia.
    + pose proof G as (G1 & _). rewrite G1. eapply pc_seq; [apply chunk_slim; [unfold grow_sep; lia|lia|unfold grow_sep; lia]|]. intros st [S N]. cbv beta in N.
      cbn [pc fst snd sm_left sm_buf length]. split; [apply good_put; assumption|]. cbn [d_tree with_tree]. pose proof (put_size (d_tree d) lk st). lia.
  - destruct H as (H1 & H2 & H3). cbn [pc fst snd sm_left sm_buf]. split; [exact G|]. rewrite H1, H2. cbn [length]. unfold tot, len. simpl. lia.
Qed.
Lemma good_empty : good (mkdiva s []).
Proof. split; [reflexivity|]. split; constructor. Qed.
Lemma stream_all_size keys : forall x n,
  let inv x n := good (fst x) /\ match sm_left (snd x) with
    | None => d_tree (fst x) = [] /\ sm_buf (snd x) = [] /\ n = 0
    | Some _ => Z.of_nat (length (sm_buf (snd x))) < 1024 /\ tot (d_tree (fst x)) + len (d_tree (fst x)) + 1 + Z.of_nat (length (sm_buf (snd x))) <= n /\
                1024 * len (d_tree (fst x)) + 1 + Z.of_nat (length (sm_buf (snd x))) <= n
    end in
  inv x n -> pc (stream_all c x keys) (fun y => inv y (n + Z.of_nat (length keys))).
Proof.
  induction keys as [|k keys IH]; intros x n; cbv zeta; intros H; cbn [stream_all].
  - cbn [length pc]. replace (n + Z.of_nat 0) with n by lia. exact H.
  - eapply pc_seq; [apply (stream_add_size x k n), H|]. intros y Hy. cbn [length]. replace (n + Z.of_nat (Datatypes.S (length keys))) with (n + 1 + Z.of_nat (length keys)) by lia. apply IH, Hy.
Qed.

Lemma load_size m keys : pc (load c s m keys) (fun d => good d /\ tot (d_tree d) + len (d_tree d) <= Z.of_nat (length keys) + 2 /\ len (d_tree d) <= Z.of_nat (length keys) / 1024 + 4).
Proof.
  destruct m as [n| |]; cbn [load].
  - unfold bulk_load_fixed. destruct (good_add (mkdiva s []) (repeat 0 n) good_empty) as (A1 & A2 & A3). destruct (good_add _ (repeat 255 n) A1) as (B1 & B2 & B3).
    eapply pc_mono; [apply load_keys_size, B1|]. intros d (C1 & C2 & C3). split; [exact C1|]. change (len (d_tree (mkdiva s []))) with 0 in *. change (tot (d_tree (mkdiva s []))) with 0 in *. lia.
  - unfold bulk_load_var. destruct (good_add (mkdiva s []) (repeat 0 8) good_empty) as (A1 & A2 & A3).
    eapply pc_seq; [apply load_keys_size, A1|]. intros d (C1 & C2 & C3). unfold pc. destruct (good_add d (repeat 255 (max_len keys)) C1) as (B1 & B2 & B3). split; [exact B1|].
    change (len (d_tree (mkdiva s []))) with 0 in *. change (tot (d_tree (mkdiva s []))) with 0 in *. lia.
  - unfold bulk_load_stream. eapply pc_seq; [apply (stream_all_size keys (mkdiva s [], mkstream None [] 0) 0); cbn [fst snd sm_left]; split; [apply good_empty|auto]|].
    cbv zeta. intros [d sm]. cbn [fst snd]. intros [G H]. unfold stream_finish. destruct (sm_left sm) as [lk|]; [|exact I]. destruct H as (H1 & H2 & H3).
    destruct (good_add d (repeat 0 (sm_max sm)) G) as (A1 & A2 & A3). destruct (good_add _ (repeat 255 (sm_max sm)) A1) as (B1 & B2 & B3).
    assert (L : len (d_tree d) <= Z.of_nat (length keys) / 1024) by (apply Z.div_le_lower_bound; lia).
    set (d2 := add_tree_key c (add_tree_key c d (repeat 0 (sm_max sm))) (repeat 255 (sm_max sm))) in *. clearbody d2.
    destruct (sm_buf sm) as [|b buf] eqn:Eb.
    + unfold pc. split; [exact B1|]. cbn [length] in *. lia.
    + eapply pc_mono; [apply load_tail_size; [exact B1|exact H1]|]. intros d' (C1 & C2 & C3). split; [exact C1|]. cbn [length] in *. lia.
Qed.

Lemma reached_good m keys d : reached c s m keys d -> good d.
Proof.
  induction 1 as [d E|d k b d' _ G F E|d k d' _ G F E].
  - apply (pc_use _ _ _ (load_size m keys) E).
  - destruct b; cbn [insert] in E.
    + apply (pc_use _ _ _ (insert_split_size d k G F) E).
    + apply (pc_use _ _ _ (insert_simple_size d k G F) E).
  - apply (pc_use _ _ _ (delete_size d k G F) E).
Qed.

(** ** the bound *)
Hypothesis ratio : forall g, 56 <= g < 256 -> 100 * c_size c g <= 112 * c_size c (g - 2).
Hypothesis dflt : c_size c 55 = 1077.
Hypothesis Hs : 0 <= s.
Lemma slim_slots st : slim st -> (slots c st <= 1077 \/ 100 * slots c st <= 112 * get_elem_count st) /\ wc st = ptr_word_count (slots c st) s /\ 0 <= slots c st.
Proof.
  intros (A & B & C). pose proof (grade_rng st) as Hg. split; [|split; [exact B|]].
  - unfold slots. destruct C as [C|C].
    + left. rewrite <- dflt. apply (size_le c T tight); lia.
    + destruct (Z.le_gt_cases (get_size_grade st) 55); [left; rewrite <- dflt; apply (size_le c T tight); lia|right]. specialize (ratio (get_size_grade st) ltac:(lia)). lia.
  - unfold slots. pose proof (size_le c T tight 0 (get_size_grade st) ltac:(lia) ltac:(lia)). pose proof (t_pos c T). lia.
Qed.
Lemma words_bound st : slim st -> 6400 * wc st <= 115100 + 107700 * (s + 1) + 112 * (s + 1) * get_elem_count st.
Proof.
  intros H. destruct (slim_slots st H) as (A & B & C). rewrite B. unfold ptr_word_count, target_size.
  pose proof (Z.mul_div_le (1024 + slots c st * (s + 1) + 63) 64 ltac:(lia)) as D. set (q := (1024 + slots c st * (s + 1) + 63) / 64) in *. clearbody q.
  pose proof (count_range st) as N. set (n := get_elem_count st) in *. set (z := slots c st) in *. clearbody n z.
  assert (Z1 : 100 * z <= 107700 + 112 * n) by lia.
  assert (Z2 : 100 * z * (s + 1) <= (107700 + 112 * n) * (s + 1)) by (apply Z.mul_le_mono_nonneg_r; lia). lia.
Qed.
Lemma total_words t : Forall (fun e => slim (snd e)) t ->
  6400 * fold_right Z.add 0 (map (fun e : key * store => wc (snd e)) t) <= len t * (115100 + 107700 * (s + 1)) + 112 * (s + 1) * tot t.
Proof.
  induction 1 as [|[k st] t H _ IH]; [change (len []) with 0; change (tot []) with 0; cbn [map fold_right]; lia|]. cbn [map fold_right snd] in *. rewrite len_cons, tot_cons.
  pose proof (words_bound st H). nia.
Qed.

Theorem reached_blocks m keys d : reached c s m keys d ->
  Forall (fun e => (slots c (snd e) <= 1077 \/ 100 * slots c (snd e) <= 112 * get_elem_count (snd e)) /\ wc (snd e) = ptr_word_count (slots c (snd e)) s) (d_tree d).
Proof.
  intros H. destruct (reached_good m keys d H) as (_ & _ & F). eapply Forall_impl; [|exact F]. intros e He. destruct (slim_slots _ He) as (A & B & _). auto.
Qed.
Theorem reached_words m keys d : reached c s m keys d ->
  6400 * words d <= Z.of_nat (length (boundaries d)) * (115100 + 107700 * (s + 1)) + 112 * (s + 1) * elements d.
Proof.
  intros H. destruct (reached_good m keys d H) as (_ & _ & F). unfold boundaries. rewrite map_length. exact (total_words _ F).
Qed.
Theorem reached_sorted m keys d : reached c s m keys d -> StronglySorted lt (boundaries d).
Proof.
  intros H. destruct (reached_good m keys d H) as (_ & F & _). unfold boundaries. clear H. induction F as [|x t F IH G]; [constructor|]. cbn [map]. constructor; [exact IH|].
  rewrite Forall_map. eapply Forall_impl; [|exact G]. intros y Hy. unfold lt. rewrite ltb_key_lt. exact Hy.
Qed.
End T.

(** ** histories without splits *)
Section H.
Variable c : cfg.
Variable s : Z.
Hypothesis Hs : 1 <= s <= 46.
Hypothesis T : tables_ok c.
Hypothesis Hf : fits c s.
Hypothesis Hc : c_strict c = false.
Hypothesis tight : forall g, 56 <= g < 256 -> Z.shiftr (c_scal c grow_sep * (c_size c (g - 2) - 1)) scale_shift <= c_size c (g - 1).
Hypothesis ratio : forall g, 56 <= g < 256 -> 100 * c_size c g <= 112 * c_size c (g - 2).
Hypothesis dflt : c_size c 55 = 1077.
Notation good := (good c s).
Notation holds := (holds c s).

Lemma lawful_deletable m keys d ks k : asc (d_tree d) -> holds m keys d ks -> lawful c m keys d ks [Del k] -> deletable d k.
Proof.
  intros Ha (X & HP & (I1 & I2 & I3 & I4 & I5 & I6) & HW & HB & HE) [(H1 & H2 & H3) _] before a st after E Hle Haf.
  assert (Hna : forall x, In x after -> fst x <> k).
  { intros x Hx Ex. rewrite Forall_forall in Haf. specialize (Haf x Hx). cbv beta in Haf. rewrite Ex in Haf. unfold lt in Haf. rewrite ltb_key_lt, key_lt_irrefl in Haf. discriminate. }
  destruct (in_dec (list_eq_dec Z.eq_dec) k (boundaries d)) as [Hin|Hin].
  - assert (a = k).
    { unfold boundaries in Hin. rewrite E, map_app in Hin. apply in_app_or in Hin as [Hin|[Hin|Hin]]; [|exact Hin|].
      - exfalso. apply in_map_iff in Hin as (x & Ex & Hx). rewrite E in Ha.
        assert (L : key_lt (fst x) a = true).
        { clear -Ha Hx. unfold asc in Ha. induction before as [|y t IH]; [contradiction|]. inversion Ha as [|? ? A1 A2]; subst. destruct Hx as [->|Hx]; [|auto].
          rewrite Forall_app in A2. destruct A2 as [_ A2]. inversion A2; assumption. }
        rewrite Ex in L. destruct Hle as [->|Hle]; [rewrite key_lt_irrefl in L; discriminate|]. unfold lt in Hle. rewrite ltb_key_lt in Hle. rewrite (key_lt_asym _ _ L) in Hle. discriminate.
      - exfalso. apply in_map_iff in Hin as (x & Ex & Hx). apply (Hna x Hx Ex). }
    subst a. destruct (H2 Hin) as (A & a & sta & stk & b & stb & B & E2 & Hn & _).
    change (A ++ (a, sta) :: (k, stk) :: (b, stb) :: B) with (A ++ [(a, sta)] ++ (k, stk) :: (b, stb) :: B) in E2. rewrite app_assoc in E2.
    rewrite E in Ha, E2. destruct (asc_same _ _ _ _ _ _ _ Ha E2) as (-> & -> & ->). split.
    + left. split; [reflexivity|]. rewrite adj_iff in I6. destruct (I6 _ _ _ _ _ _ E) as [P _]. exact P.
    + intros before' p stp Eb _. apply app_inj_tail in Eb as [_ Eb]. inversion Eb; subst. exact Hn.
  - assert (Hne : a <> k). { intros ->. apply Hin. unfold boundaries. rewrite E, map_app. apply in_or_app. right. left. reflexivity. }
    assert (HX : In k X). { apply (Permutation_in _ HP) in H1. apply in_app_or in H1 as [H1|H1]; [exact H1|]. apply bkeys_iff in H1 as [_ H1]. contradiction. }
    unfold within in HW. rewrite Forall_forall in HW. pose proof (HW k HX) as (K1 & K2 & K3).
    destruct after as [|[b stb] after].
    { exfalso. rewrite E, last_app_cons in I4. unfold last_key in I4. cbn [last fst] in I4. subst a. destruct Hle as [Hle|Hle]; [congruence|]. unfold lt in Hle. rewrite ltb_key_lt in Hle.
      rewrite (key_lt_asym _ _ Hle) in K3. discriminate. }
    rewrite adj_iff in I5, I6. pose proof (I5 _ _ _ _ _ _ E) as (_ & _ & _ & _ & L & HR). destruct (I6 _ _ _ _ _ _ E) as (P & L' & EL & PL).
    rewrite (rep_list _ _ _ _ _ _ HR) in EL. injection EL as <-. split.
    + right. destruct (rep_count _ T _ _ _ _ _ HR) as (-> & _). apply Permutation_length in PL. rewrite map_length in PL.
      assert (Hk : In k (filter (inside a b) X)).
      { apply filter_In. split; [exact HX|]. unfold inside. inversion Haf as [|? ? Q1 Q2]; subst. unfold lt in Q1. rewrite ltb_key_lt in Q1. cbn [fst] in Q1. rewrite Q1.
        destruct Hle as [Hle|Hle]; [congruence|]. unfold lt in Hle. rewrite ltb_key_lt in Hle. rewrite (key_lt_asym _ _ Hle). reflexivity. }
      destruct (filter (inside a b) X); [contradiction|]. cbn [length] in PL. lia.
    + intros before' p stp _ [?|?]; congruence.
Qed.

Lemma run_ops_size m keys ops : loadable m keys -> forall d ks n, holds m keys d ks -> good d -> tot (d_tree d) + len (d_tree d) <= Z.of_nat (length ks) + 2 -> len (d_tree d) <= n ->
  lawful c m keys d ks ops -> forall d', run_ops c d ops = Ok d' ->
  good d' /\ tot (d_tree d') + len (d_tree d') <= Z.of_nat (length (remaining ks ops)) + 2 /\ len (d_tree d') <= n.
Proof.
  intros HL. induction ops as [|o ops IH]; intros d ks n HH G HN Hn HA d' E.
  - inversion E; subst. auto.
  - cbn [lawful] in HA. destruct HA as [H1 H2]. destruct (run_op_holds c s Hs T Hf Hc m keys d ks o HL HH) as (d1 & E1 & I1 & _). { cbn [lawful]. auto. }
    cbn [run_ops] in E. rewrite E1 in E. cbn [bind] in E. rewrite remaining_app. apply (IH d1 (remaining ks [o]) n I1); [| | |apply H2, E1|exact E].
    + destruct o as [k|k]; cbn [run_op] in E1; [apply (pc_use _ _ _ (insert_simple_size c s T tight d k G (proj2 (proj2 (proj2 H1)))) E1)|].
      apply (pc_use _ _ _ (delete_size c s T tight d k G (lawful_deletable m keys d ks k (proj1 (proj2 G)) HH ltac:(cbn [lawful]; auto))) E1).
    + destruct o as [k|k]; cbn [run_op] in E1.
      * destruct (pc_use _ _ _ (insert_simple_size c s T tight d k G (proj2 (proj2 (proj2 H1)))) E1) as (_ & Q & B). unfold boundaries in B. apply (f_equal (@length _)) in B. rewrite !map_length in B.
        cbn [remaining length]. unfold len in *. lia.
      * destruct (pc_use _ _ _ (delete_size c s T tight d k G (lawful_deletable m keys d ks k (proj1 (proj2 G)) HH ltac:(cbn [lawful]; auto))) E1) as (_ & Q & _).
        cbn [remaining]. destruct H1 as [H1 _]. pose proof (Permutation_length (remove_one_perm _ _ H1)) as PL. cbn [length] in PL. lia.
    + destruct o as [k|k]; cbn [run_op] in E1.
      * destruct (pc_use _ _ _ (insert_simple_size c s T tight d k G (proj2 (proj2 (proj2 H1)))) E1) as (_ & Q & B). unfold boundaries in B. apply (f_equal (@length _)) in B. rewrite !map_length in B. unfold len in *. lia.
      * destruct (pc_use _ _ _ (delete_size c s T tight d k G (lawful_deletable m keys d ks k (proj1 (proj2 G)) HH ltac:(cbn [lawful]; auto))) E1) as (_ & _ & Q). lia.
Qed.

Theorem history_space m keys ops d : loadable m keys -> lawful_history c s m keys ops -> history c s m keys ops = Ok d ->
  elements d <= Z.of_nat (length (remaining keys ops)) /\
  Z.of_nat (length (boundaries d)) <= Z.of_nat (length keys) / 1024 + 4 /\
  6400 * words d <= (Z.of_nat (length keys) / 1024 + 4) * (115100 + 107700 * (s + 1)) + 112 * (s + 1) * Z.of_nat (length (remaining keys ops)).
Proof.
  intros HL HA E. destruct (loaded_holds c s Hs T Hf m keys HL) as (d0 & E0 & H0 & L0). unfold history in E. rewrite E0 in E. cbn [bind] in E.
  destruct (pc_use _ _ _ (load_size c s T tight m keys) E0) as (G0 & N0 & B0).
  destruct (run_ops_size m keys ops HL d0 keys _ H0 G0 N0 B0 (HA d0 E0) d E) as (G & N & B).
  destruct (history_holds c s Hs T Hf Hc m keys ops HL HA) as (d0' & d1 & E0' & E1 & HH & _ & EL). unfold history in E1. rewrite E0 in E1. cbn [bind] in E1. rewrite E in E1. injection E1 as <-.
  assert (TN : tot (d_tree d) <= Z.of_nat (length (remaining keys ops))).
  { destruct (d_tree d) as [|e1 [|e2 t]] eqn:Et.
    - unfold tot. simpl. lia.
    - unfold last_st in EL. cbn [last] in EL. destruct e1 as [k st]. cbn [snd] in EL. rewrite tot_cons, EL. unfold blankst. rewrite (proj2 (blank_slim c s tight)). unfold tot. simpl. lia.
    - rewrite !len_cons in N. unfold len in N. lia. }
  split; [exact TN|]. split; [unfold boundaries; rewrite map_length; exact B|].
  destruct G as (_ & _ & F). pose proof (total_words c s T tight ratio dflt ltac:(lia) _ F) as W. unfold words.
  etransitivity; [exact W|]. assert (0 <= 115100 + 107700 * (s + 1)) by lia. nia.
Qed.
End H.

(** ** the default tables *)
Definition space_checks (c : cfg) : bool :=
  forallb (fun k => let g := Z.of_nat k in Z.shiftr (c_scal c grow_sep * (c_size c (g - 2) - 1)) scale_shift <=? c_size c (g - 1)) (seq 56 200) &&
  forallb (fun k => let g := Z.of_nat k in 100 * c_size c g <=? 112 * c_size c (g - 2)) (seq 56 200) && (c_size c 55 =? 1077).
Lemma space_lf95 : space_checks (setup lf95 0 false) = true.
Proof. vm_compute. reflexivity. Qed.
Lemma forallb_from f a n : forallb f (seq a n) = true -> forall g, Z.of_nat a <= g < Z.of_nat a + Z.of_nat n -> f (Z.to_nat g) = true.
Proof. intros H g Hg. rewrite forallb_forall in H. apply H. apply in_seq. lia. Qed.
Definition space_ok (c : cfg) : Prop :=
  (forall g, 56 <= g < 256 -> Z.shiftr (c_scal c grow_sep * (c_size c (g - 2) - 1)) scale_shift <= c_size c (g - 1)) /\
  (forall g, 56 <= g < 256 -> 100 * c_size c g <= 112 * c_size c (g - 2)) /\ c_size c 55 = 1077.
Lemma space_checks_ok c : space_checks c = true -> space_ok c.
Proof.
  unfold space_checks. rewrite !andb_true_iff. intros ((H1 & H2) & H3).
  pose proof (forallb_from _ _ _ H1) as K1. pose proof (forallb_from _ _ _ H2) as K2. cbv zeta beta in K1, K2.
  split; [|split].
  - intros g Hg. specialize (K1 g ltac:(lia)). rewrite Z2Nat.id in K1 by lia. lia.
  - intros g Hg. specialize (K2 g ltac:(lia)). rewrite Z2Nat.id in K2 by lia. lia.
  - lia.
Qed.
Theorem space_tables junk strict : space_ok (setup lf95 junk strict).
Proof. destruct (space_checks_ok _ space_lf95) as (A & B & C). split; [assumption|]. split; assumption. Qed.

(** ** blocks that can be shrunk *)
Section Shr.
Variable c : cfg.
Variable s : Z.
Hypothesis T : tables_ok c.
Hypothesis tight : forall g, 56 <= g < 256 -> Z.shiftr (c_scal c grow_sep * (c_size c (g - 2) - 1)) scale_shift <= c_size c (g - 1).
Let ok (e : key * store) : Prop := get_elem_count (snd e) = 0 \/ get_size_grade (snd e) = 55.
Lemma blank_ok k s' : ok (k, new_store c (c_size c grow_sep) s' grow_sep).
Proof. left. apply (new_store_status c s' (c_size c grow_sep) grow_sep). unfold grow_sep. lia. Qed.
Lemma chunk_ok s' grade left right mid : 0 <= grade < 256 -> Z.of_nat (length mid) < 2 ^ 20 ->
  pc (chunk_store c s' grade left right mid) (fun st => get_size_grade st = grade /\ get_elem_count st = Z.of_nat (length mid)).
Proof.
  intros Hg Hl. unfold chunk_store. apply pc_skip. intros [[[[shared ignore] isz] pim] total] _.
  eapply pc_seq; [apply map_res_len|]. intros r Hr. cbv beta in Hr. eapply pc_mono; [apply load_new; [exact Hg|lia]|].
  intros st (A & B & C & D). split; [exact C|lia].
Qed.
Lemma add_ok d k : Forall ok (d_tree d) -> Forall ok (d_tree (add_tree_key c d k)).
Proof. intros H. unfold add_tree_key. cbn [d_tree with_tree]. apply put_all; [exact H|apply blank_ok]. Qed.
Lemma load_tail_ok d left k : Forall ok (d_tree d) -> pc (load_tail c d left [k]) (fun d' => Forall ok (d_tree d')).
Proof.
  intros H. unfold load_tail. cbn [removelast length last]. pose proof (t_pos c T) as Hp.
  unfold lower_bound_grade. change (Z.of_nat 0) with 0. rewrite (alloc_grade_eq c 0 0 ltac:(lia) ltac:(intros; lia) ltac:(lia)). cbn [bind].
  eapply pc_seq; [apply chunk_ok; [lia|simpl; lia]|]. intros st [_ N]. unfold pc. apply add_ok. cbn [d_tree with_tree]. apply put_all; [exact H|]. left. exact N.
Qed.
Lemma load_chunks_ok fuel : forall d left rest, (length rest mod 1024 = 1)%nat -> Forall ok (d_tree d) -> pc (load_chunks fuel c d left rest) (fun d' => Forall ok (d_tree d')).
Proof.
  induction fuel as [|fuel IH]; intros d left rest Hr H; cbn [load_chunks]; [exact I|]. unfold target_size. destruct (Z.leb_spec 1024 (Z.of_nat (length rest))) as [Hl|Hl].
  - set (m := Z.to_nat (1024 - 1)). assert (Em : m = 1023%nat) by reflexivity. clearbody m.
    assert (Lm : length (firstn m rest) = 1023%nat) by (rewrite firstn_length; lia).
    eapply pc_seq; [apply chunk_ok; [unfold grow_sep; lia|lia]|]. intros st [Sg N]. apply IH.
    + rewrite skipn_length. replace (length rest) with ((length rest - S m) + 1 * 1024)%nat in Hr by lia. rewrite Nat.mod_add in Hr by lia. exact Hr.
    + cbn [d_tree with_tree]. apply put_all; [exact H|]. right. exact Sg.
  - rewrite Nat.mod_small in Hr by lia. destruct rest as [|k [|k2 rest]]; cbn [length] in Hr; try discriminate. apply load_tail_ok, H.
Qed.
Lemma load_keys_ok d keys : (length keys mod 1024 = 2)%nat -> Forall ok (d_tree d) -> pc (load_keys c d keys) (fun d' => Forall ok (d_tree d')).
Proof.
  intros Hk H. unfold load_keys. destruct keys as [|lk rest]; [exact I|]. apply load_chunks_ok; [|exact H]. cbn [length] in Hk.
  pose proof (Nat.div_mod (S (length rest)) 1024 ltac:(lia)) as D. rewrite Hk in D. replace (length rest) with (1 + (S (length rest) / 1024) * 1024)%nat by lia. rewrite Nat.mod_add by lia. reflexivity.
Qed.
Lemma stream_all_ok keys : forall x (n : nat), Forall ok (d_tree (fst x)) ->
  match sm_left (snd x) with None => n = 0%nat /\ sm_buf (snd x) = [] | Some _ => (length (sm_buf (snd x)) < 1024 /\ n mod 1024 = (1 + length (sm_buf (snd x))) mod 1024)%nat end ->
  pc (stream_all c x keys) (fun y => Forall ok (d_tree (fst y)) /\
    match sm_left (snd y) with None => True | Some _ => (length (sm_buf (snd y)) < 1024 /\ (n + length keys) mod 1024 = (1 + length (sm_buf (snd y))) mod 1024)%nat end).
Proof.
  induction keys as [|k keys IH]; intros [d sm] n H Hn; cbn [stream_all fst snd length] in *.
  - cbn [pc fst snd]. split; [exact H|]. rewrite Nat.add_0_r. destruct (sm_left sm); [exact Hn|exact I].
  - replace (n + S (length keys))%nat with (S n + length keys)%nat by lia. unfold stream_add. destruct (sm_left sm) as [lk|].
    + destruct Hn as [H1 H2]. unfold target_size. destruct (Z.ltb_spec (Z.of_nat (length (sm_buf sm))) (1024 - 1)) as [Hb|Hb].
      * cbn [bind]. apply IH; cbn [fst snd sm_left sm_buf]; [exact H|]. rewrite app_length. cbn [length]. split; [lia|].
        replace (S n) with (n + 1)%nat by lia. rewrite Nat.add_mod, H2, <- Nat.add_mod by lia. f_equal.
      * assert (Eb : length (sm_buf sm) = 1023%nat) by lia.
        apply (pc_seq _ _ (fun y => Forall ok (d_tree (fst y)) /\ sm_left (snd y) <> None /\ sm_buf (snd y) = [])).
        { eapply pc_seq; [apply chunk_ok; [unfold grow_sep; lia|lia]|]. intros st [Sg N]. cbn [pc fst snd sm_left sm_buf]. split; [|split; [discriminate|reflexivity]].
          cbn [d_tree with_tree]. apply put_all; [exact H|]. right. exact Sg. }
        intros [d2 sm2] (A & B & C). cbn [fst snd] in *. apply IH; cbn [fst snd]; [exact A|]. destruct (sm_left sm2); [|congruence]. rewrite C. cbn [length]. split; [lia|].
        replace (S n) with (n + 1)%nat by lia. rewrite Nat.add_mod, H2, Eb, <- Nat.add_mod by lia. reflexivity.
    + destruct Hn as [H1 H2]. cbn [bind]. apply IH; cbn [fst snd sm_left sm_buf]; [exact H|]. rewrite H1, H2. cbn [length]. split; [lia|reflexivity].
Qed.
Theorem load_shrinkable m keys d : (length keys mod 1024 = 2)%nat -> load c s m keys = Ok d -> shrinkable d.
Proof.
  intros Hk E. assert (P : pc (load c s m keys) (fun d => Forall ok (d_tree d))); [|exact (pc_use _ _ _ P E)]. assert (N : Forall ok (d_tree (mkdiva s []))) by constructor.
  destruct m as [n| |]; cbn [load].
  - unfold bulk_load_fixed. apply load_keys_ok; [exact Hk|]. apply add_ok, add_ok, N.
  - unfold bulk_load_var. eapply pc_seq; [apply load_keys_ok; [exact Hk|apply add_ok, N]|]. intros d' H. apply add_ok, H.
  - unfold bulk_load_stream. eapply pc_seq; [apply (stream_all_ok keys (mkdiva s [], mkstream None [] 0) 0%nat N); cbn [snd sm_left sm_buf]; auto|].
    intros [d' sm] [H K]. cbn [fst snd] in *. unfold stream_finish. destruct (sm_left sm) as [lk|]; [|exact I]. destruct K as [K1 K2]. cbn [Nat.add] in K2. rewrite Hk in K2.
    assert (El : length (sm_buf sm) = 1%nat).
    { destruct (Nat.eq_dec (length (sm_buf sm)) 1023) as [E3|E3]; [rewrite E3 in K2; discriminate|]. rewrite Nat.mod_small in K2 by lia. lia. }
    destruct (sm_buf sm) as [|k [|k2 b]]; cbn [length] in El; try lia. apply load_tail_ok, add_ok, add_ok, H.
Qed.
End Shr.

(** ** blocks after loading *)
Section Ld.
Variable c : cfg.
Variable s : Z.
Hypothesis T : tables_ok c.
Hypothesis tight : forall g, 56 <= g < 256 -> Z.shiftr (c_scal c grow_sep * (c_size c (g - 2) - 1)) scale_shift <= c_size c (g - 1).
Hypothesis ratio : forall g, 56 <= g < 256 -> 100 * c_size c g <= 112 * c_size c (g - 2).
Hypothesis dflt : c_size c 55 = 1077.
Hypothesis Hs : 0 <= s.
Let low (e : key * store) : Prop := get_size_grade (snd e) <= 55.
Lemma add_low d k : Forall low (d_tree d) -> Forall low (d_tree (add_tree_key c d k)).
Proof.
  intros H. unfold add_tree_key. cbn [d_tree with_tree]. apply put_all; [exact H|]. unfold low. cbn [snd].
  destruct (new_store_status c (d_size d) (c_size c grow_sep) grow_sep ltac:(unfold grow_sep; lia)) as (_ & _ & C & _). rewrite C. unfold grow_sep. lia.
Qed.
Lemma load_tail_low d left rest : Z.of_nat (length rest) < 1024 -> Forall low (d_tree d) -> pc (load_tail c d left rest) (fun d' => Forall low (d_tree d')).
Proof.
  intros Hl H. unfold load_tail. pose proof (removelast_len c tight rest) as Em. set (mid := removelast rest) in *. pose proof (t_chunk c T) as Hch.
  destruct (least_grade c (Z.of_nat (length mid))) as (g & Hg & Hg1 & Hg2).
  { pose proof (size_le c T tight grow_sep 249 ltac:(unfold grow_sep; lia) ltac:(lia)). lia. }
  unfold lower_bound_grade. rewrite (alloc_grade_eq c _ g Hg Hg2 Hg1). cbn [bind].
  assert (g <= 55). { apply Z.nlt_ge. intros X. specialize (Hg2 55 ltac:(lia)). change 55 with grow_sep in Hg2. lia. }
  eapply pc_seq; [apply (chunk_ok c tight); [lia|lia]|]. intros st [Sg N]. cbv beta in Sg, N. unfold pc.
  assert (P : Forall low (d_tree (with_tree d (put (d_tree d) left st)))). { cbn [d_tree with_tree]. apply put_all; [exact H|]. unfold low. cbn [snd]. lia. }
  destruct rest; [exact P|]. apply add_low, P.
Qed.
Lemma load_chunks_low fuel : forall d left rest, Forall low (d_tree d) -> pc (load_chunks fuel c d left rest) (fun d' => Forall low (d_tree d')).
Proof.
  induction fuel as [|fuel IH]; intros d left rest H; cbn [load_chunks]; [exact I|]. unfold target_size. destruct (Z.leb_spec 1024 (Z.of_nat (length rest))) as [Hl|Hl].
  - set (m := Z.to_nat (1024 - 1)). assert (Em : m = 1023%nat) by reflexivity. clearbody m.
    assert (Lm : length (firstn m rest) = 1023%nat) by (rewrite firstn_length; lia).
    eapply pc_seq; [apply (chunk_ok c tight); [unfold grow_sep; lia|lia]|]. intros st [Sg N]. apply IH.
    cbn [d_tree with_tree]. apply put_all; [exact H|]. unfold low. cbn [snd]. rewrite Sg. unfold grow_sep. lia.
  - apply load_tail_low; [exact Hl|exact H].
Qed.
Lemma load_keys_low d keys : Forall low (d_tree d) -> pc (load_keys c d keys) (fun d' => Forall low (d_tree d')).
Proof. intros H. unfold load_keys. destruct keys as [|lk rest]; [exact I|]. apply load_chunks_low, H. Qed.
Lemma stream_all_low keys : forall x, Forall low (d_tree (fst x)) -> Z.of_nat (length (sm_buf (snd x))) < 1024 ->
  pc (stream_all c x keys) (fun y => Forall low (d_tree (fst y)) /\ Z.of_nat (length (sm_buf (snd y))) < 1024).
Proof.
  induction keys as [|k keys IH]; intros [d sm] H Hn; cbn [stream_all fst snd] in *.
  - cbn [pc fst snd]. auto.
  - unfold stream_add. destruct (sm_left sm) as [lk|].
    + unfold target_size. destruct (Z.ltb_spec (Z.of_nat (length (sm_buf sm))) (1024 - 1)) as [Hb|Hb].
      * cbn [bind]. apply IH; cbn [fst snd sm_left sm_buf]; [exact H|]. rewrite app_length. cbn [length]. lia.
      * apply (pc_seq _ _ (fun y => Forall low (d_tree (fst y)) /\ Z.of_nat (length (sm_buf (snd y))) < 1024)).
        { eapply pc_seq; [apply (chunk_ok c tight); [unfold grow_sep; lia|lia]|]. intros st [Sg N]. cbn [pc fst snd sm_buf length]. split; [|lia].
          cbn [d_tree with_tree]. apply put_all; [exact H|]. unfold low. cbn [snd]. rewrite Sg. unfold grow_sep. lia. }
        intros y [A B]. apply IH; assumption.
    + cbn [bind]. apply IH; cbn [fst snd sm_left sm_buf]; [exact H|]. exact Hn.
Qed.
Lemma load_low m keys d : load c s m keys = Ok d -> Forall low (d_tree d).
Proof.
  intros E. assert (P : pc (load c s m keys) (fun d => Forall low (d_tree d))); [|exact (pc_use _ _ _ P E)]. assert (N : Forall low (d_tree (mkdiva s []))) by constructor.
  destruct m as [n| |]; cbn [load].
  - unfold bulk_load_fixed. apply load_keys_low. apply add_low, add_low, N.
  - unfold bulk_load_var. eapply pc_seq; [apply load_keys_low, add_low, N|]. intros d' H. apply add_low, H.
  - unfold bulk_load_stream. eapply pc_seq; [apply (stream_all_low keys (mkdiva s [], mkstream None [] 0)); [exact N|cbn [snd sm_buf length]; lia]|].
    intros [d' sm] [H K]. cbn [fst snd] in *. unfold stream_finish. destruct (sm_left sm) as [lk|]; [|exact I].
    pose proof (add_low _ (repeat 255 (sm_max sm)) (add_low d' (repeat 0 (sm_max sm)) H)) as H2.
    destruct (sm_buf sm) as [|b buf] eqn:Eb; [exact H2|]. apply load_tail_low; [exact K|exact H2].
Qed.
Theorem load_words m keys d : load c s m keys = Ok d ->
  Z.of_nat (length (boundaries d)) <= Z.of_nat (length keys) / 1024 + 4 /\
  words d <= (Z.of_nat (length keys) / 1024 + 4) * (1 + (1087 + 1077 * (s + 1)) / 64).
Proof.
  intros E. destruct (pc_use _ _ _ (load_size c s T tight m keys) E) as (G & _ & L). pose proof (load_low m keys d E) as W. destruct G as (G1 & _ & G3).
  set (w := 1 + (1087 + 1077 * (s + 1)) / 64). assert (Hw : 0 <= w) by (unfold w; assert (0 <= (1087 + 1077 * (s + 1)) / 64) by (apply Z.div_pos; lia); lia).
  assert (Lb : len (d_tree d) = Z.of_nat (length (boundaries d))) by (unfold len, boundaries; rewrite map_length; reflexivity). split; [lia|].
  assert (Q : words d <= len (d_tree d) * w).
  { unfold words, len. clear L Lb E G1. induction (d_tree d) as [|[k st] t IH]; cbn [map fold_right length]; [lia|].
    inversion G3 as [|? ? H1 H2]; subst. inversion W as [|? ? H3 H4]; subst. specialize (IH H2 H4).
    cbn [snd] in *. unfold low in H3. cbn [snd] in H3. destruct (slim_slots c s T tight ratio dflt st H1) as (_ & B & C).
    assert (D : slots c st <= 1077). { unfold slots. rewrite <- dflt. apply (size_le c T tight); [|lia]. pose proof (grade_rng st); lia. }
    assert (wc st <= w). { rewrite B. unfold w, ptr_word_count, target_size. assert ((1024 + slots c st * (s + 1) + 63) / 64 <= (1087 + 1077 * (s + 1)) / 64) by (apply Z.div_le_mono; nia). lia. }
    lia. }
  nia.
Qed.
End Ld.
