(** A leaf full of keys that agree in their first 65535 bytes is not split. *)
From Coq Require Import ZArith List Bool Lia.
From Verif Require Import Base Key KeyOrder SpecIndex Wormhole WhRun.
Import ListNotations.
Open Scope Z_scope.

Section Long.
Variable p : key.
Hypothesis Hp : (U16MAX <= length p)%nat.
Hypothesis Hb : nth_error p 0 = Some 7.
Definition lkey (i : nat) : key := p ++ [Z.of_nat i].
Definition litems (n : nat) : list (key * Z) := map (fun i => (lkey i, 0)) (seq 0 n).
Definition lstate (n : nat) : wormhole Z := mkwh [mkleaf [] (litems n) n] (hset (fun _ => None) [] (Some (meta_init [] None 0 FO))) 0.

Lemma lt_prefix (a b q : key) : key_lt (q ++ a) (q ++ b) = key_lt a b.
Proof. induction q as [|x q IH]; [reflexivity|]. cbn [app]. rewrite key_lt_cons, Z.compare_refl. exact IH. Qed.
Lemma lkey_lt i j : key_lt (lkey i) (lkey j) = Nat.ltb i j.
Proof.
  unfold lkey. rewrite lt_prefix, key_lt_cons. change (key_lt [] []) with false. destruct (Nat.ltb_spec i j), (Z.compare_spec (Z.of_nat i) (Z.of_nat j)); try lia; reflexivity.
Qed.
Lemma lkey_eq i j : lkey i = lkey j -> i = j.
Proof. unfold lkey. intros H. apply app_inv_head in H. injection H as H. lia. Qed.
Lemma lcp_prefix (a b q : key) : (length q <= lcp (q ++ a) (q ++ b))%nat.
Proof. induction q as [|x q IH]; [cbn; lia|]. cbn [app lcp length]. rewrite Z.eqb_refl. lia. Qed.
Lemma find_none l k : (forall x, In x l -> fst x <> k) -> find_pos (V := Z) l k = None.
Proof.
  induction l as [|x l IH]; intros H; [reflexivity|]. cbn [find_pos]. destruct (key_eq (fst x) k) eqn:E; [apply key_eq_iff in E; destruct (H x (or_introl eq_refl) E)|].
  rewrite IH; [reflexivity|]. intros y Hy. apply H. right. exact Hy.
Qed.
Lemma litems_len n : length (litems n) = n.
Proof. unfold litems. rewrite map_length, seq_length. reflexivity. Qed.
Lemma litems_S n : litems (S n) = litems n ++ [(lkey n, 0)].
Proof. unfold litems. rewrite seq_S, map_app. reflexivity. Qed.
Lemma litems_nth n i : (i < n)%nat -> nth_error (litems n) i = Some (lkey i, 0).
Proof.
  intros H. unfold litems. rewrite (map_nth_error (fun i => (lkey i, 0)) i (seq 0 n) (d := i)); [reflexivity|].
  rewrite (nth_error_nth' _ 0%nat) by (rewrite seq_length; exact H). rewrite seq_nth by exact H. reflexivity.
Qed.
Lemma litems_none n : find_pos (litems n) (lkey n) = None.
Proof. apply find_none. intros x Hx E. unfold litems in Hx. apply in_map_iff in Hx as (i & <- & Hi). apply in_seq in Hi. cbn [fst] in E. apply lkey_eq in E. lia. Qed.
Lemma ljump fp n i : jump (w_hmap (lstate n)) fp (w_maxplen (lstate n)) (lkey i) = Ok [].
Proof.
  unfold jump, meta_lcp. cbn [w_maxplen lstate w_hmap]. cbn [Nat.min Nat.add search1 Nat.leb bind firstn hset]. 
  change (hset (fun _ : key => None) [] (Some (meta_init [] None 0 FO)) []) with (Some (meta_init [] None 0 FO)). cbn [bind].
  unfold meta_down. assert (E : nth_error (lkey i) 0 = Some 7) by (unfold lkey; destruct p; [discriminate|exact Hb]). rewrite E. reflexivity.
Qed.
Lemma lput fp n : (n < KPN)%nat -> wh_put fp (lstate n) (lkey n) 0 = Ok (lstate (S n), true).
Proof.
  intros Hn. unfold wh_put. rewrite ljump. cbn [bind w_leaves lstate locate l_anchor]. change (key_eq [] []) with true. cbn match. cbn [l_kvs]. rewrite litems_none, litems_len.
  rewrite (proj2 (Nat.ltb_lt _ _) Hn). cbn [app]. unfold lstate. rewrite litems_S. unfold leaf_insert. cbn [l_kvs l_anchor l_sorted]. rewrite litems_len, Nat.eqb_refl.
  destruct n as [|m]; [reflexivity|]. rewrite litems_nth by lia. cbn [fst]. rewrite lkey_lt. rewrite (proj2 (Nat.ltb_lt _ _)) by lia. reflexivity.
Qed.
Lemma search_end l k : (forall x, In x l -> key_lt k (fst x) = false) -> forall fuel lo hi, (lo <= hi)%nat -> (hi <= length l)%nat -> (hi - lo < fuel)%nat -> search_ss (V := Z) fuel l k lo hi = Ok hi.
Proof.
  intros H. induction fuel as [|fuel IH]; intros lo hi H1 H2 H3; [lia|]. cbn [search_ss]. destruct (Nat.ltb_spec lo hi) as [Hlt|Hge]; [|f_equal; lia].
  assert (Hm : (lo <= (lo + hi) / 2 < hi)%nat) by (split; [apply Nat.div_le_lower_bound; lia|apply Nat.div_lt_upper_bound; lia]).
  destruct (nth_error l ((lo + hi) / 2)) as [x|] eqn:E; [|apply nth_error_None in E; lia]. rewrite (H x) by (eapply nth_error_In; exact E). apply IH; lia.
Qed.
Lemma lfull fp : exists w, wh_put fp (lstate KPN) (lkey KPN) 0 = Ok (w, false).
Proof.
  unfold wh_put. rewrite ljump. cbn [bind w_leaves lstate locate l_anchor]. change (key_eq [] []) with true. cbn match. cbn [l_kvs]. rewrite litems_none, litems_len, Nat.ltb_irrefl.
  assert (E : forall n b, (1 <= n)%nat -> split_leaf (mkleaf [] (litems n) n) b (lkey n) 0 = Ok None).
  { intros n b Hn. unfold split_leaf, sync_sorted. cbn [l_kvs l_sorted]. rewrite litems_len, Nat.eqb_refl. cbn [l_kvs l_sorted].
    rewrite search_end; [|intros x Hx; unfold litems in Hx; apply in_map_iff in Hx as (i & <- & Hi); apply in_seq in Hi; cbn [fst]; rewrite lkey_lt; apply Nat.ltb_ge; lia|lia|rewrite litems_len; lia|lia].
    cbn [bind]. rewrite (firstn_all2 (litems n)), (skipn_all2 (litems n)) by (rewrite litems_len; lia). rewrite <- litems_S. unfold cut_search1. rewrite litems_len.
    rewrite (litems_nth (S n) 0) by lia. replace (S n - 1)%nat with n by lia. rewrite (litems_nth (S n) n) by lia. cbn [fst].
    rewrite (proj2 (Nat.ltb_lt _ _)); [reflexivity|]. unfold lkey. pose proof (lcp_prefix [Z.of_nat 0] [Z.of_nat n] p). clear -H Hp. lia. }
  rewrite E by (unfold KPN; lia). cbn [bind]. eexists. reflexivity.
Qed.
Definition lcalls (a n : nat) : list ((key -> bool) * call Z) := map (fun i => (fun _ => false, Bind (lkey i) 0)) (seq a n).
Lemma lcalls_run n : forall a, (a + n = KPN)%nat -> exists w, wh_calls (lstate a) (lcalls a (S n)) = Ok (w, repeat (Stored true) n ++ [Stored false]).
Proof.
  induction n as [|n IH]; intros a Ha.
  - destruct (lfull (fun _ => false)) as (w & E). exists w. replace a with KPN by lia. cbn [lcalls seq map wh_calls wh_call]. rewrite E. reflexivity.
  - destruct (IH (S a) ltac:(lia)) as (w & E). exists w. change (lcalls a (S (S n))) with ((fun _ : key => false, Bind (lkey a) 0) :: lcalls (S a) (S n)). cbn [wh_calls wh_call].
    rewrite lput by lia. cbn [bind]. rewrite E. reflexivity.
Qed.
End Long.
