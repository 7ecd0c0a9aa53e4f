(** The three bulk loaders build the same blocks. *)
From Coq Require Import ZArith List Bool Lia Sorting.Sorted.
From Coq Require Import ZifyBool ZifyNat.
From Verif Require Import Base Util Store Bits Key KeyBits KeyOrder Diva Tree Filter Contents Bulk SpecFilter Hist.
Import ListNotations.
Open Scope Z_scope.

Lemma put_comm_lt t k1 v1 k2 v2 : key_lt k1 k2 = true -> put (put t k1 v1) k2 v2 = put (put t k2 v2) k1 v1.
Proof.
  intros L12. pose proof (key_lt_asym _ _ L12) as L21. pose proof (key_lt_neq _ _ L12) as E12.
  assert (E21 : key_eq k2 k1 = false) by (rewrite key_eq_sym; exact E12).
  induction t as [|[x w] t IH].
  - cbn [put]. rewrite E12, E21, L12, L21. reflexivity.
  - cbn [put]. destruct (key_eq x k1) eqn:X1.
    + apply key_eq_iff in X1. subst x. cbn [put]. rewrite E12, L12. cbn [put]. rewrite key_eq_refl. reflexivity.
    + destruct (key_eq x k2) eqn:X2.
      * apply key_eq_iff in X2. subst x. rewrite L21. cbn [put]. rewrite E12, L12, key_eq_refl, E21, L21. reflexivity.
      * destruct (key_lt x k1) eqn:L1.
        -- assert (L2 : key_lt x k2 = true) by (eapply key_lt_trans; eassumption). rewrite L2. cbn [put]. rewrite X1, X2, L1, L2, IH. reflexivity.
        -- cbn [put]. rewrite E12, L12, X2. destruct (key_lt x k2) eqn:L2; cbn [put]; rewrite ?X1, ?L1, ?E21, ?L21; reflexivity.
Qed.
Lemma put_comm t k1 v1 k2 v2 : k1 <> k2 -> put (put t k1 v1) k2 v2 = put (put t k2 v2) k1 v1.
Proof.
  intros Hn. destruct (key_lt_total k1 k2) as [H|[H|H]]; [apply put_comm_lt; exact H|contradiction|symmetry; apply put_comm_lt; exact H].
Qed.
Lemma put_twice t k v : put (put t k v) k v = put t k v.
Proof.
  induction t as [|[x w] t IH]; cbn [put]; [rewrite key_eq_refl; reflexivity|].
  destruct (key_eq x k) eqn:E; [cbn [put]; rewrite E; reflexivity|]. destruct (key_lt x k) eqn:L; cbn [put]; [rewrite E, L, IH; reflexivity|rewrite key_eq_refl; reflexivity].
Qed.
Lemma put_above z b t k v : key_lt z k = true -> put ((z, b) :: t) k v = (z, b) :: put t k v.
Proof. intros H. cbn [put]. rewrite (key_lt_neq _ _ H), H. reflexivity. Qed.

Section S.
Variables (c : cfg) (s : Z).
Notation blank := (blankst c s).
Definition onto (f : tree -> tree) (r : res diva) : res diva := let* d := r in Ok (mkdiva s (f (d_tree d))).

(** a function on trees that a load does not notice *)
Lemma tail_onto f t left rest : (forall st, f (put t left st) = put (f t) left st) ->
  (forall st, rest <> [] -> f (put (put t left st) (last rest left) blank) = put (f (put t left st)) (last rest left) blank) ->
  load_tail c (mkdiva s (f t)) left rest = onto f (load_tail c (mkdiva s t) left rest).
Proof.
  intros H1 H2. unfold load_tail, onto. destruct (lower_bound_grade c (Z.of_nat (length (removelast rest)))) as [g| |]; cbn [bind]; auto. cbn [d_size].
  destruct (chunk_store c s g left (last rest left) (removelast rest)) as [st| |]; cbn [bind]; auto. unfold with_tree, add_tree_key. cbn [d_size d_tree]. f_equal.
  destruct rest as [|r rest]; cbn [d_tree d_size with_tree]; f_equal; [symmetry; apply H1|]. fold blank. rewrite H2 by discriminate. rewrite H1. reflexivity.
Qed.
Lemma chunks_onto (f : tree -> tree) (P : key -> Prop) fuel : (forall t k st, P k -> f (put t k st) = put (f t) k st) ->
  forall t left rest, P left -> (forall k, In k (removelast rest) -> P k) -> (P (last rest left) \/ (length rest mod 1024 <> 0)%nat /\ forall t, f (put t (last rest left) blank) = put (f t) (last rest left) blank) ->
  load_chunks fuel c (mkdiva s (f t)) left rest = onto f (load_chunks fuel c (mkdiva s t) left rest).
Proof.
  intros Hf. induction fuel as [|fuel IH]; intros t left rest H1 H2 H3; [reflexivity|]. cbn [load_chunks]. destruct (target_size <=? Z.of_nat (length rest)) eqn:El.
  - cbn [d_size]. set (m := Z.to_nat (target_size - 1)). assert (Em : m = 1023%nat) by reflexivity. change (S m) with 1024%nat. clearbody m. subst m.
    assert (Hl : (1024 <= length rest)%nat) by (unfold target_size in El; lia).
    destruct (chunk_store c s grow_sep left (nth 1023 rest []) (firstn 1023 rest)) as [st| |]; cbn [bind]; [|reflexivity|reflexivity].
    unfold with_tree. cbn [d_size d_tree]. rewrite <- (Hf t left st H1).
    pose proof (split_nth rest 1023 [] ltac:(lia)) as Es. set (A := firstn 1023 rest) in *. set (k := nth 1023 rest []) in *. change (skipn (S 1023) rest) with (skipn 1024 rest) in Es. set (B := skipn 1024 rest) in *.
    assert (HA : length A = 1023%nat) by (unfold A; apply firstn_length_le; lia). clearbody A k B. subst rest. rewrite app_length in *. cbn [length] in *.
    assert (HB : last (A ++ k :: B) left = last B k) by (rewrite last_app by discriminate; destruct B; [reflexivity|]; rewrite (last_nonempty _ left k) by discriminate; reflexivity).
    rewrite HB in H3. apply IH.
    + destruct B as [|b B]; [|apply H2; rewrite removelast_app by discriminate; apply in_or_app; right; left; reflexivity].
      cbn [last] in H3. destruct H3 as [H3|[H3 _]]; [exact H3|]. exfalso. apply H3. rewrite HA. reflexivity.
    + intros x Hx. apply H2. rewrite removelast_app by discriminate. apply in_or_app. right. destruct B as [|b B]; [destruct Hx|]. right. exact Hx.
    + destruct H3 as [H3|[H3 H4]]; [left; exact H3|right]. split; [|exact H4]. intros H0. apply H3. rewrite HA. replace (1023 + S (length B))%nat with (length B + 1 * 1024)%nat by lia. rewrite Nat.mod_add by lia. exact H0.
  - apply tail_onto; [intros st; apply Hf; exact H1|]. intros st Hr. destruct H3 as [H3|[_ H3]]; [apply Hf; exact H3|apply H3].
Qed.

(** ** the streaming interface *)
Lemma stream_same z w (rest : list key) : forall fuel t (left : key) (buf : list key) mx, (length rest <= fuel)%nat -> (length buf <= 1023)%nat -> ((length buf + length rest) mod 1024 <> 0)%nat ->
  (forall k : key, In k (left :: removelast (buf ++ rest)) -> k <> repeat 0 z /\ k <> repeat 255 w) -> z = w -> Nat.max mx (max_len rest) = w ->
  (let* x := stream_all c (mkdiva s t, mkstream (Some left) buf mx) rest in stream_finish c x) =
  load_chunks (S fuel) c (mkdiva s (put (put t (repeat 0 z) blank) (repeat 255 w) blank)) left (buf ++ rest).
Proof.
  induction rest as [|k rest IH]; intros fuel t left buf mx Hfu Hb Hm Hk Hz Hw.
  - cbn [stream_all bind stream_finish sm_left sm_buf sm_max]. rewrite app_nil_r. cbn [max_len fold_right] in Hw. rewrite Nat.max_0_r in Hw. subst mx w.
    destruct buf as [|b buf]; [exfalso; apply Hm; reflexivity|].
    cbn [load_chunks]. match goal with |- context [if ?x then _ else _] => replace x with false by (symmetry; apply Z.leb_gt; unfold target_size; cbn [length] in *; lia) end. reflexivity.
  - cbn [stream_all stream_add sm_left sm_buf sm_max]. assert (Hw' : Nat.max (Nat.max mx (length k)) (max_len rest) = w) by (cbn [max_len fold_right] in Hw; unfold max_len; lia).
    destruct (Z.ltb_spec (Z.of_nat (length buf)) (target_size - 1)) as [Hl|Hl]; unfold target_size in Hl.
    + cbn [bind]. rewrite IH with (fuel := fuel); try assumption.
      * rewrite <- app_assoc. reflexivity.
      * cbn [length] in Hfu. lia.
      * rewrite app_length. cbn [length]. lia.
      * rewrite app_length. cbn [length] in *. replace (length buf + 1 + length rest)%nat with (length buf + S (length rest))%nat by lia. exact Hm.
      * rewrite <- app_assoc. exact Hk.
    + assert (Hb' : length buf = 1023%nat) by lia. cbn [d_size load_chunks]. match goal with |- context [if ?x then _ else _] => replace x with true by (symmetry; apply Z.leb_le; rewrite app_length; cbn [length]; unfold target_size; lia) end.
      replace (Z.to_nat (target_size - 1)) with (length buf) by (unfold target_size; lia). rewrite app_nth2, Nat.sub_diag by lia. cbn [nth].
      replace (firstn (length buf) (buf ++ k :: rest)) with buf by (rewrite firstn_app, Nat.sub_diag, firstn_all, firstn_O, app_nil_r; reflexivity).
      replace (skipn (S (length buf)) (buf ++ k :: rest)) with rest
        by (rewrite skipn_app, skipn_all2 by lia; replace (S (length buf) - length buf)%nat with 1%nat by lia; reflexivity).
      destruct (chunk_store c s grow_sep left k buf) as [st| |]; cbn [bind]; [|reflexivity|reflexivity]. unfold with_tree. cbn [d_size d_tree].
      destruct fuel as [|fuel]; [cbn [length] in Hfu; lia|].
      rewrite IH with (fuel := fuel); try assumption.
      * cbn [app]. destruct (Hk left (or_introl eq_refl)) as [K1 K2]. rewrite (put_comm t left st (repeat 0 z) blank K1). rewrite (put_comm (put t (repeat 0 z) blank) left st (repeat 255 w) blank K2). reflexivity.
      * cbn [length] in Hfu. lia.
      * cbn [length]. lia.
      * cbn [length] in *. rewrite Hb' in Hm. intros H0. apply Hm. replace (1023 + S (length rest))%nat with (length rest + 1 * 1024)%nat by lia. rewrite Nat.mod_add by lia. exact H0.
      * intros x Hx. apply Hk. rewrite removelast_app by discriminate. cbn [app] in Hx. destruct rest as [|r rest]; cbn [removelast] in Hx |- *.
        -- destruct Hx as [<-|[]]. exfalso. cbn [length] in Hm. rewrite Hb' in Hm. apply Hm. reflexivity.
        -- right. apply in_or_app. right. exact Hx.
Qed.

(** ** streamed keys *)
Lemma longest_cons k keys : longest (k :: keys) = Nat.max (length k) (longest keys).
Proof. reflexivity. Qed.
Lemma pre_zs m z : 0 <= z -> pre z (repeat 0 m) = pre z [].
Proof. intros H. exact (pre_app_zeros [] m z H). Qed.
Lemma streamed first rest : loadable Streaming (first :: rest) ->
  let all := first :: rest in let n := longest all in
  (length rest mod 1024 <> 0)%nat /\ (forall k, In k all -> kok k) /\ (0 < n)%nat /\
  (forall m k, In k all -> key_lt (repeat 0 m) k = true) /\
  (forall k, In k (first :: removelast rest) -> k <> repeat 255 n) /\
  load c s Streaming all = load_chunks (S (length rest)) c (mkdiva s (put (put [] (repeat 0 n) blank) (repeat 255 n) blank)) first rest.
Proof.
  intros HL. cbv zeta. destruct HL as [Hb _ Hn [Hso Hlo]]. cbn [hd] in Hlo.
  assert (Hm : (length rest mod 1024 <> 0)%nat).
  { cbn [length] in Hn. intros H0. apply Hn. replace (S (length rest)) with (length rest + 1)%nat by lia. rewrite Nat.add_mod, H0 by lia. reflexivity. }
  assert (Kall : forall k, In k (first :: rest) -> kok k) by (rewrite Forall_forall in Hb; exact Hb).
  assert (Kf : kok first) by (apply Kall; left; reflexivity).
  set (n := longest (first :: rest)) in *.
  assert (Pf : plt (repeat 0 n) first) by (apply padlt_plt; [apply kok_repeat; lia|exact Kf|exact Hlo]).
  assert (Pm : forall m k, In k (first :: rest) -> plt (repeat 0 m) k).
  { intros m k Hk. assert (P0 : plt (repeat 0 m) first).
    { destruct Pf as (z & Hz & P). exists z. split; [exact Hz|]. rewrite pre_zs in * by exact Hz. exact P. }
    destruct Hk as [<-|Hk]; [exact P0|]. inversion Hso as [|? ? _ Hfa]; subst. rewrite Forall_forall in Hfa.
    eapply plt_ple_trans; [exact P0|]. apply plt_ple. apply padlt_plt; auto. apply Kall. right. exact Hk. }
  assert (Hlow : forall m k, In k (first :: rest) -> key_lt (repeat 0 m) k = true).
  { intros m k Hk. apply plt_key_lt; [apply kok_repeat; lia|apply Kall; exact Hk|apply Pm; exact Hk]. }
  assert (Hlen : forall k, In k (first :: rest) -> (length k <= n)%nat) by (intros k Hk; unfold n; rewrite longest_max; apply max_len_spec; exact Hk).
  assert (Hpos : (0 < n)%nat).
  { destruct n; [|lia]. pose proof (Hlen first (or_introl eq_refl)) as H0. destruct first; [|cbn [length] in H0; lia]. pose proof (Hlow 0%nat [] (or_introl eq_refl)) as H1. cbn in H1. discriminate. }
  assert (Hhigh : forall k, In k (first :: removelast rest) -> k <> repeat 255 n).
  { intros k Hk. assert (Hr : rest <> []) by (destruct rest; [exfalso; apply Hm; reflexivity|discriminate]).
    assert (Hlast : In (last rest first) rest) by (apply last_in; exact Hr).
    assert (P : padlt k (last rest first)).
    { rewrite (app_removelast_last first Hr) in Hso. change (first :: removelast rest ++ [last rest first]) with ((first :: removelast rest) ++ [last rest first]) in Hso.
      apply ss_app in Hso as (_ & _ & Hr2). apply Hr2; [exact Hk|left; reflexivity]. }
    assert (Kk : kok k) by (apply Kall; destruct Hk as [Hk|Hk]; [left; exact Hk|right; rewrite (app_removelast_last first Hr); apply in_or_app; left; exact Hk]).
    apply padlt_plt in P; [|exact Kk|apply Kall; right; exact Hlast]. apply plt_key_lt in P; [|exact Kk|apply Kall; right; exact Hlast].
    intros ->. rewrite ffs_high in P; [discriminate|apply Kall; right; exact Hlast|apply Hlen; right; exact Hlast]. }
  split; [exact Hm|]. split; [exact Kall|]. split; [exact Hpos|]. split; [exact Hlow|]. split; [exact Hhigh|].
  cbn [load]. unfold bulk_load_stream. cbn [stream_all stream_add sm_left bind sm_buf].
  rewrite (stream_same n n rest (length rest) [] first [] (length first)); auto.
  - cbn [length]. lia.
  - intros k Hk. cbn [app] in Hk. split; [|apply Hhigh; exact Hk]. intros ->.
    assert (Hin : In (repeat 0 n) (first :: rest)).
    { destruct Hk as [Hk|Hk]; [left; exact Hk|right]. destruct rest as [|r rest0]; [destruct Hk|]. assert (Hr0 : r :: rest0 <> []) by discriminate. rewrite (app_removelast_last r Hr0). apply in_or_app. left. exact Hk. }
    specialize (Hlow n _ Hin). rewrite key_lt_irrefl in Hlow. discriminate.
  - unfold n. rewrite longest_max. reflexivity.
Qed.
Theorem stream_is_fixed len keys : loadable Streaming keys -> Forall (fun k => length k = len) keys -> load c s Streaming keys = load c s (FixedLength len) keys.
Proof.
  intros HL Hlen. destruct keys as [|first rest]; [destruct HL; congruence|]. destruct (streamed first rest HL) as (_ & _ & _ & _ & _ & E). rewrite E.
  replace (longest (first :: rest)) with len; [reflexivity|]. clear - Hlen. symmetry. rewrite longest_cons. inversion Hlen as [|? ? H1 H2]; subst.
  assert (H : (longest rest <= length first)%nat) by (clear Hlen; induction H2 as [|k l Hk _ IH]; [cbn; lia|rewrite longest_cons; lia]). lia.
Qed.
Theorem stream_is_strings keys : loadable Streaming keys ->
  onto (cons (repeat 0 8, blank)) (onto (@tl _) (load c s Streaming keys)) = load c s Strings keys /\
  (forall d, load c s Streaming keys = Ok d -> hd ([], blank) (d_tree d) = (repeat 0 (longest keys), blank)).
Proof.
  intros HL. destruct keys as [|first rest]; [destruct HL; congruence|]. destruct (streamed first rest HL) as (Hm & Kall & Hn & Hlow & Hhigh & E). rewrite E. clear E.
  set (n := longest (first :: rest)) in *. cbn [load]. unfold bulk_load_var, load_keys.
  assert (Hr : rest <> []) by (destruct rest; [exfalso; apply Hm; reflexivity|discriminate]).
  assert (Hin : forall k, In k (removelast rest) -> In k rest) by (intros k Hk; rewrite (app_removelast_last first Hr); apply in_or_app; left; exact Hk).
  assert (Hz : forall m t fuel, load_chunks fuel c (mkdiva s ((repeat 0 m, blank) :: t)) first rest = onto (cons (repeat 0 m, blank)) (load_chunks fuel c (mkdiva s t) first rest)).
  { intros m t fuel. apply (chunks_onto (cons (repeat 0 m, blank)) (fun k => key_lt (repeat 0 m) k = true)).
    - intros t0 k st Hk. symmetry. apply put_above. exact Hk.
    - apply Hlow. left. reflexivity.
    - intros k Hk. apply Hlow. right. apply Hin. exact Hk.
    - left. apply Hlow. right. apply last_in. exact Hr. }
  assert (Hf : forall t fuel, load_chunks fuel c (mkdiva s (put t (repeat 255 n) blank)) first rest = onto (fun t => put t (repeat 255 n) blank) (load_chunks fuel c (mkdiva s t) first rest)).
  { intros t fuel. apply (chunks_onto (fun t => put t (repeat 255 n) blank) (fun k => k <> repeat 255 n)).
    - intros t0 k st Hk. apply put_comm. exact Hk.
    - apply Hhigh. left. reflexivity.
    - intros k Hk. apply Hhigh. right. exact Hk.
    - right. split; [exact Hm|]. intros t0. destruct (list_eq_dec Z.eq_dec (last rest first) (repeat 255 n)) as [->|Hne]; [reflexivity|]. apply put_comm. exact Hne. }
  change (put [] (repeat 0 n) blank) with [(repeat 0 n, blank)]. rewrite Hf, Hz.
  change (add_tree_key c {| d_size := s; d_tree := [] |} (repeat 0 8)) with (mkdiva s [(repeat 0 8, blank)]). rewrite Hz.
  change (@nil (list Z * store)) with (@nil (key * store)).
  generalize (load_chunks (S (length rest)) c (mkdiva s (@nil (key * store))) first rest). intros R. unfold onto. destruct R as [d| |]; cbn [bind d_tree tl]; [|split; [reflexivity|discriminate]..].
  assert (Hnf : forall m, key_lt (repeat 0 m) (repeat 255 n) = true).
  { intros m. destruct n; [lia|]. destruct m; reflexivity. }
  unfold add_tree_key, with_tree. cbn [bind d_tree d_size]. fold blank.
  assert (En : max_len (first :: rest) = n) by (unfold n; rewrite longest_max; reflexivity). rewrite En.
  rewrite !put_above by apply Hnf. split; [reflexivity|]. intros d' E. injection E as <-. reflexivity.
Qed.
Theorem stream_same_as_iterators keys : loadable Streaming keys ->
  (forall len, Forall (fun k => length k = len) keys -> load c s Streaming keys = load c s (FixedLength len) keys) /\
  (forall d, load c s Streaming keys = Ok d -> exists st t,
     d = mkdiva s ((repeat 0 (longest keys), st) :: t) /\ load c s Strings keys = Ok (mkdiva s ((repeat 0 8, st) :: t))).
Proof.
  intros HL. split; [intros len; apply stream_is_fixed; exact HL|]. intros d E. destruct (stream_is_strings keys HL) as [H1 H2]. specialize (H2 d E).
  rewrite <- H1. unfold onto. rewrite E. cbn [bind d_tree]. destruct (d_tree d) as [|e t] eqn:Et.
  - exfalso. cbn [hd] in H2. destruct keys as [|k keys]; [destruct HL; congruence|]. destruct (streamed k keys HL) as (_ & _ & Hn & _ & _). clear E. apply (f_equal fst) in H2. cbn [fst] in H2. destruct (longest (k :: keys)); [lia|discriminate].
  - cbn [hd] in H2. subst e. exists blank, t. split; [|reflexivity].
    assert (Hs : d_size d = s).
    { destruct keys as [|k keys]; [destruct HL; congruence|]. destruct (streamed k keys HL) as (_ & _ & _ & _ & _ & E'). rewrite E' in E.
      clear - E. revert E. generalize (S (length keys)). intros fuel. generalize (put (put [] (repeat 0 (longest (k :: keys))) blank) (repeat 255 (longest (k :: keys))) blank). generalize k. revert keys. induction fuel as [|fuel IH]; intros keys k0 t E; [discriminate|]. cbn [load_chunks] in E.
      destruct (target_size <=? Z.of_nat (length keys)).
      - destruct (chunk_store _ _ _ _ _ _); try discriminate. cbn [bind] in E. eapply IH. exact E.
      - unfold load_tail in E. destruct (lower_bound_grade _ _); try discriminate. cbn [bind] in E. destruct (chunk_store _ _ _ _ _ _); try discriminate. cbn [bind] in E. destruct keys; injection E as <-; reflexivity. }
    destruct d as [ds td]. cbn [d_size d_tree] in *. subst. reflexivity.
Qed.
End S.
