(** The integer index answers orderly sequences of calls as a finite map ordered by
    key, as long as two of its leaves are not merged. *)
From Coq Require Import ZArith List Bool Lia Arith Sorted.
From Verif Require Import Base Key KeyOrder Store Diva Spec SpecFilter Hist SpecIndex SpecInt Wormhole WhKey WhMeta WhLeaf WhIndex WhRun WhClaims WhInt WhIntRun WhIntProofs.
Import ListNotations.
Open Scope Z_scope.

Section Serve.
Context {V : Type}.
Lemma int_moves_ok m : forall mv (w : wormhole V) it o, winv w -> small w -> rel m w -> cur w it o ->
  exists w' ps, int_moves w it mv = Ok (w', ps) /\ same w w' /\ moved m o mv ps /\ forall q v, In (Some (q, v)) ps -> settled w' q.
Proof.
  induction mv as [|b mv IH]; intros w it o H Hs R C; cbn [int_moves]; rewrite (look_ok w it o H C); cbn [bind].
  - eexists _, _. split; [reflexivity|]. split; [apply same_refl; exact H|]. split; [constructor|]. intros q v [E|[]]. subst o. apply (pos_settled w it (q, v) H C).
  - rewrite skip1_int_eq, skip1_rev_int_eq by assumption. destruct o as [[k v]|].
    + pose proof (pos_settled w it (k, v) H C) as Sk. cbn [fst] in Sk. destruct b.
      * destruct (skip1_ok w it (k, v) H C) as (w1 & it1 & E1 & S1 & F1). rewrite E1. cbn [bind fst] in *.
        destruct (first_lowest m w1 _ (fun q => lt k q) it1 (rel_same _ _ _ R S1) (fun q => lt_klt k q) F1) as (o & C1 & L1).
        destruct (IH w1 it1 o (proj1 S1) (small_same _ _ Hs S1) (rel_same _ _ _ R S1) C1) as (w2 & ps & E2 & S2 & M2 & T2). rewrite E2. cbn [bind].
        eexists _, _. split; [reflexivity|]. split; [eapply same_trans; eassumption|]. split; [econstructor; eassumption|].
        intros q u [E|Hq]; [|eapply T2; exact Hq]. injection E as <- <-. apply S2. apply S1. exact Sk.
      * destruct (skip1_rev_ok w it (k, v) H C) as (w1 & it1 & E1 & S1 & F1). rewrite E1. cbn [bind fst] in *.
        destruct (last_highest m w1 _ (fun q => lt q k) it1 (rel_same _ _ _ R S1) (fun q => lt_klt q k) F1) as (o & C1 & L1).
        destruct (IH w1 it1 o (proj1 S1) (small_same _ _ Hs S1) (rel_same _ _ _ R S1) C1) as (w2 & ps & E2 & S2 & M2 & T2). rewrite E2. cbn [bind].
        eexists _, _. split; [reflexivity|]. split; [eapply same_trans; eassumption|]. split; [econstructor; eassumption|].
        intros q u [E|Hq]; [|eapply T2; exact Hq]. injection E as <- <-. apply S2. apply S1. exact Sk.
    + cbn [cur] in C. subst it. assert ((if b then wh_iter_skip1 w None else wh_iter_skip1_rev w None) = Ok (w, None)) as -> by (destruct b; reflexivity). cbn [bind].
      destruct (IH w None None H Hs R eq_refl) as (w2 & ps & E2 & S2 & M2 & T2). rewrite E2. cbn [bind]. eexists _, _. split; [reflexivity|]. split; [exact S2|].
      split; [constructor; exact M2|]. intros q u [E|Hq]; [discriminate|eapply T2; exact Hq].
Qed.

Lemma moved_in (m : kmap V) o mv ps : moved m o mv ps -> match o with Some (k, v) => m k = Some v | None => True end -> forall q u, In (Some (q, u)) ps -> m q <> None.
Proof.
  intros M. induction M as [o|b mv ps M IH|k v o mv ps L M IH|k v o mv ps L M IH]; intros Ho q u Hq.
  - destruct Hq as [->|[]]. congruence.
  - destruct Hq as [E|Hq]; [discriminate|]. eapply IH; [exact I|exact Hq].
  - destruct Hq as [E|Hq]; [injection E as <- <-; congruence|]. eapply IH; [|exact Hq]. destruct o as [[a b]|]; [apply L|exact I].
  - destruct Hq as [E|Hq]; [injection E as <- <-; congruence|]. eapply IH; [|exact Hq]. destruct o as [[a b]|]; [apply L|exact I].
Qed.
(** what is in view is held and settled *)
Definition inview (m : kmap V) (F : key -> Prop) (w : wormhole V) : Prop := forall q, F q -> m q <> None /\ settled w q.
Lemma first_ok m F (w : wormhole V) k : rel m w -> inview m F w -> m k = None \/ F k -> (forall u, ~ holds w (k, u)) \/ settled w k.
Proof.
  intros R I [N|Fk]; [left|right; apply I; exact Fk]. intros u Hu. apply R in Hu. congruence.
Qed.
Lemma single (w : wormhole V) w' : same w w' -> length (w_leaves w) = 1%nat -> length (w_leaves w') = 1%nat.
Proof. intros (_ & _ & _ & E & _) H. congruence. Qed.

(** [again] stays false, or no key is erased, or there is one leaf *)
Definition safe (again : bool) (m : kmap V) (cs : list (call V)) (w : wormhole V) : Prop :=
  again = false \/ growing cs \/ length (w_leaves w) = 1%nat /\ always (few 32) m cs.
Lemma safe_next again m cs (w : wormhole V) c : safe again m (c :: cs) w -> again = false \/ growing cs \/ length (w_leaves w) = 1%nat.
Proof. intros [S|[S|[S _]]]; [auto| |auto]. right. left. intros k Hk. apply (S k). right. exact Hk. Qed.

Lemma int_calls_ok again : forall cs m F (w : wormhole V), winv w -> small w -> rel m w -> inview m F w -> (forall fp c, In (fp, c) cs -> call_short c) ->
  orderly m F (map snd cs) -> safe again m (map snd cs) w -> exists w' rs, int_calls again w cs = Ok (w', rs) /\ serves m (map snd cs) rs.
Proof.
  induction cs as [|[fp c] cs IH]; intros m F w H Hs R I Hc O Sa; cbn [int_calls map snd] in *.
  - eexists _, _. split; [reflexivity|constructor].
  - pose proof (Hc fp c (or_introl eq_refl)) as Hk. assert (forall fp c, In (fp, c) cs -> call_short c) as Hc' by (intros f d Hd; apply (Hc f d); right; exact Hd).
    destruct c as [k v|k|k mv]; cbn [int_call call_short orderly] in *.
    + destruct O as [O1 O2]. destruct (put_int_ok w fp k v H Hs Hk (first_ok m F w k R I O1)) as (w1 & E1 & H1 & Hs1 & P1 & T1 & L1). rewrite E1. cbn [bind].
      set (m' := fun q => if key_eq q k then Some v else m q).
      assert (bound m m' k v) as Bm.
      { split; [unfold m'; rewrite key_eq_refl; reflexivity|]. intros q N. unfold m'. rewrite key_eq_dec. destruct (key_dec q k); [contradiction|reflexivity]. }
      assert (rel m' w1) as R1.
      { intros q u. rewrite P1. unfold m'. rewrite key_eq_dec. cbn [fst]. destruct (key_dec q k) as [->|N].
        - split; [intros E; injection E as ->; auto|]. intros [E|[_ E]]; [injection E as ->; reflexivity|congruence].
        - rewrite (R q u). split; [intros G; right; auto|]. intros [E|[G _]]; [congruence|exact G]. }
      destruct (IH m' F w1 H1 Hs1 R1) as (w2 & rs & E2 & S2); [|exact Hc'|apply O2; exact Bm| |].
      { intros q Fq. destruct (I q Fq) as [I1 I2]. split.
        - unfold m'. rewrite key_eq_dec. destruct (key_dec q k); [discriminate|exact I1].
        - apply T1; [exact I2|]. intros ->. apply (rel_none _ _ _ R) in I1. exact I1. }
      { destruct Sa as [Sa|[Sa|[Sa1 [_ Sa2]]]]; [left; exact Sa|right; left; intros q Hq; apply (Sa q); right; exact Hq|]. right. right.
        specialize (Sa2 m' Bm). split; [|exact Sa2]. assert (few 32 m') as (ks & K1 & K2) by (destruct cs as [|[? ?] ?]; apply Sa2).
        apply (L1 ks Sa1); [|exact K1]. intros [q u] Hq. apply K2. apply R1 in Hq. cbn [fst]. congruence. }
      rewrite E2. cbn [bind]. eexists _, _. split; [reflexivity|]. econstructor; [exact Bm|exact S2].
    + destruct O as [O1 O2]. destruct (del_int_ok again w fp k H Hs Hk (first_ok m F w k R I O1)) as (w1 & b & E1 & H1 & Hs1 & P1 & B1 & T1 & L1).
      { intros ->. destruct Sa as [Sa|[Sa|[Sa _]]]; [discriminate|exfalso; apply (Sa k); left; reflexivity|exact Sa]. }
      rewrite E1. cbn [bind]. set (m' := fun q => if key_eq q k then None else m q).
      assert (erased m m' k) as Bm.
      { split; [unfold m'; rewrite key_eq_refl; reflexivity|]. intros q N. unfold m'. rewrite key_eq_dec. destruct (key_dec q k); [contradiction|reflexivity]. }
      destruct (IH m' (fun q => F q /\ lt q k) w1 H1 Hs1) as (w2 & rs & E2 & S2); [| |exact Hc'|apply O2; exact Bm| |].
      { intros q u. rewrite P1. unfold m'. rewrite key_eq_dec. cbn [fst]. destruct (key_dec q k) as [->|N].
        - split; [discriminate|]. intros [_ E]. congruence.
        - rewrite (R q u). tauto. }
      { intros q [Fq Lq]. apply lt_klt in Lq. destruct (I q Fq) as [I1 I2]. split; [|apply T1; assumption]. unfold m'. rewrite key_eq_dec.
        destruct (key_dec q k) as [->|]; [exfalso; exact (klt_irrefl _ Lq)|exact I1]. }
      { destruct Sa as [Sa|[Sa|[Sa1 [_ Sa2]]]]; [left; exact Sa|right; left; intros q Hq; apply (Sa q); right; exact Hq|]. right. right. split; [apply L1; exact Sa1|apply Sa2; exact Bm]. }
      rewrite E2. cbn [bind]. eexists _, _. split; [reflexivity|]. econstructor; [exact Bm|rewrite B1; symmetry; apply (rel_none _ _ _ R)|exact S2].
    + rewrite seek_int_eq by assumption. destruct (seek_ok w fp k H (proj1 Hk)) as (w1 & it & E1 & S1 & F1). rewrite E1. cbn [bind].
      destruct (first_lowest m w1 _ (fun q => le k q) it (rel_same _ _ _ R S1) (fun q => le_kle k q) F1) as (o & C1 & L1).
      destruct (int_moves_ok m mv w1 it o (proj1 S1) (small_same _ _ Hs S1) (rel_same _ _ _ R S1) C1) as (w2 & ps & E2 & S2 & M2 & T2). rewrite E2. cbn [bind].
      pose proof (same_trans _ _ _ S1 S2) as S12.
      destruct (IH m (fun q => F q \/ exists v, In (Some (q, v)) ps) w2 (proj1 S12) (small_same _ _ Hs S12) (rel_same _ _ _ R S12)) as (w3 & rs & E3 & S3); [|exact Hc'|eapply O; eassumption| |].
      { intros q [Fq|[u Hq]]; [destruct (I q Fq) as [I1 I2]; split; [exact I1|apply S12; exact I2]|]. split; [|eapply T2; exact Hq]. eapply moved_in; [exact M2| |exact Hq].
        destruct o as [[a b]|]; [apply L1|exact Logic.I]. }
      { destruct Sa as [Sa|[Sa|[Sa1 [_ Sa2]]]]; [left; exact Sa|right; left; intros q Hq; apply (Sa q); right; exact Hq|]. right. right. split; [eapply single; eassumption|exact Sa2]. }
      rewrite E3. cbn [bind]. eexists _, _. split; [reflexivity|]. econstructor; eassumption.
Qed.
End Serve.

Theorem int_serves {V} again (cs : list ((key -> bool) * call V)) : (forall fp c, In (fp, c) cs -> call_short c) -> orderly nothing unseen (map snd cs) ->
  again = false \/ growing (map snd cs) \/ always (few 32) nothing (map snd cs) ->
  exists w rs, int_calls again wh_create cs = Ok (w, rs) /\ serves nothing (map snd cs) rs.
Proof.
  intros Hc O Sa. eapply int_calls_ok; [apply create_inv| | | |exact Hc|exact O|].
  - intros x (l & [<-|[]] & []).
  - intros k v. split; [discriminate|]. intros (l & [<-|[]] & []).
  - intros q [].
  - destruct Sa as [Sa|[Sa|Sa]]; [left; exact Sa|right; left; exact Sa|right; right; split; [reflexivity|exact Sa]].
Qed.
Theorem int_is_tree again (cs : list ((key -> bool) * call store)) : (forall fp c, In (fp, c) cs -> call_short c) -> orderly nothing unseen (map snd cs) ->
  again = false \/ growing (map snd cs) \/ always (few 32) nothing (map snd cs) ->
  exists w, int_calls again wh_create cs = Ok (w, tree_calls [] (map snd cs)).
Proof.
  intros Hc O Sa. destruct (int_serves again cs Hc O Sa) as (w & rs & E & S). exists w. rewrite E. do 2 f_equal. eapply serves_ext; [|exact S|apply (tree_serves _ nothing [])]; [reflexivity|].
  split; [constructor|]. intros k v. split; [discriminate|intros []].
Qed.

(** ** deciding whether calls are orderly, by means of the sorted list *)
Fixpoint orderlyb (t : tree) (seen : list key) (cs : list (call store)) : bool :=
  match cs with
  | [] => true
  | Bind k v :: cs' => (negb (existsb (fun x => key_eq (fst x) k) t) || existsb (key_eq k) seen) && orderlyb (put t k v) seen cs'
  | Erase k :: cs' => (negb (existsb (fun x => key_eq (fst x) k) t) || existsb (key_eq k) seen) && orderlyb (del t k) (filter (fun q => key_lt q k) seen) cs'
  | Walk k moves :: cs' => orderlyb t (flat_map (fun o => match o with Some x => [fst x] | None => [] end) (tree_moves (seek t k) moves) ++ seen) cs'
  end.
Lemma relt_bound m m' t k v : relt m t -> bound m m' k v -> relt m' (put t k v).
Proof.
  intros R [B1 B2]. destruct (put_in t k v (proj1 R)) as [P1 P2]. split; [exact P1|]. intros q u. rewrite P2. cbn [fst]. destruct (key_dec q k) as [->|N].
  - rewrite B1. split; [intros E; injection E as ->; auto|]. intros [E|[_ E]]; [injection E as ->; reflexivity|congruence].
  - rewrite (B2 q N), (proj2 R q u). split; [intros G; right; auto|]. intros [E|[G _]]; [congruence|exact G].
Qed.
Lemma relt_erased m m' t k : relt m t -> erased m m' k -> relt m' (del t k).
Proof.
  intros R [B1 B2]. destruct (del_in t k (proj1 R)) as [P1 P2]. split; [exact P1|]. intros q u. rewrite P2. cbn [fst]. destruct (key_dec q k) as [->|N].
  - rewrite B1. split; [discriminate|]. intros [_ E]. congruence.
  - rewrite (B2 q N), (proj2 R q u). tauto.
Qed.
Lemma orderlyb_first m (F : key -> Prop) t seen k : relt m t -> (forall q, In q seen -> F q) -> negb (existsb (fun x => key_eq (fst x) k) t) || existsb (key_eq k) seen = true -> m k = None \/ F k.
Proof.
  intros R Hs E. apply orb_true_iff in E. destruct E as [E|E].
  - left. destruct (m k) as [v|] eqn:Em; [|reflexivity]. exfalso. apply (proj2 R) in Em. apply negb_true_iff in E. apply not_true_iff_false in E. apply E.
    apply existsb_exists. exists (k, v). split; [exact Em|apply key_eq_refl].
  - right. apply existsb_exists in E. destruct E as (q & Hq & E). apply key_eq_iff in E. subst q. apply Hs. exact Hq.
Qed.
Lemma orderlyb_ok : forall cs m (F : key -> Prop) t seen, relt m t -> (forall q, In q seen -> F q) -> orderlyb t seen cs = true -> orderly m F cs.
Proof.
  induction cs as [|c cs IH]; intros m F t seen R Hs E; [exact I|]. destruct c as [k v|k|k mv]; cbn [orderly orderlyb] in *.
  - apply andb_true_iff in E. destruct E as [E1 E2]. split; [eapply orderlyb_first; eassumption|]. intros m' B. eapply IH; [eapply relt_bound; eassumption|exact Hs|exact E2].
  - apply andb_true_iff in E. destruct E as [E1 E2]. split; [eapply orderlyb_first; eassumption|]. intros m' B. eapply IH; [eapply relt_erased; eassumption| |exact E2].
    intros q Hq. apply filter_In in Hq. destruct Hq as [Hq L]. split; [apply Hs; exact Hq|apply lt_klt; exact L].
  - intros o ps L M. destruct (tree_seek_ok m t k R) as (o' & Z & L'). assert (o = o') as <- by (eapply lowest_ext; [|exact L|exact L']; reflexivity).
    pose proof (tree_moves_ok m t R mv _ _ Z) as M'. assert (ps = tree_moves (seek t k) mv) as -> by (eapply moved_ext; [|exact M|exact M']; reflexivity).
    eapply IH; [exact R| |exact E]. intros q Hq. apply in_app_or in Hq. destruct Hq as [Hq|Hq]; [right|left; apply Hs; exact Hq].
    apply in_flat_map in Hq. destruct Hq as ([[q' u]|] & Ho & Hq); [|destruct Hq]. destruct Hq as [<-|[]]. exists u. exact Ho.
Qed.
Lemma orderlyb_start cs : orderlyb [] [] cs = true -> orderly nothing unseen cs.
Proof.
  intros E. apply (orderlyb_ok cs nothing unseen [] []); [|intros q []|exact E]. split; [constructor|]. intros k v. split; [discriminate|intros []].
Qed.
Fixpoint fewb (n : nat) (t : tree) (cs : list (call store)) : bool :=
  Nat.leb (length t) n &&
  match cs with
  | [] => true
  | Bind k v :: cs' => fewb n (put t k v) cs'
  | Erase k :: cs' => fewb n (del t k) cs'
  | Walk _ _ :: cs' => fewb n t cs'
  end.
Lemma fewb_ok n : forall cs m t, relt m t -> fewb n t cs = true -> always (few n) m cs.
Proof.
  induction cs as [|c cs IH]; intros m t R E; cbn [always fewb] in *; apply andb_true_iff in E; destruct E as [E1 E2]; apply Nat.leb_le in E1.
  all: assert (few n m) as Fm.
  1,3: exists (map fst t); split; [rewrite map_length; exact E1|]; intros q N; destruct (m q) as [v|] eqn:Em; [|congruence]; apply (proj2 R) in Em; apply (in_map fst) in Em; exact Em.
  - split; [exact Fm|exact I].
  - split; [exact Fm|]. destruct c as [k v|k|k mv].
    + intros m' B. eapply IH; [eapply relt_bound; eassumption|exact E2].
    + intros m' B. eapply IH; [eapply relt_erased; eassumption|exact E2].
    + eapply IH; eassumption.
Qed.
Lemma fewb_start n cs : fewb n [] cs = true -> always (few n) nothing cs.
Proof.
  intros E. apply (fewb_ok n cs nothing []); [|exact E]. split; [constructor|]. intros k v. split; [discriminate|intros []].
Qed.
Definition shortb (c : call store) : bool :=
  match c with Bind k _ | Erase k | Walk k _ => forallb (fun b => (0 <=? b) && (b <? 256)) k && Nat.leb (length k) 8 end.
Lemma shortb_ok cs : forallb shortb (map snd cs) = true -> forall (fp : key -> bool) c, In (fp, c) cs -> call_short c.
Proof.
  intros E fp c Hin. rewrite forallb_forall in E. specialize (E c (in_map snd _ _ Hin)). unfold shortb in E.
  destruct c as [k v|k|k mv]; cbn [call_short]; apply andb_true_iff in E; destruct E as [E1 E2]; (split; [|apply Nat.leb_le; exact E2]); apply Forall_forall; intros b Hb;
    rewrite forallb_forall in E1; specialize (E1 b Hb); apply andb_true_iff in E1; destruct E1 as [E1 E3]; apply Z.leb_le in E1; apply Z.ltb_lt in E3; lia.
Qed.
