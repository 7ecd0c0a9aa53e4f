(** Proofs of the statements of Properties.v about deletions. *)
From Coq Require Import ZArith List Bool Lia Sorting.Sorted Permutation.
From Coq Require Import ZifyBool ZifyNat.
From Verif Require Import Base Util Store Tables Key Diva Bits Spec StoreRep KeyBits KeyOrder Tree Filter Contents Bulk SpecFilter SpecBlock Hist DelHist DelRun Claims.
Import ListNotations.
Open Scope Z_scope.

Section F.
Variable junk : Z.
Notation c := (machine junk).
Variable s : Z.
Hypothesis Hs : 1 <= s <= 46.
Let T := machine_ok junk.
Let Hf : fits c s := machine_fits junk s ltac:(lia).

Let Hc : c_strict c = false := eq_refl.

Lemma history_suited i m keys ops d l r : loadable m keys -> lawful_history c s m keys ops -> history c s m keys ops = Ok d -> suited i m l r -> int_ok i d l r.
Proof.
  intros HL HA E HSu Ei. destruct (history_holds c s Hs T Hf Hc m keys ops HL HA) as (d0 & d' & E0 & E' & _ & B & _). rewrite E in E'. injection E' as <-.
  destruct (suited_ok junk s Hs i m keys [] d0 l r HL (insertable_nil junk s m keys)) as (S1 & S2 & S3).
  - unfold build. rewrite E0. reflexivity.
  - exact HSu.
  - exact Ei.
  - split; [exact S1|]. split; [exact S2|]. eapply incl_Forall; [|exact S3]. change (incl (boundaries d) (boundaries d0)). rewrite B. apply left_incl.
Qed.
Theorem history_found m keys ops : loadable m keys -> lawful_history c s m keys ops ->
  exists d, history c s m keys ops = Ok d /\
    forall k, In k (remaining keys ops) -> point_query c d k = Ok true /\
      forall int_opt l r, bytes l -> bytes r -> suited int_opt m l r -> le l k -> le k r -> range_query int_opt c d l r = Ok true.
Proof.
  intros HL HA. destruct (history_holds c s Hs T Hf Hc m keys ops HL HA) as (d0 & d & E0 & E & HH & _). exists d. split; [exact E|].
  destruct (holds_inner c s m keys d _ HH) as [HI _]. pose proof (inv_valid _ _ _ _ _ _ HI) as HV. intros k Hk.
  destruct (holds_cov c s Hs m keys d _ k HL HH Hk) as [K1 K2]. split.
  - apply (cov_point c s Hs); assumption.
  - intros i l r Bl Br HSu L1 L2. apply (cov_range c s Hs i d l r k); auto; [eapply history_suited; eassumption|apply le_iff; exact L1|apply le_iff; exact L2].
Qed.
Theorem history_explained m keys ops d a b : loadable m keys -> lawful_history c s m keys ops ->
  history c s m keys ops = Ok d -> neighbours d a b ->
  exists q : nat, 512 <= top q b - top q a + 1 <= 1024 /\
    let n := (q + Z.to_nat s - 1)%nat in
    let inner := in_blocks_of d keys (remaining keys ops) in
    (forall k, bytes k -> lt a k -> lt k b -> exists ans, point_query c d k = Ok ans /\
       (ans = true <-> exists k', In k' inner /\ le a k' /\ lt k' b /\ top n k' = top n k)) /\
    (forall l r, bytes l -> bytes r -> lt a l -> le l r -> lt r b -> exists ans, range_query false c d l r = Ok ans /\
       (ans = true <-> exists k', In k' inner /\ le a k' /\ lt k' b /\ top n l <= top n k' <= top n r)).
Proof.
  intros HL HA E Hn. destruct (history_holds c s Hs T Hf Hc m keys ops HL HA) as (d0 & d' & E0 & E' & HH & _).
  rewrite E in E'. injection E' as <-. destruct (holds_inner c s m keys d _ HH) as [HI HK].
  exact (inv_explained c s Hs _ _ _ d a b HI HK Hn).
Qed.
Theorem history_boundaries m keys ops d0 d : loadable m keys -> lawful_history c s m keys ops -> load c s m keys = Ok d0 -> history c s m keys ops = Ok d ->
  boundaries d = left_bounds (boundaries d0) ops.
Proof.
  intros HL HA E0 E. destruct (history_holds c s Hs T Hf Hc m keys ops HL HA) as (d1 & d2 & E1 & E2 & _ & B & _). rewrite E0 in E1. rewrite E in E2. injection E1 as <-. injection E2 as <-. exact B.
Qed.
Theorem history_net m keys ops ops' d d' : loadable m keys -> lawful_history c s m keys ops -> lawful_history c s m keys ops' ->
  Permutation (inserted ops ++ deleted ops') (inserted ops' ++ deleted ops) ->
  history c s m keys ops = Ok d -> history c s m keys ops' = Ok d' -> boundaries d = boundaries d' ->
  (forall k, bytes k -> point_query c d k = point_query c d' k) /\
  (forall i l r, bytes l -> bytes r -> le l r -> suited i m l r -> range_query i c d l r = range_query i c d' l r).
Proof.
  intros HL HA HA' HP E E' EB. destruct (history_answers c s Hs T Hf Hc m keys ops ops' d d' HL HA HA' HP E E' EB) as [H1 H2]. split; [exact H1|].
  intros i l r Bl Br L HSu. apply H2; auto. apply (history_suited i m keys ops d l r HL HA E HSu).
Qed.
Theorem merge_keeps m keys ops d k : loadable m keys -> lawful_history c s m keys ops -> history c s m keys ops = Ok d -> mergeable d k ->
  exists d', delete c d k = Ok d' /\
    (exists before after, boundaries d = before ++ k :: after /\ boundaries d' = before ++ after) /\
    forall k', In k' (in_blocks_of d keys (remaining keys ops)) \/ In k' (boundaries d') -> point_query c d' k' = Ok true /\
      forall int_opt l r, bytes l -> bytes r -> suited int_opt m l r -> le l k' -> le k' r -> range_query int_opt c d' l r = Ok true.
Proof.
  intros HL HA E HM. destruct (history_holds c s Hs T Hf Hc m keys ops HL HA) as (d0 & d1 & E0 & E' & HH & B & _). rewrite E in E'. injection E' as <-.
  destruct (merge_holds c s Hs T Hf Hc m keys d _ k HH HM) as (d' & ED & HB & HI & HW). exists d'. split; [exact ED|]. split; [exact HB|].
  pose proof (inv_valid _ _ _ _ _ _ HI) as HV. intros k' Hk.
  assert (Hsub : incl (boundaries d') (boundaries d)).
  { destruct HB as (be & af & -> & ->). intros x Hx. apply in_app_or in Hx as [Hx|Hx]; apply in_or_app; [left|right; right]; exact Hx. }
  assert (K : kok k' /\ covt (gcov c s) (d_tree d') k').
  { destruct Hk as [Hk|Hk].
    - unfold within in HW. rewrite Forall_forall in HW. destruct (HW k' Hk) as (K1 & K2 & K3). split; [exact K1|]. eapply inv_stored; [exact Hs|exact HI|exact K1|]. auto.
    - assert (K : kok k').
      { destruct HH as (X & _ & _ & _ & HB2 & _). destruct (HB2 k' (Hsub _ Hk)) as [H|[->| ->]].
        - pose proof (ld_bytes _ _ HL) as F. rewrite Forall_forall in F. apply F. exact H.
        - destruct m; cbn [low_end]; apply kok_repeat; lia.
        - destruct m; cbn [high_end]; apply kok_repeat; lia. }
      split; [exact K|]. eapply inv_stored; [exact Hs|exact HI|exact K|]. auto. }
  destruct K as [K1 K2]. split.
  - apply (cov_point c s Hs); assumption.
  - intros i l r Bl Br HSu L1 L2. apply (cov_range c s Hs i d' l r k'); auto; [|apply le_iff; exact L1|apply le_iff; exact L2].
    intros Ei. destruct (history_suited i m keys ops d l r HL HA E HSu Ei) as (S1 & S2 & S3). split; [exact S1|]. split; [exact S2|]. eapply incl_Forall; [exact Hsub|exact S3].
Qed.
End F.

(** ** A check that a history is lawful, for the examples *)
Definition emptyb (r : res Z) : bool := match r with Ok 0 => true | _ => false end.
Fixpoint uncrammedb (c : cfg) (s : Z) (t : tree) (k : key) : bool :=
  match t with
  | (a, st) :: (((b, st') :: _) as rest) =>
      (if negb (key_lt k a) && key_lt k b then
         match segment c s a b with
         | Ok (shared, ignore, isz, first, total) =>
             match delete_block c s st total with Ok st1 => emptyb (get_slot c s st1 (slots c st1 - 1)) | _ => true end
         | _ => true
         end
       else true) && uncrammedb c s rest k
  | _ => true
  end.
Lemma uncrammedb_ok c d k : tables_ok c -> uncrammedb c (d_size d) (d_tree d) k = true -> uncrammed c d k.
Proof.
  intros T H before a st b st' after sh ig isz first total st1 E L1 L2 Hseg Hd. rewrite le_iff in L1. rewrite lt_iff in L2. rewrite E in H. clear E.
  induction before as [|[x w] before IH]; cbn [app uncrammedb] in H.
  - apply andb_true_iff in H as [H _]. rewrite L1, L2 in H. cbn [negb andb] in H. rewrite Hseg, Hd in H.
    intros (i & q & scalar & Hi & _ & Hfull & _). destruct (get_slot c (d_size d) st1 (slots c st1 - 1)) as [v| |] eqn:E; try discriminate.
    apply (Hfull (slots c st1 - 1)); [lia|]. rewrite E. destruct v; [reflexivity|discriminate|discriminate].
  - apply IH. destruct (before ++ (a, st) :: (b, st') :: after) as [|[y v] rest] eqn:E; [destruct before; discriminate|]. apply andb_true_iff in H as [_ H]. exact H.
Qed.
Fixpoint mergeableb (t : tree) (k : key) : bool :=
  match t with
  | (a, sta) :: (((x, stk) :: (b, stb) :: _) as rest) =>
      same_key x k && (get_elem_count sta + get_elem_count stk <? 2 ^ 20) &&
        (klen a <? 2 ^ 28) && (klen k <? 2 ^ 28) && (klen b <? 2 ^ 28) || mergeableb rest k
  | _ => false
  end.
Lemma mergeableb_ok d k : mergeableb (d_tree d) k = true -> mergeable d k.
Proof.
  unfold mergeable. generalize (d_tree d). intros t. induction t as [|[a sta] t IH]; intros H; [discriminate|]. destruct t as [|[x stk] [|[b stb] B]]; try discriminate.
  cbn [mergeableb] in H. apply orb_true_iff in H as [H|H].
  - repeat (apply andb_true_iff in H as [H ?]). apply same_key_iff in H. subst x. exists [], a, sta, stk, b, stb, B. unfold klen in *. repeat split; try lia.
  - destruct (IH H) as (A & a1 & s1 & s2 & b1 & s3 & B1 & E & HR). exists ((a, sta) :: A), a1, s1, s2, b1, s3, B1. split; [cbn [app]; rewrite <- E; reflexivity|exact HR].
Qed.
Definition bytesb (k : key) : bool := forallb (fun x => (0 <=? x) && (x <? 256)) k.
Fixpoint lawfulb (c : cfg) (m : loader) (keys : list key) (d : diva) (ks : list key) (ops : list op) : bool :=
  match ops with
  | [] => true
  | o :: rest =>
      match o with
      | Ins k => bytesb k && negb (key_lt k (low_end m keys)) && key_lt k (high_end m keys) && forallb (fun e => get_elem_count (snd e) + 1 <? 2 ^ 20) (d_tree d)
      | Del k => existsb (same_key k) ks && (if existsb (same_key k) (boundaries d) then mergeableb (d_tree d) k else uncrammedb c (d_size d) (d_tree d) k)
      end &&
      match run_op c d o with Ok d' => lawfulb c m keys d' (remaining ks [o]) rest | _ => true end
  end.
Lemma lawfulb_ok c m keys ops : tables_ok c -> forall d ks, lawfulb c m keys d ks ops = true -> lawful c m keys d ks ops.
Proof.
  intros T. induction ops as [|o ops IH]; intros d ks H; [exact I|]. cbn [lawfulb lawful] in *. apply andb_true_iff in H as [H1 H2]. split.
  - destruct o as [k|k]; repeat (apply andb_true_iff in H1 as [H1 ?]).
    + split; [apply Forall_forall; unfold bytesb in H1; rewrite forallb_forall in H1; intros x Hx; specialize (H1 x Hx); lia|].
      split; [apply le_iff; apply negb_true_iff; assumption|]. split; [apply lt_iff; assumption|].
      apply Forall_forall. match goal with X : forallb _ _ = true |- _ => rewrite forallb_forall in X; intros e He; specialize (X e He); cbv beta in X; lia end.
    + split; [apply existsb_same; assumption|]. destruct (existsb (same_key k) (boundaries d)) eqn:Eb.
      * split; [intros _; apply mergeableb_ok; assumption|]. intros Hn. exfalso. apply Hn. apply existsb_same. exact Eb.
      * split; [|intros _; apply uncrammedb_ok; assumption]. intros Hin. apply existsb_same in Hin. congruence.
  - intros d' E. rewrite E in H2. apply IH. exact H2.
Qed.
Definition lawful_historyb (c : cfg) (s : Z) (m : loader) (keys : list key) (ops : list op) : bool :=
  match load c s m keys with Ok d => lawfulb c m keys d keys ops | _ => true end.
Lemma lawful_historyb_ok c s m keys ops : tables_ok c -> lawful_historyb c s m keys ops = true -> lawful_history c s m keys ops.
Proof. intros T H d E. unfold lawful_historyb in H. rewrite E in H. apply lawfulb_ok; assumption. Qed.
Fixpoint permb (l l' : list key) : bool :=
  match l with [] => match l' with [] => true | _ => false end | x :: r => existsb (same_key x) l' && permb r (remove_one x l') end.
Lemma perm_ok l : forall l', permb l l' = true -> Permutation l l'.
Proof.
  induction l as [|x l IH]; intros l' H; cbn [permb] in H; [destruct l'; [reflexivity|discriminate]|]. apply andb_true_iff in H as [H1 H2].
  apply existsb_same in H1. apply remove_one_perm in H1. etransitivity; [apply perm_skip; apply IH; exact H2|]. symmetry. exact H1.
Qed.
