(** The index answers every sequence of calls as a finite map ordered by key, and
    as the sorted list of the model of diva.hpp. *)
From Coq Require Import ZArith List Bool Lia Arith Sorted.
From Verif Require Import Base Key KeyOrder Store Diva Spec SpecFilter Hist SpecIndex Wormhole WhKey WhMeta WhLeaf WhIndex WhRun.
Import ListNotations.
Open Scope Z_scope.

Lemma lt_klt a b : lt a b <-> klt a b. Proof. apply lt_iff. Qed.
Lemma le_kle a b : le a b <-> kle a b. Proof. apply le_iff. Qed.
Lemma usable_ok k : usable k -> key_ok k.
Proof.
  intros [H1 H2]. split; [exact H1|]. assert (Z.of_nat PBUF = 65520) as E by (unfold PBUF, U16MAX; rewrite !Nat2Z.inj_sub by (apply Nat.leb_le; vm_compute; reflexivity); rewrite Nat2Z.inj_pow; reflexivity). lia.
Qed.

Section Serve.
Context {V : Type}.
Definition rel (m : kmap V) (w : wormhole V) : Prop := forall k v, m k = Some v <-> holds w (k, v).
Definition cur (w : wormhole V) (it : wh_iter) (o : option (key * V)) : Prop := match o with Some x => pos w it x | None => it = None end.

Lemma rel_none m w k : rel m w -> (m k <> None <-> exists v, holds w (k, v)).
Proof.
  intros R. split.
  - intros N. destruct (m k) as [v|] eqn:E; [|congruence]. exists v. apply R. exact E.
  - intros [v Hv]. apply R in Hv. congruence.
Qed.
Lemma rel_same m w w' : rel m w -> same w w' -> rel m w'.
Proof. intros R (_ & S2 & _) k v. rewrite S2. apply R. Qed.
Lemma first_lowest m w (U P : key -> Prop) it : rel m w -> (forall q, P q <-> U q) -> first_in w U it -> exists o, cur w it o /\ lowest m P o.
Proof.
  intros R HP F. destruct it as [p|].
  - destruct F as (x & Hp & Ux & Hmin). exists (Some x). split; [exact Hp|]. destruct x as [k v]. cbn [lowest fst] in *. split; [apply R; eapply pos_holds; exact Hp|].
    split; [apply HP; exact Ux|]. intros q Pq N. apply (rel_none _ _ _ R) in N. destruct N as [v' N]. apply le_kle. apply (Hmin (q, v') N). apply HP. exact Pq.
  - exists None. split; [reflexivity|]. intros q Pq. destruct (m q) as [v|] eqn:E; [|reflexivity]. exfalso. apply R in E. apply (F _ E). apply HP. exact Pq.
Qed.
Lemma last_highest m w (U P : key -> Prop) it : rel m w -> (forall q, P q <-> U q) -> last_in w U it -> exists o, cur w it o /\ highest m P o.
Proof.
  intros R HP F. destruct it as [p|].
  - destruct F as (x & Hp & Ux & Hmin). exists (Some x). split; [exact Hp|]. destruct x as [k v]. cbn [highest fst] in *. split; [apply R; eapply pos_holds; exact Hp|].
    split; [apply HP; exact Ux|]. intros q Pq N. apply (rel_none _ _ _ R) in N. destruct N as [v' N]. apply le_kle. apply (Hmin (q, v') N). apply HP. exact Pq.
  - exists None. split; [reflexivity|]. intros q Pq. destruct (m q) as [v|] eqn:E; [|reflexivity]. exfalso. apply R in E. apply (F _ E). apply HP. exact Pq.
Qed.

Lemma look_ok w it o : winv w -> cur w it o -> wh_look w it = Ok o.
Proof.
  intros H C. unfold wh_look. destruct o as [x|].
  - rewrite (peek_ok w it x H C). destruct C as (l & i & _ & _ & -> & _). reflexivity.
  - rewrite C. reflexivity.
Qed.
Lemma moves_ok m : forall mv w it o, winv w -> rel m w -> cur w it o -> exists w' ps, wh_moves w it mv = Ok (w', ps) /\ same w w' /\ moved m o mv ps.
Proof.
  induction mv as [|b mv IH]; intros w it o H R C; cbn [wh_moves]; rewrite (look_ok w it o H C); cbn [bind].
  - eexists _, _. split; [reflexivity|]. split; [apply same_refl; exact H|constructor].
  - destruct o as [[k v]|].
    + destruct b.
      * destruct (skip1_ok w it (k, v) H C) as (w1 & it1 & E1 & S1 & F1). rewrite E1. cbn [bind fst] in *.
        destruct (first_lowest m w1 _ (fun q => lt k q) it1 (rel_same _ _ _ R S1) (fun q => lt_klt k q) F1) as (o & C1 & L1).
        destruct (IH w1 it1 o (proj1 S1) (rel_same _ _ _ R S1) C1) as (w2 & ps & E2 & S2 & M2). rewrite E2. cbn [bind].
        eexists _, _. split; [reflexivity|]. split; [eapply same_trans; eassumption|]. econstructor; eassumption.
      * destruct (skip1_rev_ok w it (k, v) H C) as (w1 & it1 & E1 & S1 & F1). rewrite E1. cbn [bind fst] in *.
        destruct (last_highest m w1 _ (fun q => lt q k) it1 (rel_same _ _ _ R S1) (fun q => lt_klt q k) F1) as (o & C1 & L1).
        destruct (IH w1 it1 o (proj1 S1) (rel_same _ _ _ R S1) C1) as (w2 & ps & E2 & S2 & M2). rewrite E2. cbn [bind].
        eexists _, _. split; [reflexivity|]. split; [eapply same_trans; eassumption|]. econstructor; eassumption.
    + cbn [cur] in C. subst it. assert ((if b then wh_iter_skip1 w None else wh_iter_skip1_rev w None) = Ok (w, None)) as -> by (destruct b; reflexivity). cbn [bind].
      destruct (IH w None None H R eq_refl) as (w2 & ps & E2 & S2 & M2). rewrite E2. cbn [bind]. eexists _, _. split; [reflexivity|]. split; [exact S2|]. constructor. exact M2.
Qed.

Lemma calls_ok : forall cs m w, winv w -> rel m w -> (forall fp c, In (fp, c) cs -> call_ok c) ->
  exists w' rs, wh_calls w cs = Ok (w', rs) /\ serves m (map snd cs) rs.
Proof.
  induction cs as [|[fp c] cs IH]; intros m w H R Hc; cbn [wh_calls map snd].
  - eexists _, _. split; [reflexivity|constructor].
  - pose proof (Hc fp c (or_introl eq_refl)) as Hk. assert (forall fp c, In (fp, c) cs -> call_ok c) as Hc' by (intros f d Hd; apply (Hc f d); right; exact Hd).
    destruct c as [k v|k|k mv]; cbn [wh_call]; apply usable_ok in Hk.
    + destruct (put_ok w fp k v H Hk) as (w1 & E1 & H1 & P1). rewrite E1. cbn [bind].
      destruct (IH (fun q => if key_eq q k then Some v else m q) w1 H1) as (w2 & rs & E2 & S2); [|exact Hc'|].
      { intros q u. rewrite P1. rewrite key_eq_dec. cbn [fst]. destruct (key_dec q k) as [->|N].
        - split; [intros E; injection E as ->; auto|]. intros [E|[_ E]]; [injection E as ->; reflexivity|congruence].
        - rewrite (R q u). split; [intros G; right; auto|]. intros [E|[G _]]; [congruence|exact G]. }
      rewrite E2. cbn [bind]. eexists _, _. split; [reflexivity|]. econstructor; [|exact S2]. split; [rewrite key_eq_refl; reflexivity|].
      intros q N. rewrite key_eq_dec. destruct (key_dec q k); [contradiction|reflexivity].
    + destruct (del_ok w fp k H (proj1 Hk)) as (w1 & b & E1 & H1 & P1 & B1). rewrite E1. cbn [bind].
      destruct (IH (fun q => if key_eq q k then None else m q) w1 H1) as (w2 & rs & E2 & S2); [|exact Hc'|].
      { intros q u. rewrite P1. rewrite key_eq_dec. cbn [fst]. destruct (key_dec q k) as [->|N].
        - split; [discriminate|]. intros [_ E]. congruence.
        - rewrite (R q u). tauto. }
      rewrite E2. cbn [bind]. eexists _, _. split; [reflexivity|]. econstructor; [|rewrite B1; symmetry; apply (rel_none _ _ _ R)|exact S2]. split; [rewrite key_eq_refl; reflexivity|].
      intros q N. rewrite key_eq_dec. destruct (key_dec q k); [contradiction|reflexivity].
    + destruct (seek_ok w fp k H (proj1 Hk)) as (w1 & it & E1 & S1 & F1). rewrite E1. cbn [bind].
      destruct (first_lowest m w1 _ (fun q => le k q) it (rel_same _ _ _ R S1) (fun q => le_kle k q) F1) as (o & C1 & L1).
      destruct (moves_ok m mv w1 it o (proj1 S1) (rel_same _ _ _ R S1) C1) as (w2 & ps & E2 & S2 & M2). rewrite E2. cbn [bind].
      destruct (IH m w2 (proj1 S2)) as (w3 & rs & E3 & S3); [eapply rel_same; [eapply rel_same; eassumption|exact S2]|exact Hc'|].
      rewrite E3. cbn [bind]. eexists _, _. split; [reflexivity|]. econstructor; eassumption.
Qed.

(** every sequence of calls on a new index is answered as by a sorted map *)
Theorem index_serves (cs : list ((key -> bool) * call V)) : (forall fp c, In (fp, c) cs -> call_ok c) ->
  exists w rs, wh_calls wh_create cs = Ok (w, rs) /\ serves nothing (map snd cs) rs.
Proof.
  intros Hc. apply calls_ok; [apply create_inv| |exact Hc]. intros k v. split; [discriminate|]. intros (l & [<-|[]] & []).
Qed.

(** ** answers are determined *)
Lemma lowest_ext m1 m2 P o1 o2 : (forall q, m1 q = m2 q) -> lowest (V := V) m1 P o1 -> lowest m2 P o2 -> o1 = o2.
Proof.
  intros E. destruct o1 as [[k1 v1]|], o2 as [[k2 v2]|]; cbn [lowest]; auto.
  - intros (A1 & A2 & A3) (B1 & B2 & B3). assert (k1 = k2) as ->.
    { apply kle_anti; apply le_kle; [apply A3; [exact B2|rewrite E; congruence]|apply B3; [exact A2|rewrite <- E; congruence]]. }
    rewrite E in A1. congruence.
  - intros (A1 & A2 & A3) B. specialize (B k1 A2). rewrite <- E in B. congruence.
  - intros A (B1 & B2 & B3). specialize (A k2 B2). rewrite E in A. congruence.
Qed.
Lemma highest_ext m1 m2 P o1 o2 : (forall q, m1 q = m2 q) -> highest (V := V) m1 P o1 -> highest m2 P o2 -> o1 = o2.
Proof.
  intros E. destruct o1 as [[k1 v1]|], o2 as [[k2 v2]|]; cbn [highest]; auto.
  - intros (A1 & A2 & A3) (B1 & B2 & B3). assert (k1 = k2) as ->.
    { apply kle_anti; apply le_kle; [apply B3; [exact A2|rewrite <- E; congruence]|apply A3; [exact B2|rewrite E; congruence]]. }
    rewrite E in A1. congruence.
  - intros (A1 & A2 & A3) B. specialize (B k1 A2). rewrite <- E in B. congruence.
  - intros A (B1 & B2 & B3). specialize (A k2 B2). rewrite E in A. congruence.
Qed.
Lemma moved_ext m1 m2 : (forall q, m1 q = m2 q) -> forall o mv ps1 ps2, moved (V := V) m1 o mv ps1 -> moved m2 o mv ps2 -> ps1 = ps2.
Proof.
  intros E o mv ps1 ps2 H. revert ps2. induction H as [o|b mv ps H IH|k v o mv ps L H IH|k v o mv ps L H IH]; intros ps2 G; inversion G; subst; auto.
  - f_equal. auto.
  - f_equal. assert (o = o0) as <- by (eapply lowest_ext; eassumption). auto.
  - f_equal. assert (o = o0) as <- by (eapply highest_ext; eassumption). auto.
Qed.
Lemma serves_ext : forall cs m1 m2 rs1 rs2, (forall q, m1 q = m2 q) -> serves (V := V) m1 cs rs1 -> serves m2 cs rs2 -> rs1 = rs2.
Proof.
  induction cs as [|c cs IH]; intros m1 m2 rs1 rs2 E H G; inversion H; subst; inversion G; subst; auto; f_equal.
  - eapply IH; [|eassumption|eassumption]. intros q. unfold bound in *. destruct (key_dec q k) as [->|N]; [intuition congruence|].
    destruct H3 as [_ A1]. destruct H4 as [_ A2] || idtac. repeat match goal with X : _ /\ (forall q, q <> k -> _) |- _ => destruct X as [_ X]; rewrite (X q N) end. rewrite ?(A1 q N), ?(A2 q N). apply E.
  - f_equal. destruct b, b0; auto; rewrite E in *; intuition congruence.
  - eapply IH; [|eassumption|eassumption]. intros q. unfold erased in *. destruct (key_dec q k) as [->|N]; [intuition congruence|].
    repeat match goal with X : _ /\ (forall q, q <> k -> _) |- _ => destruct X as [_ X]; rewrite (X q N) end. apply E.
  - f_equal. assert (o = o0) as <- by (eapply lowest_ext; eassumption). eapply moved_ext; eassumption.
  - eapply IH; eassumption.
Qed.
End Serve.

(** ** the sorted list of the model of diva.hpp gives the same answers *)
Definition relt (m : kmap store) (t : tree) : Prop := asc t /\ forall k v, m k = Some v <-> In (k, v) t.

Lemma put_in t k v : asc t -> asc (put t k v) /\ forall x, In x (put t k v) <-> x = (k, v) \/ In x t /\ fst x <> k.
Proof.
  induction t as [|[a u] t IH]; intros H; cbn [put].
  - split; [constructor; constructor|]. intros x. cbn [In]. split; [intros [<-|[]]; auto|intros [->|[[] _]]; auto].
  - apply ss_cons in H. destruct H as [H1 H2]. rewrite key_eq_dec. destruct (key_dec a k) as [->|N].
    + split; [apply ss_cons; split; [exact H1|exact H2]|]. intros x. cbn [In]. split.
      * intros [<-|Hx]; [auto|]. right. split; [auto|]. intros E. specialize (H1 x Hx). unfold before in H1. cbn [fst] in H1. rewrite E in H1. exact (klt_irrefl _ H1).
      * intros [->|[[<-|Hx] Nx]]; [auto|exfalso; apply Nx; reflexivity|auto].
    + destruct (key_lt a k) eqn:E.
      * destruct (IH H2) as [I1 I2]. split.
        -- apply ss_cons. split; [|exact I1]. intros y Hy. apply I2 in Hy. destruct Hy as [->|[Hy _]]; [exact E|apply H1; exact Hy].
        -- intros x. cbn [In]. rewrite I2. split; [intros [<-|[?|[? ?]]]; auto|intros [?|[[<-|?] ?]]; auto].
      * assert (klt k a) as Lk by (apply kle_cases in E; destruct E as [E|E]; [congruence|exact E]). split.
        -- apply ss_cons. split; [|apply ss_cons; auto]. intros y [<-|Hy]; [exact Lk|]. eapply klt_trans; [exact Lk|apply H1; exact Hy].
        -- intros x. cbn [In]. split; [|intros [->|[Hx _]]; auto]. intros [<-|[<-|Hx]]; [auto|auto|]. right. split; [auto|]. intros Ex. specialize (H1 x Hx). unfold before in H1. cbn [fst] in H1.
           rewrite Ex in H1. apply (klt_irrefl k). eapply klt_trans; eassumption.
Qed.
Lemma del_in t k : asc t -> asc (del t k) /\ forall x, In x (del t k) <-> In x t /\ fst x <> k.
Proof.
  induction t as [|[a u] t IH]; intros H; cbn [del].
  - split; [constructor|]. cbn [In]. tauto.
  - apply ss_cons in H. destruct H as [H1 H2]. rewrite key_eq_dec. destruct (key_dec a k) as [->|N].
    + split; [exact H2|]. intros x. cbn [In]. split.
      * intros Hx. split; [auto|]. intros E. specialize (H1 x Hx). unfold before in H1. cbn [fst] in H1. rewrite E in H1. exact (klt_irrefl _ H1).
      * intros [[<-|Hx] Nx]; [cbn [fst] in Nx; congruence|exact Hx].
    + destruct (IH H2) as [I1 I2]. split.
      * apply ss_cons. split; [|exact I1]. intros y Hy. apply I2 in Hy. apply H1. apply Hy.
      * intros x. cbn [In]. rewrite I2. split; [intros [<-|[? ?]]; auto|intros [[<-|?] ?]; auto].
Qed.

(** an iterator of the list at [o] *)
Definition zip (t : tree) (it : iter) (o : option (key * store)) : Prop :=
  match o with Some x => exists a, snd it = x :: a /\ t = rev (fst it) ++ x :: a | None => snd it = [] end.
Lemma zip_look t it o : zip t it o -> tree_look it = o.
Proof. unfold zip, tree_look, peek. destruct o as [x|]; [intros (a & -> & _); reflexivity|intros ->; reflexivity]. Qed.

Lemma zip_low m t b a (P : key -> Prop) : relt m t -> t = rev b ++ a -> (forall x, In x b -> ~ P (fst x)) -> (forall x, In x a -> P (fst x)) ->
  exists o, zip t (b, a) o /\ lowest m P o.
Proof.
  intros [H1 H2] E Hb Ha. destruct a as [|[k v] a].
  - exists None. split; [reflexivity|]. intros q Pq. destruct (m q) as [v|] eqn:Em; [|reflexivity]. exfalso. apply H2 in Em. rewrite E, app_nil_r in Em. apply in_rev in Em.
    apply (Hb _ Em). exact Pq.
  - exists (Some (k, v)). split; [exists a; auto|]. split; [apply H2; rewrite E; apply in_or_app; right; left; reflexivity|]. split; [apply (Ha (k, v)); left; reflexivity|].
    intros q Pq Nq. destruct (m q) as [u|] eqn:Em; [|congruence]. apply H2 in Em. rewrite E in Em, H1. apply asc_app in H1. destruct H1 as (_ & H1 & _). apply ss_cons in H1. destruct H1 as [H1 _].
    apply le_kle. apply in_app_or in Em. destruct Em as [Em|[Em|Em]].
    + exfalso. apply in_rev in Em. apply (Hb _ Em). exact Pq.
    + injection Em as -> ->. apply kle_refl.
    + apply klt_kle. apply (H1 _ Em).
Qed.
Lemma zip_high m t x b a (P : key -> Prop) : relt m t -> t = rev b ++ x :: a -> (forall y, In y b -> P (fst y)) -> (forall y, In y (x :: a) -> ~ P (fst y)) ->
  exists o, zip t (skip1_rev (b, x :: a)) o /\ highest m P o.
Proof.
  intros [H1 H2] E Hb Ha. destruct b as [|[k v] b].
  - exists None. split; [reflexivity|]. intros q Pq. destruct (m q) as [v|] eqn:Em; [|reflexivity]. exfalso. apply H2 in Em. rewrite E in Em. apply (Ha _ Em). exact Pq.
  - cbn [rev] in E. rewrite <- app_assoc in E. cbn [app] in E. exists (Some (k, v)). split; [exists (x :: a); auto|]. split; [apply H2; rewrite E; apply in_or_app; right; left; reflexivity|].
    split; [apply (Hb (k, v)); left; reflexivity|].
    intros q Pq Nq. destruct (m q) as [u|] eqn:Em; [|congruence]. apply H2 in Em. rewrite E in Em, H1. apply asc_app in H1. destruct H1 as (_ & _ & H1).
    apply le_kle. apply in_app_or in Em. destruct Em as [Em|[Em|Em]].
    + apply klt_kle. apply (H1 (q, u) (k, v) Em). left. reflexivity.
    + injection Em as -> ->. apply kle_refl.
    + exfalso. apply (Ha _ Em). exact Pq.
Qed.

Lemma tree_moves_ok m t : relt m t -> forall mv it o, zip t it o -> moved m o mv (tree_moves it mv).
Proof.
  intros R. induction mv as [|b mv IH]; intros it o Z; cbn [tree_moves]; rewrite (zip_look t it o Z); [constructor|].
  destruct o as [[k v]|].
  - destruct it as [bf af]. destruct Z as (a & Ea & Et). cbn [fst snd] in *. subst af. pose proof (proj1 R) as As. rewrite Et in As. apply asc_app in As.
    destruct As as (_ & A2 & A3). apply ss_cons in A2. destruct A2 as [A2 _]. destruct b.
    + destruct (zip_low m t ((k, v) :: bf) a (fun q => lt k q) R) as (o & Zo & Lo).
      * rewrite Et. cbn [rev]. rewrite <- app_assoc. reflexivity.
      * intros x [<-|Hx] C; apply lt_klt in C; [exact (klt_irrefl _ C)|]. apply in_rev in Hx. specialize (A3 x (k, v) Hx (or_introl eq_refl)).
        apply (klt_irrefl k). eapply klt_trans; [exact C|exact A3].
      * intros x Hx. apply lt_klt. apply (A2 x Hx).
      * econstructor; [exact Lo|]. apply IH. exact Zo.
    + destruct (zip_high m t (k, v) bf a (fun q => lt q k) R Et) as (o & Zo & Lo).
      * intros x Hx. apply lt_klt. apply in_rev in Hx. apply (A3 x (k, v) Hx). left. reflexivity.
      * intros x [<-|Hx] C; apply lt_klt in C; [exact (klt_irrefl _ C)|]. apply (klt_irrefl k). eapply klt_trans; [exact (A2 x Hx)|exact C].
      * econstructor; [exact Lo|]. apply IH. exact Zo.
  - constructor. apply IH. unfold zip in *. destruct it as [bf af]. cbn [snd] in Z. subst af. destruct b; [reflexivity|]. destruct bf; reflexivity.
Qed.

Lemma seek_from_parts k : forall (t acc : tree), exists p s, seek_from acc t k = (rev p ++ acc, s) /\ t = p ++ s
  /\ (forall x, In x p -> klt (fst x) k) /\ match s with [] => True | x :: _ => kle k (fst x) end.
Proof.
  induction t as [|[a u] t IH]; intros acc; cbn [seek_from].
  - exists [], []. split; [reflexivity|]. split; [reflexivity|]. split; [intros ? []|exact I].
  - destruct (key_lt a k) eqn:E.
    + destruct (IH ((a, u) :: acc)) as (p & s & E1 & E2 & E3 & E4). exists ((a, u) :: p), s. split; [rewrite E1; cbn [rev]; rewrite <- app_assoc; reflexivity|].
      split; [rewrite E2; reflexivity|]. split; [|exact E4]. intros x [<-|Hx]; [exact E|apply E3; exact Hx].
    + exists [], ((a, u) :: t). split; [reflexivity|]. split; [reflexivity|]. split; [intros ? []|exact E].
Qed.
Lemma tree_seek_ok m t k : relt m t -> exists o, zip t (seek t k) o /\ lowest m (fun q => le k q) o.
Proof.
  intros R. unfold seek. destruct (seek_from_parts k t []) as (p & s & E1 & E2 & E3 & E4). rewrite app_nil_r in E1. rewrite E1.
  apply zip_low; [exact R|rewrite rev_involutive; exact E2| |].
  - intros x Hx C. apply le_kle in C. apply in_rev in Hx. apply kle_not in C. apply C. apply E3. exact Hx.
  - intros x Hx. apply le_kle. destruct s as [|y s]; [destruct Hx|]. destruct Hx as [<-|Hx]; [exact E4|]. pose proof (proj1 R) as As. rewrite E2 in As. apply asc_app in As. destruct As as (_ & As & _).
    apply ss_cons in As. eapply kle_trans; [exact E4|]. apply klt_kle. apply (proj1 As x Hx).
Qed.

Lemma tree_serves : forall cs m t, relt m t -> serves m cs (tree_calls t cs).
Proof.
  induction cs as [|c cs IH]; intros m t R; cbn [tree_calls]; [constructor|]. destruct c as [k v|k|k mv].
  - destruct (put_in t k v (proj1 R)) as [P1 P2]. apply (serves_bind m (fun q => if key_eq q k then Some v else m q)).
    + split; [rewrite key_eq_refl; reflexivity|]. intros q N. rewrite key_eq_dec. destruct (key_dec q k); [contradiction|reflexivity].
    + apply IH. split; [exact P1|]. intros q u. rewrite P2, key_eq_dec. cbn [fst]. destruct (key_dec q k) as [->|N].
      * split; [intros E; injection E as ->; auto|]. intros [E|[_ E]]; [injection E as ->; reflexivity|congruence].
      * rewrite (proj2 R q u). split; [intros G; right; auto|]. intros [E|[G _]]; [congruence|exact G].
  - destruct (del_in t k (proj1 R)) as [P1 P2]. apply (serves_erase m (fun q => if key_eq q k then None else m q)).
    + split; [rewrite key_eq_refl; reflexivity|]. intros q N. rewrite key_eq_dec. destruct (key_dec q k); [contradiction|reflexivity].
    + rewrite existsb_exists. split.
      * intros ([q u] & Hx & E). cbn [fst] in E. apply key_eq_iff in E. subst q. apply (proj2 R) in Hx. congruence.
      * intros N. destruct (m k) as [u|] eqn:E; [|congruence]. exists (k, u). split; [apply R; exact E|apply key_eq_refl].
    + apply IH. split; [exact P1|]. intros q u. rewrite P2, key_eq_dec. cbn [fst]. destruct (key_dec q k) as [->|N].
      * split; [discriminate|]. intros [_ E]. congruence.
      * rewrite (proj2 R q u). tauto.
  - destruct (tree_seek_ok m t k R) as (o & Z & L). econstructor; [exact L| |apply IH; exact R]. apply (tree_moves_ok m t R). exact Z.
Qed.

(** the index and the list give the same answers *)
Theorem index_is_tree (cs : list ((key -> bool) * call store)) : (forall fp c, In (fp, c) cs -> call_ok c) ->
  exists w, wh_calls wh_create cs = Ok (w, tree_calls [] (map snd cs)).
Proof.
  intros Hc. destruct (index_serves cs Hc) as (w & rs & E & S). exists w. rewrite E. do 2 f_equal. eapply serves_ext; [|exact S|apply (tree_serves _ nothing [])]; [reflexivity|].
  split; [constructor|]. intros k v. split; [discriminate|intros []].
Qed.
