(** The tree as a sorted association list: searching, updating, neighbours. *)
From Coq Require Import ZArith List Bool Lia.
From Coq Require Import ZifyBool ZifyNat.
From Verif Require Import Base Util Store Bits Key KeyBits KeyOrder Diva.
Import ListNotations.
Open Scope Z_scope.

Definition below (A : tree) (k : key) : Prop := forall x, In x A -> key_lt (fst x) k = true.

Lemma seek_from_app A B k : below A k -> (forall x B', B = x :: B' -> key_lt (fst x) k = false) ->
  forall acc, seek_from acc (A ++ B) k = (rev A ++ acc, B).
Proof.
  intros HA HB. induction A as [|[a v] A IH]; intros acc.
  - simpl. destruct B as [|[b w] B]; [reflexivity|]. simpl. specialize (HB (b, w) B eq_refl). simpl in HB. rewrite HB. reflexivity.
  - simpl. pose proof (HA (a, v) (or_introl eq_refl)) as E. simpl in E. rewrite E. rewrite IH.
    + rewrite <- app_assoc. reflexivity.
    + intros x Hx. apply HA. right. exact Hx.
Qed.
Lemma seek_app A B k : below A k -> (forall x B', B = x :: B' -> key_lt (fst x) k = false) -> seek (A ++ B) k = (rev A, B).
Proof. intros. unfold seek. rewrite seek_from_app by auto. rewrite app_nil_r. reflexivity. Qed.

Lemma put_hit A k v v' B : below A k -> put (A ++ (k, v) :: B) k v' = A ++ (k, v') :: B.
Proof.
  intros HA. induction A as [|[a w] A IH]; simpl.
  - rewrite key_eq_refl. reflexivity.
  - pose proof (HA (a, w) (or_introl eq_refl)) as E. simpl in E. rewrite (key_lt_neq _ _ E), E. f_equal. apply IH.
    intros x Hx. apply HA. right. exact Hx.
Qed.
Lemma put_new A k v B : below A k -> (forall x B', B = x :: B' -> key_lt k (fst x) = true) -> put (A ++ B) k v = A ++ (k, v) :: B.
Proof.
  intros HA HB. induction A as [|[a w] A IH]; simpl.
  - destruct B as [|[b w] B]; [reflexivity|]. simpl. specialize (HB (b, w) B eq_refl). simpl in HB.
    rewrite key_eq_sym, (key_lt_neq _ _ HB), (key_lt_asym _ _ HB). reflexivity.
  - pose proof (HA (a, w) (or_introl eq_refl)) as E. simpl in E. rewrite (key_lt_neq _ _ E), E. f_equal. apply IH.
    intros x Hx. apply HA. right. exact Hx.
Qed.
Lemma del_hit A k v B : below A k -> del (A ++ (k, v) :: B) k = A ++ B.
Proof.
  intros HA. induction A as [|[a w] A IH]; simpl.
  - rewrite key_eq_refl. reflexivity.
  - pose proof (HA (a, w) (or_introl eq_refl)) as E. simpl in E. rewrite (key_lt_neq _ _ E). f_equal. apply IH.
    intros x Hx. apply HA. right. exact Hx.
Qed.

(** ** a property of every two neighbours *)
Section Adj.
Variable P : key -> store -> key -> Prop.
Fixpoint adj (t : tree) : Prop :=
  match t with
  | [] => True
  | (a, st) :: r => match r with [] => True | (b, _) :: _ => P a st b end /\ adj r
  end.
Lemma adj_one x : adj [x] <-> True.
Proof. destruct x. simpl. tauto. Qed.
Lemma adj_cons a st b w r : adj ((a, st) :: (b, w) :: r) <-> P a st b /\ adj ((b, w) :: r).
Proof. reflexivity. Qed.
Lemma adj_app A x B : adj (A ++ x :: B) <-> adj (A ++ [x]) /\ adj (x :: B).
Proof.
  destruct x as [k v0]. induction A as [|[a v] A IH].
  - cbn [app]. split; [intros H; split; [simpl; auto|exact H]|intros [_ H]; exact H].
  - destruct A as [|[b w] A]; cbn [app] in *; rewrite !adj_cons, IH; [rewrite adj_one|]; tauto.
Qed.
Lemma adj_last A k v v' : adj (A ++ [(k, v)]) -> adj (A ++ [(k, v')]).
Proof.
  induction A as [|[a w] A IH]; [simpl; auto|]. destruct A as [|[b u] A]; cbn [app] in *; rewrite !adj_cons; tauto.
Qed.
End Adj.
Lemma adj_mono (P P' : key -> store -> key -> Prop) t : (forall a st b, P a st b -> P' a st b) -> adj P t -> adj P' t.
Proof.
  intros H. induction t as [|[a st] t IH]; [auto|]. cbn [adj]. destruct t as [|[b w] t]; intros [H1 H2]; split; auto.
Qed.

(** keys strictly increasing *)
Definition klt (a : key) (_ : store) (b : key) : Prop := key_lt a b = true.
Definition sorted (t : tree) : Prop := adj klt t.

Lemma sorted_below x t : sorted (x :: t) -> forall y, In y t -> key_lt (fst x) (fst y) = true.
Proof.
  revert x. induction t as [|[b w] t IH]; intros [a v] H y Hy; [inversion Hy|].
  destruct H as [H1 H2]. destruct Hy as [<-|Hy]; [exact H1|]. pose proof (IH _ H2 _ Hy). simpl in *. eapply key_lt_trans; eauto.
Qed.
Lemma sorted_app_below A x B : sorted (A ++ x :: B) -> below A (fst x).
Proof.
  induction A as [|a A IH]; intros H y Hy; [inversion Hy|]. destruct Hy as [<-|Hy].
  - apply (sorted_below a (A ++ x :: B)); auto. apply in_or_app. right. left. reflexivity.
  - apply IH; auto. cbn [app] in H. destruct a. destruct H as [_ H]. exact H.
Qed.
Lemma sorted_tail A x B : sorted (A ++ x :: B) -> sorted (x :: B).
Proof. intros H. apply adj_app in H. tauto. Qed.

(** *** splitting at a key *)
Lemma split_at (t : tree) (f : key -> bool) : (* f is true on a prefix *)
  (forall A x B, t = A ++ x :: B -> f (fst x) = true -> forall y, In y A -> f (fst y) = true) ->
  exists A B, t = A ++ B /\ (forall x, In x A -> f (fst x) = true) /\ (forall x B', B = x :: B' -> f (fst x) = false).
Proof.
  induction t as [|x t IH]; intros H.
  - exists [], []. split; [reflexivity|]. split; [intros ? []|intros; discriminate].
  - destruct (f (fst x)) eqn:E.
    + destruct IH as (A & B & -> & H1 & H2).
      { intros A y B -> Hf z Hz. apply (H (x :: A) y B); auto. right. exact Hz. }
      exists (x :: A), B. split; [reflexivity|]. split; [|exact H2]. intros y [<-|Hy]; auto.
    + exists [], (x :: t). split; [reflexivity|]. split; [intros ? []|]. intros y B' E'. inversion E'; subst. exact E.
Qed.
Definition hd_key (t : tree) : key := match t with (a, _) :: _ => a | [] => [] end.
Definition last_key (t : tree) : key := fst (last t ([], mkstore 0 0 0 true)).

Lemma last_app_cons A x B : last_key (A ++ x :: B) = last_key (x :: B).
Proof.
  unfold last_key. induction A as [|a A IH]; [reflexivity|]. cbn [app]. rewrite <- IH.
  destruct (A ++ x :: B) eqn:E; [destruct A; discriminate|]. reflexivity.
Qed.
(** the block of the last entry *)
Definition last_st (t : tree) : store := snd (last t ([], mkstore 0 0 0 true)).
Lemma last_st_app A x B : last_st (A ++ x :: B) = last_st (x :: B).
Proof.
  unfold last_st. induction A as [|a A IH]; [reflexivity|]. cbn [app]. rewrite <- IH.
  destruct (A ++ x :: B) eqn:E; [destruct A; discriminate|]. reflexivity.
Qed.
Lemma last_key_in x B : exists y, In y (x :: B) /\ fst y = last_key (x :: B).
Proof.
  revert x. induction B as [|b B IH]; intros x; [exists x; split; [left; reflexivity|reflexivity]|].
  destruct (IH b) as (y & H1 & H2). exists y. split; [right; exact H1|]. rewrite H2. change (x :: b :: B) with ([x] ++ b :: B). rewrite last_app_cons. reflexivity.
Qed.
Lemma sorted_last x B : sorted (x :: B) -> key_lt (last_key (x :: B)) (fst x) = false.
Proof.
  intros H. destruct (last_key_in x B) as (y & [<-|Hy] & <-).
  - apply key_lt_irrefl.
  - apply key_lt_asym. apply (sorted_below x B); auto.
Qed.

(** [pk <= k < nk] *)
Lemma find_gap t k : sorted t -> t <> [] -> key_lt k (hd_key t) = false -> key_lt k (last_key t) = true ->
  exists A pk st nk st' B, t = A ++ (pk, st) :: (nk, st') :: B /\ key_lt k pk = false /\ key_lt k nk = true.
Proof.
  intros Hs Hne Hh Hl.
  destruct (split_at t (fun a => negb (key_lt k a))) as (A & B & -> & HA & HB).
  { intros A x B -> Hf y Hy. apply sorted_app_below in Hs. specialize (Hs y Hy). destruct (key_lt k (fst y)) eqn:E; auto.
    rewrite (key_lt_trans _ _ _ E Hs) in Hf. discriminate. }
  destruct (exists_last (l := A)) as (A' & [pk st] & ->).
  { intros ->. destruct B as [|[b w] B]; [apply Hne; reflexivity|]. specialize (HB (b, w) B eq_refl). simpl in *. rewrite Hh in HB. discriminate. }
  destruct B as [|[nk st'] B].
  { exfalso. rewrite app_nil_r in *. rewrite last_app_cons in Hl. unfold last_key in Hl. simpl in Hl.
    specialize (HA (pk, st) ltac:(apply in_or_app; right; left; reflexivity)). simpl in HA. rewrite Hl in HA. discriminate. }
  exists A', pk, st, nk, st', B. rewrite <- app_assoc. split; [reflexivity|].
  specialize (HA (pk, st) ltac:(apply in_or_app; right; left; reflexivity)). specialize (HB (nk, st') B eq_refl). simpl in *.
  split; [destruct (key_lt k pk); auto; discriminate|destruct (key_lt k nk); auto; discriminate].
Qed.
(** [pk < k <= nk] *)
Lemma find_gap_q t k : sorted t -> t <> [] -> key_lt (hd_key t) k = true -> key_lt (last_key t) k = false ->
  exists A pk st nk st' B, t = A ++ (pk, st) :: (nk, st') :: B /\ key_lt pk k = true /\ key_lt nk k = false.
Proof.
  intros Hs Hne Hh Hl.
  destruct (split_at t (fun a => key_lt a k)) as (A & B & -> & HA & HB).
  { intros A x B -> Hf y Hy. apply sorted_app_below in Hs. specialize (Hs y Hy). eapply key_lt_trans; eauto. }
  destruct (exists_last (l := A)) as (A' & [pk st] & ->).
  { intros ->. destruct B as [|[b w] B]; [apply Hne; reflexivity|]. specialize (HB (b, w) B eq_refl). simpl in *. rewrite Hh in HB. discriminate. }
  destruct B as [|[nk st'] B].
  { exfalso. rewrite app_nil_r in *. rewrite last_app_cons in Hl. unfold last_key in Hl. simpl in Hl.
    specialize (HA (pk, st) ltac:(apply in_or_app; right; left; reflexivity)). simpl in HA. rewrite Hl in HA. discriminate. }
  exists A', pk, st, nk, st', B. rewrite <- app_assoc. split; [reflexivity|].
  specialize (HA (pk, st) ltac:(apply in_or_app; right; left; reflexivity)). specialize (HB (nk, st') B eq_refl). auto.
Qed.

(** the iterator steps of the operations *)
Lemma seek_q A pk st nk st' B k : sorted (A ++ (pk, st) :: (nk, st') :: B) -> key_lt pk k = true -> key_lt nk k = false ->
  seek (A ++ (pk, st) :: (nk, st') :: B) k = ((pk, st) :: rev A, (nk, st') :: B).
Proof.
  intros Hs H1 H2. change ((pk, st) :: (nk, st') :: B) with ([(pk, st)] ++ (nk, st') :: B). rewrite app_assoc.
  rewrite seek_app.
  - rewrite rev_app_distr. reflexivity.
  - intros x Hx. apply in_app_or in Hx as [Hx|[<-|[]]]; [|exact H1].
    pose proof (sorted_app_below _ _ _ Hs x Hx) as E. simpl in E. eapply key_lt_trans; eauto.
  - intros x B' E. inversion E. exact H2.
Qed.
Lemma seek_hit A k st B : sorted (A ++ (k, st) :: B) -> seek (A ++ (k, st) :: B) k = (rev A, (k, st) :: B).
Proof.
  intros Hs. apply seek_app.
  - exact (sorted_app_below _ _ _ Hs).
  - intros x B' E. inversion E. apply key_lt_irrefl.
Qed.
Lemma locate_gap A pk st nk st' B k : sorted (A ++ (pk, st) :: (nk, st') :: B) -> key_lt k pk = false -> key_lt k nk = true ->
  locate (A ++ (pk, st) :: (nk, st') :: B) k = Ok (pk, st, nk).
Proof.
  intros Hs H1 H2. unfold locate. destruct (nlt_cases _ _ H1) as [->|H3].
  - rewrite seek_hit by auto. cbn [peek snd bind]. rewrite key_eq_refl. reflexivity.
  - rewrite seek_q; auto; [|apply key_lt_asym; auto]. cbn [peek snd bind]. rewrite key_eq_sym, (key_lt_neq _ _ H2). reflexivity.
Qed.

(** ** coverage of a key by the tree *)
Section Cov.
Variable G : key -> store -> key -> key -> Prop.
Fixpoint covt (t : tree) (k : key) : Prop :=
  match t with
  | [] => False
  | (a, st) :: r =>
      a = k \/ match r with
               | [] => False
               | (b, _) :: _ => (key_lt a k = true /\ key_lt k b = true /\ G a st b k)
               end \/ covt r k
  end.
Lemma covt_one a st k : covt [(a, st)] k <-> a = k.
Proof. simpl. tauto. Qed.
Lemma covt_cons a st b w r k : covt ((a, st) :: (b, w) :: r) k <->
  a = k \/ (key_lt a k = true /\ key_lt k b = true /\ G a st b k) \/ covt ((b, w) :: r) k.
Proof. reflexivity. Qed.
Lemma covt_hd a st r : covt ((a, st) :: r) a.
Proof. left. reflexivity. Qed.
Lemma covt_app A x B k : covt (A ++ x :: B) k <-> covt (A ++ [x]) k \/ covt (x :: B) k.
Proof.
  destruct x as [k0 v0]. induction A as [|[a v] A IH].
  - cbn [app]. rewrite covt_one. split; [auto|]. intros [->|H]; [apply covt_hd|exact H].
  - destruct A as [|[b w] A]; cbn [app] in *; rewrite !covt_cons, IH; tauto.
Qed.
Lemma covt_last A k0 v v' k : covt (A ++ [(k0, v)]) k -> covt (A ++ [(k0, v')]) k.
Proof.
  induction A as [|[a w] A IH]; [simpl; auto|]. destruct A as [|[b u] A]; cbn [app] in *; rewrite !covt_cons; rewrite ?covt_one; tauto.
Qed.
Lemma covt_gap A pk st nk st' B k : sorted (A ++ (pk, st) :: (nk, st') :: B) -> key_lt pk k = true -> key_lt k nk = true ->
  (covt (A ++ (pk, st) :: (nk, st') :: B) k <-> G pk st nk k).
Proof.
  intros Hs H1 H2. split.
  - assert (Hhi : forall t, sorted t -> (forall x, In x t -> key_lt k (fst x) = true) -> ~ covt t k).
    { induction t as [|[a v] t IH]; intros Hst Ht; [auto|]. intros [->|[Hm|Hm]].
      - specialize (Ht (k, v) (or_introl eq_refl)). simpl in Ht. rewrite key_lt_irrefl in Ht. discriminate.
      - destruct t as [|[b w] t]; [exact Hm|]. destruct Hm as (Hm & _). specialize (Ht (a, v) (or_introl eq_refl)). simpl in Ht.
        rewrite (key_lt_asym _ _ Ht) in Hm. discriminate.
      - revert Hm. apply IH; [apply Hst|]. intros x Hx. apply Ht. right. exact Hx. }
    assert (Hlo : forall t, (forall x, In x t -> key_lt (fst x) k = true) -> ~ covt t k).
    { induction t as [|[a v] t IH]; intros Ht; [auto|]. intros [->|[Hm|Hm]].
      - specialize (Ht (k, v) (or_introl eq_refl)). simpl in Ht. rewrite key_lt_irrefl in Ht. discriminate.
      - destruct t as [|[b w] t]; [exact Hm|]. destruct Hm as (_ & Hm & _). specialize (Ht (b, w) (or_intror (or_introl eq_refl))). simpl in Ht.
        rewrite (key_lt_asym _ _ Ht) in Hm. discriminate.
      - revert Hm. apply IH. intros x Hx. apply Ht. right. exact Hx. }
    rewrite covt_app. intros [Hc|Hc].
    + exfalso. revert Hc. apply Hlo. intros x Hx. apply in_app_or in Hx as [Hx|[<-|[]]]; [|exact H1].
      pose proof (sorted_app_below _ _ _ Hs x Hx) as E. simpl in E. eapply key_lt_trans; eauto.
    + destruct Hc as [->|[Hm|Hm]]; [rewrite key_lt_irrefl in H1; discriminate|tauto|].
      exfalso. revert Hm. apply Hhi.
      * apply sorted_tail in Hs. apply Hs.
      * intros x [<-|Hx]; [exact H2|]. apply sorted_tail in Hs. destruct Hs as [_ Hs]. pose proof (sorted_below _ _ Hs x Hx). simpl in *. eapply key_lt_trans; eauto.
  - intros HG. apply covt_app. right. simpl. tauto.
Qed.
Lemma covt_tree A k st B : covt (A ++ (k, st) :: B) k.
Proof. apply covt_app. right. left. reflexivity. Qed.
End Cov.
