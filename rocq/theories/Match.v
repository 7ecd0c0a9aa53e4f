(** Matchings: every member of one list is given its own partner in another list. *)
From Coq Require Import List Permutation.
Import ListNotations.

Section M.
Context {A B : Type}.
Implicit Types (P Q : A -> B -> Prop) (K : list A) (L : list B).
Definition matched P K L : Prop := exists L0 R, Permutation L (L0 ++ R) /\ Forall2 P K L0.

Lemma matched_nil P L : matched P [] L.
Proof. exists [], L. split; [reflexivity|constructor]. Qed.
Lemma matched_cons P k K L : matched P (k :: K) L <-> exists x L', Permutation L (x :: L') /\ P k x /\ matched P K L'.
Proof.
  split.
  - intros (L0 & R & HP & HF). inversion HF as [|? x ? L1 H1 H2]; subst. exists x, (L1 ++ R). split; [exact HP|]. split; [exact H1|]. exists L1, R. auto.
  - intros (x & L' & HP & H1 & L0 & R & HP' & HF). exists (x :: L0), R. split; [|constructor; assumption]. cbn [app]. rewrite HP. apply perm_skip. exact HP'.
Qed.
Lemma matched_right P K L L' : Permutation L L' -> matched P K L -> matched P K L'.
Proof. intros HP (L0 & R & H1 & H2). exists L0, R. split; [rewrite <- HP; exact H1|exact H2]. Qed.
Lemma matched_more P K L M : matched P K L -> matched P K (M ++ L).
Proof.
  intros (L0 & R & H1 & H2). exists L0, (R ++ M). split; [|exact H2]. rewrite app_assoc, <- H1. apply Permutation_app_comm.
Qed.
Lemma matched_tail P k K L : matched P (k :: K) L -> matched P K L.
Proof. rewrite matched_cons. intros (x & L' & HP & _ & H). apply (matched_right P K (x :: L')); [symmetry; exact HP|]. apply (matched_more P K L' [x] H). Qed.
Lemma matched_left P K K' : Permutation K K' -> forall L, matched P K L -> matched P K' L.
Proof.
  induction 1 as [|k K K' HP IH|k k' K|K K' K'' H1 I1 H2 I2]; intros L H; auto.
  - rewrite matched_cons in *. destruct H as (x & L' & E & Hx & H). exists x, L'. auto.
  - rewrite matched_cons in *. destruct H as (x & L' & E & Hx & H). rewrite matched_cons in H. destruct H as (x' & L'' & E' & Hx' & H).
    exists x', (x :: L''). split; [rewrite E, E'; apply perm_swap|]. split; [exact Hx'|]. rewrite matched_cons. exists x, L''. auto.
Qed.
Lemma matched_filter P (f : A -> bool) K : forall L, matched P K L -> matched P (filter f K) L.
Proof.
  induction K as [|k K IH]; intros L H; cbn [filter]; [exact H|]. destruct (f k); [|apply IH; apply (matched_tail _ _ _ _ H)].
  rewrite matched_cons in *. destruct H as (x & L' & E & Hx & H). exists x, L'. auto.
Qed.
Lemma matched_in P K : forall L k, matched P K L -> In k K -> exists x, In x L /\ P k x.
Proof.
  induction K as [|k0 K IH]; intros L k H [].
  - subst k0. rewrite matched_cons in H. destruct H as (x & L' & E & Hx & _). exists x. split; [apply (Permutation_in _ (Permutation_sym E)); left; reflexivity|exact Hx].
  - apply (IH L k); [apply (matched_tail _ _ _ _ H)|assumption].
Qed.
Lemma matched_one P k L : matched P [k] L <-> exists x, In x L /\ P k x.
Proof.
  split; [intros H; apply (matched_in P [k] L k H); left; reflexivity|]. intros (x & Hx & H). rewrite matched_cons.
  apply in_split in Hx as (L1 & L2 & ->). exists x, (L1 ++ L2). split; [symmetry; apply Permutation_middle|]. split; [exact H|apply matched_nil].
Qed.
(** an unused partner is dropped *)
Lemma matched_drop P K : forall L y L', Permutation L (y :: L') -> (forall k, In k K -> ~ P k y) -> matched P K L -> matched P K L'.
Proof.
  induction K as [|k K IH]; intros L y L' HP Hn H; [apply matched_nil|]. rewrite matched_cons in *. destruct H as (x & M & E & Hx & H).
  assert (Hin : In x (y :: L')) by (apply (Permutation_in _ HP); apply (Permutation_in _ (Permutation_sym E)); left; reflexivity).
  destruct Hin as [->|Hin]; [exfalso; apply (Hn k); [left; reflexivity|exact Hx]|].
  apply in_split in Hin as (L1 & L2 & ->). exists x, (L1 ++ L2). split; [symmetry; apply Permutation_middle|]. split; [exact Hx|].
  apply (IH M y); [|intros k' Hk'; apply Hn; right; exact Hk'|exact H]. apply (Permutation_cons_inv (a := x)). rewrite <- E, HP.
  rewrite <- Permutation_middle. apply perm_swap.
Qed.
Lemma matched_part P K M : forall L, (forall k x, In k K -> In x M -> ~ P k x) -> matched P K (L ++ M) -> matched P K L.
Proof.
  induction M as [|y M IH]; intros L Hn H; [rewrite app_nil_r in H; exact H|]. apply (IH L); [intros k x Hk Hx; apply Hn; [exact Hk|right; exact Hx]|].
  apply (matched_drop P K (L ++ y :: M) y); [symmetry; apply Permutation_middle| |exact H]. intros k Hk. apply Hn; [exact Hk|left; reflexivity].
Qed.
(** [y] leaves together with [k]: whoever had [y] takes the partner of [k] *)
Lemma matched_swap P k K L y L' : Permutation L (y :: L') -> P k y ->
  (forall x k', In x L -> In k' K -> P k x -> P k' y -> P k' x) -> matched P (k :: K) L -> matched P K L'.
Proof.
  rewrite matched_cons. intros HP Hy Hsub (x & M & E & Hx & H).
  assert (Hin : In y (x :: M)) by (apply (Permutation_in _ E); apply (Permutation_in _ (Permutation_sym HP)); left; reflexivity).
  assert (HxL : In x L) by (apply (Permutation_in _ (Permutation_sym E)); left; reflexivity).
  destruct Hin as [<-|Hin].
  - apply (matched_right P K M); [|exact H]. apply (Permutation_cons_inv (a := x)). rewrite <- E. exact HP.
  - destruct H as (L0 & R & HM & HF).
    assert (Hres : forall N, Permutation M (y :: N) -> Permutation (x :: N) L').
    { intros N HN. apply (Permutation_cons_inv (a := y)). rewrite <- HP, E, HN. apply perm_swap. }
    apply (Permutation_in _ HM) in Hin. apply in_app_or in Hin as [Hin|Hin].
    + apply in_split in Hin as (L1 & L2 & ->). apply Forall2_app_inv_r in HF as (K1 & K2' & F1 & F2 & ->). inversion F2 as [|k' ? K2 ? H1 H2]; subst.
      exists (L1 ++ x :: L2), R. split.
      * rewrite <- (Hres (L1 ++ L2 ++ R)).
        -- rewrite <- app_assoc. cbn [app]. apply Permutation_middle.
        -- rewrite HM, <- app_assoc. cbn [app]. symmetry. apply Permutation_middle.
      * apply Forall2_app; [exact F1|]. constructor; [|exact H2]. apply Hsub; auto. apply in_or_app. right. left. reflexivity.
    + apply in_split in Hin as (R1 & R2 & ->). exists L0, (x :: R1 ++ R2). split; [|exact HF].
      rewrite <- (Hres (L0 ++ R1 ++ R2)).
      * apply Permutation_middle.
      * rewrite HM. rewrite !app_assoc. symmetry. apply Permutation_middle.
Qed.
End M.

Lemma matched_impl {A B} (P Q : A -> B -> Prop) K : forall L, (forall k x, In k K -> In x L -> P k x -> Q k x) -> matched P K L -> matched Q K L.
Proof.
  intros L HI (L0 & R & HP & HF). exists L0, R. split; [exact HP|].
  assert (Hin : forall x, In x L0 -> In x L) by (intros x Hx; apply (Permutation_in _ (Permutation_sym HP)); apply in_or_app; left; exact Hx).
  clear HP. induction HF as [|k x K L0 H1 H2 IH]; constructor.
  - apply HI; auto; [left; reflexivity|apply Hin; left; reflexivity].
  - apply IH; [intros k' x' Hk'; apply HI; right; exact Hk'|intros x' Hx'; apply Hin; right; exact Hx'].
Qed.
(** every partner is replaced by several, one of which suits *)
Lemma matched_flat {A B C} (P : A -> B -> Prop) (Q : A -> C -> Prop) (f : B -> list C) K L :
  (forall k x, In k K -> In x L -> P k x -> exists y, In y (f x) /\ Q k y) -> matched P K L -> matched Q K (flat_map f L).
Proof.
  intros HI (L0 & R & HP & HF). apply (matched_right Q K (flat_map f R ++ flat_map f L0)).
  { rewrite Permutation_app_comm, <- flat_map_app. symmetry. clear -HP. induction HP; cbn [flat_map].
    - reflexivity.
    - apply Permutation_app_head. assumption.
    - rewrite !app_assoc. apply Permutation_app_tail. apply Permutation_app_comm.
    - etransitivity; eassumption. }
  apply matched_more.
  assert (Hin : forall x, In x L0 -> In x L) by (intros x Hx; apply (Permutation_in _ (Permutation_sym HP)); apply in_or_app; left; exact Hx).
  clear HP. induction HF as [|k x K L0 H1 H2 IH]; cbn [flat_map]; [apply matched_nil|].
  destruct (HI k x ltac:(left; reflexivity) (Hin x ltac:(left; reflexivity)) H1) as (y & Hy & Hq).
  apply in_split in Hy as (Y1 & Y2 & ->). apply matched_cons. exists y, ((Y1 ++ Y2) ++ flat_map f L0). split; [|split; [exact Hq|]].
  - rewrite <- !app_assoc. cbn [app]. symmetry. apply Permutation_middle.
  - apply matched_more. apply IH; [intros k' x' Hk'; apply HI; right; exact Hk'|intros x' Hx'; apply Hin; right; exact Hx'].
Qed.
