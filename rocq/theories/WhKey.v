(** Byte strings: prefixes, longest common prefix and the order. *)
From Coq Require Import ZArith List Bool Lia Arith.
From Verif Require Import Base Key KeyOrder Wormhole.
Import ListNotations.
Open Scope Z_scope.

Definition klt (a b : key) : Prop := key_lt a b = true.
Definition kle (a b : key) : Prop := key_lt b a = false.
Definition pfx (p a : key) : Prop := exists r, a = p ++ r.
Definition bytes (k : key) : Prop := Forall (fun b => 0 <= b < 256) k.

Lemma key_dec (a b : key) : {a = b} + {a <> b}.
Proof. apply list_eq_dec. apply Z.eq_dec. Qed.

Lemma kle_refl a : kle a a. Proof. apply key_lt_irrefl. Qed.
Lemma klt_kle a b : klt a b -> kle a b. Proof. apply key_lt_asym. Qed.
Lemma klt_irrefl a : ~ klt a a. Proof. unfold klt. rewrite key_lt_irrefl. discriminate. Qed.
Lemma klt_trans a b d : klt a b -> klt b d -> klt a d. Proof. apply key_lt_trans. Qed.
Lemma kle_cases a b : kle a b -> a = b \/ klt a b.
Proof. intros H. destruct (nlt_cases b a H) as [E|E]; [left; symmetry; exact E|right; exact E]. Qed.
Lemma kle_lt a b d : kle a b -> klt b d -> klt a d.
Proof. intros H K. destruct (kle_cases _ _ H) as [->|E]; [exact K|eapply klt_trans; eassumption]. Qed.
Lemma klt_le a b d : klt a b -> kle b d -> klt a d.
Proof. intros H K. destruct (kle_cases _ _ K) as [->|E]; [exact H|eapply klt_trans; eassumption]. Qed.
Lemma kle_trans a b d : kle a b -> kle b d -> kle a d.
Proof. intros H K. destruct (kle_cases _ _ H) as [->|E]; [exact K|apply klt_kle; eapply klt_le; eassumption]. Qed.
Lemma kle_anti a b : kle a b -> kle b a -> a = b.
Proof. intros H K. destruct (kle_cases _ _ H) as [->|E]; [reflexivity|]. unfold klt in E. unfold kle in K. congruence. Qed.
Lemma kle_not a b : kle a b <-> ~ klt b a.
Proof. unfold kle, klt. destruct (key_lt b a); split; intros; try congruence; exfalso; auto. Qed.
Lemma klt_not a b : klt a b <-> ~ kle b a.
Proof. unfold kle, klt. destruct (key_lt a b); split; intros; try congruence; exfalso; auto. Qed.
Lemma klt_or a b : klt a b \/ kle b a.
Proof. unfold kle, klt. destruct (key_lt a b); auto. Qed.
Lemma klt_ne a b : klt a b -> a <> b. Proof. intros H ->. exact (klt_irrefl _ H). Qed.
Lemma klt_total a b : klt a b \/ a = b \/ klt b a. Proof. apply key_lt_total. Qed.
Lemma kle_nil a : kle [] a. Proof. apply key_lt_nil_r. Qed.
Lemma kle_nil_r a : kle a [] -> a = [].
Proof. unfold kle. destruct a as [|x a]; [reflexivity|]. rewrite key_lt_nil_l. discriminate. Qed.
Lemma klt_cons x a y b : klt (x :: a) (y :: b) <-> x < y \/ x = y /\ klt a b.
Proof.
  unfold klt. rewrite key_lt_cons. destruct (Z.compare_spec x y) as [->|H|H]; split; intros G; try tauto; try lia; try discriminate;
    destruct G as [G|[_ G]]; try lia; exact G.
Qed.
Lemma kle_cons x a y b : kle (x :: a) (y :: b) <-> x < y \/ x = y /\ kle a b.
Proof.
  unfold kle. rewrite key_lt_cons. destruct (Z.compare_spec y x) as [->|H|H]; split; intros G; try tauto; try lia; try discriminate;
    destruct G as [G|[_ G]]; try lia; exact G.
Qed.

(** ** prefixes *)
Lemma pfx_refl a : pfx a a. Proof. exists []. rewrite app_nil_r. reflexivity. Qed.
Lemma pfx_nil a : pfx [] a. Proof. exists a. reflexivity. Qed.
Lemma pfx_nil_r p : pfx p [] -> p = []. Proof. intros [r H]. destruct p; [reflexivity|discriminate]. Qed.
Lemma pfx_cons x p y a : pfx (x :: p) (y :: a) <-> x = y /\ pfx p a.
Proof. split; [intros [r H]; injection H as -> ->; split; [reflexivity|exists r; reflexivity]|intros [-> [r ->]]; exists r; reflexivity]. Qed.
Lemma pfx_trans p q a : pfx p q -> pfx q a -> pfx p a.
Proof. intros [r ->] [s ->]. exists (r ++ s). rewrite app_assoc. reflexivity. Qed.
Lemma pfx_len p a : pfx p a -> (length p <= length a)%nat.
Proof. intros [r ->]. rewrite app_length. lia. Qed.
Lemma pfx_firstn n a : pfx (firstn n a) a.
Proof. exists (skipn n a). symmetry. apply firstn_skipn. Qed.
Lemma pfx_eq p a : pfx p a -> p = firstn (length p) a.
Proof. intros [r ->]. rewrite firstn_app, Nat.sub_diag, firstn_all, app_nil_r. reflexivity. Qed.
Lemma pfx_dec p a : {pfx p a} + {~ pfx p a}.
Proof.
  destruct (key_dec p (firstn (length p) a)) as [E|E]; [left; rewrite E; apply pfx_firstn|right; intros H; apply E, pfx_eq, H].
Qed.
Lemma pfx_anti p a : pfx p a -> (length a <= length p)%nat -> p = a.
Proof. intros H L. rewrite (pfx_eq p a H). apply firstn_all2. exact L. Qed.
Lemma pfx_two p q a : pfx p a -> pfx q a -> (length p <= length q)%nat -> pfx p q.
Proof.
  intros H K L. rewrite (pfx_eq p a H). rewrite (pfx_eq q a K). replace (length p) with (Nat.min (length p) (length q)) by lia.
  rewrite <- firstn_firstn. apply pfx_firstn.
Qed.
Lemma pfx_kle p a : pfx p a -> kle p a.
Proof.
  revert a. induction p as [|x p IH]; intros a H; [apply kle_nil|].
  destruct a as [|y a]; [apply pfx_nil_r in H; discriminate|]. apply pfx_cons in H. destruct H as [-> H]. apply kle_cons. right. auto.
Qed.
(** strings with a common prefix are contiguous *)
Lemma pfx_mid p a b d : pfx p a -> pfx p d -> kle a b -> kle b d -> pfx p b.
Proof.
  revert a b d. induction p as [|x p IH]; intros a b d H K L M; [apply pfx_nil|].
  destruct a as [|y a]; [apply pfx_nil_r in H; discriminate|]. destruct d as [|z d]; [apply pfx_nil_r in K; discriminate|].
  apply pfx_cons in H, K. destruct H as [<- H], K as [<- K].
  destruct b as [|y b]; [apply kle_nil_r in L; discriminate|]. apply kle_cons in L, M.
  assert (x = y) as <- by lia. apply pfx_cons. split; [reflexivity|]. destruct L as [L|[_ L]]; [lia|]. destruct M as [M|[_ M]]; [lia|]. eauto.
Qed.
(** a string without the prefix that sorts before one with it sorts before all *)
Lemma pfx_below p a b : ~ pfx p a -> pfx p b -> klt a b -> klt a p.
Proof.
  intros H K L. apply klt_not. intros M. apply H. eapply pfx_mid; [apply pfx_refl|exact K|exact M|apply klt_kle; exact L].
Qed.
Lemma pfx_above p a b d : ~ pfx p a -> pfx p b -> klt b a -> pfx p d -> klt d a.
Proof.
  intros H K L M. apply klt_not. intros E. apply H. eapply pfx_mid; [exact K|exact M|apply klt_kle; exact L|exact E].
Qed.

Lemma pfx_snoc p b a : pfx (p ++ [b]) a <-> pfx p a /\ nth_error a (length p) = Some b.
Proof.
  split.
  - intros [r ->]. split; [exists ([b] ++ r); rewrite app_assoc; reflexivity|].
    rewrite <- app_assoc. rewrite nth_error_app2 by lia. rewrite Nat.sub_diag. reflexivity.
  - intros [[r ->] H]. rewrite nth_error_app2 in H by lia. rewrite Nat.sub_diag in H. destruct r as [|y r]; [discriminate|].
    injection H as ->. exists r. rewrite <- app_assoc. reflexivity.
Qed.
Lemma firstn_snoc n (a : key) b : nth_error a n = Some b -> firstn (S n) a = firstn n a ++ [b].
Proof.
  revert a. induction n as [|n IH]; intros [|x a] H; try discriminate.
  - injection H as ->. reflexivity.
  - cbn [firstn app nth_error] in *. f_equal. apply IH. exact H.
Qed.
Lemma firstn_len n (a : key) : (n <= length a)%nat -> length (firstn n a) = n.
Proof. intros H. rewrite firstn_length. lia. Qed.

(** ** longest common prefix *)
Lemma lcp_len a b : (lcp a b <= length a)%nat /\ (lcp a b <= length b)%nat.
Proof.
  revert b. induction a as [|x a IH]; intros [|y b]; cbn [lcp length]; try lia. destruct (x =? y); [|lia]. specialize (IH b). lia.
Qed.
Lemma lcp_sym a b : lcp a b = lcp b a.
Proof. revert b. induction a as [|x a IH]; intros [|y b]; cbn [lcp]; try reflexivity. rewrite Z.eqb_sym. destruct (y =? x); [rewrite IH|]; reflexivity. Qed.
Lemma lcp_pfx a b : pfx (firstn (lcp a b) a) b.
Proof.
  revert b. induction a as [|x a IH]; intros [|y b]; cbn [lcp firstn]; try apply pfx_nil.
  destruct (Z.eqb_spec x y) as [->|E]; [|apply pfx_nil]. cbn [firstn]. apply pfx_cons. split; [reflexivity|apply IH].
Qed.
Lemma pfx_lcp p a b : pfx p a -> pfx p b -> (length p <= lcp a b)%nat.
Proof.
  revert a b. induction p as [|x p IH]; intros a b H K; cbn [length]; [lia|].
  destruct a as [|y a]; [apply pfx_nil_r in H; discriminate|]. destruct b as [|z b]; [apply pfx_nil_r in K; discriminate|].
  apply pfx_cons in H, K. destruct H as [<- H], K as [<- K]. cbn [lcp]. rewrite Z.eqb_refl. specialize (IH a b H K). lia.
Qed.
Lemma lcp_firstn i a b : (i <= length a)%nat -> (pfx (firstn i a) b <-> (i <= lcp a b)%nat).
Proof.
  intros L. split; intros H.
  - pose proof (pfx_lcp _ a b (pfx_firstn i a) H) as G. rewrite firstn_len in G by exact L. exact G.
  - eapply pfx_trans; [|apply (lcp_pfx a b)]. replace i with (Nat.min i (lcp a b)) by lia. rewrite <- firstn_firstn. apply pfx_firstn.
Qed.
(** the anchor of a new leaf separates the two keys *)
Lemma lcp_anchor a b : klt a b -> (S (lcp a b) <= length b)%nat /\ klt a (firstn (S (lcp a b)) b).
Proof.
  revert b. induction a as [|x a IH]; intros [|y b] H.
  - destruct (klt_irrefl _ H).
  - cbn [lcp length firstn]. split; [lia|]. unfold klt. rewrite key_lt_nil_l. reflexivity.
  - unfold klt in H. rewrite key_lt_nil_r in H. discriminate.
  - apply klt_cons in H. cbn [lcp]. destruct (Z.eqb_spec x y) as [->|E].
    + destruct H as [H|[_ H]]; [lia|]. destruct (IH b H) as [G1 G2]. cbn [length]. split; [lia|]. cbn [firstn] in *. apply klt_cons. right. auto.
    + cbn [length]. split; [lia|]. change (firstn 1 (y :: b)) with [y]. apply klt_cons. left. lia.
Qed.
Lemma lcp_mid a n b : kle a n -> kle n b -> pfx (firstn (lcp a b) a) n.
Proof. intros H K. eapply pfx_mid; [apply pfx_firstn|apply (lcp_pfx a b)|exact H|exact K]. Qed.

Lemma bytes_nth k i b : bytes k -> nth_error k i = Some b -> 0 <= b < 256.
Proof. intros H E. unfold bytes in H. rewrite Forall_forall in H. apply H. eapply nth_error_In. exact E. Qed.
Lemma bytes_pfx p k : pfx p k -> bytes k -> bytes p.
Proof. intros [r ->] H. apply Forall_app in H. tauto. Qed.
Lemma key_eq_dec a b : key_eq a b = if key_dec a b then true else false.
Proof.
  destruct (key_dec a b) as [->|E]; [apply key_eq_refl|]. destruct (key_eq a b) eqn:F; [|reflexivity]. apply key_eq_iff in F. contradiction.
Qed.
