(** Abstract picture of a block: which slot holds which element.  A cell is
    [None] (empty) or [Some (p, x)]: an element of run [p] with slot value [x]. *)
From Coq Require Import ZArith List Bool Lia Permutation.
From Coq Require Import ZifyBool ZifyNat.
From Verif Require Import Base Util Store Bits View.
Import ListNotations.
Open Scope Z_scope.

(** ** Bounded search *)
Lemma last_true (f : Z -> bool) k hi : f k = true -> k <= hi ->
  exists e, k <= e <= hi /\ f e = true /\ forall i, e < i <= hi -> f i = false.
Proof.
  intros Hk Hle. remember (Z.to_nat (hi - k)) as n eqn:En. revert hi Hle En.
  induction n as [|n IH]; intros hi Hle En.
  - exists k. repeat split; try lia; auto.
  - destruct (f hi) eqn:E.
    + exists hi. repeat split; try lia; auto.
    + destruct (IH (hi - 1)) as (e & He & Hfe & Hz); [lia|lia|].
      exists e. repeat split; try lia; auto. intros i Hi.
      destruct (Z.eq_dec i hi) as [->|]; auto. apply Hz. lia.
Qed.
Lemma first_true (f : Z -> bool) lo k : f k = true -> lo <= k ->
  exists e, lo <= e <= k /\ f e = true /\ forall i, lo <= i < e -> f i = false.
Proof.
  intros Hk Hle. destruct (last_true (fun i => f (- i)) (- k) (- lo)) as (e & He & Hf & Hz); [|lia|].
  - rewrite Z.opp_involutive. exact Hk.
  - exists (- e). repeat split; try lia; auto. intros i Hi. rewrite <- (Z.opp_involutive i).
    apply Hz. lia.
Qed.

(** slot value without its lowest set bit: where the element's interval starts *)
Definition lbase (x : Z) : Z := x - lowbit x.

Definition cellf := Z -> option (Z * Z).
Definition full (cl : cellf) (i : Z) : Prop := cl i <> None.
Definition in_run (cl : cellf) (p i : Z) : bool :=
  match cl i with Some (q, _) => q =? p | None => false end.
Definition re_of (cl : cellf) (i : Z) : bool :=
  match cl i with
  | Some (p, _) => negb (in_run cl p (i + 1))
  | None => false
  end.
Definition sl_of (cl : cellf) (i : Z) : Z := match cl i with Some (_, x) => x | None => 0 end.

Fixpoint cont (cl : cellf) (a : Z) (n : nat) : list (Z * Z) :=
  match n with
  | O => []
  | S k => match cl a with Some x => [x] | None => [] end ++ cont cl (a + 1) k
  end.
Definition content (cl : cellf) (a b : Z) : list (Z * Z) := cont cl a (Z.to_nat (b - a)).

Lemma cont_ext f g n : forall a, (forall i, a <= i < a + Z.of_nat n -> f i = g i) -> cont f a n = cont g a n.
Proof.
  induction n as [|n IH]; intros a H; [reflexivity|]. cbn [cont]. rewrite H by lia. f_equal. apply IH. intros. apply H. lia.
Qed.
Lemma cont_app f n k : forall a, cont f a (n + k) = cont f a n ++ cont f (a + Z.of_nat n) k.
Proof.
  induction n as [|n IH]; intros a.
  - simpl. f_equal. lia.
  - cbn [cont plus]. rewrite IH, app_assoc. do 2 f_equal. lia.
Qed.
Lemma cont_shift f d n : forall a, cont (fun i => f (i + d)) a n = cont f (a + d) n.
Proof.
  induction n as [|n IH]; intros a; [reflexivity|]. cbn [cont]. rewrite IH. do 2 f_equal. lia.
Qed.
Lemma content_ext f g a b : (forall i, a <= i < b -> f i = g i) -> content f a b = content g a b.
Proof. intros H. apply cont_ext. intros. apply H. lia. Qed.
Lemma content_split f a b d : a <= b <= d -> content f a d = content f a b ++ content f b d.
Proof.
  intros. unfold content. replace (Z.to_nat (d - a)) with (Z.to_nat (b - a) + Z.to_nat (d - b))%nat by lia.
  rewrite cont_app. do 2 f_equal. lia.
Qed.
Lemma content_nil f a b : b <= a -> content f a b = [].
Proof. intros. unfold content. replace (Z.to_nat (b - a)) with O by lia. reflexivity. Qed.
Lemma content_one f a : content f a (a + 1) = match f a with Some x => [x] | None => [] end.
Proof. unfold content. replace (Z.to_nat (a + 1 - a)) with 1%nat by lia. simpl. apply app_nil_r. Qed.
Lemma content_cons f a b : a < b -> content f a b = match f a with Some x => [x] | None => [] end ++ content f (a + 1) b.
Proof. intros. rewrite (content_split f a (a + 1) b) by lia. rewrite content_one. reflexivity. Qed.
Lemma content_snoc f a b : a <= b -> content f a (b + 1) = content f a b ++ match f b with Some x => [x] | None => [] end.
Proof. intros. rewrite (content_split f a b (b + 1)) by lia. rewrite content_one. reflexivity. Qed.
Lemma content_shift f d a b : content (fun i => f (i + d)) a b = content f (a + d) (b + d).
Proof. unfold content. rewrite cont_shift. f_equal. lia. Qed.
Lemma cont_in f n y : forall a, In y (cont f a n) <-> exists i, a <= i < a + Z.of_nat n /\ f i = Some y.
Proof.
  induction n as [|n IH]; intros a.
  - simpl. split; [tauto|]. intros (i & Hi & _). lia.
  - cbn [cont]. rewrite in_app_iff, IH. split.
    + intros [H|(i & Hi & H)].
      * exists a. split; [lia|]. destruct (f a) as [z|]; [|contradiction]. destruct H as [<-|[]]. reflexivity.
      * exists i. split; [lia|auto].
    + intros (i & Hi & H). destruct (Z.eq_dec i a) as [->|].
      * left. rewrite H. left. reflexivity.
      * right. exists i. split; [lia|auto].
Qed.
Lemma content_in f a b y : In y (content f a b) <-> exists i, a <= i < b /\ f i = Some y.
Proof.
  unfold content. rewrite cont_in. split; intros (i & Hi & H); exists i; split; auto; lia.
Qed.
Lemma cont_length f n : forall a, (length (cont f a n) <= n)%nat.
Proof.
  induction n as [|n IH]; intros a; [simpl; lia|]. cbn [cont]. rewrite app_length. specialize (IH (a + 1)).
  destruct (f a); simpl; lia.
Qed.
Lemma cont_full f n : forall a, (forall i, a <= i < a + Z.of_nat n -> full f i) -> length (cont f a n) = n.
Proof.
  induction n as [|n IH]; intros a H; [reflexivity|]. cbn [cont]. rewrite app_length, IH by (intros; apply H; lia).
  specialize (H a ltac:(lia)). unfold full in H. destruct (f a); [simpl; lia|congruence].
Qed.
Lemma cont_empty f n : forall a, (forall i, a <= i < a + Z.of_nat n -> f i = None) -> cont f a n = [].
Proof.
  induction n as [|n IH]; intros a H; [reflexivity|]. cbn [cont]. rewrite H by lia. apply IH. intros. apply H. lia.
Qed.
Lemma content_empty f a b : (forall i, a <= i < b -> f i = None) -> content f a b = [].
Proof. intros. apply cont_empty. intros. apply H. lia. Qed.
Lemma content_not_full f a b : a <= b -> (Z.of_nat (length (content f a b)) < b - a) -> exists i, a <= i < b /\ f i = None.
Proof.
  intros Hab Hl. unfold content in Hl.
  assert (forall n a, (length (cont f a n) < n)%nat -> exists i, a <= i < a + Z.of_nat n /\ f i = None) as H.
  { clear. induction n as [|n IH]; intros a Hl; [simpl in Hl; lia|]. cbn [cont] in Hl. rewrite app_length in Hl.
    destruct (f a) eqn:E.
    - destruct (IH (a + 1)) as (i & Hi & Hf); [simpl in Hl; lia|]. exists i. split; [lia|auto].
    - exists a. split; [lia|auto]. }
  destruct (H (Z.to_nat (b - a)) a ltac:(lia)) as (i & Hi & Hf). exists i. split; [lia|auto].
Qed.

(** inserting by shifting right: the cells l..e-1 move to l+1..e, and cell e was empty *)
Lemma content_shr cl l e x S : 0 <= l <= e -> e < S -> cl e = None ->
  content (shr cl l e (Some x)) 0 S = content cl 0 l ++ x :: content cl l S.
Proof.
  intros Hl He Hn.
  rewrite (content_split _ 0 l S), (content_split _ l (l + 1) S), (content_split _ (l + 1) (e + 1) S) by lia.
  rewrite (content_ext (shr cl l e (Some x)) cl 0 l).
  2:{ intros i Hi. unfold shr. destruct (Z.eqb_spec i l); [exfalso; lia|]. destruct (Z.ltb_spec l i); [exfalso; lia|]. reflexivity. }
  rewrite content_one. unfold shr at 1. rewrite Z.eqb_refl.
  rewrite (content_ext (shr cl l e (Some x)) (fun i => cl (i + -1)) (l + 1) (e + 1)).
  2:{ intros i Hi. unfold shr. destruct (Z.eqb_spec i l); [exfalso; lia|]. destruct (Z.ltb_spec l i); [|exfalso; lia].
      destruct (Z.leb_spec i e); [|exfalso; lia]. reflexivity. }
  rewrite content_shift. replace (l + 1 + -1) with l by lia. replace (e + 1 + -1) with e by lia.
  rewrite (content_ext (shr cl l e (Some x)) cl (e + 1) S).
  2:{ intros i Hi. unfold shr. destruct (Z.eqb_spec i l); [exfalso; lia|]. destruct (Z.leb_spec i e); [exfalso; lia|].
      rewrite andb_false_r. reflexivity. }
  rewrite (content_split cl l e S), (content_cons cl e S) by lia. rewrite Hn. reflexivity.
Qed.
(** inserting by shifting left: the cells l..e-1 move to l-1..e-2, cell l-1 was empty *)
Lemma content_shl cl l e x S : 1 <= l <= e -> e <= S -> cl (l - 1) = None ->
  content (shl cl l e (Some x)) 0 S = content cl 0 e ++ x :: content cl e S.
Proof.
  intros Hl He Hn.
  rewrite (content_split _ 0 (l - 1) S), (content_split _ (l - 1) (e - 1) S), (content_split _ (e - 1) (e - 1 + 1) S) by lia.
  rewrite (content_ext (shl cl l e (Some x)) cl 0 (l - 1)).
  2:{ intros i Hi. unfold shl. destruct (Z.eqb_spec i (e - 1)); [exfalso; lia|]. destruct (Z.leb_spec (l - 1) i); [exfalso; lia|]. reflexivity. }
  rewrite content_one. unfold shl at 2. rewrite Z.eqb_refl.
  rewrite (content_ext (shl cl l e (Some x)) (fun i => cl (i + 1)) (l - 1) (e - 1)).
  2:{ intros i Hi. unfold shl. destruct (Z.eqb_spec i (e - 1)); [exfalso; lia|]. destruct (Z.leb_spec (l - 1) i); [|exfalso; lia].
      destruct (Z.ltb_spec i (e - 1)); [|exfalso; lia]. reflexivity. }
  rewrite content_shift. replace (l - 1 + 1) with l by lia. replace (e - 1 + 1) with e by lia.
  rewrite (content_ext (shl cl l e (Some x)) cl e S).
  2:{ intros i Hi. unfold shl. destruct (Z.eqb_spec i (e - 1)); [exfalso; lia|]. destruct (Z.ltb_spec i (e - 1)); [exfalso; lia|].
      rewrite andb_false_r. reflexivity. }
  rewrite (content_split cl 0 (l - 1) e), (content_cons cl (l - 1) e) by lia. rewrite Hn.
  replace (l - 1 + 1) with l by lia. simpl. rewrite <- app_assoc. reflexivity.
Qed.

Lemma full_dec cl i : {full cl i} + {cl i = None}.
Proof. unfold full. destruct (cl i); [left; congruence|right; reflexivity]. Qed.

Lemma full_some cl i : full cl i -> exists p x, cl i = Some (p, x).
Proof. unfold full. destruct (cl i) as [[p x]|]; [eauto|congruence]. Qed.

Lemma in_run_iff cl p i : in_run cl p i = true <-> exists x, cl i = Some (p, x).
Proof.
  unfold in_run. destruct (cl i) as [[q x]|]; split; intros H.
  - exists x. f_equal. f_equal. lia.
  - destruct H as (y & H). inversion H. lia.
  - discriminate.
  - destruct H as (y & H). discriminate.
Qed.

Lemma re_next cl i p x : cl i = Some (p, x) -> re_of cl i = false -> exists y, cl (i + 1) = Some (p, y).
Proof.
  unfold re_of. intros -> H. apply negb_false_iff in H. apply in_run_iff in H. exact H.
Qed.

Lemma re_full cl i : re_of cl i = true -> full cl i.
Proof. unfold re_of, full. destruct (cl i) as [[p x]|]; congruence. Qed.

Lemma extent_re cl p a e : (forall i, a <= i <= e -> in_run cl p i = true) ->
  (forall i, in_run cl p i = true -> a <= i <= e) -> a <= e ->
  re_of cl e = true /\ forall i, a <= i < e -> re_of cl i = false.
Proof.
  intros Hin Hout Hae. split.
  - pose proof (Hin e ltac:(lia)) as He. apply in_run_iff in He as (x & E). unfold re_of. rewrite E.
    destruct (in_run cl p (e + 1)) eqn:E1; auto. apply Hout in E1. lia.
  - intros i Hi. pose proof (Hin i ltac:(lia)) as He. apply in_run_iff in He as (x & E). unfold re_of. rewrite E.
    rewrite Hin by lia. reflexivity.
Qed.

Lemma in_run_shr cl l e p x q i : in_run (shr cl l e (Some (p, x))) q i =
  if i =? l then p =? q else if (l <? i) && (i <=? e) then in_run cl q (i - 1) else in_run cl q i.
Proof. unfold in_run, shr. destruct (i =? l); [reflexivity|]. destruct ((l <? i) && (i <=? e)); reflexivity. Qed.

Lemma in_run_shl cl l e p x q i : in_run (shl cl l e (Some (p, x))) q i =
  if i =? e - 1 then p =? q else if (l - 1 <=? i) && (i <? e - 1) then in_run cl q (i + 1) else in_run cl q i.
Proof. unfold in_run, shl. destruct (i =? e - 1); [reflexivity|]. destruct ((l - 1 <=? i) && (i <? e - 1)); reflexivity. Qed.

Lemma occ_shr cl l e p x q : 0 <= l <= e -> cl e = None ->
  (exists i, in_run (shr cl l e (Some (p, x))) q i = true) <-> q = p \/ exists i, in_run cl q i = true.
Proof.
  intros Hl Hn. split.
  - intros (i & Hi). rewrite in_run_shr in Hi. destruct (i =? l); [left; lia|].
    destruct ((l <? i) && (i <=? e)); right; eauto.
  - intros [->|(i & Hi)].
    + exists l. rewrite in_run_shr, Z.eqb_refl. lia.
    + destruct (Z.leb_spec l i), (Z.ltb_spec i e).
      * exists (i + 1). rewrite in_run_shr. destruct (Z.eqb_spec (i + 1) l); [exfalso; lia|].
        destruct (Z.ltb_spec l (i + 1)); [|exfalso; lia]. destruct (Z.leb_spec (i + 1) e); [|exfalso; lia]. simpl.
        replace (i + 1 - 1) with i by lia. exact Hi.
      * exists i. rewrite in_run_shr. assert (i <> e). { intros ->. unfold in_run in Hi. rewrite Hn in Hi. discriminate. }
        destruct (Z.eqb_spec i l); [exfalso; lia|]. destruct (Z.leb_spec i e); [exfalso; lia|]. rewrite andb_false_r. exact Hi.
      * exists i. rewrite in_run_shr. destruct (Z.eqb_spec i l); [exfalso; lia|]. destruct (Z.ltb_spec l i); [exfalso; lia|]. exact Hi.
      * exfalso; lia.
Qed.

Lemma occ_shl cl l e p x q : 1 <= l <= e -> cl (l - 1) = None ->
  (exists i, in_run (shl cl l e (Some (p, x))) q i = true) <-> q = p \/ exists i, in_run cl q i = true.
Proof.
  intros Hl Hn. split.
  - intros (i & Hi). rewrite in_run_shl in Hi. destruct (i =? e - 1); [left; lia|].
    destruct ((l - 1 <=? i) && (i <? e - 1)); right; eauto.
  - intros [->|(i & Hi)].
    + exists (e - 1). rewrite in_run_shl, Z.eqb_refl. lia.
    + destruct (Z.leb_spec l i), (Z.ltb_spec i e).
      * exists (i - 1). rewrite in_run_shl. destruct (Z.eqb_spec (i - 1) (e - 1)); [exfalso; lia|].
        destruct (Z.leb_spec (l - 1) (i - 1)); [|exfalso; lia]. destruct (Z.ltb_spec (i - 1) (e - 1)); [|exfalso; lia]. simpl.
        replace (i - 1 + 1) with i by lia. exact Hi.
      * exists i. rewrite in_run_shl. destruct (Z.eqb_spec i (e - 1)); [exfalso; lia|].
        destruct (Z.ltb_spec i (e - 1)); [exfalso; lia|]. rewrite andb_false_r. exact Hi.
      * exists i. rewrite in_run_shl. assert (i <> l - 1). { intros ->. unfold in_run in Hi. rewrite Hn in Hi. discriminate. }
        destruct (Z.eqb_spec i (e - 1)); [exfalso; lia|]. destruct (Z.leb_spec (l - 1) i); [exfalso; lia|]. exact Hi.
      * exfalso; lia.
Qed.

Section Cells.
Variables (s S : Z) (m : Z -> Z).

Record wf (cl : cellf) : Prop := {
  w_dom : forall i p x, cl i = Some (p, x) -> 0 <= i < S /\ 0 <= p < 1024 /\ 0 < x < 2 ^ s;
  w_mono : forall i j p x q y, i < j -> cl i = Some (p, x) -> cl j = Some (q, y) ->
             p < q \/ (p = q /\ lbase x <= lbase y);
  w_place : forall i p x, cl i = Some (p, x) ->
             (m p <= i /\ forall j, m p <= j <= i -> full cl j) \/
             (i < m p /\ forall j, i <= j < S -> full cl j)
}.
Record agree (cl : cellf) (o r : Z -> bool) (v : Z -> Z) (a0 a1 : Z) : Prop := {
  a_occ : forall p, 0 <= p < 1024 -> (o p = true <-> exists i, in_run cl p i = true);
  a_re : forall i, 0 <= i < S -> r i = re_of cl i;
  a_sl : forall i, 0 <= i < S -> v i = sl_of cl i;
  a_p0 : a0 = count o 0 512;
  a_p1 : a1 = count r 0 (Z.min 512 S)
}.

Lemma wf_out cl i : wf cl -> ~ (0 <= i < S) -> cl i = None.
Proof. intros H Hi. destruct (cl i) as [[p x]|] eqn:E; auto. apply (w_dom _ H) in E. tauto. Qed.
Lemma full_in cl i : wf cl -> full cl i -> 0 <= i < S.
Proof. intros H Hi. destruct (full_some _ _ Hi) as (p & x & E). apply (w_dom _ H) in E. tauto. Qed.

Lemma run_le cl i j p x q y : wf cl -> i <= j -> cl i = Some (p, x) -> cl j = Some (q, y) -> p <= q.
Proof.
  intros H Hij Hi Hj. destruct (Z.eq_dec i j) as [->|].
  - rewrite Hi in Hj. inversion Hj. lia.
  - destruct (w_mono _ H i j p x q y); auto; lia.
Qed.

Lemma run_between cl i j k p x y : wf cl -> i <= j <= k -> cl i = Some (p, x) -> cl k = Some (p, y) ->
  exists z, cl j = Some (p, z).
Proof.
  intros H Hj Hi Hk.
  assert (Hf : full cl j).
  { pose proof (w_dom _ H _ _ _ Hk). destruct (w_place _ H _ _ _ Hi) as [[Hm _]|[Hm Hf]].
    - destruct (w_place _ H _ _ _ Hk) as [[Hm' Hf]|[Hm' _]]; [apply Hf; lia|lia].
    - apply Hf. lia. }
  destruct (full_some _ _ Hf) as (q & z & E). exists z.
  pose proof (run_le _ _ _ _ _ _ _ H (proj1 Hj) Hi E).
  pose proof (run_le _ _ _ _ _ _ _ H (proj2 Hj) E Hk).
  rewrite E. f_equal. f_equal. lia.
Qed.


(** the run of an occupied [p] is an interval *)
Lemma run_extent cl p : wf cl -> (exists i, in_run cl p i = true) ->
  exists a e, 0 <= a <= e /\ e < S /\ (forall i, a <= i <= e -> in_run cl p i = true) /\
              (forall i, in_run cl p i = true -> a <= i <= e).
Proof.
  intros H (k & Hk). pose proof Hk as Hk'. apply in_run_iff in Hk' as (x & Ex). pose proof (w_dom _ H _ _ _ Ex).
  destruct (last_true (in_run cl p) k (S - 1) Hk ltac:(lia)) as (e & He & Hre & Hze).
  destruct (first_true (in_run cl p) 0 k Hk ltac:(lia)) as (a & Ha & Hra & Hza).
  exists a, e. split; [lia|]. split; [lia|]. split.
  - intros i Hi. apply in_run_iff in Hre as (y & Ey). apply in_run_iff in Hra as (z & Ez).
    apply in_run_iff. apply (run_between cl a i e p z y); auto.
  - intros i Hi. pose proof Hi as Hi'. apply in_run_iff in Hi' as (y & Ey). apply (w_dom _ H) in Ey.
    split.
    + destruct (Z.leb_spec a i); auto. rewrite Hza in Hi by lia. discriminate.
    + destruct (Z.leb_spec i e); auto. rewrite Hze in Hi by lia. discriminate.
Qed.

(** number of runends before a position = number of occupied runs before a run *)
Lemma rank_select cl o : wf cl ->
  (forall p, 0 <= p < 1024 -> (o p = true <-> exists i, in_run cl p i = true)) ->
  forall j p, 0 <= j <= S -> 0 <= p <= 1024 ->
  (forall i q x, j <= i -> cl i = Some (q, x) -> p <= q) ->
  (forall q, p <= q < 1024 -> o q = true -> exists i, j <= i /\ in_run cl q i = true) ->
  count (re_of cl) 0 j = count o 0 p.
Proof.
  intros H Ho j p Hj. remember (Z.to_nat j) as n eqn:En. revert j p Hj En.
  induction n as [|n IH]; intros j p Hj En Hp H1 H2.
  - replace j with 0 in * by lia. rewrite count_nil by lia. symmetry. apply count_false. intros q Hq.
    destruct (o q) eqn:E; auto. apply Ho in E; [|lia]. destruct E as (i & E). apply in_run_iff in E as (x & E).
    pose proof (w_dom _ H _ _ _ E). specialize (H1 i q x ltac:(lia) E). lia.
  - replace j with ((j - 1) + 1) by lia. rewrite count_snoc by lia. set (k := j - 1) in *.
    replace j with (k + 1) in * by lia.
    destruct (cl k) as [[q x]|] eqn:Ek.
    + pose proof (w_dom _ H _ _ _ Ek) as (_ & Hq & _).
      destruct (Z.leb_spec p q) as [Hle|Hlt].
      * (* the run goes on *)
        assert (Hoq : o q = true). { apply Ho; auto. exists k. apply in_run_iff. eauto. }
        destruct (H2 q ltac:(lia) Hoq) as (i & Hi & Hri). apply in_run_iff in Hri as (y & Ey).
        destruct (run_between cl k (k + 1) i q x y H ltac:(lia) Ek Ey) as (z & Ez).
        unfold re_of at 2. rewrite Ek. assert (in_run cl q (k + 1) = true) as -> by (apply in_run_iff; eauto).
        simpl. rewrite Z.add_0_r. apply IH; try lia.
        -- intros i' q' x' Hi' E'. destruct (Z.eq_dec i' k) as [->|].
           ++ rewrite Ek in E'. inversion E'. lia.
           ++ apply (H1 i' q' x'); auto; lia.
        -- intros q' Hq' Hoq'. destruct (H2 q' Hq' Hoq') as (i' & Hi' & Hr'). exists i'. split; [lia|auto].
      * (* the run ends at k *)
        unfold re_of at 2. rewrite Ek.
        assert (in_run cl q (k + 1) = false) as ->.
        { destruct (in_run cl q (k + 1)) eqn:E; auto. apply in_run_iff in E as (y & E).
          specialize (H1 _ _ _ (Z.le_refl _) E). lia. }
        simpl. rewrite (count_split o 0 (q + 1) p), count_snoc by lia.
        assert (Hoq : o q = true). { apply Ho; auto. exists k. apply in_run_iff. eauto. }
        assert (Hz : forall q', q < q' < p -> o q' = false).
        { intros q' Hq'. destruct (o q') eqn:E; auto. apply Ho in E; [|lia]. destruct E as (i & E).
          apply in_run_iff in E as (y & E).
          destruct (Z.leb_spec (k + 1) i); [specialize (H1 _ _ _ H0 E); lia|].
          pose proof (run_le _ i k _ _ _ _ H ltac:(lia) E Ek). lia. }
        rewrite (count_false o (q + 1) p) by (intros; apply Hz; lia). rewrite Hoq. simpl.
        rewrite (IH k q); try lia.
        -- intros i' q' x' Hi' E'. apply (run_le _ k i' _ _ _ _ H Hi' Ek E').
        -- intros q' Hq' Hoq'. destruct (Z.eq_dec q' q) as [->|].
           ++ exists k. split; [lia|]. apply in_run_iff. eauto.
           ++ destruct (Z.leb_spec p q').
              ** destruct (H2 q' ltac:(lia) Hoq') as (i' & Hi' & Hr'). exists i'. split; [lia|auto].
              ** rewrite Hz in Hoq' by lia. discriminate.
    + unfold re_of at 2. rewrite Ek. simpl. rewrite Z.add_0_r. apply IH; try lia.
      * intros i' q' x' Hi' E'. destruct (Z.eq_dec i' k) as [->|]; [congruence|]. apply (H1 i' q' x'); auto; lia.
      * intros q' Hq' Hoq'. destruct (H2 q' Hq' Hoq') as (i' & Hi' & Hr'). exists i'. split; [lia|auto].
Qed.

Lemma runend_rank cl o p e : wf cl ->
  (forall p, 0 <= p < 1024 -> (o p = true <-> exists i, in_run cl p i = true)) ->
  in_run cl p e = true -> (forall i, in_run cl p i = true -> i <= e) ->
  count (re_of cl) 0 e = count o 0 p.
Proof.
  intros H Ho He Hmax. apply in_run_iff in He as (x & E). pose proof (w_dom _ H _ _ _ E).
  apply rank_select; auto; try lia.
  - intros i q y Hi Ei. apply (run_le _ e i _ _ _ _ H Hi E Ei).
  - intros q Hq Hoq. destruct (Z.eq_dec q p) as [->|].
    + exists e. split; [lia|]. apply in_run_iff. eauto.
    + apply Ho in Hoq; [|lia]. destruct Hoq as (i & Hi). exists i. split; auto.
      apply in_run_iff in Hi as (y & Ey). destruct (Z.leb_spec e i); auto.
      pose proof (run_le _ i e _ _ _ _ H ltac:(lia) Ey E). lia.
Qed.

(** ** Inserting one element *)
Definition before (p x : Z) (c : Z * Z) : Prop := fst c < p \/ (fst c = p /\ lbase (snd c) <= lbase x).
Definition after (p x : Z) (c : Z * Z) : Prop := p < fst c \/ (p = fst c /\ lbase x <= lbase (snd c)).

Lemma wf_shr cl l e p x : wf cl -> 0 <= l <= e -> e < S -> cl e = None ->
  0 <= p < 1024 -> 0 < x < 2 ^ s ->
  (forall i, l <= i < e -> full cl i) ->
  (forall i c, i < l -> cl i = Some c -> before p x c) ->
  (forall i c, l <= i -> cl i = Some c -> after p x c) ->
  m p <= l -> (forall i, m p <= i < l -> full cl i) ->
  wf (shr cl l e (Some (p, x))).
Proof.
  intros H Hl He Hn Hp Hx Hfull Hb Ha Hm Hmf.
  (* each new cell comes from an old one or is the new element *)
  assert (Hsrc : forall i q y, shr cl l e (Some (p, x)) i = Some (q, y) ->
            (i = l /\ q = p /\ y = x) \/ (l < i <= e /\ cl (i - 1) = Some (q, y)) \/
            ((i < l \/ e < i) /\ cl i = Some (q, y))).
  { intros i q y. unfold shr. destruct (Z.eqb_spec i l).
    - intros E. inversion E. auto.
    - destruct (Z.ltb_spec l i), (Z.leb_spec i e); simpl; intros E; [right; left|right; right..]; split; auto; lia. }
  assert (Hfl : forall i, full cl i \/ l <= i <= e -> full (shr cl l e (Some (p, x))) i).
  { intros i Hi. unfold full, shr. destruct (Z.eqb_spec i l); [discriminate|].
    destruct (Z.ltb_spec l i), (Z.leb_spec i e); simpl; try (destruct Hi as [Hi|Hi]; [exact Hi|lia]).
    apply Hfull. lia. }
  constructor.
  - intros i q y E. destruct (Hsrc i q y E) as [(-> & -> & ->)|[(Hi & E')|(Hi & E')]].
    + lia. + pose proof (w_dom _ H _ _ _ E'). lia. + apply (w_dom _ H _ _ _ E').
  - intros i j q y q' y' Hij Ei Ej.
    destruct (Hsrc i q y Ei) as [(-> & -> & ->)|[(Hi & Ei')|(Hi & Ei')]];
    destruct (Hsrc j q' y' Ej) as [(-> & -> & ->)|[(Hj & Ej')|(Hj & Ej')]]; try (exfalso; lia).
    + apply Ha in Ej'; [|lia]. unfold after in Ej'. simpl in Ej'. lia.
    + apply Ha in Ej'; [|lia]. unfold after in Ej'. simpl in Ej'. lia.
    + apply (w_mono _ H (i - 1) (j - 1) q y q' y'); auto; lia.
    + apply (w_mono _ H (i - 1) j q y q' y'); auto; lia.
    + apply Hb in Ei'; [|lia]. unfold before in Ei'. simpl in Ei'. lia.
    + apply (w_mono _ H i (j - 1) q y q' y'); auto.
      destruct (Z.eq_dec i (j - 1)); [|lia]. lia.
    + apply (w_mono _ H i j q y q' y'); auto.
  - intros i q y E. destruct (Hsrc i q y E) as [(-> & -> & ->)|[(Hi & E')|(Hi & E')]].
    + left. split; [lia|]. intros j Hj. apply Hfl.
      destruct (Z.eq_dec j l); [right; lia|left; apply Hmf; lia].
    + destruct (w_place _ H _ _ _ E') as [[Hm' Hf]|[Hm' Hf]].
      * left. split; [lia|]. intros j Hj. apply Hfl.
        destruct (Z.eq_dec j i); [right; lia|left; apply Hf; lia].
      * exfalso. apply (Hf e); [lia|exact Hn].
    + destruct (w_place _ H _ _ _ E') as [[Hm' Hf]|[Hm' Hf]].
      * left. split; [lia|]. intros j Hj. apply Hfl. left. apply Hf. lia.
      * right. split; [lia|]. intros j Hj. apply Hfl. left. apply Hf. lia.
Qed.

Lemma wf_shl cl l e p x : wf cl -> 1 <= l <= e -> e <= S -> cl (l - 1) = None ->
  0 <= p < 1024 -> 0 < x < 2 ^ s ->
  (forall i, l <= i < S -> full cl i) ->
  (forall i c, i < e -> cl i = Some c -> before p x c) ->
  (forall i c, e <= i -> cl i = Some c -> after p x c) ->
  l - 1 < m p ->
  wf (shl cl l e (Some (p, x))).
Proof.
  intros H Hl He Hn Hp Hx Hfull Hb Ha Hm.
  assert (Hsrc : forall i q y, shl cl l e (Some (p, x)) i = Some (q, y) ->
            (i = e - 1 /\ q = p /\ y = x) \/ (l - 1 <= i < e - 1 /\ cl (i + 1) = Some (q, y)) \/
            ((i < l - 1 \/ e <= i) /\ cl i = Some (q, y))).
  { intros i q y. unfold shl. destruct (Z.eqb_spec i (e - 1)).
    - intros E. inversion E. auto.
    - destruct (Z.leb_spec (l - 1) i), (Z.ltb_spec i (e - 1)); simpl; intros E; [right; left|right; right..]; split; auto; lia. }
  assert (Hfl : forall i, full cl i \/ l - 1 <= i < S -> full (shl cl l e (Some (p, x))) i).
  { intros i Hi. unfold full, shl. destruct (Z.eqb_spec i (e - 1)); [discriminate|].
    destruct (Z.leb_spec (l - 1) i), (Z.ltb_spec i (e - 1)); simpl.
    - apply Hfull. lia.
    - destruct Hi as [Hi|Hi]; [exact Hi|apply Hfull; lia].
    - destruct Hi as [Hi|Hi]; [exact Hi|lia].
    - destruct Hi as [Hi|Hi]; [exact Hi|lia]. }
  constructor.
  - intros i q y E. destruct (Hsrc i q y E) as [(-> & -> & ->)|[(Hi & E')|(Hi & E')]].
    + lia. + pose proof (w_dom _ H _ _ _ E'). lia. + apply (w_dom _ H _ _ _ E').
  - intros i j q y q' y' Hij Ei Ej.
    destruct (Hsrc i q y Ei) as [(-> & -> & ->)|[(Hi & Ei')|(Hi & Ei')]];
    destruct (Hsrc j q' y' Ej) as [(-> & -> & ->)|[(Hj & Ej')|(Hj & Ej')]]; try (exfalso; lia).
    + apply Ha in Ej'; [|lia]. unfold after in Ej'. simpl in Ej'. lia.
    + apply Hb in Ei'; [|lia]. unfold before in Ei'. simpl in Ei'. lia.
    + apply (w_mono _ H (i + 1) (j + 1) q y q' y'); auto; lia.
    + apply (w_mono _ H (i + 1) j q y q' y'); auto; lia.
    + apply Hb in Ei'; [|lia]. unfold before in Ei'. simpl in Ei'. lia.
    + apply (w_mono _ H i (j + 1) q y q' y'); auto; lia.
    + apply (w_mono _ H i j q y q' y'); auto.
  - intros i q y E. destruct (Hsrc i q y E) as [(-> & -> & ->)|[(Hi & E')|(Hi & E')]].
    + destruct (Z.leb_spec (m p) (e - 1)).
      * left. split; [lia|]. intros j Hj. apply Hfl. lia.
      * right. split; [lia|]. intros j Hj. apply Hfl. lia.
    + pose proof (w_dom _ H _ _ _ E').
      destruct (Z.leb_spec (m q) i).
      * left. split; [lia|]. intros j Hj. apply Hfl. right.
        destruct (w_place _ H _ _ _ E') as [[Hm' Hf]|[Hm' Hf]]; [|lia].
        destruct (Z.leb_spec (l - 1) j); [lia|]. exfalso. apply (Hf (l - 1)); [lia|exact Hn].
      * right. split; [lia|]. intros j Hj. apply Hfl. lia.
    + destruct (w_place _ H _ _ _ E') as [[Hm' Hf]|[Hm' Hf]].
      * left. split; [lia|]. intros j Hj. apply Hfl. left. apply Hf. lia.
      * right. split; [lia|]. intros j Hj. apply Hfl. left. apply Hf. lia.
Qed.

(** ** The runends bitmap after an insertion *)

(** no run continues over an empty cell *)
Lemma gap cl i j k q : wf cl -> i < j < k -> cl j = None -> in_run cl q i = true -> in_run cl q k = false.
Proof.
  intros H Hj Hn Hi. destruct (in_run cl q k) eqn:E; auto.
  apply in_run_iff in E as (y & E). apply in_run_iff in Hi as (x & Ei).
  destruct (run_between cl i j k q x y H ltac:(lia) Ei E). congruence.
Qed.

(** new element of a run that already exists, at place [l] of it *)
Lemma re_shr_old cl l e p x a b : wf cl -> l <= e -> e < S -> cl e = None ->
  a <= b -> (forall i, a <= i <= b -> in_run cl p i = true) -> (forall i, in_run cl p i = true -> a <= i <= b) ->
  a <= l <= b + 1 -> (forall i, l <= i < e -> full cl i) -> b < e ->
  forall i, 0 <= i < S -> re_of (shr cl l e (Some (p, x))) i = shr (re_of cl) b e false i.
Proof.
  intros H Hle He Hn Hab Hin Hout Hl Hfull Hbe i Hi.
  destruct (extent_re cl p a b Hin Hout Hab) as [Hrb Hra].
  unfold re_of at 1, shr at 1.
  destruct (Z.eqb_spec i l) as [->|Hil].
  - (* the new cell *)
    rewrite in_run_shr. unfold shr.
    destruct (Z.eqb_spec (l + 1) l); [exfalso; lia|].
    destruct (Z.ltb_spec l (l + 1)); [|exfalso; lia]. simpl.
    destruct (Z.leb_spec (l + 1) e).
    + replace (l + 1 - 1) with l by lia. destruct (Z.eqb_spec l b) as [->|].
      * rewrite Hin by lia. reflexivity.
      * destruct (Z.ltb_spec b l); simpl.
        -- (* l = b + 1 *) destruct (Z.leb_spec l e); [|exfalso; lia].
           assert (in_run cl p l = false) as ->. { destruct (in_run cl p l) eqn:E; auto. apply Hout in E. lia. }
           replace (l - 1) with b by lia. rewrite Hrb. reflexivity.
        -- rewrite Hin by lia. rewrite Hra by lia. reflexivity.
    + assert (l = e) by lia. subst l. assert (e = b + 1) by lia.
      destruct (Z.eqb_spec e b); [exfalso; lia|]. destruct (Z.ltb_spec b e); [|exfalso; lia]. simpl.
      destruct (Z.leb_spec e e); [|exfalso; lia]. replace (e - 1) with b by lia. rewrite Hrb.
      assert (in_run cl p (e + 1) = false) as ->. { destruct (in_run cl p (e + 1)) eqn:E; auto. apply Hout in E. lia. }
      reflexivity.
  - destruct (Z.ltb_spec l i) as [Hli|Hli]; simpl.
    + destruct (Z.leb_spec i e) as [Hie|Hie].
      * (* a moved cell *)
        destruct (full_some cl (i - 1)) as (q & y & E). { apply Hfull. lia. }
        rewrite E. rewrite in_run_shr.
        destruct (Z.eqb_spec (i + 1) l); [exfalso; lia|]. destruct (Z.ltb_spec l (i + 1)); [|exfalso; lia].
        unfold shr. destruct (Z.eqb_spec i b) as [->|Hib].
        -- assert (q = p). { specialize (Hin (b - 1) ltac:(lia)). apply in_run_iff in Hin as (z & Ez). congruence. }
           subst q. simpl. destruct (Z.leb_spec (b + 1) e).
           ++ replace (b + 1 - 1) with b by lia. rewrite Hin by lia. reflexivity.
           ++ exfalso; lia.
        -- destruct (Z.ltb_spec b i); simpl.
           ++ destruct (Z.leb_spec i e); [|exfalso; lia].
              unfold re_of. rewrite E. f_equal. replace (i - 1 + 1) with i by lia.
              destruct (Z.leb_spec (i + 1) e).
              ** f_equal. lia.
              ** assert (i = e) by lia. subst i.
                 assert (in_run cl q e = false) as ->. { unfold in_run. rewrite Hn. reflexivity. }
                 apply (gap cl (e - 1) e (e + 1)); auto; [lia|]. apply in_run_iff. eauto.
           ++ assert (q = p). { specialize (Hin (i - 1) ltac:(lia)). apply in_run_iff in Hin as (z & Ez). congruence. }
              subst q. destruct (Z.leb_spec (i + 1) e); [|exfalso; lia]. replace (i + 1 - 1) with i by lia.
              rewrite Hin by lia. rewrite Hra by lia. reflexivity.
      * (* right of the shift *)
        unfold shr at 2. destruct (Z.eqb_spec i b); [exfalso; lia|]. destruct (Z.leb_spec i e); [exfalso; lia|].
        rewrite andb_false_r. unfold re_of. destruct (cl i) as [[q y]|]; auto. f_equal. rewrite in_run_shr.
        destruct (Z.eqb_spec (i + 1) l); [exfalso; lia|]. destruct (Z.leb_spec (i + 1) e); [exfalso; lia|].
        rewrite andb_false_r. reflexivity.
    + (* left of the new cell *)
      unfold shr at 2. destruct (Z.eqb_spec i b) as [->|Hib].
      { assert (l = b + 1) by lia. subst l. pose proof (Hin b ltac:(lia)) as Hp'. apply in_run_iff in Hp' as (z & Ez).
        rewrite Ez, in_run_shr, Z.eqb_refl, Z.eqb_refl. reflexivity. }
      destruct (Z.ltb_spec b i); [exfalso; lia|]. simpl. unfold re_of.
      destruct (cl i) as [[q y]|] eqn:E; auto. f_equal. rewrite in_run_shr.
      destruct (Z.eqb_spec (i + 1) l).
      * subst l. destruct (Z.leb_spec a i).
        -- pose proof (Hin i ltac:(lia)) as Hp'. apply in_run_iff in Hp' as (z & Ez). assert (q = p) by congruence. subst q.
           rewrite Z.eqb_refl. symmetry. apply Hin. lia.
        -- assert (q <> p). { intros ->. assert (HX : in_run cl p i = true) by (apply in_run_iff; eauto). apply Hout in HX. lia. }
           destruct (Z.eqb_spec p q); [exfalso; lia|]. symmetry.
           destruct (in_run cl q (i + 1)) eqn:E'; auto. exfalso.
           assert (HX : in_run cl p (i + 1) = true) by (apply Hin; lia).
           apply in_run_iff in E' as (z & E'). apply in_run_iff in HX as (z' & HX). congruence.
      * destruct (Z.ltb_spec l (i + 1)); [exfalso; lia|]. reflexivity.
Qed.

(** a new run at place [l] *)
Lemma re_shr_new cl l e p x : wf cl -> l <= e -> e < S -> cl e = None ->
  (forall i, in_run cl p i = false) -> (forall i, l <= i < e -> full cl i) ->
  (forall i q y, i < l -> cl i = Some (q, y) -> in_run cl q l = false) ->
  forall i, 0 <= i < S -> re_of (shr cl l e (Some (p, x))) i = updb (shr (re_of cl) l e false) l true i.
Proof.
  intros H Hle He Hn Hnp Hfull Hsep i Hi. unfold re_of at 1, shr at 1, updb, shr at 2.
  destruct (Z.eqb_spec i l) as [->|Hil].
  - rewrite in_run_shr. destruct (Z.eqb_spec (l + 1) l); [exfalso; lia|].
    rewrite !Hnp. destruct ((l <? l + 1) && (l + 1 <=? e)); reflexivity.
  - destruct (Z.ltb_spec l i) as [Hli|Hli]; simpl.
    + destruct (Z.leb_spec i e) as [Hie|Hie].
      * destruct (full_some cl (i - 1)) as (q & y & E). { apply Hfull. lia. }
        rewrite E. rewrite in_run_shr. unfold re_of. rewrite E.
        destruct (Z.eqb_spec (i + 1) l); [exfalso; lia|]. destruct (Z.ltb_spec l (i + 1)); [|exfalso; lia]. simpl.
        f_equal. replace (i - 1 + 1) with i by lia. destruct (Z.leb_spec (i + 1) e).
        -- f_equal. lia.
        -- assert (i = e) by lia. subst i.
           assert (in_run cl q e = false) as ->. { unfold in_run. rewrite Hn. reflexivity. }
           apply (gap cl (e - 1) e (e + 1)); auto; [lia|]. apply in_run_iff. eauto.
      * unfold re_of. destruct (cl i) as [[q y]|]; auto. f_equal. rewrite in_run_shr.
        destruct (Z.eqb_spec (i + 1) l); [exfalso; lia|]. destruct (Z.leb_spec (i + 1) e); [exfalso; lia|].
        rewrite andb_false_r. reflexivity.
    + unfold re_of. destruct (cl i) as [[q y]|] eqn:E; auto. f_equal. rewrite in_run_shr.
      destruct (Z.eqb_spec (i + 1) l).
      * subst l. assert (q <> p). { intros ->. specialize (Hnp i). assert (in_run cl p i = true) by (apply in_run_iff; eauto). congruence. }
        destruct (Z.eqb_spec p q); [exfalso; lia|]. symmetry. apply (Hsep i q y); auto. lia.
      * destruct (Z.ltb_spec l (i + 1)); [exfalso; lia|]. reflexivity.
Qed.

(** the same two, shifting left *)
Lemma re_shl_old cl l e p x a b : wf cl -> 1 <= l -> l <= a -> a <= e <= b + 1 -> b < S -> cl (l - 1) = None ->
  a <= b -> (forall i, a <= i <= b -> in_run cl p i = true) -> (forall i, in_run cl p i = true -> a <= i <= b) ->
  (forall i, l <= i < S -> full cl i) ->
  forall i, 0 <= i < S -> re_of (shl cl l e (Some (p, x))) i = shl (re_of cl) l (Z.min b e) false i.
Proof.
  intros H Hl1 Hla He Hb Hn Hab Hin Hout Hfull i Hi.
  destruct (extent_re cl p a b Hin Hout Hab) as [Hrb Hra].
  set (t := Z.min b e).
  unfold re_of at 1, shl at 1.
  destruct (Z.eqb_spec i (e - 1)) as [->|Hie].
  - rewrite in_run_shl. destruct (Z.eqb_spec (e - 1 + 1) (e - 1)); [exfalso; lia|].
    destruct (Z.ltb_spec (e - 1 + 1) (e - 1)); [exfalso; lia|]. rewrite andb_false_r.
    replace (e - 1 + 1) with e by lia. unfold shl.
    destruct (Z.leb_spec e b).
    + replace t with e by lia. rewrite Z.eqb_refl. rewrite Hin by lia. reflexivity.
    + assert (e = b + 1) by lia. subst e. replace t with b by lia.
      destruct (Z.eqb_spec (b + 1 - 1) (b - 1)); [exfalso; lia|].
      destruct (Z.ltb_spec (b + 1 - 1) (b - 1)); [exfalso; lia|]. rewrite andb_false_r.
      replace (b + 1 - 1) with b by lia. rewrite Hrb.
      destruct (in_run cl p (b + 1)) eqn:E; auto. apply Hout in E. lia.
  - destruct (Z.leb_spec (l - 1) i) as [Hli|Hli]; simpl.
    + destruct (Z.ltb_spec i (e - 1)) as [Hlt|Hge].
      * (* moved *)
        destruct (full_some cl (i + 1)) as (q & y & E). { apply Hfull. lia. }
        rewrite E, in_run_shl. unfold shl.
        destruct (Z.eqb_spec i (t - 1)).
        -- (* only when e = b + 1 and i = b - 1 *)
           assert (e = b + 1) by lia. assert (i = b - 1) by lia. subst i e.
           assert (q = p). { specialize (Hin (b - 1 + 1) ltac:(lia)). apply in_run_iff in Hin as (z & Ez). congruence. }
           subst q. destruct (Z.eqb_spec (t - 1 + 1) (b + 1 - 1)); [|exfalso; lia]. rewrite Z.eqb_refl. reflexivity.
        -- destruct (Z.leb_spec (l - 1) i); [|exfalso; lia]. destruct (Z.ltb_spec i (t - 1)); [|exfalso; lia]. simpl.
           unfold re_of. rewrite E. f_equal.
           destruct (Z.eqb_spec (i + 1) (e - 1)).
           ++ (* next is the new cell *)
              assert (i + 1 + 1 = e) by lia. rewrite H2. destruct (Z.leb_spec a (i + 1)).
              ** assert (q = p). { specialize (Hin (i + 1) ltac:(lia)). apply in_run_iff in Hin as (z & Ez). congruence. }
                 subst q. rewrite Z.eqb_refl. symmetry. apply Hin. lia.
              ** assert (q <> p). { intros ->. assert (HX : in_run cl p (i + 1) = true) by (apply in_run_iff; eauto). apply Hout in HX. lia. }
                 destruct (Z.eqb_spec p q); [exfalso; lia|]. symmetry.
                 destruct (in_run cl q e) eqn:E'; auto. exfalso.
                 assert (HX : in_run cl p e = true) by (apply Hin; lia).
                 apply in_run_iff in E' as (z & E'). apply in_run_iff in HX as (z' & HX). congruence.
           ++ destruct (Z.leb_spec (l - 1) (i + 1)); [|exfalso; lia]. destruct (Z.ltb_spec (i + 1) (e - 1)); [|exfalso; lia]. reflexivity.
      * (* right of the new cell *)
        unfold shl at 2. destruct (Z.eqb_spec i (t - 1)); [exfalso; lia|]. destruct (Z.ltb_spec i (t - 1)); [exfalso; lia|].
        rewrite andb_false_r. unfold re_of. destruct (cl i) as [[q y]|]; auto. f_equal. rewrite in_run_shl.
        destruct (Z.eqb_spec (i + 1) (e - 1)); [exfalso; lia|]. destruct (Z.ltb_spec (i + 1) (e - 1)); [exfalso; lia|].
        rewrite andb_false_r. reflexivity.
    + (* left of the shift *)
      unfold shl at 2. destruct (Z.eqb_spec i (t - 1)); [exfalso; lia|]. destruct (Z.leb_spec (l - 1) i); [exfalso; lia|]. simpl.
      unfold re_of. destruct (cl i) as [[q y]|] eqn:E; auto. f_equal. rewrite in_run_shl.
      destruct (Z.eqb_spec (i + 1) (e - 1)).
      * replace (i + 1) with (l - 1) by lia.
        assert (q <> p). { intros ->. assert (HX : in_run cl p i = true) by (apply in_run_iff; eauto). apply Hout in HX. lia. }
        destruct (Z.eqb_spec p q); [exfalso; lia|]. unfold in_run. rewrite Hn. reflexivity.
      * destruct (Z.leb_spec (l - 1) (i + 1)); [|reflexivity]. destruct (Z.ltb_spec (i + 1) (e - 1)); [|exfalso; lia].
        simpl. replace (i + 1) with (l - 1) by lia.
        assert (Hq : in_run cl q i = true) by (apply in_run_iff; eauto).
        rewrite (gap cl i (l - 1) (l - 1 + 1) q H ltac:(lia) Hn Hq).
        unfold in_run. rewrite Hn. reflexivity.
Qed.
Lemma re_shl_new cl l e p x : wf cl -> 1 <= l <= e -> e <= S -> cl (l - 1) = None ->
  (forall i, in_run cl p i = false) -> (forall i, l <= i < S -> full cl i) ->
  (forall i q y, i < e -> cl i = Some (q, y) -> in_run cl q e = false) ->
  forall i, 0 <= i < S -> re_of (shl cl l e (Some (p, x))) i = updb (shl (re_of cl) l e false) (e - 1) true i.
Proof.
  intros H Hle He Hn Hnp Hfull Hsep i Hi. unfold re_of at 1, shl at 1, updb, shl at 2.
  destruct (Z.eqb_spec i (e - 1)) as [->|Hie].
  - rewrite in_run_shl. destruct (Z.eqb_spec (e - 1 + 1) (e - 1)); [exfalso; lia|].
    rewrite !Hnp. destruct ((l - 1 <=? e - 1 + 1) && (e - 1 + 1 <? e - 1)); reflexivity.
  - destruct (Z.leb_spec (l - 1) i) as [Hli|Hli]; simpl.
    + destruct (Z.ltb_spec i (e - 1)) as [Hlt|Hge].
      * destruct (full_some cl (i + 1)) as (q & y & E). { apply Hfull. lia. }
        rewrite E, in_run_shl. unfold re_of. rewrite E. f_equal.
        assert (q <> p). { intros ->. specialize (Hnp (i + 1)). assert (in_run cl p (i + 1) = true) by (apply in_run_iff; eauto). congruence. }
        destruct (Z.eqb_spec (i + 1) (e - 1)).
        -- destruct (Z.eqb_spec p q); [exfalso; lia|]. symmetry. replace (i + 1 + 1) with e by lia. apply (Hsep (i + 1) q y); auto. lia.
        -- destruct (Z.leb_spec (l - 1) (i + 1)); [|exfalso; lia]. destruct (Z.ltb_spec (i + 1) (e - 1)); [|exfalso; lia]. reflexivity.
      * unfold re_of. destruct (cl i) as [[q y]|]; auto. f_equal. rewrite in_run_shl.
        destruct (Z.eqb_spec (i + 1) (e - 1)); [exfalso; lia|]. destruct (Z.ltb_spec (i + 1) (e - 1)); [exfalso; lia|].
        rewrite andb_false_r. reflexivity.
    + unfold re_of. destruct (cl i) as [[q y]|] eqn:E; auto. f_equal. rewrite in_run_shl.
      assert (q <> p). { intros ->. specialize (Hnp i). assert (in_run cl p i = true) by (apply in_run_iff; eauto). congruence. }
      assert (Hq : in_run cl q i = true) by (apply in_run_iff; eauto).
      destruct (Z.eqb_spec (i + 1) (e - 1)).
      * destruct (Z.eqb_spec p q); [exfalso; lia|]. symmetry. replace (i + 1) with (l - 1) by lia.
        unfold in_run. rewrite Hn. reflexivity.
      * destruct (Z.leb_spec (l - 1) (i + 1)); [|reflexivity]. destruct (Z.ltb_spec (i + 1) (e - 1)); [|exfalso; lia].
        simpl. replace (i + 1) with (l - 1) by lia.
        rewrite (gap cl i (l - 1) (l - 1 + 1) q H ltac:(lia) Hn Hq).
        unfold in_run. rewrite Hn. reflexivity.
Qed.

(** occupied runs after an insertion *)

(** slots after an insertion *)
Lemma sl_shr cl v l e p x : (forall i, 0 <= i < S -> v i = sl_of cl i) -> 0 <= l <= e -> e < S ->
  forall i, 0 <= i < S -> updz (shr v l e 0) l x i = sl_of (shr cl l e (Some (p, x))) i.
Proof.
  intros Hv Hl He i Hi. unfold updz, sl_of, shr. destruct (Z.eqb_spec i l); [reflexivity|].
  destruct (Z.ltb_spec l i); simpl; [|apply Hv; lia]. destruct (Z.leb_spec i e); [|apply Hv; lia].
  rewrite Hv by lia. reflexivity.
Qed.
Lemma sl_shl cl v l e p x : (forall i, 0 <= i < S -> v i = sl_of cl i) -> 1 <= l <= e -> e <= S ->
  forall i, 0 <= i < S -> updz (shl v l e 0) (e - 1) x i = sl_of (shl cl l e (Some (p, x))) i.
Proof.
  intros Hv Hl He i Hi. unfold updz, sl_of, shl. destruct (Z.eqb_spec i (e - 1)); [reflexivity|].
  destruct (Z.leb_spec (l - 1) i); simpl; [|apply Hv; lia]. destruct (Z.ltb_spec i (e - 1)); [|apply Hv; lia].
  rewrite Hv by lia. reflexivity.
Qed.
End Cells.

(** ** Counting bits of shifted bitmaps *)
Lemma count_shr f l e h : 0 <= l <= e -> 0 <= h -> f e = false ->
  count (shr f l e false) 0 h = count f 0 h - (if (l <? h) && (h <=? e) then Z.b2z (f (h - 1)) else 0).
Proof.
  intros Hl Hh Hf.
  assert (Hlow : forall k, k <= l -> count (shr f l e false) 0 k = count f 0 k).
  { intros k Hk. apply count_ext. intros i Hi. unfold shr. destruct (Z.eqb_spec i l); [exfalso; lia|].
    destruct (Z.ltb_spec l i); [exfalso; lia|]. reflexivity. }
  assert (Hmid : forall k, l < k <= e + 1 -> count (shr f l e false) 0 k = count f 0 (k - 1)).
  { intros k Hk. rewrite (count_split _ 0 l k), (count_split _ l (l + 1) k), count_one by lia.
    unfold shr at 2. rewrite Z.eqb_refl. rewrite Hlow by lia.
    rewrite (count_ext (shr f l e false) (fun i => f (i + -1)) (l + 1) k).
    - rewrite count_shift. rewrite (count_split f 0 l (k - 1)) by lia. simpl.
      replace (l + 1 + -1) with l by lia. replace (k + -1) with (k - 1) by lia. lia.
    - intros i Hi. unfold shr. destruct (Z.eqb_spec i l); [exfalso; lia|]. destruct (Z.ltb_spec l i); [|exfalso; lia].
      destruct (Z.leb_spec i e); [|exfalso; lia]. reflexivity. }
  destruct (Z.ltb_spec l h); simpl.
  - destruct (Z.leb_spec h e).
    + rewrite Hmid by lia. pose proof (count_snoc f 0 (h - 1) ltac:(lia)) as E.
      replace (h - 1 + 1) with h in E by lia. lia.
    + rewrite (count_split _ 0 (e + 1) h) by lia. rewrite Hmid by lia.
      rewrite (count_ext (shr f l e false) f (e + 1) h).
      * rewrite (count_split f 0 (e + 1) h) by lia. rewrite count_snoc by lia. rewrite Hf.
        replace (e + 1 - 1) with e by lia. simpl. lia.
      * intros i Hi. unfold shr. destruct (Z.eqb_spec i l); [exfalso; lia|]. destruct (Z.leb_spec i e); [exfalso; lia|].
        rewrite andb_false_r. reflexivity.
  - rewrite Hlow by lia. lia.
Qed.
Lemma count_shl f l e h : 1 <= l <= e -> 0 <= h -> f (l - 1) = false ->
  count (shl f l e false) 0 h = count f 0 h + (if (l <=? h) && (h <? e) then Z.b2z (f h) else 0).
Proof.
  intros Hl Hh Hf.
  assert (Hlow : forall k, k <= l - 1 -> count (shl f l e false) 0 k = count f 0 k).
  { intros k Hk. apply count_ext. intros i Hi. unfold shl. destruct (Z.eqb_spec i (e - 1)); [exfalso; lia|].
    destruct (Z.leb_spec (l - 1) i); [exfalso; lia|]. reflexivity. }
  assert (Hmid : forall k, l - 1 <= k <= e - 1 -> count (shl f l e false) 0 k = count f 0 (k + 1)).
  { intros k Hk. rewrite (count_split _ 0 (l - 1) k) by lia.
    rewrite Hlow by lia.
    rewrite (count_ext (shl f l e false) (fun i => f (i + 1)) (l - 1) k).
    - rewrite count_shift. rewrite (count_split f 0 (l - 1 + 1) (k + 1)) by lia. rewrite (count_snoc f 0 (l - 1)) by lia. rewrite Hf. simpl. lia.
    - intros i Hi. unfold shl. destruct (Z.eqb_spec i (e - 1)); [exfalso; lia|]. destruct (Z.leb_spec (l - 1) i); [|exfalso; lia].
      destruct (Z.ltb_spec i (e - 1)); [|exfalso; lia]. reflexivity. }
  destruct (Z.leb_spec l h); simpl.
  - destruct (Z.ltb_spec h e).
    + rewrite Hmid by lia. rewrite count_snoc by lia. lia.
    + rewrite (count_split _ 0 (e - 1) h) by lia. rewrite Hmid by lia.
      rewrite (count_split _ (e - 1) (e - 1 + 1) h), count_one by lia.
      unfold shl at 1. rewrite Z.eqb_refl. simpl. replace (e - 1 + 1) with e by lia.
      rewrite (count_ext (shl f l e false) f e h).
      * rewrite (count_split f 0 e h) by lia. lia.
      * intros i Hi. unfold shl. destruct (Z.eqb_spec i (e - 1)); [exfalso; lia|]. destruct (Z.ltb_spec i (e - 1)); [exfalso; lia|].
        rewrite andb_false_r. reflexivity.
  - destruct (Z.eq_dec h (l - 1)).
    + subst h. destruct (Z.eq_dec l e).
      * rewrite Hlow by lia. lia.
      * rewrite Hmid by lia. rewrite count_snoc by lia. rewrite Hf. simpl. lia.
    + rewrite Hlow by lia. lia.
Qed.
Lemma count_updb f k x a b : count (updb f k x) a b =
  count f a b + (if (a <=? k) && (k <? b) then Z.b2z x - Z.b2z (f k) else 0).
Proof.
  destruct (Z.leb_spec a k); simpl.
  - destruct (Z.ltb_spec k b).
    + rewrite (count_split (updb f k x) a k b), (count_split f a k b) by lia.
      rewrite (count_cons (updb f k x) k b), (count_cons f k b) by lia.
      rewrite (count_ext (updb f k x) f a k), (count_ext (updb f k x) f (k + 1) b).
      * unfold updb. rewrite Z.eqb_refl. lia.
      * intros i Hi. unfold updb. destruct (Z.eqb_spec i k); [exfalso; lia|reflexivity].
      * intros i Hi. unfold updb. destruct (Z.eqb_spec i k); [exfalso; lia|reflexivity].
    + rewrite Z.add_0_r. apply count_ext. intros i Hi. unfold updb. destruct (Z.eqb_spec i k); [exfalso; lia|reflexivity].
  - rewrite Z.add_0_r. apply count_ext. intros i Hi. unfold updb. destruct (Z.eqb_spec i k); [exfalso; lia|reflexivity].
Qed.
