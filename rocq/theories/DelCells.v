(** Removing one element from the cells of a block, by moving the cells on its
    right to the left or those on its left to the right. *)
From Coq Require Import ZArith List Bool Lia.
From Coq Require Import ZifyBool ZifyNat.
From Verif Require Import Base Util Store Bits View Cells.
Import ListNotations.
Open Scope Z_scope.

(** place [l] is dropped, l+1..e move to l..e-1, place [e] becomes [z] *)
Definition dl {A} (f : Z -> A) (l e : Z) (z : A) : Z -> A :=
  fun i => if i =? e then z else if (l <=? i) && (i <? e) then f (i + 1) else f i.
(** place [l] is dropped, t..l-1 move to t+1..l, place [t] becomes [z] *)
Definition dr {A} (f : Z -> A) (t l : Z) (z : A) : Z -> A :=
  fun i => if i =? t then z else if (t <? i) && (i <=? l) then f (i - 1) else f i.

Lemma shl_dl {A} (f : Z -> A) l e z i : shl f (l + 1) (e + 1) z i = dl f l e z i.
Proof. unfold shl, dl. replace (e + 1 - 1) with e by lia. replace (l + 1 - 1) with l by lia. reflexivity. Qed.
Lemma shr_dr {A} (f : Z -> A) t l z i : shr f t l z i = dr f t l z i.
Proof. reflexivity. Qed.

Lemma dl_cases {A} (f : Z -> A) l e z i : l <= e ->
  (i = e /\ dl f l e z i = z) \/ (l <= i < e /\ dl f l e z i = f (i + 1)) \/ ((i < l \/ e < i) /\ dl f l e z i = f i).
Proof.
  intros H. unfold dl. destruct (Z.eqb_spec i e); [left; auto|]. right.
  destruct (Z.leb_spec l i), (Z.ltb_spec i e); simpl; [left|right..]; split; auto; lia.
Qed.
Lemma dr_cases {A} (f : Z -> A) t l z i : t <= l ->
  (i = t /\ dr f t l z i = z) \/ (t < i <= l /\ dr f t l z i = f (i - 1)) \/ ((i < t \/ l < i) /\ dr f t l z i = f i).
Proof.
  intros H. unfold dr. destruct (Z.eqb_spec i t); [left; auto|]. right.
  destruct (Z.ltb_spec t i), (Z.leb_spec i l); simpl; [left|right..]; split; auto; lia.
Qed.

(** contents *)
Lemma content_dl cl l e S : 0 <= l <= e -> e < S -> content (dl cl l e None) 0 S = content cl 0 l ++ content cl (l + 1) S.
Proof.
  intros Hl He. rewrite (content_split _ 0 l S), (content_split _ l e S), (content_split _ e (e + 1) S) by lia.
  rewrite (content_ext (dl cl l e None) cl 0 l), (content_ext (dl cl l e None) (fun i => cl (i + 1)) l e), (content_ext (dl cl l e None) cl (e + 1) S).
  - rewrite content_one, content_shift. unfold dl. rewrite Z.eqb_refl. simpl. f_equal.
    rewrite (content_split cl (l + 1) (e + 1) S) by lia. reflexivity.
  - intros i Hi. destruct (dl_cases cl l e None i) as [[? E]|[[? E]|[? E]]]; try lia; exact E.
  - intros i Hi. destruct (dl_cases cl l e None i) as [[? E]|[[? E]|[? E]]]; try lia; exact E.
  - intros i Hi. destruct (dl_cases cl l e None i) as [[? E]|[[? E]|[? E]]]; try lia; exact E.
Qed.
Lemma content_dr cl t l S : 0 <= t <= l -> l < S -> content (dr cl t l None) 0 S = content cl 0 l ++ content cl (l + 1) S.
Proof.
  intros Hl He. rewrite (content_split _ 0 t S), (content_split _ t (t + 1) S), (content_split _ (t + 1) (l + 1) S) by lia.
  rewrite (content_ext (dr cl t l None) cl 0 t), (content_ext (dr cl t l None) (fun i => cl (i + -1)) (t + 1) (l + 1)), (content_ext (dr cl t l None) cl (l + 1) S).
  - rewrite content_one, content_shift. unfold dr. rewrite Z.eqb_refl. simpl.
    rewrite (content_split cl 0 t l) by lia. rewrite <- app_assoc. replace (t + 1 + -1) with t by lia. replace (l + 1 + -1) with l by lia. reflexivity.
  - intros i Hi. destruct (dr_cases cl t l None i) as [[? E]|[[? E]|[? E]]]; try lia; exact E.
  - intros i Hi. destruct (dr_cases cl t l None i) as [[? E]|[[? E]|[? E]]]; try lia; rewrite E; f_equal; lia.
  - intros i Hi. destruct (dr_cases cl t l None i) as [[? E]|[[? E]|[? E]]]; try lia; exact E.
Qed.

(** slots *)
Lemma sl_dl cl v l e S : (forall i, 0 <= i < S -> v i = sl_of cl i) -> 0 <= l <= e -> e < S ->
  forall i, 0 <= i < S -> dl v l e 0 i = sl_of (dl cl l e None) i.
Proof.
  intros Hv Hl He i Hi. unfold sl_of. destruct (dl_cases v l e 0 i) as [[? E]|[[? E]|[? E]]]; try lia; rewrite E;
  destruct (dl_cases cl l e None i) as [[? E']|[[? E']|[? E']]]; try lia; rewrite E'; try reflexivity; apply Hv; lia.
Qed.
Lemma sl_dr cl v t l S : (forall i, 0 <= i < S -> v i = sl_of cl i) -> 0 <= t <= l -> l < S ->
  forall i, 0 <= i < S -> dr v t l 0 i = sl_of (dr cl t l None) i.
Proof.
  intros Hv Hl He i Hi. unfold sl_of. destruct (dr_cases v t l 0 i) as [[? E]|[[? E]|[? E]]]; try lia; rewrite E;
  destruct (dr_cases cl t l None i) as [[? E']|[[? E']|[? E']]]; try lia; rewrite E'; try reflexivity; apply Hv; lia.
Qed.

(** counts *)
Lemma count_dl f l e h : 0 <= l <= e -> 0 <= h ->
  count (dl f l e false) 0 h = count f 0 h - (if l <? h then Z.b2z (f l) else 0) + (if (l <? h) && (h <=? e) then Z.b2z (f h) else 0).
Proof.
  intros Hl Hh. rewrite (count_ext (dl f l e false) (shl (updb f l false) (l + 1) (e + 1) false)).
  - rewrite count_shl by (try lia; unfold updb; replace (l + 1 - 1) with l by lia; rewrite Z.eqb_refl; reflexivity).
    rewrite count_updb. destruct (Z.leb_spec 0 l); [|exfalso; lia]. simpl.
    replace (l + 1 <=? h) with (l <? h) by lia. replace (h <? e + 1) with (h <=? e) by lia.
    destruct (Z.ltb_spec l h); simpl; [|lia]. unfold updb. destruct (Z.eqb_spec h l); [exfalso; lia|]. simpl. lia.
  - intros i Hi. rewrite shl_dl. destruct (dl_cases f l e false i) as [[? E]|[[? E]|[? E]]]; try lia; rewrite E;
    destruct (dl_cases (updb f l false) l e false i) as [[? E']|[[? E']|[? E']]]; try lia; rewrite E'; auto; unfold updb.
    + destruct (Z.eqb_spec (i + 1) l); [exfalso; lia|reflexivity].
    + destruct (Z.eqb_spec i l); [exfalso; lia|reflexivity].
Qed.
Lemma count_dr f t l h : 0 <= t <= l -> 0 <= h ->
  count (dr f t l false) 0 h = count f 0 h - (if l <? h then Z.b2z (f l) else 0) - (if (t <? h) && (h <=? l) then Z.b2z (f (h - 1)) else 0).
Proof.
  intros Hl Hh. rewrite (count_ext (dr f t l false) (shr (updb f l false) t l false)).
  - rewrite count_shr by (try lia; unfold updb; rewrite Z.eqb_refl; reflexivity).
    rewrite count_updb. destruct (Z.leb_spec 0 l); [|exfalso; lia]. simpl.
    destruct (Z.ltb_spec l h); simpl.
    + destruct (Z.leb_spec h l); [exfalso; lia|]. rewrite andb_false_r. lia.
    + destruct (Z.ltb_spec t h), (Z.leb_spec h l); simpl; try lia. unfold updb. destruct (Z.eqb_spec (h - 1) l); [exfalso; lia|]. lia.
  - intros i Hi. change (shr (updb f l false) t l false i) with (dr (updb f l false) t l false i). destruct (dr_cases f t l false i) as [[? E]|[[? E]|[? E]]]; try lia; rewrite E;
    destruct (dr_cases (updb f l false) t l false i) as [[? E']|[[? E']|[? E']]]; try lia; rewrite E'; auto; unfold updb.
    + destruct (Z.eqb_spec (i - 1) l); [exfalso; lia|reflexivity].
    + destruct (Z.eqb_spec i l); [exfalso; lia|reflexivity].
Qed.

Section Del.
Variables (s S : Z) (m : Z -> Z).
Notation wf := (wf s S m).

(** ** well-placedness *)
Lemma wf_dl cl l e : wf cl -> 0 <= l <= e -> e < S ->
  (forall i, l <= i <= e -> full cl i) ->
  (forall i q y, l < i <= e -> cl i = Some (q, y) -> m q < i) ->
  (forall i q y, e < i -> cl i = Some (q, y) -> m q <= i -> e < m q) ->
  (forall i q y, i < l -> cl i = Some (q, y) -> m q <= i) ->
  wf (dl cl l e None).
Proof.
  intros H Hl He Hfull Hin Hright Hleft.
  assert (Hsrc : forall i q y, dl cl l e None i = Some (q, y) ->
            (l <= i < e /\ cl (i + 1) = Some (q, y)) \/ ((i < l \/ e < i) /\ cl i = Some (q, y))).
  { intros i q y E. destruct (dl_cases cl l e None i) as [[? E']|[[? E']|[? E']]]; try lia; rewrite E' in E; [discriminate|auto..]. }
  assert (Hfl : forall i, full cl i -> i <> e -> full (dl cl l e None) i).
  { intros i Hi Hn. unfold full. destruct (dl_cases cl l e None i) as [[? E']|[[? E']|[? E']]]; try lia; rewrite E'; [apply Hfull; lia|exact Hi]. }
  constructor.
  - intros i q y E. destruct (Hsrc i q y E) as [(Hi & E')|(Hi & E')]; pose proof (w_dom _ _ _ _ H _ _ _ E'); lia.
  - intros i j q y q' y' Hij Ei Ej. destruct (Hsrc i q y Ei) as [(Hi & Ei')|(Hi & Ei')]; destruct (Hsrc j q' y' Ej) as [(Hj & Ej')|(Hj & Ej')].
    + apply (w_mono _ _ _ _ H (i + 1) (j + 1)); auto; lia.
    + apply (w_mono _ _ _ _ H (i + 1) j); auto; lia.
    + apply (w_mono _ _ _ _ H i (j + 1)); auto; lia.
    + apply (w_mono _ _ _ _ H i j); auto; lia.
  - intros i q y E. destruct (Hsrc i q y E) as [(Hi & E')|(Hi & E')].
    + pose proof (Hin (i + 1) q y ltac:(lia) E'). left. split; [lia|]. intros j Hj. apply Hfl; [|lia].
      destruct (w_place _ _ _ _ H _ _ _ E') as [[Hm' Hf]|[Hm' Hf]]; [apply Hf; lia|lia].
    + destruct (w_place _ _ _ _ H _ _ _ E') as [[Hm' Hf]|[Hm' Hf]].
      * left. split; [lia|]. intros j Hj. apply Hfl; [apply Hf; lia|]. destruct Hi as [Hi|Hi]; [lia|].
        pose proof (Hright i q y Hi E' Hm'). lia.
      * destruct Hi as [Hi|Hi]; [pose proof (Hleft i q y Hi E'); lia|]. right. split; [lia|]. intros j Hj. apply Hfl; [apply Hf; lia|lia].
Qed.
Lemma wf_dr cl t l : wf cl -> 0 <= t <= l -> l < S ->
  (forall i, t <= i <= l -> full cl i) ->
  (forall i q y, t <= i -> cl i = Some (q, y) -> i <> l -> t < m q) ->
  (forall i q y, i < t -> cl i = Some (q, y) -> m q <= i) ->
  wf (dr cl t l None).
Proof.
  intros H Hl He Hfull Hin Hleft.
  assert (Hsrc : forall i q y, dr cl t l None i = Some (q, y) ->
            (t < i <= l /\ cl (i - 1) = Some (q, y)) \/ ((i < t \/ l < i) /\ cl i = Some (q, y))).
  { intros i q y E. destruct (dr_cases cl t l None i) as [[? E']|[[? E']|[? E']]]; try lia; rewrite E' in E; [discriminate|auto..]. }
  assert (Hfl : forall i, full cl i -> i <> t -> full (dr cl t l None) i).
  { intros i Hi Hn. unfold full. destruct (dr_cases cl t l None i) as [[? E']|[[? E']|[? E']]]; try lia; rewrite E'; [apply Hfull; lia|exact Hi]. }
  constructor.
  - intros i q y E. destruct (Hsrc i q y E) as [(Hi & E')|(Hi & E')]; pose proof (w_dom _ _ _ _ H _ _ _ E'); lia.
  - intros i j q y q' y' Hij Ei Ej. destruct (Hsrc i q y Ei) as [(Hi & Ei')|(Hi & Ei')]; destruct (Hsrc j q' y' Ej) as [(Hj & Ej')|(Hj & Ej')].
    + apply (w_mono _ _ _ _ H (i - 1) (j - 1)); auto; lia.
    + apply (w_mono _ _ _ _ H (i - 1) j); auto; lia.
    + apply (w_mono _ _ _ _ H i (j - 1)); auto; lia.
    + apply (w_mono _ _ _ _ H i j); auto; lia.
  - intros i q y E. destruct (Hsrc i q y E) as [(Hi & E')|(Hi & E')].
    + pose proof (Hin (i - 1) q y ltac:(lia) E' ltac:(lia)) as Ht. destruct (Z.leb_spec (m q) i).
      * left. split; [lia|]. intros j Hj. apply Hfl; [|lia]. apply Hfull. lia.
      * right. split; [lia|]. intros j Hj. apply Hfl; [|lia].
        destruct (w_place _ _ _ _ H _ _ _ E') as [[Hm' Hf]|[Hm' Hf]]; [lia|apply Hf; lia].
    + destruct (w_place _ _ _ _ H _ _ _ E') as [[Hm' Hf]|[Hm' Hf]].
      * left. split; [lia|]. intros j Hj. apply Hfl; [apply Hf; lia|]. destruct Hi as [Hi|Hi]; [lia|].
        pose proof (Hin i q y ltac:(lia) E' ltac:(lia)). lia.
      * destruct Hi as [Hi|Hi]; [pose proof (Hleft i q y Hi E'); lia|]. right. split; [lia|]. intros j Hj. apply Hfl; [apply Hf; lia|lia].
Qed.

(** ** runs *)
Section Run.
Variables (cl : cellf) (p a b l : Z).
Hypothesis Hwf : wf cl.
Hypothesis Hin : forall i, a <= i <= b -> in_run cl p i = true.
Hypothesis Hout : forall i, in_run cl p i = true -> a <= i <= b.
Hypothesis Hl : a <= l <= b.

Lemma occ_dl e q : b <= e -> (exists i, in_run (dl cl l e None) q i = true) <->
  (exists i, in_run cl q i = true) /\ ~ (q = p /\ a = b).
Proof.
  intros He. split.
  - intros (i & Hi). unfold in_run in Hi. destruct (dl_cases cl l e None i) as [[? E']|[[? E']|[? E']]]; try lia; rewrite E' in Hi; [discriminate|..];
    fold (in_run cl q (i + 1)) in Hi; fold (in_run cl q i) in Hi; (split; [eauto|]); intros [-> ->]; apply Hout in Hi; lia.
  - intros [(i & Hi) Hn].
    assert (Hx : exists j, in_run cl q j = true /\ j <> l).
    { destruct (Z.eq_dec i l) as [->|]; [|eauto]. assert (q = p).
      { pose proof (Hin l Hl) as E. apply in_run_iff in E as (x & E). apply in_run_iff in Hi as (y & Ey). congruence. }
      subst q. destruct (Z.eq_dec l a) as [->|]; [exists b|exists a]; (split; [apply Hin; lia|lia]). }
    clear i Hi. destruct Hx as (i & Hi & Hil). destruct (Z.leb_spec i l); [exists i|].
    + unfold in_run. destruct (dl_cases cl l e None i) as [[? E']|[[? E']|[? E']]]; try lia. rewrite E'. exact Hi.
    + destruct (Z.leb_spec i e).
      * exists (i - 1). unfold in_run. destruct (dl_cases cl l e None (i - 1)) as [[? E']|[[? E']|[? E']]]; try lia. rewrite E'. replace (i - 1 + 1) with i by lia. exact Hi.
      * exists i. unfold in_run. destruct (dl_cases cl l e None i) as [[? E']|[[? E']|[? E']]]; try lia. rewrite E'. exact Hi.
Qed.
Lemma occ_dr t q : t <= l -> (exists i, in_run (dr cl t l None) q i = true) <->
  (exists i, in_run cl q i = true) /\ ~ (q = p /\ a = b).
Proof.
  intros He. split.
  - intros (i & Hi). unfold in_run in Hi. destruct (dr_cases cl t l None i) as [[? E']|[[? E']|[? E']]]; try lia; rewrite E' in Hi; [discriminate|..];
    fold (in_run cl q (i - 1)) in Hi; fold (in_run cl q i) in Hi; (split; [eauto|]); intros [-> ->]; apply Hout in Hi; lia.
  - intros [(i & Hi) Hn].
    assert (Hx : exists j, in_run cl q j = true /\ j <> l).
    { destruct (Z.eq_dec i l) as [->|]; [|eauto]. assert (q = p).
      { pose proof (Hin l Hl) as E. apply in_run_iff in E as (x & E). apply in_run_iff in Hi as (y & Ey). congruence. }
      subst q. destruct (Z.eq_dec l a) as [->|]; [exists b|exists a]; (split; [apply Hin; lia|lia]). }
    clear i Hi. destruct Hx as (i & Hi & Hil). destruct (Z.leb_spec l i); [exists i|].
    + unfold in_run. destruct (dr_cases cl t l None i) as [[? E']|[[? E']|[? E']]]; try lia. rewrite E'. exact Hi.
    + destruct (Z.leb_spec t i).
      * exists (i + 1). unfold in_run. destruct (dr_cases cl t l None (i + 1)) as [[? E']|[[? E']|[? E']]]; try lia. rewrite E'. replace (i + 1 - 1) with i by lia. exact Hi.
      * exists i. unfold in_run. destruct (dr_cases cl t l None i) as [[? E']|[[? E']|[? E']]]; try lia. rewrite E'. exact Hi.
Qed.

Lemma re_before i : i < a -> full cl i -> ~ full cl (i + 1) \/ i + 1 = a -> re_of cl i = true.
Proof.
  intros Hi Hf Hn. destruct (full_some _ _ Hf) as (q & y & E). unfold re_of. rewrite E.
  destruct (in_run cl q (i + 1)) eqn:E1; [|reflexivity]. exfalso. destruct Hn as [Hn|Hn].
  - apply in_run_iff in E1 as (z & E1). apply Hn. unfold full. congruence.
  - rewrite Hn in E1. apply in_run_iff in E1 as (z & E1). pose proof (Hin a ltac:(lia)) as Ea. apply in_run_iff in Ea as (z' & Ea).
    rewrite E1 in Ea. injection Ea as -> _. assert (HX : in_run cl p i = true) by (apply in_run_iff; eauto). apply Hout in HX. lia.
Qed.
Lemma after_run i q y : b < i -> cl i = Some (q, y) -> p < q.
Proof.
  intros Hi E. pose proof (Hin b ltac:(lia)) as Eb. apply in_run_iff in Eb as (z & Eb).
  pose proof (run_le s S m _ b i _ _ _ _ Hwf ltac:(lia) Eb E). destruct (Z.eq_dec q p) as [->|]; [|lia].
  assert (HX : in_run cl p i = true) by (apply in_run_iff; eauto). apply Hout in HX. lia.
Qed.
Lemma before_run i q y : i < a -> cl i = Some (q, y) -> q < p.
Proof.
  intros Hi E. pose proof (Hin a ltac:(lia)) as Eb. apply in_run_iff in Eb as (z & Eb).
  pose proof (run_le s S m _ i a _ _ _ _ Hwf ltac:(lia) E Eb). destruct (Z.eq_dec q p) as [->|]; [|lia].
  assert (HX : in_run cl p i = true) by (apply in_run_iff; eauto). apply Hout in HX. lia.
Qed.

(** runends after moving to the left *)
Lemma re_dl e i : b <= e -> e < S -> re_of cl e = true -> 0 <= a -> 0 <= i < S ->
  re_of (dl cl l e None) i = (if a =? b then dl (re_of cl) l e false else updb (dl (re_of cl) l e false) (b - 1) true) i.
Proof.
  intros He HeS Hree Ha Hi. destruct (extent_re cl p a b Hin Hout ltac:(lia)) as [Hrb Hra].
  assert (Hd : re_of (dl cl l e None) i =
               if (i =? b - 1) && negb (a =? b) then true else dl (re_of cl) l e false i).
  2:{ rewrite Hd. destruct (Z.eqb_spec a b); [rewrite andb_false_r; reflexivity|]. rewrite andb_true_r. reflexivity. }
  unfold re_of at 1. unfold in_run.
  destruct (dl_cases cl l e None i) as [[Hc E]|[[Hc E]|[Hc E]]]; [lia|..].
  - (* i = e *) rewrite E. destruct (dl_cases (re_of cl) l e false i) as [[? E']|[[? E']|[? E']]]; try lia. rewrite E'.
    destruct (Z.eqb_spec i (b - 1)); [exfalso; lia|reflexivity].
  - (* l <= i < e *) rewrite E. destruct (dl_cases (re_of cl) l e false i) as [[? E']|[[? E']|[? E']]]; try lia. rewrite E'.
    assert (Hv : match cl (i + 1) with Some (p0, _) => negb match dl cl l e None (i + 1) with Some (q, _) => q =? p0 | None => false end | None => false end = re_of cl (i + 1)).
    { destruct (dl_cases cl l e None (i + 1)) as [[Hc2 E2]|[[Hc2 E2]|[Hc2 E2]]]; try lia; rewrite E2.
      - subst e. rewrite Hree. apply re_full in Hree. destruct (full_some _ _ Hree) as (q & y & ->). reflexivity.
      - reflexivity. }
    rewrite Hv. destruct (Z.eqb_spec i (b - 1)); [|reflexivity]. subst i. replace (b - 1 + 1) with b by lia. rewrite Hrb. destruct (negb (a =? b)); reflexivity.
  - (* unmoved *) rewrite E. destruct (dl_cases (re_of cl) l e false i) as [[? E']|[[? E']|[? E']]]; try lia. rewrite E'.
    destruct (Z.eq_dec i (l - 1)) as [->|Hil].
    + replace (l - 1 + 1) with l by lia. destruct (Z.eq_dec l a) as [Hla|Hla].
      * (* first of the run *)
        replace (l - 1 =? b - 1) with (l =? b) by lia. replace (a =? b) with (l =? b) by lia.
        replace ((l =? b) && negb (l =? b)) with false by (destruct (l =? b); reflexivity).
        destruct (cl (l - 1)) as [[q y]|] eqn:Ec; [|unfold re_of; rewrite Ec; reflexivity].
        rewrite re_before; [|lia|unfold full; congruence|right; lia].
        pose proof (before_run (l - 1) q y ltac:(lia) Ec).
        destruct (dl_cases cl l e None l) as [[Hc2 E2]|[[Hc2 E2]|[Hc2 E2]]]; try lia; rewrite E2; [reflexivity|].
        destruct (cl (l + 1)) as [[q' y']|] eqn:Ec2; [|reflexivity].
        pose proof (Hin l ltac:(lia)) as El. apply in_run_iff in El as (z & El).
        pose proof (run_le s S m _ l (l + 1) _ _ _ _ Hwf ltac:(lia) El Ec2). destruct (Z.eqb_spec q' q); [exfalso; lia|reflexivity].
      * (* not the first *)
        pose proof (Hin (l - 1) ltac:(lia)) as Ec. apply in_run_iff in Ec as (y & Ec). rewrite Ec. rewrite (Hra (l - 1)) by lia.
        destruct (Z.eqb_spec a b); [exfalso; lia|]. simpl. rewrite andb_true_r.
        destruct (dl_cases cl l e None l) as [[Hc2 E2]|[[Hc2 E2]|[Hc2 E2]]]; try lia; rewrite E2.
        -- destruct (Z.eqb_spec (l - 1) (b - 1)); [reflexivity|exfalso; lia].
        -- destruct (Z.eqb_spec (l - 1) (b - 1)).
           ++ destruct (cl (l + 1)) as [[q' y']|] eqn:Ec2; [|reflexivity]. pose proof (after_run (l + 1) q' y' ltac:(lia) Ec2).
              destruct (Z.eqb_spec q' p); [exfalso; lia|reflexivity].
           ++ pose proof (Hin (l + 1) ltac:(lia)) as Ec2. apply in_run_iff in Ec2 as (z & ->). rewrite Z.eqb_refl. reflexivity.
    + assert (E2 : dl cl l e None (i + 1) = cl (i + 1)).
      { destruct (dl_cases cl l e None (i + 1)) as [[Hc2 E2]|[[Hc2 E2]|[Hc2 E2]]]; try lia; exact E2. }
      rewrite E2. destruct (Z.eqb_spec i (b - 1)); [exfalso; lia|reflexivity].
Qed.

(** runends after moving to the right; [t] is the first place of a run *)
Lemma re_dr t i : 0 <= t <= a -> b < S -> (forall j, t <= j <= a -> full cl j) ->
  (forall q, in_run cl q (t - 1) = true -> in_run cl q t = false) -> 0 <= i < S ->
  re_of (dr cl t l None) i = (if a =? b then dr (re_of cl) t l false else updb (dr (re_of cl) t l false) b true) i.
Proof.
  intros Ht HbS Hfull Hstart Hi. destruct (extent_re cl p a b Hin Hout ltac:(lia)) as [Hrb Hra].
  assert (Hd : re_of (dr cl t l None) i =
               if (i =? b) && negb (a =? b) then true else dr (re_of cl) t l false i).
  2:{ rewrite Hd. destruct (Z.eqb_spec a b); [rewrite andb_false_r; reflexivity|]. rewrite andb_true_r. reflexivity. }
  unfold re_of at 1. unfold in_run.
  destruct (dr_cases cl t l None i) as [[Hc E]|[[Hc E]|[Hc E]]]; [lia|..].
  - rewrite E. destruct (dr_cases (re_of cl) t l false i) as [[? E']|[[? E']|[? E']]]; try lia. rewrite E'.
    destruct (Z.eqb_spec i b), (Z.eqb_spec a b); try reflexivity. exfalso; lia.
  - rewrite E. destruct (dr_cases (re_of cl) t l false i) as [[? E']|[[? E']|[? E']]]; try lia. rewrite E'.
    destruct (Z.eq_dec i l) as [->|Hil].
    + assert (E2 : dr cl t l None (l + 1) = cl (l + 1)).
      { destruct (dr_cases cl t l None (l + 1)) as [[Hc2 E2]|[[Hc2 E2]|[Hc2 E2]]]; try lia; exact E2. }
      rewrite E2. destruct (Z.eq_dec l a) as [Hla|Hla].
      * replace (a =? b) with (l =? b) by lia. replace ((l =? b) && negb (l =? b)) with false by (destruct (l =? b); reflexivity).
        destruct (cl (l - 1)) as [[q y]|] eqn:Ec; [|exfalso; apply (Hfull (l - 1)); [lia|exact Ec]].
        rewrite re_before; [|lia|unfold full; congruence|right; lia].
        pose proof (before_run (l - 1) q y ltac:(lia) Ec). destruct (cl (l + 1)) as [[q' y']|] eqn:Ec2; [|reflexivity].
        pose proof (Hin l ltac:(lia)) as El. apply in_run_iff in El as (z & El).
        pose proof (run_le s S m _ l (l + 1) _ _ _ _ Hwf ltac:(lia) El Ec2). destruct (Z.eqb_spec q' q); [exfalso; lia|reflexivity].
      * pose proof (Hin (l - 1) ltac:(lia)) as Ec. apply in_run_iff in Ec as (y & Ec). rewrite Ec. rewrite (Hra (l - 1)) by lia.
        destruct (Z.eqb_spec a b); [exfalso; lia|]. simpl. rewrite andb_true_r. destruct (Z.eqb_spec l b).
        -- destruct (cl (l + 1)) as [[q' y']|] eqn:Ec2; [|reflexivity]. pose proof (after_run (l + 1) q' y' ltac:(lia) Ec2).
           destruct (Z.eqb_spec q' p); [exfalso; lia|reflexivity].
        -- pose proof (Hin (l + 1) ltac:(lia)) as Ec2. apply in_run_iff in Ec2 as (z & ->). rewrite Z.eqb_refl. reflexivity.
    + assert (E2 : dr cl t l None (i + 1) = cl (i - 1 + 1)).
      { destruct (dr_cases cl t l None (i + 1)) as [[Hc2 E2]|[[Hc2 E2]|[Hc2 E2]]]; try lia. rewrite E2. f_equal. lia. }
      rewrite E2. destruct (Z.eqb_spec i b); [exfalso; lia|]. reflexivity.
  - rewrite E. destruct (dr_cases (re_of cl) t l false i) as [[? E']|[[? E']|[? E']]]; try lia. rewrite E'.
    destruct (Z.eq_dec i (t - 1)) as [->|Hit].
    + replace (t - 1 + 1) with t by lia. destruct (dr_cases cl t l None t) as [[Hc2 E2]|[[Hc2 E2]|[Hc2 E2]]]; try lia. rewrite E2.
      destruct (Z.eqb_spec (t - 1) b); [exfalso; lia|]. simpl.
      destruct (cl (t - 1)) as [[q y]|] eqn:Ec; unfold re_of; rewrite Ec; [|reflexivity].
      replace (t - 1 + 1) with t by lia. rewrite Hstart; [reflexivity|]. apply in_run_iff. eauto.
    + assert (E2 : dr cl t l None (i + 1) = cl (i + 1)).
      { destruct (dr_cases cl t l None (i + 1)) as [[Hc2 E2]|[[Hc2 E2]|[Hc2 E2]]]; try lia; exact E2. }
      rewrite E2. destruct (Z.eqb_spec i b) as [->|]; [|reflexivity]. fold (in_run cl). unfold re_of in Hrb. unfold in_run in Hrb. rewrite Hrb.
      unfold re_of, in_run. rewrite Hrb. destruct (negb (a =? b)); reflexivity.
Qed.
End Run.
End Del.
