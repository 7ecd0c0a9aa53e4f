(** Placing a sorted list of elements into the cells of a block: the
    combinatorial core of LoadListToInfixStore. *)
From Coq Require Import ZArith List Bool Lia Sorted.
From Coq Require Import ZifyBool ZifyNat.
From Verif Require Import Base Util Store Bits View Cells Lowbit.
Import ListNotations.
Open Scope Z_scope.

(** placed elements: (position, (run, value)) *)
Definition placed := list (Z * (Z * Z)).

Fixpoint cells (PL : placed) (i : Z) : option (Z * Z) :=
  match PL with
  | [] => None
  | (a, e) :: t => if i =? a then Some e else cells t i
  end.

(** first pass: each element as far left as possible, from [lo] on *)
Fixpoint place (m : Z -> Z) (lo : Z) (els : list (Z * Z)) : placed :=
  match els with
  | [] => []
  | e :: t => let a := Z.max lo (m (fst e)) in (a, e) :: place m (a + 1) t
  end.
Definition hdpos (nl : Z) (PL : placed) : Z := match PL with [] => nl | (a, _) :: _ => a end.
Fixpoint lastpos (lo : Z) (PL : placed) : Z := match PL with [] => lo | (a, _) :: t => lastpos (a + 1) t end.
(** second pass: pull left what runs over the end *)
Fixpoint pull (nl : Z) (PL : placed) : placed :=
  match PL with
  | [] => []
  | (a, e) :: t => let t' := pull nl t in (Z.min a (hdpos nl t' - 1), e) :: t'
  end.
(** a run of consecutive places *)
Fixpoint mk (a p : Z) (xs : list Z) : placed :=
  match xs with
  | [] => []
  | x :: t => (a, (p, x)) :: mk (a + 1) p t
  end.

Lemma place_snd m els : forall lo, map snd (place m lo els) = els.
Proof. induction els as [|e t IH]; intros lo; simpl; [reflexivity|]. rewrite IH. reflexivity. Qed.
Lemma pull_snd nl PL : map snd (pull nl PL) = map snd PL.
Proof. induction PL as [|[a e] t IH]; simpl; [reflexivity|]. rewrite IH. reflexivity. Qed.
Lemma mk_snd p xs : forall a, map snd (mk a p xs) = map (pair p) xs.
Proof. induction xs as [|x t IH]; intros a; simpl; [reflexivity|]. rewrite IH. reflexivity. Qed.
Lemma mk_length p xs : forall a, length (mk a p xs) = length xs.
Proof. induction xs as [|x t IH]; intros a; simpl; [reflexivity|]. rewrite IH. reflexivity. Qed.

Lemma place_app m e1 e2 : forall lo, place m lo (e1 ++ e2) = place m lo e1 ++ place m (lastpos lo (place m lo e1)) e2.
Proof. induction e1 as [|e t IH]; intros lo; simpl; [reflexivity|]. rewrite IH. reflexivity. Qed.
Lemma lastpos_app PL PL2 : forall lo, lastpos lo (PL ++ PL2) = lastpos (lastpos lo PL) PL2.
Proof. induction PL as [|[a e] t IH]; intros lo; simpl; auto. Qed.
Lemma lastpos_mk p xs : forall a lo, xs <> [] -> lastpos lo (mk a p xs) = a + Z.of_nat (length xs).
Proof.
  induction xs as [|x t IH]; intros a lo H; [congruence|]. simpl. destruct t as [|y t'].
  - simpl. lia.
  - rewrite IH by discriminate. simpl. lia.
Qed.
Lemma place_run m p xs : forall a, m p <= a -> place m a (map (pair p) xs) = mk a p xs.
Proof.
  induction xs as [|x t IH]; intros a H; simpl; [reflexivity|].
  replace (Z.max a (m p)) with a by lia. rewrite IH by lia. reflexivity.
Qed.
Lemma place_run' m p xs a : xs <> [] -> place m a (map (pair p) xs) = mk (Z.max a (m p)) p xs.
Proof.
  destruct xs as [|x t]; [congruence|]. intros _. simpl. rewrite place_run by lia. reflexivity.
Qed.

Lemma pull_app nl A B : pull nl (A ++ B) = pull (hdpos nl (pull nl B)) A ++ pull nl B.
Proof.
  induction A as [|[a e] t IH]; simpl; [reflexivity|]. rewrite IH.
  f_equal. f_equal. f_equal. destruct (pull (hdpos nl (pull nl B)) t) as [|[b e'] t']; reflexivity.
Qed.
Lemma pull_mk nl p xs : forall a, pull nl (mk a p xs) = mk (a + Z.min 0 (nl - (a + Z.of_nat (length xs)))) p xs.
Proof.
  induction xs as [|x t IH]; intros a; simpl; [reflexivity|]. rewrite IH. destruct t as [|y t'].
  - simpl. f_equal. f_equal. lia.
  - simpl hdpos. simpl length. f_equal.
    + f_equal. lia.
    + f_equal. lia.
Qed.

(** ** positions *)
Fixpoint incr (lo : Z) (PL : placed) : Prop :=
  match PL with
  | [] => True
  | (a, _) :: t => lo <= a /\ incr (a + 1) t
  end.
Lemma incr_weak PL : forall lo lo', lo' <= lo -> incr lo PL -> incr lo' PL.
Proof. destruct PL as [|[a e] t]; simpl; intros; auto. split; [lia|tauto]. Qed.
Lemma incr_in PL : forall lo a e, incr lo PL -> In (a, e) PL -> lo <= a.
Proof.
  induction PL as [|[b e'] t IH]; simpl; intros lo a e H Hin; [contradiction|].
  destruct Hin as [Heq|Hin]; [inversion Heq; lia|]. destruct H as [H1 H2]. pose proof (IH _ _ _ H2 Hin). lia.
Qed.
Lemma incr_app A B : forall lo, incr lo (A ++ B) <-> incr lo A /\ incr (lastpos lo A) B.
Proof.
  induction A as [|[a e] t IH]; intros lo; simpl; [tauto|]. rewrite IH. tauto.
Qed.
Lemma cells_none PL : forall lo i, incr lo PL -> i < lo -> cells PL i = None.
Proof.
  induction PL as [|[a e] t IH]; intros lo i H Hi; simpl; [reflexivity|]. destruct H as [H1 H2].
  destruct (Z.eqb_spec i a); [lia|]. apply (IH (a + 1)); auto. lia.
Qed.
Lemma cells_in PL : forall lo i e, incr lo PL -> (cells PL i = Some e <-> In (i, e) PL).
Proof.
  induction PL as [|[a e'] t IH]; intros lo i e H; simpl.
  - split; [discriminate|contradiction].
  - destruct H as [H1 H2]. destruct (Z.eqb_spec i a) as [->|Hia].
    + split.
      * intros E. inversion E; subst. auto.
      * intros [E|Hin]; [inversion E; reflexivity|]. apply (incr_in t (a + 1)) in Hin; auto. lia.
    + rewrite (IH _ _ _ H2). split; auto. intros [E|Hin]; [inversion E; lia|auto].
Qed.
Lemma lastpos_hi PL hi : forall lo, incr lo PL -> (forall a e, In (a, e) PL -> a < hi) -> lo <= hi -> lastpos lo PL <= hi.
Proof.
  induction PL as [|[a e] t IH]; simpl; intros lo H Hh Hl; auto. apply IH; [tauto| |].
  - intros b e' Hin. apply (Hh b e'). auto.
  - specialize (Hh a e ltac:(auto)). lia.
Qed.

Lemma content_cells PL : forall lo hi, incr lo PL -> lastpos lo PL <= hi -> content (cells PL) lo hi = map snd PL.
Proof.
  induction PL as [|[a e] t IH]; intros lo hi H Hh.
  - apply content_empty. reflexivity.
  - simpl in Hh. destruct H as [H1 H2].
    assert (Ha : a + 1 <= hi).
    { clear -Hh H2. revert H2 Hh. generalize (a + 1). induction t as [|[b e'] t' IHt]; simpl; intros z H2 Hh; [lia|].
      destruct H2 as [H3 H4]. specialize (IHt _ H4 Hh). lia. }
    rewrite (content_split _ lo a hi) by lia. rewrite (content_split _ a (a + 1) hi) by lia.
    rewrite content_one. simpl cells at 2. rewrite Z.eqb_refl.
    rewrite (content_empty _ lo a).
    + simpl. f_equal. rewrite <- (IH (a + 1) hi H2 Hh). apply content_ext. intros i Hi. simpl.
      destruct (Z.eqb_spec i a); [lia|]. reflexivity.
    + intros i Hi. simpl. destruct (Z.eqb_spec i a); [lia|]. apply (cells_none t (a + 1)); auto. lia.
Qed.

(** *** the final positions *)
Lemma place_incr m els : forall lo, incr lo (place m lo els).
Proof. induction els as [|e t IH]; intros lo; simpl; auto. split; [lia|apply IH]. Qed.

Section Final.
Variables (s S : Z) (m : Z -> Z).

Lemma pull_props nl PL : forall lo, incr lo PL -> nl - Z.of_nat (length PL) >= lo ->
  incr lo (pull nl PL) /\ lo <= hdpos nl (pull nl PL) <= nl - Z.of_nat (length PL) /\
  (PL <> [] -> hdpos nl (pull nl PL) <= hdpos nl PL) /\
  (hdpos nl (pull nl PL) < hdpos nl PL -> hdpos nl (pull nl PL) = nl - Z.of_nat (length PL)) /\
  (forall i, hdpos nl (pull nl PL) = nl - Z.of_nat (length PL) -> hdpos nl (pull nl PL) <= i < nl -> full (cells (pull nl PL)) i) /\
  lastpos (hdpos nl (pull nl PL)) (pull nl PL) <= nl.
Proof.
  induction PL as [|[a e] t IH]; intros lo H Hl.
  - simpl in *. repeat split; try lia.
  - destruct H as [H1 H2]. simpl length in *.
    (* the tail, pulled, starts at least at max lo+1 .. *)
    assert (Hnon : incr (lo + 1) t). { apply (incr_weak t (a + 1)); auto. lia. }
    destruct (IH (lo + 1) Hnon ltac:(lia)) as (I1 & I2 & I3 & I4 & I5 & I6). clear IH.
    set (t' := pull nl t) in *. simpl pull. fold t'. simpl hdpos. set (h := hdpos nl t') in *.
    assert (Hth : t <> [] -> a + 1 <= hdpos nl t).
    { destruct t as [|[b eb] tt]; [congruence|]. intros _. simpl in H2. simpl. lia. }
    assert (Ht' : t' = [] -> t = []). { unfold t'. destruct t as [|[b eb] tt]; [auto|simpl; discriminate]. }
    split; [|split; [|split; [|split; [|split]]]].
    + simpl. split; [lia|].
      assert (Hx : incr h t'). { unfold h. clear -I1. destruct t' as [|[b eb] tt]; simpl in *; [auto|]. split; [lia|tauto]. }
      apply (incr_weak t' h); auto. lia.
    + lia.
    + lia.
    + intros Hlt. assert (Hh : h - 1 < a) by lia. replace (Z.min a (h - 1)) with (h - 1) by lia.
      destruct (Z.ltb_spec h (hdpos nl t)) as [Hlt2|Hge2].
      * rewrite (I4 Hlt2). lia.
      * destruct t as [|[b eb] tt].
        -- simpl in *. unfold h. simpl. lia.
        -- specialize (Hth ltac:(discriminate)). lia.
    + intros i Heq Hi. unfold full. simpl. destruct (Z.eqb_spec i (Z.min a (h - 1))); [discriminate|]. apply I5; lia.
    + simpl. clear -I1 I6. fold h in I6. unfold h in *. destruct t' as [|[b eb] tt]; simpl in *; [lia|exact I6].
Qed.

(** order of elements: by run, then by where the interval starts *)
Definition ord (e f : Z * Z) : Prop := fst e < fst f \/ (fst e = fst f /\ lbase (snd e) <= lbase (snd f)).

Lemma ord_mono PL : forall lo i j e f, incr lo PL -> StronglySorted ord (map snd PL) -> i < j ->
  In (i, e) PL -> In (j, f) PL -> ord e f.
Proof.
  induction PL as [|[a g] t IH]; intros lo i j e f H Hs Hij Hi Hj; [contradiction|]. destruct H as [H1 H2].
  inversion Hs as [|? ? Hs' Hall]; subst. destruct Hi as [Ei|Hi], Hj as [Ej|Hj].
  - inversion Ei; inversion Ej; lia.
  - inversion Ei; subst. rewrite Forall_forall in Hall. apply Hall. apply in_map_iff. exists (j, f). auto.
  - inversion Ej; subst. pose proof (incr_in _ _ _ _ H2 Hi). lia.
  - apply (IH (a + 1) i j); auto.
Qed.

Hypothesis Hmr : forall p, 0 <= p < 1024 -> 0 <= m p < S.
Hypothesis Hmm : forall p q, 0 <= p <= q -> q < 1024 -> m p <= m q.

Lemma placed_full (cl : cellf) els : forall lo lo0,
  StronglySorted ord els -> Forall (fun e => 0 <= fst e < 1024) els ->
  lo0 <= lo -> lo0 <= S - Z.of_nat (length els) ->
  (forall j, full (cells (pull S (place m lo els))) j -> full cl j) ->
  (forall e, hd_error els = Some e -> forall j, m (fst e) <= j -> j <= lo - 1 -> j <= hdpos S (pull S (place m lo els)) - 1 -> full cl j) ->
  forall i p x, In (i, (p, x)) (pull S (place m lo els)) ->
    (m p <= i /\ forall j, m p <= j <= i -> full cl j) \/ (i < m p /\ forall j, i <= j < S -> full cl j).
Proof.
  induction els as [|[p x] t IH]; intros lo lo0 Hs Hr Hlo Hlen Hsub Hleft i q y Hin; [contradiction|].
  inversion Hs as [|? ? Hs' Hall]; subst. inversion Hr as [|? ? Hr0 Hr']; subst. simpl fst in *. clear Hs Hr.
  destruct (pull_props S (place m lo ((p, x) :: t)) lo0) as (J1 & J2 & J3 & J4 & J5 & J6).
  { apply (incr_weak _ lo); [lia|]. apply place_incr. }
  { replace (length (place m lo ((p, x) :: t))) with (length ((p, x) :: t)); [lia|].
    rewrite <- (place_snd m ((p, x) :: t) lo) at 1. apply map_length. }
  assert (Hlp : length (place m lo ((p, x) :: t)) = length ((p, x) :: t)).
  { rewrite <- (place_snd m ((p, x) :: t) lo) at 2. rewrite map_length. reflexivity. }
  rewrite Hlp in *.
  cbn [place pull fst] in *. set (a := Z.max lo (m p)) in *. set (t' := pull S (place m (a + 1) t)) in *.
  simpl hdpos in *. set (h := hdpos S t') in *. set (i0 := Z.min a (h - 1)) in *.
  assert (Hi0 : full cl i0). { apply Hsub. unfold full. simpl. rewrite Z.eqb_refl. discriminate. }
  assert (Hhead : forall j, m p <= j <= i0 -> full cl j).
  { intros j Hj. destruct (Z.eq_dec j i0) as [->|]; auto. apply (Hleft (p, x) eq_refl); simpl; lia. }
  destruct Hin as [E|Hin].
  - inversion E; subst q y i. destruct (Z.leb_spec (m p) i0); [left; auto|]. right. split; auto.
    assert (Hlast : i0 = S - Z.of_nat (length ((p, x) :: t))) by (apply J4; lia).
    intros j Hj. apply Hsub. apply (J5 j Hlast Hj).
  - apply (IH (a + 1) (lo0 + 1)) with (x := y); auto.
    + lia.
    + simpl length in *. lia.
    + intros j Hj. apply Hsub. unfold full in *. simpl. destruct (j =? i0); [discriminate|exact Hj].
    + intros [p2 x2] He j H1 H2 H3. simpl in H1. apply Hhead. fold t' in H3. fold h in H3.
      destruct t as [|e2 t2]; [discriminate|]. simpl in He. inversion He; subst e2.
      inversion Hr' as [|? ? Hr2 _]; subst. inversion Hall as [|? ? Ho _]; subst. unfold ord in Ho; simpl in *.
      specialize (Hmm p p2 ltac:(lia) ltac:(lia)). lia.
Qed.

Definition layout (els : list (Z * Z)) : placed := pull S (place m 0 els).

Lemma wf_layout els : StronglySorted ord els -> Forall (fun e => 0 <= fst e < 1024 /\ 0 < snd e < 2 ^ s) els ->
  Z.of_nat (length els) <= S -> wf s S m (cells (layout els)).
Proof.
  intros Hs Hr Hlen. unfold layout.
  assert (Hr1 : Forall (fun e => 0 <= fst e < 1024) els) by (eapply Forall_impl; [|exact Hr]; simpl; tauto).
  assert (Hlp : length (place m 0 els) = length els).
  { rewrite <- (place_snd m els 0) at 2. rewrite map_length. reflexivity. }
  destruct (pull_props S (place m 0 els) 0) as (J1 & J2 & J3 & J4 & J5 & J6).
  { apply place_incr. } { lia. }
  set (PL := pull S (place m 0 els)) in *.
  assert (Hsnd : map snd PL = els). { unfold PL. rewrite pull_snd, place_snd. reflexivity. }
  assert (HPS : forall i e, In (i, e) PL -> i < S).
  { intros i e Hin. assert (Hl : lastpos 0 PL <= S).
    { destruct PL as [|[b eb] tt]; [contradiction|]. simpl in *. exact J6. }
    clear -Hin Hl J1. revert Hl J1. generalize 0 as lo. induction PL as [|[b eb] tt IH]; [contradiction|].
    intros lo Hl [H1 H2]. simpl in Hl. destruct Hin as [E|Hin].
    - inversion E; subst. clear -Hl H2. revert Hl H2. assert (Hx : i + 1 <= i + 1) by lia. revert Hx. generalize (i + 1) at 2 3 4.
      induction tt as [|[d ed] tt IH]; simpl; intros z Hz Hl H; [lia|]. destruct H as [H1 H2]. apply (IH (d + 1)); auto. lia.
    - apply (IH Hin (b + 1)); auto. }
  constructor.
  - intros i p x E. apply (cells_in PL 0) in E; auto. pose proof (HPS _ _ E). pose proof (incr_in _ _ _ _ J1 E).
    assert (Hel : In (p, x) els). { rewrite <- Hsnd. apply in_map_iff. exists (i, (p, x)). auto. }
    rewrite Forall_forall in Hr. apply Hr in Hel. simpl in Hel. lia.
  - intros i j p x q y Hij E F. apply (cells_in PL 0) in E; auto. apply (cells_in PL 0) in F; auto.
    assert (Hso : StronglySorted ord (map snd PL)) by (rewrite Hsnd; auto).
    apply (ord_mono PL 0 i j (p, x) (q, y)); auto.
  - intros i p x E. apply (cells_in PL 0) in E; auto.
    apply (placed_full (cells PL) els 0 0) with (x := x); auto; try lia.
    intros e He j H1 H2. exfalso. destruct els as [|e' els']; [discriminate|]. simpl in He. inversion He; subst e'.
    inversion Hr1; subst. pose proof (Hmr (fst e) ltac:(auto)). lia.
Qed.

Lemma layout_incr els : Z.of_nat (length els) <= S -> incr 0 (layout els) /\ lastpos 0 (layout els) <= S.
Proof.
  intros Hlen.
  assert (Hlp : length (place m 0 els) = length els).
  { rewrite <- (place_snd m els 0) at 2. rewrite map_length. reflexivity. }
  destruct (pull_props S (place m 0 els) 0) as (J1 & J2 & J3 & J4 & J5 & J6).
  { apply place_incr. } { lia. }
  split; auto. unfold layout. destruct (pull S (place m 0 els)) as [|[b eb] tt]; simpl in *; [lia|exact J6].
Qed.
Lemma content_layout els : Z.of_nat (length els) <= S -> content (cells (layout els)) 0 S = els.
Proof.
  intros Hlen. destruct (layout_incr els Hlen). rewrite content_cells; auto. unfold layout. rewrite pull_snd, place_snd. reflexivity.
Qed.
End Final.

(** ** The runs computed by the code *)
Definition jn (s : Z) (e : Z * Z) : Z := fst e * 2 ^ s + snd e.

Inductive grp : list (Z * Z) -> placed -> Prop :=
| grp_nil : grp [] []
| grp_cons a p xs t PL : xs <> [] -> grp t PL -> (forall e, In e PL -> p < fst (snd e)) ->
    grp ((a, a + Z.of_nat (length xs)) :: t) (mk a p xs ++ PL).

Inductive rg (m : Z -> Z) : Z -> list (Z * Z) -> list (Z * Z) -> Prop :=
| rg_one p xs : rg m p [(m p, m p + Z.of_nat (length xs))] (map (pair p) xs)
| rg_snoc p0 a0 b0 acc els p xs : rg m p0 ((a0, b0) :: acc) els -> els <> [] -> xs <> [] -> p0 < p ->
    rg m p ((Z.max b0 (m p), Z.max b0 (m p) + Z.of_nat (length xs)) :: (a0, b0) :: acc) (els ++ map (pair p) xs).

Lemma rg_top m p acc els : rg m p acc els -> exists a b t, acc = (a, b) :: t.
Proof. intros []; eauto. Qed.
Lemma rg_le m p acc els : rg m p acc els -> forall e, In e els -> fst e <= p.
Proof.
  induction 1 as [p xs|p0 a0 b0 acc els p xs H IH Hne Hx Hlt]; intros e Hin.
  - apply in_map_iff in Hin as (x & <- & _). simpl. lia.
  - apply in_app_or in Hin as [Hin|Hin]; [specialize (IH _ Hin); lia|].
    apply in_map_iff in Hin as (x & <- & _). simpl. lia.
Qed.
Lemma rg_last m : (forall p, 0 <= p < 1024 -> 0 <= m p) -> forall p a b t els, rg m p ((a, b) :: t) els -> els <> [] ->
  Forall (fun e => 0 <= fst e < 1024) els -> lastpos 0 (place m 0 els) = b.
Proof.
  intros Hm p a b t els H. remember ((a, b) :: t) as acc eqn:Eacc. revert a b t Eacc.
  induction H as [p xs|p0 a0 b0 acc els p xs H IH Hne Hx Hlt]; intros a b t Eacc Hn Hf; inversion Eacc; subst.
  - assert (Hxs : xs <> []) by (intros ->; apply Hn; reflexivity).
    rewrite place_run', lastpos_mk by auto.
    assert (Hp : 0 <= p < 1024). { destruct xs as [|x xs]; [congruence|]. inversion Hf; auto. }
    specialize (Hm p Hp). lia.
  - apply Forall_app in Hf as [Hf1 Hf2]. rewrite place_app, lastpos_app, place_run' by auto.
    rewrite lastpos_mk by auto. rewrite (IH _ _ _ eq_refl Hne Hf1). reflexivity.
Qed.

Lemma load_runs_rg c s grade scalar m : 0 <= s -> (forall p, 0 <= p < 1024 -> mapped_pos c p grade scalar = m p) ->
  forall l p acc els, rg m p acc els ->
  StronglySorted ord l -> Forall (fun e => 0 <= fst e < 1024 /\ 0 <= snd e < 2 ^ s) l -> Forall (fun e => p <= fst e) l ->
  (els <> [] \/ exists x t, l = (p, x) :: t) ->
  exists p', rg m p' (load_runs c s grade scalar p acc (map (jn s) l)) (els ++ l).
Proof.
  intros Hs Hm l. induction l as [|[q x] t IH]; intros p acc els H Hso Hr Hp Hst.
  - simpl. rewrite app_nil_r. eauto.
  - inversion Hso as [|? ? Hso' Hall]; subst. inversion Hr as [|? ? Hr0 Hr']; subst. inversion Hp as [|? ? Hp0 Hp']; subst.
    simpl in Hr0, Hp0. cbn [map load_runs]. change (jn s (q, x)) with (q * 2 ^ s + x).
    assert (Hj : Z.shiftr (q * 2 ^ s + x) s = q).
    { rewrite Z.shiftr_div_pow2 by lia. symmetry. apply (Z.div_unique_pos _ _ _ x); lia. }
    rewrite Hj.
    assert (Hq' : Forall (fun e => q <= fst e) t).
    { eapply Forall_impl; [|exact Hall]. intros e [He|[He _]]; simpl in He; lia. }
    replace (els ++ (q, x) :: t) with ((els ++ [(q, x)]) ++ t) by (rewrite <- app_assoc; reflexivity).
    assert (Hne : els ++ [(q, x)] <> []) by (destruct els; discriminate).
    destruct (Z.eqb_spec q p) as [->|Hqp].
    + apply IH; auto.
      inversion H as [p1 xs|p0 a0 b0 acc0 els0 p1 xs H0 Hne0 Hx Hlt]; subst.
      * replace (map (pair p) xs ++ [(p, x)]) with (map (pair p) (xs ++ [x])) by (rewrite map_app; reflexivity).
        replace (m p + Z.of_nat (length xs) + 1) with (m p + Z.of_nat (length (xs ++ [x]))) by (rewrite app_length; simpl; lia).
        apply rg_one.
      * replace ((els0 ++ map (pair p) xs) ++ [(p, x)]) with (els0 ++ map (pair p) (xs ++ [x])) by (rewrite map_app, app_assoc; reflexivity).
        replace (Z.max b0 (m p) + Z.of_nat (length xs) + 1) with (Z.max b0 (m p) + Z.of_nat (length (xs ++ [x]))) by (rewrite app_length; simpl; lia).
        apply (rg_snoc m p0); auto. destruct xs; discriminate.
    + assert (Hne0 : els <> []). { destruct Hst as [Hst|(y & t0 & E)]; auto. inversion E; subst; congruence. }
      destruct (rg_top _ _ _ _ H) as (a & b & acc0 & ->).
      apply IH; auto. rewrite Hm by lia.
      change [(q, x)] with (map (pair q) [x]).
      replace (Z.max b (m q) + 1) with (Z.max b (m q) + Z.of_nat (length [x])) by (simpl; lia).
      apply (rg_snoc m p); auto; [discriminate|lia].
Qed.

Lemma pull_in nl PL e : In e (map snd (pull nl PL)) <-> In e (map snd PL).
Proof. rewrite pull_snd. tauto. Qed.

Lemma pull_runs_grp m : (forall p, 0 <= p < 1024 -> 0 <= m p) -> forall p acc els, rg m p acc els -> els <> [] ->
  Forall (fun e => 0 <= fst e < 1024) els ->
  forall runs2 PL2 nl, grp runs2 PL2 -> (forall e, In e PL2 -> p < fst (snd e)) ->
  grp (pull_runs nl acc runs2) (pull nl (place m 0 els) ++ PL2).
Proof.
  intros Hm p acc els H. induction H as [p xs|p0 a0 b0 acc els p xs H IH Hne Hx Hlt]; intros Hn Hf runs2 PL2 nl Hg Hlt2.
  - assert (Hxs : xs <> []) by (intros ->; apply Hn; reflexivity).
    assert (Hp : 0 <= p < 1024). { destruct xs as [|x xs]; [congruence|]. inversion Hf; auto. }
    rewrite place_run' by auto. specialize (Hm p Hp). replace (Z.max 0 (m p)) with (m p) by lia.
    rewrite pull_mk. cbn [pull_runs]. set (d := Z.min 0 _).
    replace (m p + Z.of_nat (length xs) + d) with (m p + d + Z.of_nat (length xs)) by lia. apply grp_cons; auto.
  - apply Forall_app in Hf as [Hf1 Hf2].
    rewrite place_app, place_run' by auto. rewrite (rg_last m Hm _ _ _ _ _ H Hne Hf1).
    rewrite pull_app, pull_mk. remember ((a0, b0) :: acc) as rest eqn:Er. clear Er. cbn [pull_runs]. set (a := Z.max b0 (m p)). set (d := Z.min 0 _).
    rewrite <- app_assoc. 
    replace (hdpos nl (mk (a + d) p xs)) with (a + d) by (destruct xs; [congruence|reflexivity]).
    apply IH; auto.
    + replace (a + Z.of_nat (length xs) + d) with (a + d + Z.of_nat (length xs)) by lia. apply grp_cons; auto.
    + intros e Hin. apply in_app_or in Hin as [Hin|Hin].
      * assert (Hi : In (snd e) (map (pair p) xs)). { rewrite <- (mk_snd p xs (a + d)). apply in_map. auto. }
        apply in_map_iff in Hi as (x & Ex & _). rewrite <- Ex. simpl. lia.
      * specialize (Hlt2 _ Hin). lia.
Qed.

(** cells of a group followed by others *)
Lemma cells_mk p xs PL : forall a i, cells (mk a p xs ++ PL) i =
  if (a <=? i) && (i <? a + Z.of_nat (length xs)) then Some (p, nth (Z.to_nat (i - a)) xs 0) else cells PL i.
Proof.
  induction xs as [|x t IH]; intros a i.
  - cbn [mk app length]. destruct (Z.leb_spec a i), (Z.ltb_spec i (a + Z.of_nat 0)); simpl; auto; exfalso; lia.
  - cbn [mk app length cells]. destruct (Z.eqb_spec i a) as [->|Hia].
    + destruct (Z.leb_spec a a), (Z.ltb_spec a (a + Z.of_nat (Datatypes.S (length t)))); try (exfalso; lia). simpl.
      rewrite Z.sub_diag. reflexivity.
    + rewrite IH.
      destruct (Z.leb_spec (a + 1) i), (Z.leb_spec a i), (Z.ltb_spec i (a + 1 + Z.of_nat (length t))),
        (Z.ltb_spec i (a + Z.of_nat (Datatypes.S (length t)))); simpl; auto; try (exfalso; lia).
      replace (Z.to_nat (i - a)) with (Datatypes.S (Z.to_nat (i - (a + 1)))) by lia. reflexivity.
Qed.
