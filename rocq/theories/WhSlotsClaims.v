(** The calls on the arrays of a leaf answer like a finite map and keep the pairs of the
    leaf in the index model. *)
From Coq Require Import ZArith List Bool Arith Lia Permutation.
From Verif Require Import Base Key KeyOrder Wormhole WhSlots WhSlotsProofs SpecSlots.
Import ListNotations.
Open Scope Z_scope.

Section slots.
  Context {V : Type}.
  Notation ent := (@ent V).
  Notation sleaf := (@sleaf V).

  Record rel (T : key -> Z) (l : sleaf) (es : list ent) : Prop := mkrel {
    r_ok : ok l;
    r_view : view l = map Some es;
    r_tag : forall x, In x es -> fst x = T (fst (snd x));
    r_keys : NoDup (map (fun x : ent => fst (snd x)) es) }.

  Lemma rel_pairs T l es : rel T l es -> pairs l = map snd es.
  Proof.
    intros [_ R _ _]. unfold pairs, view in *. revert es R. induction (s_ss l) as [|i ss IH]; intros [|e es] R; try discriminate; [reflexivity|].
    cbn [map] in R. injection R as R1 R2. cbn [flat_map map]. rewrite R1, (IH es R2). reflexivity.
  Qed.
  Lemma rel_len T l es : rel T l es -> length (s_ss l) = length es.
  Proof. intros [_ R _ _]. apply (f_equal (@length _)) in R. unfold view in R. rewrite !map_length in R. exact R. Qed.
  Lemma rel_nth T l es j ih x : rel T l es -> nth_error (s_ss l) j = Some ih -> s_hs l ih = Some x -> nth_error es j = Some x.
  Proof.
    intros [_ R _ _] N H. unfold view in R. pose proof (map_nth_error (s_hs l) j (s_ss l) N) as M. rewrite R, H in M.
    rewrite nth_error_map in M. destruct (nth_error es j); [|discriminate]. injection M as <-. reflexivity.
  Qed.
  Lemma rel_in T l es x : rel T l es -> In x es -> exists ih, s_hs l ih = Some x.
  Proof.
    intros [_ R _ _] I. assert (J : In (Some x) (view l)) by (rewrite R; apply in_map; exact I).
    unfold view in J. apply in_map_iff in J. destruct J as (ih & E & _). exists ih. exact E.
  Qed.
  Lemma rel_listed T l es ih x : rel T l es -> s_hs l ih = Some x ->
    exists j, search_is (s_ss l) ih = Some j /\ nth_error (s_ss l) j = Some ih /\ nth_error es j = Some x.
  Proof.
    intros R H. assert (I : In ih (s_ss l)) by (apply (o_full _ (r_ok _ _ _ R)); rewrite H; discriminate).
    assert (K : exists j, search_is (s_ss l) ih = Some j /\ nth_error (s_ss l) j = Some ih).
    { clear R H. induction (s_ss l) as [|a r IH]; [destruct I|]. cbn [search_is]. destruct (Nat.eqb_spec a ih) as [->|N].
      - exists O. auto.
      - destruct I as [I|I]; [contradiction|]. destruct (IH I) as (j & E & F). exists (S j). rewrite E. auto. }
    destruct K as (j & E & F). exists j. split; [exact E|]. split; [exact F|]. exact (rel_nth _ _ _ _ _ _ R F H).
  Qed.
  Lemma find_pos_nth (es : list ent) j x : NoDup (map (fun x : ent => fst (snd x)) es) -> nth_error es j = Some x ->
    find_pos (map snd es) (fst (snd x)) = Some j.
  Proof.
    revert j. induction es as [|e es IH]; intros [|j] ND N; try discriminate; cbn [map find_pos nth_error] in *.
    - injection N as ->. rewrite key_eq_refl. reflexivity.
    - inversion ND; subst. destruct (key_eq (fst (snd e)) (fst (snd x))) eqn:E.
      + exfalso. apply key_eq_iff in E. apply H1. rewrite E. apply nth_error_In in N. exact (in_map (fun x : ent => fst (snd x)) es x N).
      + rewrite (IH j H2 N). reflexivity.
  Qed.
  Lemma find_pos_nokey (es : list ent) k : (forall x, In x es -> fst (snd x) <> k) -> find_pos (map snd es) k = None.
  Proof.
    induction es as [|e es IH]; intros H; [reflexivity|]. cbn [map find_pos]. destruct (key_eq (fst (snd e)) k) eqn:E.
    - exfalso. apply key_eq_iff in E. exact (H e (or_introl eq_refl) E).
    - rewrite IH; [reflexivity|]. intros x Hx. apply H. right. exact Hx.
  Qed.

  (** looking up *)
  Lemma rel_match T l es k : rel T l es ->
    match match_hs (s_hs l) (T k) k with
    | Some ih => exists j v, search_is (s_ss l) ih = Some j /\ nth_error (s_ss l) j = Some ih /\ s_hs l ih = Some (T k, (k, v)) /\ nth_error es j = Some (T k, (k, v)) /\ find_pos (map snd es) k = Some j
    | None => (forall x, In x es -> fst (snd x) <> k) /\ find_pos (map snd es) k = None
    end.
  Proof.
    intros R. destruct (match_hs (s_hs l) (T k) k) as [ih|] eqn:M.
    - apply match_hs_some in M. destruct M as [M1 M2]. unfold is_key, e1 in *. destruct (s_hs l ih) as [[t [k' v]]|] eqn:E; [|discriminate].
      cbn [fst snd] in *. apply key_eq_iff in M2. subst k' t.
      destruct (rel_listed _ _ _ _ _ R E) as (j & J1 & J2 & J3). exists j, v. repeat split; auto.
      exact (find_pos_nth es j _ (r_keys _ _ _ R) J3).
    - assert (H : forall x, In x es -> fst (snd x) <> k).
      { intros x Hx Hk. destruct (rel_in _ _ _ _ R Hx) as (ih & E). apply (match_hs_none _ _ _ ih x (o_good _ (r_ok _ _ _ R)) M E); [|exact Hk].
        rewrite (r_tag _ _ _ R x Hx), Hk. reflexivity. }
      split; [exact H|]. apply find_pos_nokey. exact H.
  Qed.

  (** storing a new pair *)
  Lemma rel_insert T l es k v : tag_fun T -> rel T l es -> (length es < NS)%nat -> (forall x, In x es -> fst (snd x) <> k) ->
    exists l', insert_e13 l (T k, (k, v)) = Ok l' /\ rel T l' (es ++ [(T k, (k, v))]).
  Proof.
    intros HT R Len NK. destruct (insert_ok l (T k, (k, v)) (r_ok _ _ _ R)) as (l' & E & O & W).
    - rewrite (rel_len _ _ _ R). exact Len.
    - exact (HT k).
    - exists l'. split; [exact E|]. constructor; [exact O| | |].
      + rewrite W, (r_view _ _ _ R), map_app. reflexivity.
      + intros x Hx. apply in_app_iff in Hx. destruct Hx as [Hx|[<-|[]]]; [exact (r_tag _ _ _ R x Hx)|reflexivity].
      + rewrite map_app. apply (Permutation_NoDup (l := k :: map (fun x : ent => fst (snd x)) es)); [apply Permutation_cons_append|].
        constructor; [|exact (r_keys _ _ _ R)]. intros I. apply in_map_iff in I. destruct I as (x & Ex & Hx). exact (NK x Hx Ex).
  Qed.

  (** replacing a pair *)
  Lemma good_same (hs hs' : @hsarr V) : good hs -> (forall i, match hs i, hs' i with None, None => True | Some x, Some y => fst x = fst y | _, _ => False end) -> good hs'.
  Proof.
    intros G S.
    assert (B : forall i y, hs' i = Some y -> exists x, hs i = Some x /\ fst x = fst y).
    { intros i y Y. specialize (S i). rewrite Y in S. destruct (hs i) as [x|]; [|contradiction]. exists x. auto. }
    constructor.
    - intros i Hi. specialize (S i). rewrite (g_out _ G i Hi) in S. destruct (hs' i); [contradiction|reflexivity].
    - intros i y Y. destruct (B i y Y) as (x & X & <-). exact (g_tag _ G i x X).
    - intros i j x y Hij X Y. destruct (B i x X) as (x' & X' & <-). destruct (B j y Y) as (y' & Y' & <-). exact (g_sort _ G i j x' y' Hij X' Y').
    - intros j y i Y Hi N. destruct (B j y Y) as (x & X & E). rewrite <- E in Hi. apply (g_run _ G j x i X Hi).
      specialize (S i). rewrite N in S. destruct (hs i); [contradiction|reflexivity].
  Qed.
  Lemma nth_split_at {A} (l : list A) j x : nth_error l j = Some x -> l = firstn j l ++ x :: skipn (S j) l /\ (j < length l)%nat.
  Proof.
    revert j. induction l as [|a l IH]; intros [|j] H; try discriminate; cbn [nth_error firstn skipn app length] in *.
    - injection H as ->. split; [reflexivity|lia].
    - destruct (IH j H) as [E L]. split; [f_equal; exact E|lia].
  Qed.
  Lemma rel_update T l es ih j k v v' : rel T l es -> nth_error (s_ss l) j = Some ih -> s_hs l ih = Some (T k, (k, v)) -> nth_error es j = Some (T k, (k, v)) ->
    exists l', update l ih (k, v') = Ok l' /\ rel T l' (firstn j es ++ (T k, (k, v')) :: skipn (S j) es).
  Proof.
    intros R J H E. unfold update. rewrite H. cbn [fst]. eexists. split; [reflexivity|]. destruct R as [O W Tg K].
    destruct (nth_split_at _ _ _ E) as [Es Ej]. destruct (nth_split_at _ _ _ J) as [Ss Sj].
    pose proof (o_nodup _ O) as ND.
    constructor.
    - constructor; cbn [s_hs s_ss]; [|exact ND|].
      + apply (good_same (s_hs l)); [exact (o_good _ O)|]. intros i. unfold put. destruct (Nat.eqb_spec i ih) as [->|N]; [rewrite H; reflexivity|].
        destruct (s_hs l i); auto.
      + intros i. rewrite (o_full _ O i). unfold put. destruct (Nat.eqb_spec i ih) as [->|N]; [|tauto]. rewrite H. split; discriminate.
    - unfold view in *. cbn [s_hs s_ss].
      assert (Lf : length (firstn j (s_ss l)) = length (firstn j es)) by (rewrite !firstn_length; lia).
      clear K Tg. revert Ss Es Lf. generalize (firstn j (s_ss l)) (skipn (S j) (s_ss l)) (firstn j es) (skipn (S j) es). intros p q p' q' Ss Es Lf.
      rewrite Ss in W, ND |- *. rewrite Es in W. rewrite !map_app in *. cbn [map] in *. rewrite put_same.
      apply NoDup_remove_2 in ND. rewrite in_app_iff in ND.
      assert (P : forall q, ~ In ih q -> map (put (s_hs l) ih (Some (T k, (k, v')))) q = map (s_hs l) q).
      { intros r Hr. apply map_ext_in. intros i Hi. apply put_other. intros ->. auto. }
      rewrite (P p), (P q) by tauto.
      assert (W1 : map (s_hs l) p = map Some p').
      { assert (Lm : length (map (s_hs l) p) = length (map Some p')) by (rewrite !map_length; exact Lf).
        apply (f_equal (firstn (length (map (s_hs l) p)))) in W. rewrite Lm in W at 2.
        rewrite !firstn_app, !Nat.sub_diag, !firstn_all, !firstn_O, !app_nil_r in W. exact W. }
      rewrite W1 in W |- *. apply app_inv_head in W. injection W as _ W. rewrite W. reflexivity.
    - intros x Hx. apply in_app_iff in Hx. destruct Hx as [Hx|[<-|Hx]]; [|reflexivity|]; apply Tg; rewrite Es; apply in_app_iff; [left|right; right]; exact Hx.
    - rewrite Es in K. rewrite map_app in *. cbn [map fst snd] in *. exact K.
  Qed.

  (** taking a pair out *)
  Lemma firstn_exact {A} (a b : list A) : firstn (length a) (a ++ b) = a.
  Proof. rewrite firstn_app, Nat.sub_diag, firstn_O, app_nil_r. apply firstn_all. Qed.
  Lemma swap_last {A} (l : list A) j a : nth_error l j = Some a ->
    exists x, nth_error l (length l - 1) = Some x
    /\ Permutation (a :: firstn (length l - 1) (firstn j l ++ x :: skipn (S j) l)) l.
  Proof.
    intros H. assert (Hl : l <> []) by (intros ->; destruct j; discriminate).
    destruct (exists_last Hl) as (l0 & x & ->). rewrite app_length. cbn [length]. replace (length l0 + 1 - 1)%nat with (length l0) by lia.
    exists x. split; [rewrite nth_error_app2, Nat.sub_diag by lia; reflexivity|].
    destruct (Nat.lt_ge_cases j (length l0)) as [L|L].
    - rewrite nth_error_app1 in H by exact L. destruct (nth_split_at _ _ _ H) as [E _].
      remember (firstn j l0) as p. remember (skipn (S j) l0) as q.
      assert (Lp : length p = j) by (subst p; apply firstn_length_le; lia).
      rewrite !E, <- !app_assoc. cbn [app].
      replace (firstn j (p ++ a :: q ++ [x])) with p by (rewrite firstn_app, Lp, Nat.sub_diag, firstn_O, app_nil_r, <- Lp; symmetry; apply firstn_all).
      replace (skipn (S j) (p ++ a :: q ++ [x])) with (q ++ [x]).
      2:{ rewrite skipn_app. rewrite skipn_all2 by lia. replace (S j - length p)%nat with 1%nat by lia. reflexivity. }
      replace (p ++ x :: q ++ [x]) with ((p ++ x :: q) ++ [x]) by (rewrite <- app_assoc; reflexivity).
      replace (length (p ++ a :: q)) with (length (p ++ x :: q)) by (rewrite !app_length; reflexivity).
      rewrite firstn_exact.
      etransitivity; [apply Permutation_middle|]. apply Permutation_app_head. constructor. apply Permutation_cons_append.
    - assert (j = length l0).
      { assert (j < length (l0 ++ [x]))%nat by (apply nth_error_Some; rewrite H; discriminate). rewrite app_length in *. cbn [length] in *. lia. }
      subst j. rewrite nth_error_app2, Nat.sub_diag in H by lia. injection H as <-.
      rewrite !firstn_exact. apply Permutation_cons_append.
  Qed.
  Definition taken {A} (l : list A) (j : nat) : list A :=
    firstn (length l - 1) (firstn j l ++ skipn (length l - 1) l ++ skipn (S j) l).
  Lemma skipn_last {A} (l : list A) x : nth_error l (length l - 1) = Some x -> skipn (length l - 1) l = [x].
  Proof.
    intros H. assert (Hl : l <> []) by (intros ->; discriminate).
    destruct (exists_last Hl) as (l0 & y & ->). rewrite app_length in *. cbn [length] in *. replace (length l0 + 1 - 1)%nat with (length l0) in * by lia.
    rewrite nth_error_app2, Nat.sub_diag in H by lia. injection H as ->. rewrite skipn_app, Nat.sub_diag, skipn_all. reflexivity.
  Qed.
  Lemma map_taken {A B} (f : A -> B) l j : map f (taken l j) = taken (map f l) j.
  Proof. unfold taken. rewrite map_length, <- !firstn_map, !map_app, <- !firstn_map, <- !skipn_map. reflexivity. Qed.
  Lemma taken_perm {A} (l : list A) j a : nth_error l j = Some a -> Permutation (a :: taken l j) l.
  Proof. intros H. destruct (swap_last l j a H) as (x & X & P). unfold taken. rewrite (skipn_last l x X). exact P. Qed.
  Lemma rel_remove T l es ih j k v : rel T l es -> search_is (s_ss l) ih = Some j -> nth_error (s_ss l) j = Some ih -> s_hs l ih = Some (T k, (k, v)) -> nth_error es j = Some (T k, (k, v)) ->
    exists l', remove_ih l ih = Ok l' /\ rel T l' (taken es j).
  Proof.
    intros [O W Tg K] J0 J H E. unfold remove_ih, remove. rewrite J0. destruct (swap_last _ _ _ J) as (x & X & _). rewrite X.
    eexists. split; [reflexivity|].
    assert (Es : firstn (length (s_ss l) - 1) (put_ss (s_ss l) j x) = taken (s_ss l) j) by (unfold put_ss, taken; rewrite (skipn_last _ _ X); reflexivity).
    rewrite Es. clear Es. pose proof (taken_perm _ _ _ J) as P. pose proof (taken_perm _ _ _ E) as Q.
    pose proof (Permutation_NoDup (Permutation_sym P) (o_nodup _ O)) as ND. inversion ND; subst.
    destruct (pull_ok (s_hs l) ih (T k, (k, v)) (taken (s_ss l) j) (o_good _ O) H H3) as [OK View].
    { intros i. unfold put. destruct (Nat.eqb_spec i ih) as [->|N]; [tauto|]. rewrite <- (o_full _ O i). split; intros I.
      - apply (Permutation_in _ P). right. exact I.
      - apply (Permutation_in _ (Permutation_sym P)) in I. destruct I as [I|I]; [congruence|exact I]. }
    constructor; [exact OK| | |].
    - rewrite View, (map_taken Some es j), <- W. unfold view. rewrite <- map_taken. apply map_ext_in. intros i Hi. apply put_other. intros ->. contradiction.
    - intros y Hy. apply Tg. apply (Permutation_in _ Q). right. exact Hy.
    - pose proof (Permutation_NoDup (Permutation_sym (Permutation_map (fun x : ent => fst (snd x)) Q)) K) as ND2. cbn [map] in ND2. inversion ND2. assumption.
  Qed.

  (** another order *)
  Lemma pick_seq {A} (l : list A) : pick l (seq 0 (length l)) = l.
  Proof.
    assert (H : forall (p q : list A), pick (p ++ q) (seq (length p) (length q)) = q).
    { intros p q. revert p. induction q as [|a q IH]; intros p; [reflexivity|]. cbn [length seq]. unfold pick in *. cbn [flat_map].
      rewrite nth_error_app2, Nat.sub_diag by lia. cbn [nth_error app]. f_equal. specialize (IH (p ++ [a])). rewrite app_length, <- app_assoc in IH. cbn [length app] in IH.
      rewrite Nat.add_1_r in IH. exact IH. }
    exact (H [] l).
  Qed.
  Lemma pick_perm {A} (l : list A) ix : Permutation ix (seq 0 (length l)) -> Permutation (pick l ix) l.
  Proof. intros P. rewrite <- (pick_seq l) at 2. unfold pick. apply Permutation_flat_map. exact P. Qed.
  Lemma pick_map {A B} (f : A -> B) l ix : map f (pick l ix) = pick (map f l) ix.
  Proof.
    unfold pick. induction ix as [|i ix IH]; [reflexivity|]. cbn [flat_map]. rewrite map_app, IH, nth_error_map. f_equal. destruct (nth_error l i); reflexivity.
  Qed.
  Lemma rel_order T l es ix : rel T l es -> Permutation ix (seq 0 (length es)) -> rel T (mksleaf (s_hs l) (pick (s_ss l) ix)) (pick es ix).
  Proof.
    intros R P. pose proof (rel_len _ _ _ R) as Len. destruct R as [O W Tg K]. pose proof (pick_perm es ix P) as Q. rewrite <- Len in P. pose proof (pick_perm (s_ss l) ix P) as Q'.
    constructor.
    - constructor; cbn [s_hs s_ss]; [exact (o_good _ O)|exact (Permutation_NoDup (Permutation_sym Q') (o_nodup _ O))|].
      intros i. rewrite <- (o_full _ O i). split; apply Permutation_in; [exact Q'|apply Permutation_sym, Q'].
    - unfold view in *. cbn [s_hs s_ss]. rewrite !pick_map, W. reflexivity.
    - intros x Hx. apply Tg. exact (Permutation_in _ Q Hx).
    - exact (Permutation_NoDup (Permutation_sym (Permutation_map _ Q)) K).
  Qed.

  (** all calls *)
  Definition agrees (f : @fmap V) (es : list ent) : Prop :=
    (forall x, In x es -> f (fst (snd x)) = Some (snd (snd x))) /\ (forall k, (forall x, In x es -> fst (snd x) <> k) -> f k = None).
  Notation ekey := (fun x : ent => fst (snd x)).
  Lemma without_perm ks k (es : list ent) e es' : Permutation ks (map ekey es) -> NoDup (map ekey es) ->
    Permutation (e :: es') es -> fst (snd e) = k -> Permutation (without k ks) (map ekey es').
  Proof.
    intros P ND Q E. unfold without.
    assert (Q' : Permutation (map ekey es) (k :: map ekey es')) by (rewrite <- E; exact (Permutation_sym (Permutation_map ekey Q))).
    assert (P' : Permutation ks (k :: map ekey es')) by (etransitivity; [exact P|exact Q']).
    assert (ND' : NoDup (k :: map ekey es')) by exact (Permutation_NoDup Q' ND).
    assert (F : forall a b, Permutation a b -> Permutation (filter (fun q => negb (key_eq q k)) a) (filter (fun q => negb (key_eq q k)) b)).
    { intros a b HP. induction HP; cbn [filter].
      - constructor.
      - destruct (negb (key_eq x k)); [constructor|]; assumption.
      - destruct (negb (key_eq x k)), (negb (key_eq y k)); try constructor; apply Permutation_refl.
      - etransitivity; eassumption. }
    etransitivity; [exact (F _ _ P')|]. cbn [filter]. rewrite key_eq_refl. cbn [negb]. inversion ND'; subst.
    clear - H1. induction (map ekey es') as [|a r IH]; [constructor|]. cbn [filter]. destruct (key_eq a (fst (snd e))) eqn:Ea.
    - exfalso. apply key_eq_iff in Ea. apply H1. left. exact Ea.
    - cbn [negb]. constructor. apply IH. intros I. apply H1. right. exact I.
  Qed.
  Lemma without_absent ks k (es : list ent) : Permutation ks (map ekey es) -> (forall x, In x es -> fst (snd x) <> k) -> without k ks = ks.
  Proof.
    intros P N. unfold without. assert (M : forall q, In q ks -> q <> k).
    { intros q Hq ->. apply (Permutation_in _ P) in Hq. apply in_map_iff in Hq. destruct Hq as (x & Ex & Hx). exact (N x Hx Ex). }
    clear P N. induction ks as [|a r IH]; [reflexivity|]. cbn [filter]. destruct (key_eq a k) eqn:E.
    - exfalso. apply key_eq_iff in E. exact (M a (or_introl eq_refl) E).
    - cbn [negb]. f_equal. apply IH. intros q Hq. apply M. right. exact Hq.
  Qed.
  Lemma agrees_ext f es es' : Permutation es es' -> agrees f es -> agrees f es'.
  Proof.
    intros P [A B]. split.
    - intros x Hx. apply A. exact (Permutation_in _ (Permutation_sym P) Hx).
    - intros k Hk. apply B. intros x Hx. apply Hk. exact (Permutation_in _ P Hx).
  Qed.
  Lemma agrees_drop f e es : NoDup (map ekey (e :: es)) -> agrees f (e :: es) -> agrees (fset f (fst (snd e)) None) es.
  Proof.
    intros ND [A B]. cbn [map] in ND. inversion ND; subst. split; unfold fset.
    - intros x Hx. destruct (key_eq (fst (snd x)) (fst (snd e))) eqn:E.
      + exfalso. apply key_eq_iff in E. apply H1. rewrite <- E. exact (in_map ekey es x Hx).
      + apply A. right. exact Hx.
    - intros k Hk. destruct (key_eq k (fst (snd e))) eqn:E; [reflexivity|]. apply B. intros x [<-|Hx]; [|exact (Hk x Hx)].
      intros Q. rewrite Q, key_eq_refl in E. discriminate.
  Qed.
  Lemma agrees_add f e es : (forall x, In x es -> fst (snd x) <> fst (snd e)) -> agrees f es -> agrees (fset f (fst (snd e)) (Some (snd (snd e)))) (e :: es).
  Proof.
    intros N [A B]. split; unfold fset.
    - intros x [<-|Hx]; [rewrite key_eq_refl; reflexivity|]. destruct (key_eq (fst (snd x)) (fst (snd e))) eqn:E.
      + exfalso. apply key_eq_iff in E. exact (N x Hx E).
      + exact (A x Hx).
    - intros k Hk. destruct (key_eq k (fst (snd e))) eqn:E.
      + exfalso. apply key_eq_iff in E. exact (Hk e (or_introl eq_refl) (eq_sym E)).
      + apply B. intros x Hx. apply Hk. right. exact Hx.
  Qed.
  Lemma agrees_swap f e e' es : fst (snd e') = fst (snd e) -> NoDup (map ekey (e :: es)) -> agrees f (e :: es) -> agrees (fset f (fst (snd e)) (Some (snd (snd e')))) (e' :: es).
  Proof.
    intros E ND [A B]. cbn [map] in ND. inversion ND; subst. split; unfold fset.
    - intros x [<-|Hx]; [rewrite E, key_eq_refl; reflexivity|]. destruct (key_eq (fst (snd x)) (fst (snd e))) eqn:Q.
      + exfalso. apply key_eq_iff in Q. apply H1. rewrite <- Q. exact (in_map ekey es x Hx).
      + apply A. right. exact Hx.
    - intros k Hk. destruct (key_eq k (fst (snd e))) eqn:Q.
      + exfalso. apply key_eq_iff in Q. apply (Hk e' (or_introl eq_refl)). congruence.
      + apply B. intros x [<-|Hx]; [|apply Hk; right; exact Hx]. intros D. rewrite D, key_eq_refl in Q. discriminate.
  Qed.

  Theorem lrun_ok T : tag_fun T -> forall cs l es (w : leaf V) f ks,
    rel T l es -> l_kvs w = map snd es -> agrees f es -> Permutation ks (map ekey es) -> fits ks cs ->
    exists l' es', lrun T l cs = Ok (l', answers f cs) /\ rel T l' es' /\ l_kvs (fold_left lstep cs w) = map snd es'.
  Proof.
    intros HT. induction cs as [|c cs IH]; intros l es w f ks R Hw A P F.
    { exists l, es. split; [reflexivity|]. split; [exact R|]. exact Hw. }
    assert (Step : forall l1 a es1 w1 f1 ks1, ldo T l c = Ok (l1, a) -> rel T l1 es1 -> lstep w c = w1 -> l_kvs w1 = map snd es1 -> agrees f1 es1 ->
      Permutation ks1 (map ekey es1) -> fits ks1 cs -> answers f (c :: cs) = a :: answers f1 cs ->
      exists l' es', lrun T l (c :: cs) = Ok (l', answers f (c :: cs)) /\ rel T l' es' /\ l_kvs (fold_left lstep (c :: cs) w) = map snd es').
    { intros l1 a es1 w1 f1 ks1 D R1 L1 W1 A1 P1 F1 An. destruct (IH l1 es1 w1 f1 ks1 R1 W1 A1 P1 F1) as (l' & es' & E & R' & Q).
      exists l', es'. cbn [lrun]. rewrite D. cbn [bind]. rewrite E. cbn [bind]. rewrite An. split; [reflexivity|]. split; [exact R'|]. cbn [fold_left]. rewrite L1. exact Q. }
    clear IH. destruct c as [k v|k|k|ix].
    - pose proof (rel_match T l es k R) as M. destruct F as [F1 F2]. cbn [ldo lstep] in Step.
      destruct (match_hs (s_hs l) (T k) k) as [ih|].
      + destruct M as (j & v0 & J0 & J & H & E & FP). rewrite Hw, FP in Step.
        destruct (rel_update T l es ih j k v0 v R J H E) as (l' & U & R'). rewrite U in Step. cbn [bind] in Step.
        destruct (nth_split_at _ _ _ E) as [Es _].
        assert (Q : Permutation ((T k, (k, v0)) :: firstn j es ++ skipn (S j) es) es) by (rewrite Es at 3; apply Permutation_middle).
        apply (Step l' (value_at l ih) _ _ (fset f k (Some v)) (k :: without k ks) eq_refl R' eq_refl); [| | |exact F2|].
        * cbn [leaf_update l_kvs]. rewrite Hw, map_app, firstn_map. cbn [map snd]. rewrite skipn_map. reflexivity.
        * apply (agrees_ext _ ((T k, (k, v)) :: firstn j es ++ skipn (S j) es)); [apply Permutation_middle|].
          apply (agrees_swap f (T k, (k, v0)) (T k, (k, v))); [reflexivity| |].
          -- exact (Permutation_NoDup (Permutation_sym (Permutation_map ekey Q)) (r_keys _ _ _ R)).
          -- exact (agrees_ext _ _ _ (Permutation_sym Q) A).
        * rewrite map_app. cbn [map fst snd]. etransitivity; [|apply Permutation_middle]. constructor. rewrite <- map_app.
          exact (without_perm ks k es _ _ P (r_keys _ _ _ R) Q eq_refl).
        * cbn [answers]. f_equal. unfold value_at. rewrite H. cbn [option_map snd]. exact (proj1 A _ (nth_error_In _ _ E)).
      + destruct M as [N FP]. rewrite Hw, FP in Step.
        rewrite (without_absent ks k es P N) in *.
        assert (Len : (length es < NS)%nat). { apply Permutation_length in P. rewrite map_length in P. unfold NS. lia. }
        destruct (rel_insert T l es k v HT R Len N) as (l' & U & R'). rewrite U in Step. cbn [bind] in Step.
        apply (Step l' None _ _ (fset f k (Some v)) (k :: ks) eq_refl R' eq_refl); [| | |exact F2|].
        * cbn [leaf_insert l_kvs]. rewrite Hw, map_app. reflexivity.
        * apply (agrees_ext _ ((T k, (k, v)) :: es)); [apply Permutation_cons_append|].
          exact (agrees_add f (T k, (k, v)) es N A).
        * rewrite map_app. cbn [map fst snd]. etransitivity; [|apply Permutation_cons_append]. constructor. exact P.
        * cbn [answers]. f_equal. exact (proj2 A k N).
    - pose proof (rel_match T l es k R) as M. cbn [ldo lstep] in Step. cbn [fits] in F.
      apply (Step l _ es w f ks eq_refl R eq_refl Hw A P F). cbn [answers]. f_equal.
      destruct (match_hs (s_hs l) (T k) k) as [ih|].
      + destruct M as (j & v0 & J0 & J & H & E & FP). unfold value_at. rewrite H. cbn [option_map snd]. exact (proj1 A _ (nth_error_In _ _ E)).
      + exact (proj2 A k (proj1 M)).
    - pose proof (rel_match T l es k R) as M. cbn [ldo lstep] in Step. cbn [fits] in F.
      destruct (match_hs (s_hs l) (T k) k) as [ih|].
      + destruct M as (j & v0 & J0 & J & H & E & FP). rewrite Hw, FP in Step.
        destruct (rel_remove T l es ih j k v0 R J0 J H E) as (l' & U & R'). rewrite U in Step. cbn [bind] in Step.
        pose proof (taken_perm _ _ _ E) as Q.
        apply (Step l' (value_at l ih) _ _ (fset f k None) (without k ks) eq_refl R' eq_refl); [| | |exact F|].
        * cbn [leaf_remove l_kvs]. rewrite Hw. rewrite map_taken. reflexivity.
        * apply (agrees_drop f (T k, (k, v0))).
          -- exact (Permutation_NoDup (Permutation_sym (Permutation_map ekey Q)) (r_keys _ _ _ R)).
          -- exact (agrees_ext _ _ _ (Permutation_sym Q) A).
        * exact (without_perm ks k es _ _ P (r_keys _ _ _ R) Q eq_refl).
        * cbn [answers]. f_equal. unfold value_at. rewrite H. cbn [option_map snd]. exact (proj1 A _ (nth_error_In _ _ E)).
      + destruct M as [N FP]. rewrite Hw, FP in Step. rewrite (without_absent ks k es P N) in *.
        apply (Step l None es w (fset f k None) ks eq_refl R eq_refl Hw); [|exact P|exact F|].
        * destruct A as [A1 A2]. split; unfold fset; intros x Hx.
          -- destruct (key_eq (fst (snd x)) k) eqn:E; [|exact (A1 x Hx)]. exfalso. apply key_eq_iff in E. exact (N x Hx E).
          -- destruct (key_eq x k); [reflexivity|exact (A2 x Hx)].
        * cbn [answers]. f_equal. exact (proj2 A k N).
    - destruct F as [F1 F2]. assert (Len : length ks = length es) by (apply Permutation_length in P; rewrite map_length in P; exact P). rewrite Len in F1.
      pose proof (rel_order T l es ix R F1) as R'. pose proof (pick_perm es ix F1) as Q. cbn [ldo lstep] in Step.
      apply (Step _ None _ _ f ks eq_refl R' eq_refl); [| | |exact F2|reflexivity].
      + cbn [l_kvs]. rewrite Hw, pick_map. reflexivity.
      + exact (agrees_ext _ _ _ (Permutation_sym Q) A).
      + etransitivity; [exact P|]. apply Permutation_sym, Permutation_map. exact Q.
  Qed.
  Lemma rel_empty T : rel T (@no_slots V) [].
  Proof.
    constructor; [|reflexivity|intros x []|constructor].
    constructor; cbn [no_slots s_hs s_ss]; [|constructor|intros i; split; [intros []|intros H; exfalso; apply H; reflexivity]].
    constructor; intros; try discriminate; try reflexivity.
  Qed.
  Lemma lrun_rel T cs a : tag_fun T -> fits [] cs ->
    exists l es, lrun T (@no_slots V) cs = Ok (l, answers (fun _ => None) cs) /\ rel T l es /\ l_kvs (fold_left lstep cs (mkleaf a [] 0)) = map snd es.
  Proof.
    intros HT F. apply (lrun_ok T HT cs no_slots [] (mkleaf a [] 0) (fun _ => None) []); auto.
    - apply rel_empty.
    - split; [intros x []|reflexivity].
  Qed.
  Theorem leaf_slots T cs a : tag_fun T -> fits [] cs ->
    exists l, lrun T (@no_slots V) cs = Ok (l, answers (fun _ => None) cs) /\ pairs l = l_kvs (fold_left lstep cs (mkleaf a [] 0)).
  Proof.
    intros HT F. destruct (lrun_rel T cs a HT F) as (l & es & E & R & W). exists l. split; [exact E|]. rewrite W. exact (rel_pairs _ _ _ R).
  Qed.

  (** ** Splitting and merging *)
  Lemma lrun_app T cs1 cs2 l l1 r1 : lrun T l cs1 = Ok (l1, r1) ->
    lrun T l (cs1 ++ cs2) = (let* '(l2, r2) := @lrun V T l1 cs2 in Ok (l2, r1 ++ r2)).
  Proof.
    revert l r1. induction cs1 as [|c cs1 IH]; intros l r1 H; cbn [lrun app] in *.
    - injection H as <- <-. destruct (lrun T l cs2) as [[? ?]| |]; reflexivity.
    - destruct (ldo T l c) as [[l' a]| |]; cbn [bind] in *; [|discriminate|discriminate].
      destruct (lrun T l' cs1) as [[l'' r]| |] eqn:E; cbn [bind] in *; [|discriminate|discriminate]. injection H as <- <-.
      rewrite (IH _ _ E). destruct (lrun T l'' cs2) as [[? ?]| |]; reflexivity.
  Qed.
  Lemma rel_insert_all T : tag_fun T -> forall es2 l es, rel T l es -> (forall x, In x es2 -> fst x = T (fst (snd x))) ->
    NoDup (map ekey (es ++ es2)) -> (length es + length es2 <= NS)%nat ->
    exists l', insert_all l es2 = Ok l' /\ rel T l' (es ++ es2) /\ lrun T l (puts (map snd es2)) = Ok (l', repeat None (length es2)).
  Proof.
    intros HT. induction es2 as [|e es2 IH]; intros l es R Tg ND Len.
    - exists l. rewrite app_nil_r. auto.
    - destruct e as [t [k v]]. assert (t = T k) as -> by exact (Tg _ (or_introl eq_refl)).
      assert (N : forall x, In x es -> fst (snd x) <> k).
      { intros x Hx E. rewrite map_app in ND. cbn [map fst snd] in ND. apply NoDup_remove_2 in ND. apply ND. apply in_app_iff. left.
        rewrite <- E. exact (in_map ekey es x Hx). }
      cbn [length] in Len. destruct (rel_insert T l es k v HT R ltac:(lia) N) as (l1 & E & R1).
      destruct (IH l1 _ R1) as (l' & E' & R' & L').
      + intros x Hx. apply Tg. right. exact Hx.
      + rewrite <- app_assoc. exact ND.
      + rewrite app_length. cbn [length]. lia.
      + exists l'. cbn [insert_all]. rewrite E. cbn [bind]. split; [exact E'|]. rewrite <- app_assoc in R'. split; [exact R'|].
        cbn [puts map lrun ldo fst snd length repeat]. pose proof (rel_match T l es k R) as M.
        destruct (match_hs (s_hs l) (T k) k).
        * destruct M as (j & v0 & _ & _ & _ & J & _). exfalso. exact (N _ (nth_error_In _ _ J) eq_refl).
        * rewrite E. cbn [bind]. unfold puts in L'. rewrite L'. reflexivity.
  Qed.
  Lemma ent_at_rel T l es i e : rel T l es -> nth_error es i = Some e -> ent_at l i = Ok e.
  Proof.
    intros [_ R _ _] H. unfold view, ent_at in *. pose proof (map_nth_error Some i es H) as M. rewrite <- R, nth_error_map in M.
    destruct (nth_error (s_ss l) i) as [ih|]; [|discriminate]. injection M as M. rewrite M. reflexivity.
  Qed.
  Lemma slice_cons {A} (l : list A) i n : (i + S n <= length l)%nat -> exists x, nth_error l i = Some x /\ firstn (S n) (skipn i l) = x :: firstn n (skipn (S i) l).
  Proof.
    intros H. destruct (nth_error l i) as [x|] eqn:E; [|apply nth_error_None in E; lia]. exists x. split; [reflexivity|].
    destruct (nth_split_at _ _ _ E) as [S _].
    assert (K : skipn i l = x :: skipn (Datatypes.S i) l).
    { clear - E. revert i E. induction l as [|a l IH]; intros [|i] E; try discriminate; [injection E as ->; reflexivity|]. cbn [skipn]. exact (IH i E). }
    rewrite K. reflexivity.
  Qed.
  Lemma read_from_rel T l es : rel T l es -> forall n i, (i + n <= length es)%nat -> read_from l i n = Ok (firstn n (skipn i es)).
  Proof.
    intros R. induction n as [|n IH]; intros i H; [reflexivity|]. destruct (slice_cons es i n H) as (e & E & S).
    cbn [read_from]. rewrite (ent_at_rel _ _ _ _ _ R E). cbn [bind]. rewrite (IH (Datatypes.S i)) by lia. cbn [bind]. rewrite S. reflexivity.
  Qed.
  Lemma insert_from_rel T l es : rel T l es -> forall n i dst, (i + n <= length es)%nat -> insert_from l dst i n = insert_all dst (firstn n (skipn i es)).
  Proof.
    intros R. induction n as [|n IH]; intros i dst H; [reflexivity|]. destruct (slice_cons es i n H) as (e & E & S).
    cbn [insert_from]. rewrite (ent_at_rel _ _ _ _ _ R E), S. cbn [bind insert_all].
    destruct (insert_e13 dst e) as [d| |]; cbn [bind]; [|reflexivity|reflexivity]. apply IH. lia.
  Qed.
  Lemma insert_all_app (a b : list ent) dst : insert_all dst (a ++ b) = (let* d := insert_all dst a in insert_all d b).
  Proof.
    revert dst. induction a as [|e a IH]; intros dst; [reflexivity|]. cbn [app insert_all]. destruct (insert_e13 dst e) as [d| |]; cbn [bind]; [apply IH|reflexivity|reflexivity].
  Qed.

  Lemma skipn_add {A} a b (l : list A) : skipn a (skipn b l) = skipn (b + a) l.
  Proof. revert l. induction b as [|b IH]; intros l; [reflexivity|]. destruct l as [|x l]; [destruct a; reflexivity|]. cbn [skipn Nat.add]. apply IH. Qed.

  (** the two leaves of a split are those that result from storing their pairs one by
      one in empty leaves *)
  Lemma move1_ok T l es cut is1 k v : tag_fun T -> rel T l es -> (forall x, In x es -> fst (snd x) <> k) ->
    (is1 <= length es)%nat -> (1 <= cut <= length es)%nat -> (length es <= NS)%nat ->
    let xs := firstn is1 es ++ (T k, (k, v)) :: skipn is1 es in
    exists l1 l2, move1 l cut is1 (T k, (k, v)) = Ok (l1, l2) /\ rel T l1 (firstn cut xs) /\ rel T l2 (skipn cut xs)
    /\ lrun T no_slots (puts (map snd (firstn cut xs))) = Ok (l1, repeat None cut)
    /\ lrun T no_slots (puts (map snd (skipn cut xs))) = Ok (l2, repeat None (S (length es) - cut)).
  Proof.
    intros HT R N Hi Hc Len. cbv zeta. set (e := (T k, (k, v))). set (xs := firstn is1 es ++ e :: skipn is1 es).
    assert (Px : Permutation (e :: es) xs).
    { unfold xs. rewrite <- (firstn_skipn is1 es) at 1. apply Permutation_middle. }
    assert (Lx : length xs = S (length es)) by exact (eq_sym (Permutation_length Px)).
    assert (Kx : NoDup (map ekey xs)).
    { apply (Permutation_NoDup (Permutation_map ekey Px)). cbn [map]. constructor; [|exact (r_keys _ _ _ R)].
      intros I. apply in_map_iff in I. destruct I as (x & Ex & Hx). exact (N x Hx Ex). }
    assert (Tx : forall x, In x xs -> fst x = T (ekey x)).
    { intros x Hx. apply (Permutation_in _ (Permutation_sym Px)) in Hx. destruct Hx as [<-|Hx]; [reflexivity|exact (r_tag _ _ _ R x Hx)]. }
    assert (B : forall ys zs, Permutation (ys ++ zs) xs -> (length ys <= NS)%nat ->
      exists l', insert_all (@no_slots V) ys = Ok l' /\ rel T l' ys /\ lrun T no_slots (puts (map snd ys)) = Ok (l', repeat None (length ys))).
    { intros ys zs P L. apply (rel_insert_all T HT ys no_slots []); [apply rel_empty| | |exact L].
      - intros x Hx. apply Tx. apply (Permutation_in _ P). apply in_app_iff. left. exact Hx.
      - cbn [app]. pose proof (Permutation_NoDup (Permutation_sym (Permutation_map ekey P)) Kx) as ND. rewrite map_app in ND.
        clear - ND. induction (map ekey ys) as [|a r IH]; [constructor|]. cbn [app] in ND. inversion ND; subst. constructor; [|apply IH; assumption].
        intros I. apply H1. apply in_app_iff. left. exact I. }
    assert (L1 : length (firstn cut xs) = cut) by (apply firstn_length_le; lia).
    assert (L2 : length (skipn cut xs) = (S (length es) - cut)%nat) by (rewrite skipn_length; lia).
    destruct (B (firstn cut xs) (skipn cut xs)) as (l1 & E1 & R1 & C1); [rewrite firstn_skipn; apply Permutation_refl|lia|].
    destruct (B (skipn cut xs) (firstn cut xs)) as (l2 & E2 & R2 & C2); [etransitivity; [apply Permutation_app_comm|rewrite firstn_skipn; apply Permutation_refl]|lia|].
    rewrite L1 in C1. rewrite L2 in C2. exists l1, l2. split; [|auto].
    unfold move1. rewrite (rel_len _ _ _ R).
    assert (F1 : firstn (length es - is1) (skipn is1 es) = skipn is1 es) by (apply firstn_all2; rewrite skipn_length; lia).
    destruct (Nat.leb_spec cut is1) as [C|C].
    - assert (S2 : skipn cut xs = firstn (is1 - cut) (skipn cut es) ++ e :: skipn is1 es).
      { unfold xs. rewrite skipn_app, firstn_length_le by lia. replace (cut - is1)%nat with O by lia. cbn [skipn]. f_equal.
        rewrite firstn_skipn_comm. replace (cut + (is1 - cut))%nat with is1 by lia. reflexivity. }
      assert (S1 : firstn cut xs = firstn cut es).
      { unfold xs. rewrite firstn_app, firstn_length_le by lia. replace (cut - is1)%nat with O by lia. cbn [firstn]. rewrite app_nil_r, firstn_firstn, Nat.min_l by lia. reflexivity. }
      rewrite S2, insert_all_app in E2. rewrite S1 in E1.
      rewrite (insert_from_rel _ _ _ R) by lia.
      destruct (insert_all no_slots (firstn (is1 - cut) (skipn cut es))) as [a| |]; cbn [bind] in *; [|discriminate|discriminate].
      cbn [insert_all] in E2. destruct (insert_e13 a e) as [b| |]; cbn [bind] in *; [|discriminate|discriminate].
      rewrite (insert_from_rel _ _ _ R) by lia. rewrite F1, E2. cbn [bind]. rewrite (read_from_rel _ _ _ R) by lia. cbn [bind skipn].
      destruct (Nat.ltb_spec NS (length (firstn cut es))) as [D|D]; [rewrite firstn_length_le in D by lia; lia|].
      rewrite E1. reflexivity.
    - assert (S2 : skipn cut xs = skipn (cut - 1) es).
      { unfold xs. rewrite skipn_app, firstn_length_le by lia. rewrite skipn_all2 by (rewrite firstn_length_le; lia).
        replace (cut - is1)%nat with (S (cut - 1 - is1)) by lia. cbn [skipn app]. rewrite skipn_add. f_equal. lia. }
      assert (S1 : firstn cut xs = firstn is1 es ++ e :: firstn (cut - S is1) (skipn is1 es)).
      { unfold xs. rewrite firstn_app, firstn_length_le by lia. rewrite firstn_all2 by (rewrite firstn_length_le; lia). f_equal.
        replace (cut - is1)%nat with (S (cut - S is1)) by lia. reflexivity. }
      rewrite (insert_from_rel _ _ _ R) by lia.
      replace (firstn (length es - (cut - 1)) (skipn (cut - 1) es)) with (skipn (cut - 1) es) by (symmetry; apply firstn_all2; rewrite skipn_length; lia).
      rewrite <- S2, E2. cbn [bind]. rewrite (read_from_rel _ _ _ R) by lia. cbn [bind]. rewrite (read_from_rel _ _ _ R) by lia. cbn [bind skipn].
      rewrite S1 in E1, L1.
      match goal with |- context [Nat.ltb NS ?y] => assert (Y : y = cut) by exact L1; rewrite Y end.
      destruct (Nat.ltb_spec NS cut); [lia|]. etransitivity; [|cbn [bind]; reflexivity].
      exact (f_equal (fun r => let* l1' := r in Ok (l1', l2)) E1).
  Qed.
  Lemma merge_ok T l1 l2 es1 es2 : tag_fun T -> rel T l1 es1 -> rel T l2 es2 ->
    (forall x y, In x es1 -> In y es2 -> fst (snd x) <> fst (snd y)) -> (length es1 + length es2 <= NS)%nat ->
    exists l, merge l1 l2 = Ok l /\ rel T l (es1 ++ es2) /\ lrun T l1 (puts (map snd es2)) = Ok (l, repeat None (length es2)).
  Proof.
    intros HT R1 R2 D Len. unfold merge. rewrite (rel_len _ _ _ R2), (insert_from_rel _ _ _ R2) by lia. cbn [skipn]. rewrite firstn_all.
    apply rel_insert_all; auto; [exact (r_tag _ _ _ R2)|]. rewrite map_app.
    assert (H : forall a b : list key, NoDup a -> NoDup b -> (forall x, In x a -> ~ In x b) -> NoDup (a ++ b)).
    { intros a b Ha Hb Hab. induction a as [|x a IH]; [exact Hb|]. inversion Ha; subst. cbn [app]. constructor.
      - rewrite in_app_iff. intros [I|I]; [contradiction|]. exact (Hab x (or_introl eq_refl) I).
      - apply IH; [assumption|]. intros y Hy. apply Hab. right. exact Hy. }
    apply H; [exact (r_keys _ _ _ R1)|exact (r_keys _ _ _ R2)|]. intros q Hq Hq'. apply in_map_iff in Hq, Hq'.
    destruct Hq as (x & <- & Hx), Hq' as (y & E & Hy). exact (D x y Hx Hy (eq_sym E)).
  Qed.

  Lemma pairs_keys T l es k : rel T l es -> (forall x, In x (pairs l) -> fst x <> k) -> forall x, In x es -> fst (snd x) <> k.
  Proof. intros R H x Hx. apply H. rewrite (rel_pairs _ _ _ R). exact (in_map snd es x Hx). Qed.
  Lemma pairs_len T l es : rel T l es -> length (pairs l) = length es.
  Proof. intros R. rewrite (rel_pairs _ _ _ R). apply map_length. Qed.
  Lemma rel_max T l es : rel T l es -> (length es <= NS)%nat.
  Proof.
    intros R. rewrite <- (rel_len _ _ _ R). pose proof (r_ok _ _ _ R) as O. rewrite <- (seq_length NS 0).
    apply NoDup_incl_length; [exact (o_nodup _ O)|]. intros i Hi. apply in_seq. apply (o_full _ O) in Hi.
    destruct (Nat.lt_ge_cases i NS) as [L|L]; [lia|]. exfalso. apply Hi. exact (g_out _ (o_good _ O) i L).
  Qed.
  Theorem split_slots T cs l r cut is1 k v : tag_fun T -> fits [] cs -> lrun T (@no_slots V) cs = Ok (l, r) ->
    (forall x, In x (pairs l) -> fst x <> k) -> (is1 <= length (pairs l))%nat -> (1 <= cut <= length (pairs l))%nat ->
    let xs := firstn is1 (pairs l) ++ (k, v) :: skipn is1 (pairs l) in
    exists l1 l2 r1 r2, move1 l cut is1 (T k, (k, v)) = Ok (l1, l2)
    /\ pairs l1 = firstn cut xs /\ pairs l2 = skipn cut xs
    /\ lrun T no_slots (puts (firstn cut xs)) = Ok (l1, r1) /\ lrun T no_slots (puts (skipn cut xs)) = Ok (l2, r2).
  Proof.
    intros HT F E N Hi Hc. cbv zeta. destruct (lrun_rel T cs [] HT F) as (l0 & es & E0 & R & _). rewrite E in E0. injection E0 as <- _.
    pose proof (pairs_keys _ _ _ k R N) as N'. rewrite (pairs_len _ _ _ R) in Hi, Hc.
    destruct (move1_ok T l es cut is1 k v HT R N' Hi Hc (rel_max _ _ _ R)) as (l1 & l2 & M & R1 & R2 & C1 & C2).
    rewrite (rel_pairs _ _ _ R).
    assert (X : map snd (firstn is1 es ++ (T k, (k, v)) :: skipn is1 es) = firstn is1 (map snd es) ++ (k, v) :: skipn is1 (map snd es))
      by (rewrite map_app, firstn_map, skipn_map; reflexivity).
    assert (X1 : map snd (firstn cut (firstn is1 es ++ (T k, (k, v)) :: skipn is1 es)) = firstn cut (firstn is1 (map snd es) ++ (k, v) :: skipn is1 (map snd es)))
      by (rewrite <- firstn_map; f_equal; exact X).
    assert (X2 : map snd (skipn cut (firstn is1 es ++ (T k, (k, v)) :: skipn is1 es)) = skipn cut (firstn is1 (map snd es) ++ (k, v) :: skipn is1 (map snd es)))
      by (rewrite <- skipn_map; f_equal; exact X).
    exists l1, l2, (repeat None cut), (repeat None (S (length es) - cut)).
    split; [exact M|]. split; [exact (eq_trans (rel_pairs _ _ _ R1) X1)|]. split; [exact (eq_trans (rel_pairs _ _ _ R2) X2)|].
    split; [exact (eq_trans (f_equal (fun y => lrun T no_slots (puts y)) (eq_sym X1)) C1)|exact (eq_trans (f_equal (fun y => lrun T no_slots (puts y)) (eq_sym X2)) C2)].
  Qed.
  Theorem merge_slots T cs1 cs2 l1 l2 r1 r2 : tag_fun T -> fits [] cs1 -> fits [] cs2 ->
    lrun T (@no_slots V) cs1 = Ok (l1, r1) -> lrun T (@no_slots V) cs2 = Ok (l2, r2) ->
    (forall x y, In x (pairs l1) -> In y (pairs l2) -> fst x <> fst y) -> (length (pairs l1) + length (pairs l2) <= 32)%nat ->
    exists l r, merge l1 l2 = Ok l /\ pairs l = pairs l1 ++ pairs l2 /\ lrun T no_slots (cs1 ++ puts (pairs l2)) = Ok (l, r).
  Proof.
    intros HT F1 F2 E1 E2 D Len. destruct (lrun_rel T cs1 [] HT F1) as (l0 & es1 & E0 & R1 & _). rewrite E1 in E0. injection E0 as <- _.
    destruct (lrun_rel T cs2 [] HT F2) as (l0 & es2 & E0 & R2 & _). rewrite E2 in E0. injection E0 as <- _.
    rewrite (pairs_len _ _ _ R1), (pairs_len _ _ _ R2) in Len.
    destruct (merge_ok T l1 l2 es1 es2 HT R1 R2) as (l & M & R & C); [|exact Len|].
    - intros x y Hx Hy. apply D; [rewrite (rel_pairs _ _ _ R1)|rewrite (rel_pairs _ _ _ R2)]; apply in_map; assumption.
    - exists l. eexists. split; [exact M|]. rewrite (rel_pairs _ _ _ R), (rel_pairs _ _ _ R1), (rel_pairs _ _ _ R2), map_app. split; [reflexivity|].
      rewrite (lrun_app _ _ _ _ _ _ E1), C. reflexivity.
  Qed.
End slots.
