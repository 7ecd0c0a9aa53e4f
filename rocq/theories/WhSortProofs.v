(** Sorting a leaf in place gives the sorted list of its pairs. *)
From Coq Require Import ZArith List Bool Arith Lia Permutation Sorted.
From Verif Require Import Base Key KeyOrder Wormhole WhKey WhLeaf WhSlots WhSlotsProofs SpecSlots WhSlotsClaims WhSort.
Import ListNotations.

Section writing.
  Context {A : Type}.
  Lemma store_at (D : list A) g R x : store (D ++ g :: R) (length D) x = Ok (D ++ x :: R).
  Proof.
    unfold store. rewrite app_length. cbn [length]. destruct (Nat.ltb_spec (length D) (length D + S (length R))); [|lia].
    rewrite firstn_exact. f_equal. f_equal. f_equal. rewrite skipn_app. rewrite skipn_all2 by lia.
    replace (S (length D) - length D)%nat with 1%nat by lia. reflexivity.
  Qed.
  Lemma copy_at (D G R P E Q : list A) : length E = length G -> copy (D ++ G ++ R) (length D) (P ++ E ++ Q) (length P) (length G) = Ok (D ++ E ++ R).
  Proof.
    intros L. unfold copy. rewrite !app_length.
    destruct (Nat.leb_spec (length D + length G) (length D + (length G + length R))); [|lia].
    destruct (Nat.leb_spec (length P + length G) (length P + (length E + length Q))); [|lia]. cbn [andb].
    rewrite firstn_exact. f_equal. f_equal.
    rewrite skipn_app, skipn_all, Nat.sub_diag. cbn [skipn app]. rewrite <- L, firstn_exact. f_equal.
    rewrite app_assoc, skipn_app. rewrite skipn_all2 by (rewrite app_length; lia). rewrite app_length, L, Nat.sub_diag. reflexivity.
  Qed.
  Lemma nth_at (D : list A) x R : nth_error (D ++ x :: R) (length D) = Some x.
  Proof. rewrite nth_error_app2, Nat.sub_diag by lia. reflexivity. Qed.
End writing.

Section merging.
  Context {A : Type} (lt : A -> A -> bool).
  (** merging lists *)
  Fixpoint mrg (a : list A) : list A -> list A :=
    match a with
    | [] => fun b => b
    | x :: a' =>
        fix go (b : list A) :=
          match b with
          | [] => a
          | y :: b' => if lt y x then y :: go b' else x :: mrg a' b
          end
    end.
  Lemma mrg_nil_r a : mrg a [] = a. Proof. destruct a; reflexivity. Qed.
  Lemma mrg_cons x a y b : mrg (x :: a) (y :: b) = if lt y x then y :: mrg (x :: a) b else x :: mrg a (y :: b).
  Proof. reflexivity. Qed.
  Lemma mrg_perm a b : Permutation (mrg a b) (a ++ b).
  Proof.
    revert b. induction a as [|x a IH]; intros b; [apply Permutation_refl|].
    induction b as [|y b IHb]; [rewrite mrg_nil_r, app_nil_r; apply Permutation_refl|].
    rewrite mrg_cons. destruct (lt y x).
    - etransitivity; [apply perm_skip; exact IHb|]. apply (Permutation_middle (x :: a) b y).
    - cbn [app]. apply perm_skip. apply IH.
  Qed.

  Definition apart (a b : list A) : Prop := forall x y, In x a -> In y b -> lt x y = negb (lt y x).

  (** forwards: [D] is done, [G] has been read, [R2] is to be read, [E] is what is left of
      the buffer *)
  Lemma m2_left_ok : forall fuel D G R2 P E, length G = length E -> apart E R2 -> (length E + length R2 < fuel)%nat ->
    m2_left lt fuel (D ++ G ++ R2) (P ++ E) (length P + length E) (length D + length G + length R2) (length D) (length P) (length D + length G)
    = Ok (D ++ mrg E R2).
  Proof.
    assert (End : forall D G R2 P E, length G = length E -> (E = [] \/ R2 = []) ->
      left_end (D ++ G ++ R2) (P ++ E) (length D) (length P) (length D + length G) = Ok (D ++ mrg E R2)).
    { intros D G R2 P E L C. unfold left_end. destruct (Nat.ltb_spec (length D) (length D + length G)) as [K|K].
      - replace (length D + length G - length D)%nat with (length G) by lia. rewrite <- (app_nil_r E) at 1. rewrite copy_at by auto.
        destruct C as [->| ->]; [cbn [length] in L; lia|]. rewrite mrg_nil_r, app_nil_r. reflexivity.
      - assert (G = []) as -> by (destruct G; [reflexivity|cbn [length] in K; lia]). destruct E; [|discriminate]. reflexivity. }
    induction fuel as [|fuel IH]; intros D G R2 P E L Ap F; [lia|]. cbn [m2_left].
    destruct E as [|x E].
    { destruct (Nat.ltb_spec (length P) (length P + length (@nil A))) as [K|K]; [cbn [length] in K; lia|]. cbn [andb]. apply End; auto. }
    destruct R2 as [|y R2].
    { destruct (Nat.ltb_spec (length D + length G) (length D + length G + length (@nil A))) as [K|K]; [cbn [length] in K; lia|]. rewrite andb_false_r. apply End; auto. }
    destruct (Nat.ltb_spec (length P) (length P + length (x :: E))) as [K1|K1]; [|cbn [length] in K1; lia].
    destruct (Nat.ltb_spec (length D + length G) (length D + length G + length (y :: R2))) as [K2|K2]; [|cbn [length] in K2; lia]. cbn [andb].
    rewrite nth_at. rewrite app_assoc, <- app_length, nth_at, <- app_assoc, app_length.
    destruct G as [|g G]; [discriminate|]. cbn [length] in L. injection L as L.
    rewrite mrg_cons. pose proof (Ap x y (or_introl eq_refl) (or_introl eq_refl)) as C. cbn [app].
    destruct (lt y x) eqn:Y; cbn [negb] in C; rewrite C.
    - rewrite store_at. cbn [bind].
      assert (S1 : (D ++ y :: G ++ y :: R2) = ((D ++ [y]) ++ (G ++ [y]) ++ R2)) by (rewrite <- !app_assoc; reflexivity).
      assert (L1 : length (D ++ [y]) = S (length D)) by (rewrite app_length; cbn [length]; lia).
      assert (L2 : length (G ++ [y]) = S (length G)) by (rewrite app_length; cbn [length]; lia).
      cbn [length]. destruct (Nat.eqb_spec (S (length D)) (S (length D + S (length G)))) as [K|K]; [lia|].
      rewrite S1. specialize (IH (D ++ [y]) (G ++ [y]) R2 P (x :: E)). rewrite L1, L2 in IH. cbn [length] in IH.
      replace (length D + S (length G) + S (length R2))%nat with (S (length D) + S (length G) + length R2)%nat by lia.
      replace (S (length D + S (length G))) with (S (length D) + S (length G))%nat by lia.
      rewrite IH; [rewrite <- app_assoc; reflexivity|lia| |cbn [length] in F; lia].
      intros a b Ha Hb. apply Ap; [exact Ha|right; exact Hb].
    - rewrite store_at. cbn [bind].
      assert (S1 : (D ++ x :: G ++ y :: R2) = ((D ++ [x]) ++ G ++ y :: R2)) by (rewrite <- !app_assoc; reflexivity).
      assert (S2 : P ++ x :: E = (P ++ [x]) ++ E) by (rewrite <- !app_assoc; reflexivity).
      assert (L1 : length (D ++ [x]) = S (length D)) by (rewrite app_length; cbn [length]; lia).
      assert (L2 : length (P ++ [x]) = S (length P)) by (rewrite app_length; cbn [length]; lia).
      rewrite S1, S2. cbn [length] in *. destruct (Nat.eqb_spec (S (length D)) (length D + S (length G))) as [K|K].
      + assert (G = []) as -> by (destruct G; [reflexivity|cbn [length] in K; lia]). assert (E = []) as -> by (destruct E; [reflexivity|discriminate]).
        specialize (End (D ++ [x]) [] (y :: R2) (P ++ [x]) [] eq_refl (or_introl eq_refl)). rewrite L1, L2 in End. cbn [length app mrg] in *.
        rewrite Nat.add_0_r in End. replace (length D + 1)%nat with (S (length D)) by lia. rewrite End, <- app_assoc. reflexivity.
      + specialize (IH (D ++ [x]) G (y :: R2) (P ++ [x]) E). rewrite L1, L2 in IH. cbn [length] in IH.
        replace (length D + S (length G) + S (length R2))%nat with (S (length D) + length G + S (length R2))%nat by lia.
        replace (length P + S (length E))%nat with (S (length P) + length E)%nat by lia.
        replace (length D + S (length G))%nat with (S (length D) + length G)%nat by lia.
        rewrite IH; [rewrite <- app_assoc; reflexivity|exact L| |lia].
        intros a b Ha Hb. apply Ap; [right; exact Ha|exact Hb].
  Qed.
End merging.

Section order.
  Context {A : Type} (lt : A -> A -> bool).
  Definition ascends (l : list A) : Prop := StronglySorted (fun a b => lt a b = true) l.
  Hypothesis lt_trans : forall a b c, lt a b = true -> lt b c = true -> lt a c = true.

  Lemma mrg_sorted : forall a b, apart lt a b -> ascends a -> ascends b -> ascends (mrg lt a b).
  Proof.
    induction a as [|x a IH]; intros b; [intros _ _ H; exact H|].
    induction b as [|y b IHb]; intros Ap Ha Hb; [exact Ha|]. rewrite mrg_cons.
    pose proof (Ap x y (or_introl eq_refl) (or_introl eq_refl)) as C.
    inversion Ha as [|? ? A1 A2]; subst. inversion Hb as [|? ? B1 B2]; subst. rewrite Forall_forall in A2, B2.
    destruct (lt y x) eqn:Y; cbn [negb] in C.
    - constructor; [apply IHb; [intros p q Hp Hq; apply Ap; [exact Hp|right; exact Hq]|exact Ha|exact B1]|].
      apply Forall_forall. intros z Hz. apply (Permutation_in _ (mrg_perm lt (x :: a) b)) in Hz. apply in_app_or in Hz.
      destruct Hz as [[<-|Hz]|Hz]; [exact Y|exact (lt_trans _ _ _ Y (A2 z Hz))|exact (B2 z Hz)].
    - constructor; [apply IH; [intros p q Hp Hq; apply Ap; [right; exact Hp|exact Hq]|exact A1|exact Hb]|].
      apply Forall_forall. intros z Hz. apply (Permutation_in _ (mrg_perm lt a (y :: b))) in Hz. apply in_app_or in Hz.
      destruct Hz as [Hz|[<-|Hz]]; [exact (A2 z Hz)|exact C|exact (lt_trans _ _ _ C (B2 z Hz))].
  Qed.
  Lemma put_in_perm x l : Permutation (put_in lt x l) (x :: l).
  Proof.
    induction l as [|y l IH]; [apply Permutation_refl|]. cbn [put_in]. destruct (lt x y); [apply Permutation_refl|].
    etransitivity; [apply perm_skip; exact IH|apply perm_swap].
  Qed.
  Lemma put_in_sorted x l : apart lt [x] l -> ascends l -> ascends (put_in lt x l).
  Proof.
    induction l as [|y l IH]; intros Ap H; [constructor; constructor|]. cbn [put_in].
    pose proof (Ap x y (or_introl eq_refl) (or_introl eq_refl)) as C. inversion H as [|? ? H1 H2]; subst. pose proof H2 as H3. rewrite Forall_forall in H3.
    destruct (lt x y) eqn:X.
    - constructor; [exact H|]. constructor; [exact X|]. apply Forall_forall. intros z Hz. exact (lt_trans _ _ _ X (H3 z Hz)).
    - constructor; [apply IH; [intros p q Hp Hq; apply Ap; [exact Hp|right; exact Hq]|exact H1]|].
      apply Forall_forall. intros z Hz. apply (Permutation_in _ (put_in_perm x l)) in Hz. destruct Hz as [<-|Hz]; [|exact (H3 z Hz)].
      destruct (lt y x); [reflexivity|discriminate].
  Qed.
  Lemma sort_fold : forall l acc, (forall x y, In x (acc ++ l) -> In y (acc ++ l) -> x <> y -> lt x y = negb (lt y x)) -> NoDup (acc ++ l) -> ascends acc ->
    let r := fold_left (fun acc x => put_in lt x acc) l acc in ascends r /\ Permutation r (acc ++ l).
  Proof.
    induction l as [|x l IH]; intros acc Tt ND H; cbn [fold_left]; [rewrite app_nil_r; split; [exact H|apply Permutation_refl]|].
    assert (P : Permutation (put_in lt x acc ++ l) (acc ++ x :: l)).
    { etransitivity; [apply Permutation_app_tail; apply put_in_perm|]. apply Permutation_middle. }
    assert (Q : ascends (put_in lt x acc)).
    { apply put_in_sorted; [|exact H]. intros p q [<-|[]] Hq. apply Tt; [apply in_or_app; right; left; reflexivity|apply in_or_app; left; exact Hq|].
      intros ->. apply NoDup_remove_2 in ND. apply ND. apply in_or_app. left. exact Hq. }
    destruct (IH (put_in lt x acc)) as [R1 R2].
    - intros a b Ha Hb. apply Tt; apply (Permutation_in _ P); assumption.
    - exact (Permutation_NoDup (Permutation_sym P) ND).
    - exact Q.
    - split; [exact R1|]. etransitivity; [exact R2|exact P].
  Qed.
End order.

Section backwards.
  Context {A : Type} (lt : A -> A -> bool).
  Definition gt (a b : A) : bool := lt b a.
  (** backwards: [D] is done, [G] has been read, [R1] (reversed) is to be read, [E]
      (reversed) is what is left of the buffer *)
  Lemma m2_right_ok : forall fuel R1 G D E P, length G = length E -> apart lt R1 E -> (length R1 + length E < fuel)%nat ->
    m2_right lt fuel (rev R1 ++ G ++ D) (rev E ++ P) (length R1 + length G) (length R1) (length E)
    = Ok (rev (mrg gt R1 E) ++ D).
  Proof.
    assert (End : forall R1 G D E P, length G = length E -> (E = [] \/ R1 = []) ->
      right_end (rev R1 ++ G ++ D) (rev E ++ P) (length R1 + length G) (length R1) = Ok (rev (mrg gt R1 E) ++ D)).
    { intros R1 G D E P L C. unfold right_end. destruct (Nat.ltb_spec (length R1) (length R1 + length G)) as [K|K].
      - replace (length R1 + length G - length R1)%nat with (length G) by lia.
        pose proof (copy_at (rev R1) G D [] (rev E) P ltac:(rewrite rev_length; lia)) as W. cbn [app length] in W. rewrite rev_length in W. rewrite W.
        destruct C as [->| ->]; [cbn [length] in L; lia|]. reflexivity.
      - assert (G = []) as -> by (destruct G; [reflexivity|cbn [length] in K; lia]). destruct E; [|discriminate]. rewrite mrg_nil_r. reflexivity. }
    induction fuel as [|fuel IH]; intros R1 G D E P L Ap F; [lia|]. cbn [m2_right].
    destruct R1 as [|x R1]; [cbn [length]; apply (End [] G D E P L); auto|].
    destruct E as [|y E]; [cbn [length]; apply (End (x :: R1) G D [] P L); auto|].
    cbn [length rev]. rewrite <- !app_assoc. cbn [app].
    rewrite <- (rev_length R1), nth_at, rev_length. rewrite <- (rev_length E), nth_at, rev_length.
    destruct G as [|g0 G0]; [discriminate|].
    assert (LG : exists G g, g0 :: G0 = G ++ [g] /\ length G = length E).
    { destruct (@exists_last _ (g0 :: G0) ltac:(discriminate)) as (G & g & Eg). exists G, g. split; [exact Eg|].
      rewrite Eg, app_length in L. cbn [length] in L. lia. }
    destruct LG as (G & g & -> & LG). clear L g0 G0. rewrite app_length. cbn [length].
    rewrite mrg_cons. unfold gt at 1. pose proof (Ap x y (or_introl eq_refl) (or_introl eq_refl)) as C.
    assert (SG : forall z, store (rev R1 ++ x :: (G ++ [g]) ++ D) (S (length R1) + (length G + 1) - 1) z = Ok (rev R1 ++ x :: G ++ z :: D)).
    { intros z. pose proof (store_at (rev R1 ++ x :: G) g D z) as W. rewrite app_length, rev_length in W. cbn [length] in W.
      rewrite <- !app_assoc in W. cbn [app] in W. rewrite <- !app_assoc. cbn [app].
      replace (S (length R1) + (length G + 1) - 1)%nat with (length R1 + S (length G))%nat by lia. exact W. }
    rewrite SG, SG. cbn [bind].
    replace (S (length R1) + (length G + 1) - 1)%nat with (S (length R1) + length G)%nat by lia.
    destruct (lt x y) eqn:X.
    - assert (S1 : rev R1 ++ x :: G ++ y :: D = rev (x :: R1) ++ G ++ y :: D) by (cbn [rev]; rewrite <- app_assoc; reflexivity).
      destruct (Nat.eqb_spec (S (length R1) + length G) (S (length R1))) as [K|K].
      + assert (G = []) as -> by (destruct G; [reflexivity|cbn [length] in K; lia]). assert (E = []) as -> by (destruct E; [reflexivity|discriminate]).
        rewrite S1. specialize (End (x :: R1) [] (y :: D) [] (y :: P) eq_refl (or_introl eq_refl)). cbn [length] in *. rewrite End.
        rewrite mrg_nil_r. cbn [rev]. rewrite <- !app_assoc. reflexivity.
      + rewrite S1. specialize (IH (x :: R1) G (y :: D) E (y :: P)). cbn [length] in *. rewrite IH; [cbn [rev]; rewrite <- app_assoc; reflexivity|exact LG| |lia].
        intros a b Ha Hb. apply Ap; [exact Ha|right; exact Hb].
    - destruct (lt y x) eqn:Y; [|discriminate].
      destruct (Nat.eqb_spec (S (length R1) + length G) (length R1)) as [K|K]; [lia|].
      specialize (IH R1 (x :: G) (x :: D) (y :: E) P). cbn [length rev] in *. rewrite <- !app_assoc in IH. cbn [app] in IH.
      replace (S (length R1) + length G)%nat with (length R1 + S (length G))%nat by lia.
      rewrite IH; [cbn [rev]; rewrite <- app_assoc; reflexivity|lia| |lia].
      intros a b Ha Hb. apply Ap; [right; exact Ha|exact Hb].
  Qed.
  Hypothesis lt_trans : forall a b c, lt a b = true -> lt b c = true -> lt a c = true.
  Lemma ascends_rev l : ascends lt l -> ascends gt (rev l).
  Proof.
    induction 1 as [|x l H IH F]; [constructor|]. cbn [rev].
    assert (Snoc : forall m, ascends gt m -> (forall z, In z m -> lt x z = true) -> ascends gt (m ++ [x])).
    { clear. induction m as [|z m IH]; intros H K; [constructor; constructor|]. cbn [app]. inversion H as [|? ? H1 H2]; subst.
      constructor; [apply IH; [exact H1|intros w Hw; apply K; right; exact Hw]|]. apply Forall_app. split; [exact H2|].
      constructor; [|constructor]. apply K. left. reflexivity. }
    apply Snoc; [exact IH|]. intros z Hz. rewrite Forall_forall in F. apply F. apply in_rev. exact Hz.
  Qed.

  Lemma m2_ok ss n1 n2 : length ss = (n1 + n2)%nat -> (n1 + n2 <= NS)%nat -> apart lt (firstn n1 ss) (skipn n1 ss) ->
    ascends lt (firstn n1 ss) -> ascends lt (skipn n1 ss) ->
    exists r, m2 lt ss n1 n2 = Ok r /\ ascends lt r /\ Permutation r ss.
  Proof.
    intros L Le Ap A1 A2. unfold m2.
    assert (L1 : length (firstn n1 ss) = n1) by (rewrite firstn_length; lia).
    assert (L2 : length (skipn n1 ss) = n2) by (rewrite skipn_length; lia).
    set (a := firstn n1 ss) in *. set (b := skipn n1 ss) in *.
    assert (Es : ss = a ++ b) by (symmetry; apply firstn_skipn). clearbody a b. subst ss.
    destruct (Nat.eqb_spec n1 0) as [Z1|Z1].
    { cbn [orb]. exists (a ++ b). split; [reflexivity|]. split; [|apply Permutation_refl]. destruct a; [exact A2|cbn [length] in L1; lia]. }
    destruct (Nat.eqb_spec n2 0) as [Z2|Z2].
    { cbn [orb]. exists (a ++ b). split; [reflexivity|]. split; [|apply Permutation_refl]. destruct b; [rewrite app_nil_r; exact A1|cbn [length] in L2; lia]. }
    cbn [orb]. change (NS / 2)%nat with 16%nat. change NS with 32%nat in Le.
    destruct (Nat.leb_spec n1 n2) as [C|C].
    - destruct (Nat.ltb_spec 16 n1); [lia|].
      pose proof (m2_left_ok lt (S (n1 + n2)) [] a b [] a eq_refl Ap ltac:(lia)) as W. cbn [length app Nat.add] in W. rewrite L1, L2 in W. rewrite W.
      eexists. split; [reflexivity|]. split; [apply mrg_sorted; assumption|]. apply mrg_perm.
    - destruct (Nat.ltb_spec 16 n2); [lia|].
      assert (Eb : firstn n2 b = b) by (rewrite <- L2; apply firstn_all). rewrite Eb.
      assert (Ap' : apart lt (rev a) (rev b)) by (intros x y Hx Hy; apply Ap; apply in_rev; assumption).
      pose proof (m2_right_ok (S (n1 + n2)) (rev a) b [] (rev b) [] ltac:(rewrite rev_length; reflexivity) Ap' ltac:(rewrite !rev_length; lia)) as W.
      rewrite !rev_involutive, !rev_length, !app_nil_r, L1, L2 in W. rewrite W. eexists. split; [reflexivity|]. split.
      + assert (G : ascends gt (mrg gt (rev a) (rev b))).
        { apply mrg_sorted; [|intros x y Hx Hy; unfold gt; rewrite (Ap' x y Hx Hy), negb_involutive; reflexivity|apply ascends_rev; exact A1|apply ascends_rev; exact A2].
          intros x y z Hx Hy. exact (lt_trans _ _ _ Hy Hx). }
        clear - G. revert G. generalize (mrg gt (rev a) (rev b)). clear. intros l. induction 1 as [|x l H IH F]; [constructor|]. cbn [rev].
        rewrite Forall_forall in F. revert IH F. generalize (in_rev l). generalize (rev l). clear. intros m R Hm F.
        assert (K : forall z, In z m -> lt z x = true) by (intros z Hz; apply F; apply R; exact Hz). clear R F.
        induction Hm as [|z m H IH G]; [constructor; constructor|]. cbn [app]. constructor; [apply IH; intros w Hw; apply K; right; exact Hw|].
        apply Forall_app. split; [exact G|]. constructor; [|constructor]. apply K. left. reflexivity.
      + etransitivity; [symmetry; apply Permutation_rev|]. etransitivity; [apply mrg_perm|].
        apply Permutation_app; symmetry; apply Permutation_rev.
  Qed.
End backwards.

Section slots.
  Context {V : Type}.
  Lemma nodup_map_inj {A B} (f : A -> B) l x y : NoDup (map f l) -> In x l -> In y l -> f x = f y -> x = y.
  Proof.
    induction l as [|a l IH]; intros ND Hx Hy E; [destruct Hx|]. cbn [map] in ND. inversion ND as [|? ? N1 N2]; subst.
    destruct Hx as [<-|Hx], Hy as [<-|Hy]; [reflexivity| | |exact (IH N2 Hx Hy E)].
    - exfalso. apply N1. rewrite E. apply in_map. exact Hy.
    - exfalso. apply N1. rewrite <- E. apply in_map. exact Hx.
  Qed.
  Lemma order_of {A} (ss r : list A) : Permutation r ss -> exists ix, Permutation ix (seq 0 (length ss)) /\ pick ss ix = r.
  Proof.
    intros P. destruct ss as [|d ss']; [exists []; apply Permutation_sym, Permutation_nil in P; subst; split; [apply Permutation_refl|reflexivity]|].
    set (ss := d :: ss') in *.
    assert (E : ss = map (fun i => nth i ss d) (seq 0 (length ss))).
    { apply (nth_ext _ _ d d); [rewrite map_length, seq_length; reflexivity|]. intros n Hn.
      rewrite (nth_indep (map _ _) d (nth 0 ss d)) by (rewrite map_length, seq_length; exact Hn).
      rewrite (map_nth (fun i => nth i ss d)), seq_nth by exact Hn. reflexivity. }
    rewrite E in P. apply Permutation_sym in P. destruct (Permutation_map_inv _ _ (Permutation_sym P)) as (ix & Er & Pi). exists ix. split; [exact (Permutation_sym Pi)|].
    subst r. unfold pick. assert (B : forall i, In i ix -> (i < length ss)%nat).
    { intros i Hi. apply (Permutation_in _ (Permutation_sym Pi)) in Hi. apply in_seq in Hi. lia. }
    clear - B. induction ix as [|i ix IH]; [reflexivity|]. cbn [flat_map map]. rewrite IH by (intros j Hj; apply B; right; exact Hj).
    destruct (nth_error ss i) as [x|] eqn:N; [|apply nth_error_None in N; specialize (B i (or_introl eq_refl)); lia].
    rewrite (nth_error_nth _ _ d N). reflexivity.
  Qed.

  Definition pair_of (hs : @hsarr V) (i : nat) : list (key * V) := match hs i with Some x => [snd x] | None => [] end.
  Lemma asc_pairs hs ss : (forall i, In i ss -> hs i <> None) -> (ascends (slot_lt hs) ss <-> asc (flat_map (pair_of hs) ss)).
  Proof.
    induction ss as [|i ss IH]; intros F; [split; constructor|]. cbn [flat_map]. unfold pair_of at 1. destruct (hs i) as [x|] eqn:X; [|exfalso; exact (F i (or_introl eq_refl) X)]. cbn [app].
    assert (F' : forall i, In i ss -> hs i <> None) by (intros j Hj; apply F; right; exact Hj).
    assert (K : Forall (fun b => slot_lt hs i b = true) ss <-> Forall (before (snd x)) (flat_map (pair_of hs) ss)).
    { rewrite !Forall_forall. unfold slot_lt. rewrite X. split.
      - intros H y Hy. apply in_flat_map in Hy. destruct Hy as (j & Hj & Hy). specialize (H j Hj). unfold pair_of in Hy. destruct (hs j); [|destruct Hy]. destruct Hy as [<-|[]]. exact H.
      - intros H j Hj. destruct (hs j) as [y|] eqn:Y; [|exfalso; exact (F' j Hj Y)]. apply (H (snd y)). apply in_flat_map. exists j. split; [exact Hj|]. unfold pair_of. rewrite Y. left. reflexivity. }
    split; intros H; inversion H as [|? ? H1 H2]; subst; constructor; try (apply IH; assumption); apply K; assumption.
  Qed.
  Lemma pairs_firstn hs ss s : (forall i, In i ss -> hs i <> None) -> firstn s (flat_map (pair_of hs) ss) = flat_map (pair_of hs) (firstn s ss).
  Proof.
    revert s. induction ss as [|i ss IH]; intros [|s] F; try reflexivity. cbn [flat_map firstn]. unfold pair_of at 1 3.
    destruct (hs i) as [x|] eqn:X; [|exfalso; exact (F i (or_introl eq_refl) X)]. cbn [app firstn]. f_equal. apply IH. intros j Hj. apply F. right. exact Hj.
  Qed.

  Theorem sort_slots T (cs : list (@lcall V)) l r s a :
    tag_fun T -> fits [] cs -> lrun T no_slots cs = Ok (l, r) -> (s <= length (pairs l))%nat -> asc (firstn s (pairs l)) ->
    exists l' ix, sync l s = Ok l' /\ asc (pairs l') /\ Permutation (pairs l') (pairs l)
    /\ pairs l' = l_kvs (sync_sorted (mkleaf a (pairs l) s))
    /\ Permutation ix (seq 0 (length (pairs l))) /\ lrun T no_slots (cs ++ [LOrder ix]) = Ok (l', r ++ [None]).
  Proof.
    intros HT F E Hs Ha. destruct (lrun_rel T cs a HT F) as (l0 & es & E0 & R & W). rewrite E in E0. injection E0 as <- _. clear W.
    pose proof (r_ok _ _ _ R) as O. pose proof (rel_len _ _ _ R) as Len. pose proof (rel_pairs _ _ _ R) as Pr.
    assert (LP : length (pairs l) = length (s_ss l)) by (rewrite Pr, map_length; exact (eq_sym Len)).
    assert (Fu : forall i, In i (s_ss l) -> s_hs l i <> None) by (intros i; apply (o_full _ O)).
    assert (Cap : (length (s_ss l) <= NS)%nat).
    { rewrite <- (seq_length NS 0). apply NoDup_incl_length; [apply (o_nodup _ O)|]. intros i Hi. apply in_seq. split; [lia|].
      destruct (Nat.lt_ge_cases i NS) as [C|C]; [lia|]. exfalso. apply (Fu i Hi). apply (g_out _ (o_good _ O)). exact C. }
    assert (Tr : forall x y z, slot_lt (s_hs l) x y = true -> slot_lt (s_hs l) y z = true -> slot_lt (s_hs l) x z = true).
    { intros x y z. unfold slot_lt. destruct (s_hs l x), (s_hs l y), (s_hs l z); try discriminate. apply key_lt_trans. }
    assert (Tot : forall x y, In x (s_ss l) -> In y (s_ss l) -> x <> y -> slot_lt (s_hs l) x y = negb (slot_lt (s_hs l) y x)).
    { intros x y Hx Hy Ne. unfold slot_lt. destruct (s_hs l x) as [ex|] eqn:X; [|exfalso; exact (Fu x Hx X)]. destruct (s_hs l y) as [ey|] eqn:Y; [|exfalso; exact (Fu y Hy Y)].
      assert (D : fst (snd ex) <> fst (snd ey)).
      { intros Q. apply Ne. apply (nodup_map_inj (fun i => option_map (fun x : ent => fst (snd x)) (s_hs l i)) (s_ss l)); auto; [|rewrite X, Y; cbn [option_map]; f_equal; exact Q].
        rewrite <- (map_map (s_hs l) (option_map (fun x : ent => fst (snd x)))). change (map (s_hs l) (s_ss l)) with (view l). rewrite (r_view _ _ _ R), map_map. cbn [option_map].
        rewrite <- (map_map (fun x : ent => fst (snd x)) Some). apply FinFun.Injective_map_NoDup; [intros p q Z; injection Z; auto|]. exact (r_keys _ _ _ R). }
      destruct (klt_total (fst (snd ex)) (fst (snd ey))) as [C|[C|C]]; [|contradiction|]; unfold klt in C.
      - rewrite C. rewrite (key_lt_asym _ _ C). reflexivity.
      - rewrite C. rewrite (key_lt_asym _ _ C). reflexivity. }
    assert (Done : exists l', sync l s = Ok l' /\ s_hs l' = s_hs l /\ ascends (slot_lt (s_hs l)) (s_ss l') /\ Permutation (s_ss l') (s_ss l)).
    { unfold pairs in Ha. change (fun i => match s_hs l i with Some x => [snd x] | None => [] end) with (pair_of (s_hs l)) in Ha.
      rewrite pairs_firstn in Ha by exact Fu.
      assert (Hf : ascends (slot_lt (s_hs l)) (firstn s (s_ss l))).
      { apply asc_pairs; [|exact Ha]. intros i Hi. apply Fu. rewrite <- (firstn_skipn s (s_ss l)). apply in_or_app. left. exact Hi. }
      unfold sync. destruct (Nat.eqb_spec s (length (s_ss l))) as [Q|Q].
      { exists l. rewrite Q, firstn_all in Hf. auto using Permutation_refl. }
      pose proof (o_nodup _ O) as ND.
      destruct (sort_fold (slot_lt (s_hs l)) Tr (skipn s (s_ss l)) []) as [S1 S2].
      - cbn [app]. intros x y Hx Hy. apply Tot; rewrite <- (firstn_skipn s (s_ss l)); apply in_or_app; right; assumption.
      - cbn [app]. rewrite <- (firstn_skipn s (s_ss l)) in ND. clear - ND. induction (firstn s (s_ss l)) as [|x m IH]; [exact ND|]. apply IH. cbn [app] in ND. inversion ND; assumption.
      - constructor.
      - cbn [app] in S2. unfold sort_from. set (b := fold_left _ _ _) in *. clearbody b. set (p := firstn s (s_ss l)) in *.
        assert (Lp : length p = s) by (unfold p; rewrite firstn_length; lia).
        assert (Pab : Permutation (p ++ b) (s_ss l)) by (rewrite <- (firstn_skipn s (s_ss l)); apply Permutation_app_head; exact S2).
        assert (Fp : firstn s (p ++ b) = p) by (rewrite <- Lp; apply firstn_exact).
        assert (Sp : skipn s (p ++ b) = b) by (rewrite <- Lp, skipn_app, skipn_all, Nat.sub_diag; reflexivity).
        pose proof (Permutation_NoDup (Permutation_sym Pab) ND) as NDab.
        destruct (m2_ok (slot_lt (s_hs l)) Tr (p ++ b) s (length (s_ss l) - s)) as (q & M1 & M2 & M3).
        + rewrite (Permutation_length Pab). lia.
        + lia.
        + rewrite Fp, Sp. intros x y Hx Hy. apply Tot; [apply (Permutation_in _ Pab); apply in_or_app; auto|apply (Permutation_in _ Pab); apply in_or_app; auto|].
          intros ->. clear - NDab Hx Hy. induction p as [|z p IH]; [destruct Hx|]. cbn [app] in NDab. inversion NDab as [|? ? N1 N2]; subst.
          destruct Hx as [->|Hx]; [apply N1; apply in_or_app; right; exact Hy|exact (IH N2 Hx)].
        + rewrite Fp. exact Hf.
        + rewrite Sp. exact S1.
        + rewrite M1. cbn [bind]. eexists. split; [reflexivity|]. cbn [s_hs s_ss]. split; [reflexivity|]. split; [exact M2|]. etransitivity; [exact M3|exact Pab]. }
    destruct Done as (l' & D1 & D2 & D3 & D4). destruct (order_of (s_ss l) (s_ss l') D4) as (ix & I1 & I2).
    exists l', ix.
    assert (As : asc (pairs l')).
    { unfold pairs. rewrite D2. apply (asc_pairs (s_hs l)); [|exact D3]. intros i Hi. apply Fu. exact (Permutation_in _ D4 Hi). }
    assert (Pp : Permutation (pairs l') (pairs l)) by (unfold pairs; rewrite D2; apply Permutation_flat_map; exact D4).
    split; [exact D1|]. split; [exact As|]. split; [exact Pp|]. split; [|split; [rewrite LP; exact I1|]].
    - assert (Lk : leaf_ok (mkleaf a (pairs l) s)).
      { constructor; cbn [l_kvs l_sorted]; [|exact Hs|exact Ha|].
        - unfold distinct. rewrite Pr, map_map. exact (r_keys _ _ _ R).
        - rewrite LP. exact Cap. }
      destruct (sync_ok _ Lk) as (K1 & K2 & K3 & _). apply asc_ext; [exact As|exact (full_asc _ K1 K2)|].
      intros x. split; intros Hx.
      + apply (Permutation_in _ K3). cbn [l_kvs]. exact (Permutation_in _ Pp Hx).
      + apply (Permutation_in _ (Permutation_sym Pp)). exact (Permutation_in _ (Permutation_sym K3) Hx).
    - rewrite (lrun_app _ _ _ _ _ _ E). cbn [lrun ldo bind]. rewrite I2, <- D2. destruct l'; reflexivity.
  Qed.
End slots.
