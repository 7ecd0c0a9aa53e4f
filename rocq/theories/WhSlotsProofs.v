(** The arrays hs and ss of a leaf agree with a list of pairs. *)
From Coq Require Import ZArith List Bool Arith Lia Permutation.
From Verif Require Import Base Key KeyOrder WhSlots.
From Verif Require Bits.
Import ListNotations.
Open Scope Z_scope.

Section slots.
  Context {V : Type}.
  Notation ent := (@ent V).
  Notation hsarr := (@hsarr V).
  Notation sleaf := (@sleaf V).

  Lemma home_lt p : 1 <= p < 65536 -> (home p < NS)%nat.
  Proof.
    intros H. unfold home, NS, HDIV. assert (p / 2048 < 32) by (apply Z.div_lt_upper_bound; lia).
    assert (0 <= p / 2048) by (apply Z.div_pos; lia). lia.
  Qed.
  Lemma home_mono p q : p <= q -> (home p <= home q)%nat.
  Proof. intros H. unfold home, HDIV. assert (p / 2048 <= q / 2048) by (apply Z.div_le_mono; lia). lia. Qed.
  Lemma home_lt_inv p q : (home p < home q)%nat -> p < q.
  Proof. intros H. destruct (Z_lt_le_dec p q) as [L|L]; [exact L|]. apply home_mono in L. lia. Qed.

  Record good (hs : hsarr) : Prop := mkgood {
    g_out : forall i, (NS <= i)%nat -> hs i = None;
    g_tag : forall i x, hs i = Some x -> 1 <= fst x < 65536;
    g_sort : forall i j x y, (i < j)%nat -> hs i = Some x -> hs j = Some y -> fst x <= fst y;
    g_run : forall j x i, hs j = Some x -> (home (fst x) <= i <= j \/ j <= i <= home (fst x))%nat -> hs i <> None }.

  Lemma e1_zero hs i : good hs -> (e1 hs i = 0 <-> hs i = None).
  Proof.
    intros G. unfold e1. destruct (hs i) as [x|] eqn:E; [|tauto]. pose proof (g_tag _ G _ _ E). split; [lia|discriminate].
  Qed.
  Lemma e1_full hs i : good hs -> (e1 hs i <> 0 <-> hs i <> None).
  Proof. intros G. rewrite (e1_zero hs i G). tauto. Qed.
  Lemma e1_some (hs : hsarr) i x : hs i = Some x -> e1 hs i = fst x.
  Proof. unfold e1. intros ->. reflexivity. Qed.

  (** ** Loops *)
  Lemma go_left_spec (hs : hsarr) p i :
    let r := go_left hs p i in
    (r <= i)%nat /\ (forall j, (r <= j < i)%nat -> e1 hs j <> 0 /\ p <= e1 hs j)
    /\ (r = O \/ e1 hs (r - 1) = 0 \/ e1 hs (r - 1) < p).
  Proof.
    cbv zeta. induction i as [|i IH]; cbn [go_left].
    - split; [lia|]. split; [intros; lia|]. auto.
    - destruct (negb (e1 hs i =? 0) && (p <=? e1 hs i)) eqn:E.
      + destruct IH as (A & B & C). split; [lia|]. split; [|exact C].
        intros j Hj. destruct (Nat.eq_dec j i) as [->|N]; [|apply B; lia].
        apply andb_true_iff in E. destruct E as [E1 E2]. apply negb_true_iff, Z.eqb_neq in E1. apply Z.leb_le in E2. auto.
      + split; [lia|]. split; [intros; lia|]. right. replace (S i - 1)%nat with i by lia.
        apply andb_false_iff in E. destruct E as [E|E]; [apply negb_false_iff, Z.eqb_eq in E; auto|apply Z.leb_gt in E; auto].
  Qed.
  Lemma go_right_spec (hs : hsarr) f r :
    (r <= NS)%nat ->
    let q := go_right hs f r in
    (NS - r <= q <= NS)%nat /\ (forall j, (NS - r <= j < q)%nat -> e1 hs j <> 0 /\ f (e1 hs j) j = true)
    /\ (q = NS \/ e1 hs q = 0 \/ f (e1 hs q) q = false).
  Proof.
    cbv zeta. induction r as [|r IH]; intros Hr; cbn [go_right].
    - split; [lia|]. split; [intros; lia|]. auto.
    - destruct (negb (e1 hs (NS - S r) =? 0) && f (e1 hs (NS - S r)) (NS - S r)%nat) eqn:E.
      + destruct IH as (A & B & C); [lia|]. split; [lia|]. split; [|exact C].
        intros j Hj. destruct (Nat.eq_dec j (NS - S r)) as [->|N]; [|apply B; lia].
        apply andb_true_iff in E. destruct E as [E1 E2]. apply negb_true_iff, Z.eqb_neq in E1. auto.
      + split; [lia|]. split; [intros; lia|]. right.
        apply andb_false_iff in E. destruct E as [E|E]; [apply negb_false_iff, Z.eqb_eq in E; auto|auto].
  Qed.
  Lemma empty_left_spec (hs : hsarr) n :
    let r := empty_left hs n in
    (r <= n)%nat /\ (forall j, (r <= j < n)%nat -> e1 hs j <> 0) /\ (r = O \/ e1 hs (r - 1) = 0).
  Proof.
    cbv zeta. induction n as [|n IH]; cbn [empty_left].
    - split; [lia|]. split; [intros; lia|]. auto.
    - destruct (e1 hs n =? 0) eqn:E.
      + apply Z.eqb_eq in E. split; [lia|]. split; [intros; lia|]. right. replace (S n - 1)%nat with n by lia. exact E.
      + apply Z.eqb_neq in E. destruct IH as (A & B & C). split; [lia|]. split; [|exact C].
        intros j Hj. destruct (Nat.eq_dec j n) as [->|N]; [exact E|apply B; lia].
  Qed.
  Lemma pull_left_spec (hs : hsarr) n :
    let r := pull_left hs n in
    (r <= n)%nat /\ (forall j, (r <= j < n)%nat -> e1 hs j <> 0 /\ (j < home (e1 hs j))%nat)
    /\ (r = O \/ e1 hs (r - 1) = 0 \/ (home (e1 hs (r - 1)) <= r - 1)%nat).
  Proof.
    cbv zeta. induction n as [|i IH]; cbn [pull_left].
    - split; [lia|]. split; [intros; lia|]. auto.
    - destruct (negb (e1 hs i =? 0) && Nat.ltb i (home (e1 hs i))) eqn:E.
      + destruct IH as (A & B & C). split; [lia|]. split; [|exact C].
        intros j Hj. destruct (Nat.eq_dec j i) as [->|N]; [|apply B; lia].
        apply andb_true_iff in E. destruct E as [E1 E2]. apply negb_true_iff, Z.eqb_neq in E1. apply Nat.ltb_lt in E2. auto.
      + split; [lia|]. split; [intros; lia|]. right. replace (S i - 1)%nat with i by lia.
        apply andb_false_iff in E. destruct E as [E|E]; [apply negb_false_iff, Z.eqb_eq in E; auto|apply Nat.ltb_ge in E; auto].
  Qed.

  (** the comparison of signed bytes in shift_inc and shift_dec *)
  Definition s8 (x : Z) : Z := (x + 128) mod 256 - 128.
  Lemma simd_range (from nr s : nat) : (from + nr <= NS)%nat -> (s < NS)%nat ->
    (s8 (127 - Z.of_nat nr) <? s8 (s8 (Z.of_nat s) + s8 (127 + 1 - Z.of_nat from - Z.of_nat nr))) = in_run from nr s.
  Proof.
    unfold NS. intros A B.
    assert (E1 : s8 (127 - Z.of_nat nr) = 127 - Z.of_nat nr).
    { unfold s8. rewrite Z.mod_small; lia. }
    assert (E2 : s8 (Z.of_nat s) = Z.of_nat s) by (unfold s8; rewrite Z.mod_small; lia).
    assert (E3 : s8 (s8 (Z.of_nat s) + s8 (127 + 1 - Z.of_nat from - Z.of_nat nr))
                 = s8 (Z.of_nat s + (127 + 1 - Z.of_nat from - Z.of_nat nr))).
    { rewrite E2. unfold s8. f_equal. set (a := Z.of_nat s). set (b := 127 + 1 - Z.of_nat from - Z.of_nat nr).
      replace (a + ((b + 128) mod 256 - 128) + 128) with (a + (b + 128) mod 256) by lia.
      rewrite Zplus_mod_idemp_r. f_equal. lia. }
    rewrite E1, E3. clear E1 E2 E3. unfold in_run.
    destruct (Nat.ltb_spec s (from + nr)) as [L|L].
    - assert (E : s8 (Z.of_nat s + (127 + 1 - Z.of_nat from - Z.of_nat nr)) = Z.of_nat s + (127 + 1 - Z.of_nat from - Z.of_nat nr)).
      { unfold s8. rewrite Z.mod_small; lia. }
      rewrite E, andb_true_r. destruct (Nat.leb_spec from s); [apply Z.ltb_lt|apply Z.ltb_ge]; lia.
    - rewrite andb_false_r. apply Z.ltb_ge. unfold s8.
      replace (Z.of_nat s + (127 + 1 - Z.of_nat from - Z.of_nat nr) + 128) with (Z.of_nat s - Z.of_nat from - Z.of_nat nr + 1 * 256) by lia.
      rewrite Z_mod_plus_full, Z.mod_small; lia.
  Qed.

  (** ** Looking up *)
  Lemma match_left_some (hs : hsarr) p k n i : match_left hs p k n = Some i -> e1 hs i = p /\ is_key hs i k = true.
  Proof.
    induction n as [|n IH]; cbn [match_left]; [discriminate|].
    destruct (Z.eqb_spec (e1 hs n) p) as [E|E].
    - destruct (is_key hs n k) eqn:K; [intros [= <-]; auto|exact IH].
    - destruct (e1 hs n <? p); [discriminate|exact IH].
  Qed.
  Lemma match_right_some (hs : hsarr) p k r i : match_right hs p k r = Some i -> e1 hs i = p /\ is_key hs i k = true.
  Proof.
    induction r as [|r IH]; cbn [match_right]; [discriminate|].
    destruct (Z.eqb_spec (e1 hs (NS - S r)) p) as [E|E].
    - destruct (is_key hs (NS - S r) k) eqn:K; [intros [= <-]; auto|exact IH].
    - destruct ((p <? e1 hs (NS - S r)) || (e1 hs (NS - S r) =? 0)); [discriminate|exact IH].
  Qed.
  Lemma match_hs_some (hs : hsarr) p k i : match_hs hs p k = Some i -> e1 hs i = p /\ is_key hs i k = true.
  Proof.
    unfold match_hs. destruct ((e1 hs (home p) =? p) && is_key hs (home p) k) eqn:E.
    - intros [= <-]. apply andb_true_iff in E. destruct E as [E1 E2]. apply Z.eqb_eq in E1. auto.
    - destruct (e1 hs (home p) =? 0); [discriminate|].
      destruct (match_left hs p k (home p)) as [j|] eqn:L; [intros [= <-]; exact (match_left_some _ _ _ _ _ L)|].
      apply match_right_some.
  Qed.
  Lemma match_left_none hs p k n j x : good hs -> match_left hs p k n = None ->
    (j < n)%nat -> hs j = Some x -> fst x = p -> is_key hs j k = true ->
    (forall i, (j <= i < n)%nat -> hs i <> None) -> False.
  Proof.
    intros G. induction n as [|n IH]; intros M Hj Hx Hp Hk F; [lia|]. cbn [match_left] in M.
    destruct (Nat.eq_dec j n) as [->|N].
    - rewrite (e1_some _ _ _ Hx), Hp, Z.eqb_refl, Hk in M. discriminate.
    - assert (B : match_left hs p k n = None).
      { destruct (Z.eqb_spec (e1 hs n) p); [destruct (is_key hs n k); [discriminate|exact M]|].
        destruct (Z.ltb_spec (e1 hs n) p) as [L|L]; [|exact M]. exfalso.
        destruct (hs n) as [y|] eqn:Y; [|exact (F n ltac:(lia) Y)].
        rewrite (e1_some _ _ _ Y) in L. pose proof (g_sort _ G j n x y ltac:(lia) Hx Y). lia. }
      apply (IH B); auto; [lia|]. intros i Hi. apply F. lia.
  Qed.
  Lemma match_right_none hs p k r j x : good hs -> match_right hs p k r = None -> (r <= NS)%nat ->
    (NS - r <= j < NS)%nat -> hs j = Some x -> fst x = p -> is_key hs j k = true ->
    (forall i, (NS - r <= i <= j)%nat -> hs i <> None) -> False.
  Proof.
    intros G. induction r as [|r IH]; intros M Hr Hj Hx Hp Hk F; [lia|]. cbn [match_right] in M.
    destruct (Nat.eq_dec j (NS - S r)) as [->|N].
    - rewrite (e1_some _ _ _ Hx), Hp, Z.eqb_refl, Hk in M. discriminate.
    - assert (B : match_right hs p k r = None).
      { destruct (Z.eqb_spec (e1 hs (NS - S r)) p); [destruct (is_key hs (NS - S r) k); [discriminate|exact M]|].
        destruct (hs (NS - S r)%nat) as [y|] eqn:Y; [|exfalso; exact (F (NS - S r)%nat ltac:(lia) Y)].
        rewrite (e1_some _ _ _ Y) in M. pose proof (g_sort _ G (NS - S r)%nat j y x ltac:(lia) Y Hx). pose proof (g_tag _ G _ _ Y).
        destruct (Z.ltb_spec p (fst y)); [lia|]. destruct (Z.eqb_spec (fst y) 0); [lia|]. exact M. }
      apply (IH B); auto; try lia. intros i Hi. apply F. lia.
  Qed.
  Lemma match_hs_none hs p k j x : good hs -> match_hs hs p k = None -> hs j = Some x -> fst x = p -> fst (snd x) = k -> False.
  Proof.
    intros G M Hx Hp Hk.
    assert (K : is_key hs j k = true) by (unfold is_key; rewrite Hx, Hk; apply key_eq_refl).
    assert (Hj : (j < NS)%nat). { destruct (Nat.lt_ge_cases j NS) as [L|L]; [exact L|]. rewrite (g_out _ G _ L) in Hx. discriminate. }
    pose proof (home_lt _ (g_tag _ G _ _ Hx)) as Hh. rewrite Hp in Hh.
    pose proof (g_run _ G _ _ (home p) Hx) as F0. rewrite Hp in F0.
    unfold match_hs in M. destruct ((e1 hs (home p) =? p) && is_key hs (home p) k) eqn:E; [discriminate|].
    destruct (Z.eqb_spec (e1 hs (home p)) 0) as [Z0|Z0]; [apply F0; [lia|apply (e1_zero _ _ G), Z0]|].
    destruct (match_left hs p k (home p)) eqn:ML; [discriminate|].
    destruct (Nat.lt_trichotomy j (home p)) as [L|[L|L]].
    - apply (match_left_none hs p k (home p) j x G ML); auto.
      intros i Hi. apply (g_run _ G _ _ i Hx). rewrite Hp. lia.
    - rewrite <- L in E. rewrite (e1_some _ _ _ Hx), Hp, Z.eqb_refl, K in E. discriminate.
    - apply (match_right_none hs p k (NS - S (home p)) j x G M); auto; try lia.
      intros i Hi. apply (g_run _ G _ _ i Hx). rewrite Hp. lia.
  Qed.

  (** ** Inserting *)
  (** a place for tag [p]: all entries before it have tags up to [p], all others from [p] *)
  Definition place (hs : hsarr) (p : Z) (q : nat) : Prop :=
    (forall j x, (j < q)%nat -> hs j = Some x -> fst x <= p) /\ (forall j x, (q <= j)%nat -> hs j = Some x -> p <= fst x).

  Lemma in_run_spec from nr s : in_run from nr s = true <-> (from <= s < from + nr)%nat.
  Proof. unfold in_run. rewrite andb_true_iff, Nat.leb_le, Nat.ltb_lt. lia. Qed.
  Lemma in_run_false from nr s : in_run from nr s = false <-> (s < from \/ from + nr <= s)%nat.
  Proof. unfold in_run. rewrite andb_false_iff, Nat.leb_gt, Nat.ltb_ge. lia. Qed.

  Lemma in_run_eq from nr s b : in_run from nr s = b -> if b then (from <= s < from + nr)%nat else (s < from \/ from + nr <= s)%nat.
  Proof. destruct b; [apply in_run_spec|apply in_run_false]. Qed.

  Definition pushed_left (hs : hsarr) (e : ent) (L E : nat) : hsarr :=
    put (fun i => if in_run (E - 1) (L - E) i then hs (S i) else hs i) (L - 1) (Some e).
  Lemma pushed_left_spec hs e L E : (1 <= E <= L)%nat -> forall i,
    (i = (L - 1)%nat /\ pushed_left hs e L E i = Some e)
    \/ ((E - 1 <= i < L - 1)%nat /\ pushed_left hs e L E i = hs (S i))
    \/ ((i < E - 1 \/ L <= i)%nat /\ pushed_left hs e L E i = hs i).
  Proof.
    intros H i. unfold pushed_left, put. destruct (Nat.eqb_spec i (L - 1)); [auto|].
    destruct (in_run (E - 1) (L - E) i) eqn:R; [apply in_run_spec in R; right; left; split; [lia|auto]|].
    apply in_run_false in R. right; right; split; [lia|auto].
  Qed.
  Lemma push_left_good hs e L E : good hs -> 1 <= fst e < 65536 -> place hs (fst e) L ->
    (1 <= E <= L)%nat -> (L <= NS)%nat -> hs (E - 1)%nat = None -> (forall i, (E <= i < L)%nat -> hs i <> None) ->
    (forall i, (L <= i <= home (fst e))%nat -> hs i <> None) -> (E <= home (fst e))%nat ->
    good (pushed_left hs e L E).
  Proof.
    intros G T (P1 & P2) HE HL N F1 F2 H0. pose proof (pushed_left_spec hs e L E HE) as S. set (hs' := pushed_left hs e L E) in *.
    assert (Full : forall i, hs i <> None \/ (E - 1 <= i < L)%nat -> hs' i <> None).
    { intros i Hi. destruct (S i) as [[-> Q]|[[B Q]|[B Q]]]; rewrite Q.
      - discriminate.
      - apply F1. lia.
      - destruct Hi as [Hi|Hi]; [exact Hi|lia]. }
    constructor.
    - intros i Hi. destruct (S i) as [[-> Q]|[[B Q]|[B Q]]]; [lia|lia|]. rewrite Q. apply (g_out _ G _ Hi).
    - intros i x Hx. destruct (S i) as [[-> Q]|[[B Q]|[B Q]]]; rewrite Q in Hx; [injection Hx as <-; exact T|exact (g_tag _ G _ _ Hx)|exact (g_tag _ G _ _ Hx)].
    - intros i j x y Hij Hx Hy.
      destruct (S i) as [[Bi Qi]|[[Bi Qi]|[Bi Qi]]]; rewrite Qi in Hx; destruct (S j) as [[Bj Qj]|[[Bj Qj]|[Bj Qj]]]; rewrite Qj in Hy; try lia.
      + injection Hx as <-. apply (P2 j y); [lia|exact Hy].
      + injection Hy as <-. apply (P1 (Datatypes.S i) x); [lia|exact Hx].
      + apply (g_sort _ G (Datatypes.S i) (Datatypes.S j) x y); auto; lia.
      + apply (g_sort _ G (Datatypes.S i) j x y); auto; lia.
      + injection Hy as <-. apply (P1 i x); [lia|exact Hx].
      + apply (g_sort _ G i (Datatypes.S j) x y); auto; lia.
      + apply (g_sort _ G i j x y); auto; lia.
    - intros j x i Hx Hi. destruct (S j) as [[Bj Qj]|[[Bj Qj]|[Bj Qj]]]; rewrite Qj in Hx.
      + injection Hx as <-. apply Full. destruct (Nat.lt_ge_cases i L) as [C|C]; [right; lia|left; apply F2; lia].
      + apply Full. destruct (Nat.lt_ge_cases i L) as [C|C].
        * destruct (Nat.lt_ge_cases i (E - 1)) as [D|D]; [|right; lia].
          exfalso. apply (g_run _ G _ _ (E - 1)%nat Hx); [lia|exact N].
        * left. apply (g_run _ G _ _ i Hx). lia.
      + apply Full. left. apply (g_run _ G _ _ i Hx). lia.
  Qed.

  Definition pushed_right (hs : hsarr) (e : ent) (R X : nat) : hsarr :=
    put (fun i => if in_run (S R) (X - R) i then hs (i - 1)%nat else hs i) R (Some e).
  Lemma pushed_right_spec hs e R X : (R <= X)%nat -> forall i,
    (i = R /\ pushed_right hs e R X i = Some e)
    \/ ((R < i <= X)%nat /\ pushed_right hs e R X i = hs (i - 1)%nat)
    \/ ((i < R \/ X < i)%nat /\ pushed_right hs e R X i = hs i).
  Proof.
    intros H i. unfold pushed_right, put. destruct (Nat.eqb_spec i R); [auto|].
    destruct (in_run (S R) (X - R) i) eqn:Q; [apply in_run_spec in Q; right; left; split; [lia|auto]|].
    apply in_run_false in Q. right; right; split; [lia|auto].
  Qed.
  Lemma push_right_good hs e R X : good hs -> 1 <= fst e < 65536 -> place hs (fst e) R ->
    (R <= X)%nat -> (X < NS)%nat -> hs X = None -> (forall i, (R <= i < X)%nat -> hs i <> None) ->
    (forall i, (home (fst e) <= i < R)%nat -> hs i <> None) -> (home (fst e) <= X)%nat ->
    good (pushed_right hs e R X).
  Proof.
    intros G T (P1 & P2) HE HL N F1 F2 H0. pose proof (pushed_right_spec hs e R X HE) as S. set (hs' := pushed_right hs e R X) in *.
    assert (Full : forall i, hs i <> None \/ (R <= i <= X)%nat -> hs' i <> None).
    { intros i Hi. destruct (S i) as [[-> Q]|[[B Q]|[B Q]]]; rewrite Q.
      - discriminate.
      - apply F1. lia.
      - destruct Hi as [Hi|Hi]; [exact Hi|lia]. }
    constructor.
    - intros i Hi. destruct (S i) as [[-> Q]|[[B Q]|[B Q]]]; [lia|lia|]. rewrite Q. apply (g_out _ G _ Hi).
    - intros i x Hx. destruct (S i) as [[-> Q]|[[B Q]|[B Q]]]; rewrite Q in Hx; [injection Hx as <-; exact T|exact (g_tag _ G _ _ Hx)|exact (g_tag _ G _ _ Hx)].
    - intros i j x y Hij Hx Hy.
      destruct (S i) as [[Bi Qi]|[[Bi Qi]|[Bi Qi]]]; rewrite Qi in Hx; destruct (S j) as [[Bj Qj]|[[Bj Qj]|[Bj Qj]]]; rewrite Qj in Hy; try lia.
      + injection Hx as <-. apply (P2 (j - 1)%nat y); [lia|exact Hy].
      + injection Hx as <-. apply (P2 j y); [lia|exact Hy].
      + apply (g_sort _ G (i - 1)%nat (j - 1)%nat x y); auto; lia.
      + apply (g_sort _ G (i - 1)%nat j x y); auto; lia.
      + injection Hy as <-. apply (P1 i x); [lia|exact Hx].
      + apply (g_sort _ G i (j - 1)%nat x y); auto; lia.
      + apply (g_sort _ G i j x y); auto; lia.
    - intros j x i Hx Hi. destruct (S j) as [[Bj Qj]|[[Bj Qj]|[Bj Qj]]]; rewrite Qj in Hx.
      + injection Hx as <-. apply Full. destruct (Nat.lt_ge_cases i R) as [C|C]; [left; apply F2; lia|right; lia].
      + apply Full. destruct (Nat.lt_ge_cases i R) as [C|C].
        * left. apply (g_run _ G _ _ i Hx). lia.
        * destruct (Nat.lt_ge_cases X i) as [D|D]; [|right; lia].
          exfalso. apply (g_run _ G _ _ X Hx); [lia|exact N].
      + apply Full. left. apply (g_run _ G _ _ i Hx). lia.
  Qed.

  (** ** A leaf *)
  Record ok (l : sleaf) : Prop := mkok {
    o_good : good (s_hs l);
    o_nodup : NoDup (s_ss l);
    o_full : forall i, In i (s_ss l) <-> s_hs l i <> None }.
  Definition view (l : sleaf) : list (option ent) := map (s_hs l) (s_ss l).

  Lemma ok_room l : ok l -> (length (s_ss l) < NS)%nat -> exists i, (i < NS)%nat /\ s_hs l i = None.
  Proof.
    intros O L.
    assert (D : forall n, (forall i, (i < n)%nat -> s_hs l i <> None) \/ exists i, (i < n)%nat /\ s_hs l i = None).
    { induction n as [|n [IH|(i & Hi & E)]]; [left; intros; lia| |right; exists i; split; [lia|exact E]].
      destruct (s_hs l n) eqn:E; [|right; exists n; split; [lia|exact E]].
      left. intros i Hi. destruct (Nat.eq_dec i n) as [->|N]; [rewrite E; discriminate|apply IH; lia]. }
    destruct (D NS) as [F|F]; [exfalso|exact F].
    assert (I : incl (seq 0 NS) (s_ss l)). { intros i Hi. apply in_seq in Hi. apply (o_full _ O). apply F. lia. }
    pose proof (NoDup_incl_length (seq_NoDup NS 0) I). rewrite seq_length in *. lia.
  Qed.
  (** places in ss change by [f], and the new entry is listed last *)
  Lemma ok_moved l hs' f ih e : ok l -> good hs' -> hs' ih = Some e ->
    (forall i, s_hs l i <> None -> hs' (f i) = s_hs l i /\ f i <> ih) ->
    (forall i j, s_hs l i <> None -> s_hs l j <> None -> f i = f j -> i = j) ->
    (forall i, hs' i <> None -> i <> ih -> exists j, s_hs l j <> None /\ f j = i) ->
    let l' := mksleaf hs' (map f (s_ss l) ++ [ih]) in ok l' /\ view l' = view l ++ [Some e].
  Proof.
    intros O G E M Inj Sur. cbv zeta. split.
    - constructor; cbn [s_hs s_ss]; [exact G| |].
      + apply (Permutation_NoDup (l := ih :: map f (s_ss l))); [apply Permutation_cons_append|]. constructor.
        * intros I. apply in_map_iff in I. destruct I as (i & Ei & Hi). apply (o_full _ O) in Hi. destruct (M i Hi) as [_ N]. auto.
        * assert (B : forall i, In i (s_ss l) -> s_hs l i <> None) by (intros i; apply (o_full _ O)).
          pose proof (o_nodup _ O) as ND. induction (s_ss l) as [|a r IH]; cbn [map]; [constructor|].
          inversion ND; subst. constructor; [|apply IH; auto; intros i Hi; apply B; right; exact Hi].
          intros I. apply in_map_iff in I. destruct I as (i & Ei & Hi).
          assert (i = a) by (apply Inj; auto; apply B; [right; exact Hi|left; reflexivity]). subst i. auto.
      + intros i. rewrite in_app_iff, in_map_iff. cbn [In]. split.
        * intros [(j & <- & Hj)|[<-|[]]]; [|rewrite E; discriminate].
          apply (o_full _ O) in Hj. destruct (M j Hj) as [Q _]. rewrite Q. exact Hj.
        * intros F. destruct (Nat.eq_dec i ih) as [->|N]; [auto|]. left. destruct (Sur i F N) as (j & Hj & Ej).
          exists j. split; [exact Ej|]. apply (o_full _ O). exact Hj.
    - unfold view. cbn [s_hs s_ss]. rewrite map_app, map_map. cbn [map]. rewrite E. f_equal.
      apply map_ext_in. intros i Hi. apply (o_full _ O) in Hi. apply (M i Hi).
  Qed.

  (** the left-most place for a tag *)
  Lemma leftmost_place hs p : good hs -> 1 <= p < 65536 -> hs (home p) <> None ->
    let L := go_right hs (fun a _ => a <? p) (NS - go_left hs p (home p)) in
    (L <= NS)%nat /\ place hs p L /\ (forall i, (L <= i <= home p)%nat -> hs i <> None) /\ (forall i, (home p <= i < L)%nat -> hs i <> None).
  Proof.
    intros G T F0. cbv zeta. pose proof (home_lt _ T) as H0.
    destruct (go_left_spec hs p (home p)) as (A1 & A2 & A3). set (i1 := go_left hs p (home p)) in *.
    destruct (go_right_spec hs (fun a _ => a <? p) (NS - i1) ltac:(lia)) as (B1 & B2 & B3).
    set (L := go_right hs (fun a _ => a <? p) (NS - i1)) in *.
    replace (NS - (NS - i1))%nat with i1 in * by lia.
    assert (C : (i1 < home p)%nat -> L = i1).
    { intros C. destruct (Nat.eq_dec L i1) as [E|E]; [exact E|]. exfalso.
      destruct (A2 i1) as [_ D]; [lia|]. destruct (B2 i1) as [_ D']; [lia|]. apply Z.ltb_lt in D'. lia. }
    split; [lia|].
    assert (Q1 : forall j x, (j < L)%nat -> hs j = Some x -> fst x <= p).
    { intros j x Hj Hx.
      assert (D : (exists y, hs (L - 1)%nat = Some y /\ fst y < p) \/ (L <= home p /\ hs (L - 1)%nat = None)%nat).
      { destruct (Nat.lt_ge_cases i1 L) as [K|K].
        - left. destruct (B2 (L - 1)%nat) as [D1 D2]; [lia|]. apply Z.ltb_lt in D2.
          destruct (hs (L - 1)%nat) as [y|] eqn:Y; [|apply (e1_zero _ _ G) in Y; lia].
          exists y. rewrite (e1_some _ _ _ Y) in D2. auto.
        - assert (i1 = L) as K2 by lia. rewrite K2 in A3. destruct A3 as [A3|[A3|A3]]; [lia| |].
          + right. split; [lia|]. apply (e1_zero _ _ G), A3.
          + destruct (hs (L - 1)%nat) as [y|] eqn:Y; [|right; split; [lia|reflexivity]].
            left. exists y. rewrite (e1_some _ _ _ Y) in A3. auto. }
      destruct D as [(y & Y & Hy)|(D1 & D2)].
      - destruct (Nat.eq_dec j (L - 1)) as [->|N]; [rewrite Y in Hx; injection Hx as <-; lia|].
        pose proof (g_sort _ G j (L - 1)%nat x y ltac:(lia) Hx Y). lia.
      - assert (N : j <> (L - 1)%nat) by (intros ->; rewrite D2 in Hx; discriminate).
        assert (home (fst x) < home p)%nat; [|apply Z.lt_le_incl, home_lt_inv; assumption].
        destruct (Nat.lt_ge_cases (home (fst x)) (home p)) as [K|K]; [exact K|].
        exfalso. apply (g_run _ G _ _ (L - 1)%nat Hx); [lia|exact D2]. }
    assert (Q2 : forall j x, (L <= j)%nat -> hs j = Some x -> p <= fst x).
    { intros j x Hj Hx.
      assert (Hj' : (j < NS)%nat). { destruct (Nat.lt_ge_cases j NS) as [K|K]; [exact K|]. rewrite (g_out _ G _ K) in Hx. discriminate. }
      assert (D : (exists y, hs L = Some y /\ p <= fst y) \/ (home p < L /\ hs L = None)%nat).
      { destruct B3 as [B3|[B3|B3]]; [lia| |].
        - right. apply (e1_zero _ _ G) in B3. split; [|exact B3].
          destruct (Nat.lt_ge_cases (home p) L) as [K|K]; [exact K|]. exfalso.
          destruct (Nat.eq_dec L (home p)) as [K2|K2]; [rewrite K2 in B3; auto|].
          destruct (A2 L) as [D _]; [lia|]. apply (e1_full _ _ G) in D. auto.
        - apply Z.ltb_ge in B3. left. destruct (hs L) as [y|] eqn:Y; [|apply (e1_zero _ _ G) in Y; lia].
          exists y. rewrite (e1_some _ _ _ Y) in B3. auto. }
      destruct D as [(y & Y & Hy)|(D1 & D2)].
      - destruct (Nat.eq_dec j L) as [->|N]; [rewrite Y in Hx; injection Hx as <-; lia|].
        pose proof (g_sort _ G L j y x ltac:(lia) Y Hx). lia.
      - assert (N : j <> L) by (intros ->; rewrite D2 in Hx; discriminate).
        assert (home p < home (fst x))%nat; [|apply Z.lt_le_incl, home_lt_inv; assumption].
        destruct (Nat.lt_ge_cases (home p) (home (fst x))) as [K|K]; [exact K|].
        exfalso. apply (g_run _ G _ _ L Hx); [lia|exact D2]. }
    split; [split; assumption|]. split; intros i Hi.
    - destruct (Nat.eq_dec i (home p)) as [->|N]; [exact F0|]. apply (e1_full _ _ G). apply A2. lia.
    - apply (e1_full _ _ G). apply B2. lia.
  Qed.

  Lemma insert_ok l e : ok l -> (length (s_ss l) < NS)%nat -> 1 <= fst e < 65536 ->
    exists l', insert_e13 l e = Ok l' /\ ok l' /\ view l' = view l ++ [Some e].
  Proof.
    intros OK Len T. pose proof (o_good _ OK) as G. pose proof (home_lt _ T) as H0.
    unfold insert_e13. replace (Nat.leb NS (length (s_ss l))) with false by (symmetry; apply Nat.leb_gt; exact Len).
    unfold insert_hs. set (hs := s_hs l) in *. set (p := fst e) in *.
    replace (Nat.leb NS (home p)) with false by (symmetry; apply Nat.leb_gt; exact H0).
    destruct (Z.eqb_spec (e1 hs (home p)) 0) as [Z0|Z0].
    { apply (e1_zero _ _ G) in Z0. cbn [bind s_hs s_ss]. eexists. split; [reflexivity|].
      rewrite <- (map_id (s_ss l)). apply (ok_moved l _ (fun i => i)); auto.
      - assert (S : forall i, (i = home p /\ put hs (home p) (Some e) i = Some e) \/ (i <> home p /\ put hs (home p) (Some e) i = hs i)).
        { intros i. unfold put. destruct (Nat.eqb_spec i (home p)); auto. }
        set (hs' := put hs (home p) (Some e)) in *.
        assert (Full : forall i, hs i <> None -> hs' i <> None).
        { intros i Hi. destruct (S i) as [[-> Q]|[_ Q]]; rewrite Q; [discriminate|exact Hi]. }
        assert (Lo : forall j x, (j < home p)%nat -> hs j = Some x -> fst x <= p).
        { intros j x Hj Hx. apply Z.lt_le_incl, home_lt_inv. destruct (Nat.lt_ge_cases (home (fst x)) (home p)) as [K|K]; [exact K|].
          exfalso. apply (g_run _ G _ _ (home p) Hx); [lia|exact Z0]. }
        assert (Hi : forall j x, (home p < j)%nat -> hs j = Some x -> p <= fst x).
        { intros j x Hj Hx. apply Z.lt_le_incl, home_lt_inv. destruct (Nat.lt_ge_cases (home p) (home (fst x))) as [K|K]; [exact K|].
          exfalso. apply (g_run _ G _ _ (home p) Hx); [lia|exact Z0]. }
        change (good hs'). constructor.
        + intros i H. destruct (S i) as [[-> Q]|[_ Q]]; [lia|]. rewrite Q. apply (g_out _ G _ H).
        + intros i x Hx. destruct (S i) as [[-> Q]|[_ Q]]; rewrite Q in Hx; [injection Hx as <-; exact T|exact (g_tag _ G _ _ Hx)].
        + intros i j x y Hij Hx Hy. destruct (S i) as [[Bi Qi]|[Bi Qi]]; rewrite Qi in Hx; destruct (S j) as [[Bj Qj]|[Bj Qj]]; rewrite Qj in Hy; try lia.
          * injection Hx as <-. apply (Hi j y); [lia|exact Hy].
          * injection Hy as <-. apply (Lo i x); [lia|exact Hx].
          * exact (g_sort _ G i j x y Hij Hx Hy).
        + intros j x i Hx Hij. destruct (S j) as [[Bj Qj]|[Bj Qj]]; rewrite Qj in Hx.
          * injection Hx as <-. assert (i = home p) as -> by (fold p in Hij; lia). destruct (S (home p)) as [[_ Q]|[C _]]; [rewrite Q; discriminate|lia].
          * apply Full. exact (g_run _ G _ _ i Hx Hij).
      - unfold put. rewrite Nat.eqb_refl. reflexivity.
      - intros i Hi. fold hs in Hi. assert (i <> home p) by (intros ->; auto). split; [|assumption]. unfold put.
        destruct (Nat.eqb_spec i (home p)); [contradiction|reflexivity].
      - intros i Hi N. exists i. split; [|reflexivity]. unfold put in Hi. destruct (Nat.eqb_spec i (home p)); [contradiction|exact Hi]. }
    apply (e1_full _ _ G) in Z0.
    destruct (leftmost_place hs p G T Z0) as (L1 & PL & FL & FR).
    set (L := go_right hs (fun a _ => a <? p) (NS - go_left hs p (home p))) in *. clearbody L.
    set (st := match home p, L with O, _ => L | _, O => home p | _, _ => Nat.min L (home p) end).
    assert (St : (st <= L /\ st <= home p /\ (st = L \/ st = home p) \/ (L = 0 /\ st = home p) \/ (home p = 0 /\ st = L))%nat).
    { unfold st. destruct (home p) eqn:E; [auto|]. destruct L; [auto|]. left. lia. }
    clearbody st.
    destruct (empty_left_spec hs st) as (E1 & E2 & E3). set (E := empty_left hs st) in *. clearbody E.
    assert (EL : E = O \/ (1 <= E <= L /\ E <= home p /\ hs (E - 1) = None /\ forall i, (E <= i < L)%nat -> hs i <> None)%nat).
    { destruct E3 as [E3|E3]; [auto|]. destruct (Nat.eq_dec E 0) as [K|K]; [auto|]. right. apply (e1_zero _ _ G) in E3.
      assert (M1 : (home p <> 0)%nat). { intros M. destruct St as [St|[St|St]]; try lia. apply (FR (E - 1)%nat); [lia|exact E3]. }
      assert (M2 : (L <> 0)%nat). { intros M. apply (FL (E - 1)%nat); [lia|exact E3]. }
      assert (St' : (st <= L /\ st <= home p /\ (st = L \/ st = home p))%nat) by lia. clear St.
      split; [lia|]. split; [lia|]. split; [exact E3|].
      intros i Hi. destruct (Nat.lt_ge_cases i st) as [C|C]; [apply (e1_full _ _ G); apply E2; lia|]. apply FR. lia. }
    destruct (go_right_spec hs (fun a _ => a =? p) (NS - L) ltac:(lia)) as (R1 & R2 & R3).
    set (R := go_right hs (fun a _ => a =? p) (NS - L)) in *. clearbody R.
    replace (NS - (NS - L))%nat with L in * by lia.
    assert (PR : place hs p R).
    { destruct PL as [P1 P2]. split; intros j x Hj Hx.
      - destruct (Nat.lt_ge_cases j L) as [K|K]; [exact (P1 j x K Hx)|]. destruct (R2 j) as [_ D]; [lia|]. apply Z.eqb_eq in D.
        rewrite (e1_some _ _ _ Hx) in D. lia.
      - apply (P2 j x); [lia|exact Hx]. }
    set (sr := if Nat.ltb R (S (home p)) then S (home p) else R).
    assert (Sr : (R <= sr /\ home p < sr /\ sr <= NS /\ (sr = R \/ sr = S (home p)))%nat).
    { unfold sr. destruct (Nat.ltb_spec R (S (home p))); lia. }
    clearbody sr.
    destruct (go_right_spec hs (fun _ _ => true) (NS - sr) ltac:(lia)) as (X1 & X2 & X3).
    set (X := go_right hs (fun _ _ => true) (NS - sr)) in *. clearbody X.
    replace (NS - (NS - sr))%nat with sr in * by lia.
    assert (FX : forall i, (R <= i < X)%nat -> hs i <> None).
    { intros i Hi. destruct (Nat.lt_ge_cases i sr) as [C|C]; [|apply (e1_full _ _ G); apply X2; lia]. apply FL. lia. }
    assert (FR' : forall i, (home p <= i < R)%nat -> hs i <> None).
    { intros i Hi. destruct (Nat.lt_ge_cases i L) as [C|C]; [apply FR; lia|]. apply (e1_full _ _ G). apply R2. lia. }
    assert (XN : (X < NS)%nat -> hs X = None).
    { intros H. destruct X3 as [X3|[X3|X3]]; [lia|apply (e1_zero _ _ G), X3|discriminate]. }
    assert (Room : E <> O \/ (X < NS)%nat).
    { destruct (ok_room l OK Len) as (i & Hi & Ni). fold hs in Ni.
      destruct (Nat.eq_dec E 0) as [K|K]; [right|left; exact K].
      destruct (Nat.lt_ge_cases X NS) as [C|C]; [exact C|]. exfalso.
      destruct (Nat.lt_ge_cases i R) as [D|D]; [|apply (FX i); [lia|exact Ni]].
      destruct (Nat.lt_ge_cases i (home p)) as [D2|D2]; [|apply (FR' i); [lia|exact Ni]].
      destruct (Nat.lt_ge_cases i L) as [D3|D3]; [|apply (FL i); [lia|exact Ni]].
      assert (i < st)%nat by lia. pose proof (E2 i ltac:(lia)) as D4. apply (e1_full _ _ G) in D4. auto. }
    assert (DL : match E with O => Z.of_nat NS | _ => u32 (Z.of_nat L - Z.of_nat E) end
                 = match E with O => Z.of_nat NS | _ => Z.of_nat (L - E) end).
    { destruct EL as [->|(A & _)]; [reflexivity|]. destruct E as [|E']; [lia|]. assert (NS = 32%nat) by reflexivity. clear - A L1 H. rewrite Bits.u32_small by lia. lia. }
    assert (DR : (if Nat.ltb X NS then u32 (Z.of_nat X - Z.of_nat R) else Z.of_nat NS) = if Nat.ltb X NS then Z.of_nat (X - R) else Z.of_nat NS).
    { destruct (Nat.ltb X NS); [|reflexivity]. assert (NS = 32%nat) by reflexivity. assert (R <= X <= NS)%nat as H' by (clear - X1 R1 Sr; lia). clear - H H'. rewrite Bits.u32_small by lia. lia. }
    rewrite DL, DR. clear DL DR.
    set (dl := match E with O => Z.of_nat NS | _ => Z.of_nat (L - E) end).
    set (dr := if Nat.ltb X NS then Z.of_nat (X - R) else Z.of_nat NS).
    assert (Dl : E <> O -> dl = Z.of_nat (L - E) /\ dl < Z.of_nat NS).
    { intros K. assert (dl = Z.of_nat (L - E)) by (unfold dl; destruct E; [contradiction|reflexivity]). split; [assumption|]. destruct EL as [EL|EL]; [contradiction|]. lia. }
    assert (Dr : (X < NS)%nat -> dr = Z.of_nat (X - R) /\ dr < Z.of_nat NS).
    { intros K. assert (dr = Z.of_nat (X - R)) by (unfold dr; destruct (Nat.ltb_spec X NS); [reflexivity|lia]). split; [assumption|]. lia. }
    destruct (Z.leb_spec dl dr) as [Cmp|Cmp].
    - assert (EN : E <> O).
      { intros K. destruct Room as [C|C]; [contradiction|]. destruct (Dr C) as [_ D]. unfold dl in Cmp. rewrite K in Cmp. lia. }
      destruct (Dl EN) as [D1 D2]. destruct (Z.leb_spec (Z.of_nat NS) dl) as [C|C]; [lia|].
      destruct EL as [EL|(E4 & E5 & E6 & E7)]; [contradiction|].
      rewrite D1, Nat2Z.id. clear Cmp C D1 D2 Dl Dr dl dr. clear St E3 R1 R2 R3 X1 X2 X3 Room Sr PR FX FR' XN sr st X R E1 E2.
      assert (HM : forall F : nat -> res (sleaf * nat), match L with O => UB | S il => F il end = F (L - 1)%nat).
      { intros F. clear - E4. destruct L; [lia|]. f_equal. lia. }
      rewrite HM. clear HM.
      cbn [bind s_hs s_ss shift_dec]. fold hs. eexists. split; [reflexivity|].
      pose proof (pushed_left_spec hs e L E ltac:(lia)) as S.
      apply (ok_moved l (pushed_left hs e L E) (fun s => if in_run E (L - E) s then (s - 1)%nat else s)); auto.
      + apply push_left_good; auto.
      + destruct (S (L - 1)%nat) as [[_ Q]|[[B _]|[B _]]]; [exact Q|lia|lia].
      + fold hs. intros i Hi. assert (i <> (E - 1)%nat) by (intros ->; auto). cbv beta. destruct (in_run E (L - E) i) eqn:Q.
        * apply in_run_spec in Q. split; [|lia]. destruct (S (i - 1)%nat) as [[B _]|[[B K]|[B _]]]; [lia| |lia].
          rewrite K. f_equal. lia.
        * apply in_run_false in Q. split; [|lia]. destruct (S i) as [[B _]|[[B K]|[B K]]]; [lia|lia|exact K].
      + fold hs. intros i j Hi Hj. cbv beta. assert (i <> (E - 1)%nat) by (intros ->; auto). assert (j <> (E - 1)%nat) by (intros ->; auto).
        destruct (in_run E (L - E) i) eqn:Qi; destruct (in_run E (L - E) j) eqn:Qj; apply in_run_eq in Qi; apply in_run_eq in Qj; cbv iota in Qi, Qj; clear - Qi Qj H H1 E4; lia.
      + fold hs. intros i Hi N. cbv beta. destruct (S i) as [[B K]|[[B K]|[B K]]]; [contradiction| |].
        * rewrite K in Hi. exists (Datatypes.S i). split; [exact Hi|]. replace (in_run E (L - E) (Datatypes.S i)) with true by (symmetry; apply in_run_spec; lia). lia.
        * rewrite K in Hi. exists i. split; [exact Hi|]. replace (in_run E (L - E) i) with false by (symmetry; apply in_run_false; lia). reflexivity.
    - assert (XL : (X < NS)%nat).
      { destruct (Nat.lt_ge_cases X NS) as [C|C]; [exact C|]. destruct Room as [K|K]; [|lia]. destruct (Dl K) as [_ D].
        unfold dr in Cmp. destruct (Nat.ltb_spec X NS); lia. }
      destruct (Dr XL) as [D1 D2]. destruct (Z.leb_spec (Z.of_nat NS) dr) as [C|C]; [lia|].
      pose proof (XN XL) as XN'. rewrite D1, Nat2Z.id. clear Cmp C D1 D2 Dl Dr dl dr.
      assert (X4 : (R <= X /\ home p <= X)%nat) by (clear - Sr X1; lia).
      clear St E3 R1 R2 R3 X1 X2 X3 Room Sr EL FL FR XN sr E1 E2 E st PL L1 L.
      cbn [bind s_hs s_ss shift_inc]. fold hs. eexists. split; [reflexivity|].
      pose proof (pushed_right_spec hs e R X ltac:(lia)) as S.
      apply (ok_moved l (pushed_right hs e R X) (fun s => if in_run R (X - R) s then Datatypes.S s else s)); auto.
      + apply push_right_good; auto; fold p; lia.
      + destruct (S R) as [[_ Q]|[[B _]|[B _]]]; [exact Q|lia|lia].
      + fold hs. intros i Hi. assert (i <> X) by (intros ->; auto). cbv beta. destruct (in_run R (X - R) i) eqn:Q.
        * apply in_run_spec in Q. split; [|lia]. destruct (S (Datatypes.S i)) as [[B _]|[[B K]|[B _]]]; [lia| |lia].
          rewrite K. f_equal. lia.
        * apply in_run_false in Q. split; [|lia]. destruct (S i) as [[B _]|[[B K]|[B K]]]; [lia|lia|exact K].
      + fold hs. intros i j Hi Hj. cbv beta. assert (i <> X) by (intros ->; auto). assert (j <> X) by (intros ->; auto).
        destruct (in_run R (X - R) i) eqn:Qi; destruct (in_run R (X - R) j) eqn:Qj; apply in_run_eq in Qi; apply in_run_eq in Qj; cbv iota in Qi, Qj; clear - Qi Qj H H1 X4; lia.
      + fold hs. intros i Hi N. cbv beta. destruct (S i) as [[B K]|[[B K]|[B K]]]; [contradiction| |].
        * rewrite K in Hi. exists (i - 1)%nat. split; [exact Hi|]. replace (in_run R (X - R) (i - 1)) with true by (symmetry; apply in_run_spec; lia). lia.
        * rewrite K in Hi. exists i. split; [exact Hi|]. replace (in_run R (X - R) i) with false by (symmetry; apply in_run_false; lia). reflexivity.
  Qed.

  (** ** Removing *)
  Lemma ok_renamed (hs0 : hsarr) ss (hs' : hsarr) f : NoDup ss -> (forall i, In i ss <-> hs0 i <> None) -> good hs' ->
    (forall i, hs0 i <> None -> hs' (f i) = hs0 i) ->
    (forall i j, hs0 i <> None -> hs0 j <> None -> f i = f j -> i = j) ->
    (forall i, hs' i <> None -> exists j, hs0 j <> None /\ f j = i) ->
    ok (mksleaf hs' (map f ss)) /\ view (mksleaf hs' (map f ss)) = map hs0 ss.
  Proof.
    intros ND O G M Inj Sur. split.
    - constructor; cbn [s_hs s_ss]; [exact G| |].
      + assert (B : forall i, In i ss -> hs0 i <> None) by (intros i; apply O). clear O.
        induction ss as [|a r IH]; cbn [map]; [constructor|].
        inversion ND; subst. constructor; [|apply IH; auto; intros i Hi; apply B; right; exact Hi].
        intros I. apply in_map_iff in I. destruct I as (i & Ei & Hi).
        assert (i = a) by (apply Inj; auto; apply B; [right; exact Hi|left; reflexivity]). subst i. auto.
      + intros i. rewrite in_map_iff. split.
        * intros (j & <- & Hj). apply O in Hj. rewrite (M j Hj). exact Hj.
        * intros F. destruct (Sur i F) as (j & Hj & Ej). exists j. split; [exact Ej|]. apply O. exact Hj.
    - unfold view. cbn [s_hs s_ss]. rewrite map_map. apply map_ext_in. intros i Hi. apply O in Hi. apply (M i Hi).
  Qed.
  (** no entry before [n] belongs at or after [n] *)
  Lemma left_stop hs n : good hs -> (n = O \/ hs (n - 1)%nat = None \/ exists y, hs (n - 1)%nat = Some y /\ (home (fst y) <= n - 1)%nat) ->
    forall j x, (j < n)%nat -> hs j = Some x -> (home (fst x) < n)%nat.
  Proof.
    intros G [H|[H|(y & Y & H)]] j x Hj Hx; [lia| |].
    - assert (j <> (n - 1)%nat) by (intros ->; rewrite H in Hx; discriminate).
      destruct (Nat.lt_ge_cases (home (fst x)) n) as [K|K]; [exact K|]. exfalso. apply (g_run _ G _ _ (n - 1)%nat Hx); [lia|exact H].
    - destruct (Nat.eq_dec j (n - 1)) as [->|N]; [rewrite Y in Hx; injection Hx as <-; lia|].
      pose proof (home_mono _ _ (g_sort _ G j (n - 1)%nat x y ltac:(lia) Hx Y)). lia.
  Qed.
  Lemma right_stop hs q : good hs -> (q = NS \/ hs q = None \/ exists y, hs q = Some y /\ (q <= home (fst y))%nat) ->
    forall j x, (q <= j)%nat -> hs j = Some x -> (q <= home (fst x))%nat.
  Proof.
    intros G [H|[H|(y & Y & H)]] j x Hj Hx.
    - rewrite (g_out _ G j) in Hx; [discriminate|lia].
    - assert (j <> q) by (intros ->; rewrite H in Hx; discriminate).
      destruct (Nat.lt_ge_cases (home (fst x)) q) as [K|K]; [|exact K]. exfalso. apply (g_run _ G _ _ q Hx); [lia|exact H].
    - destruct (Nat.eq_dec j q) as [->|N]; [rewrite Y in Hx; injection Hx as <-; lia|].
      pose proof (home_mono _ _ (g_sort _ G q j y x ltac:(lia) Y Hx)). lia.
  Qed.
  Lemma put_other (hs : hsarr) i x j : j <> i -> put hs i x j = hs j.
  Proof. unfold put. intros N. destruct (Nat.eqb_spec j i); [contradiction|reflexivity]. Qed.
  Lemma put_same (hs : hsarr) i x : put hs i x i = x.
  Proof. unfold put. rewrite Nat.eqb_refl. reflexivity. Qed.
  Lemma e1_put (hs : hsarr) i x j : j <> i -> e1 (put hs i x) j = e1 hs j.
  Proof. intros N. unfold e1. rewrite (put_other hs i x j N). reflexivity. Qed.

  Lemma pulled_left_good hs ih n hs' : good hs -> (n < ih < NS)%nat ->
    (forall j, (n <= j < ih)%nat -> exists x, hs j = Some x /\ (j < home (fst x))%nat) ->
    (forall j x, (j < n)%nat -> hs j = Some x -> (home (fst x) < n)%nat) ->
    (forall i, (i = n /\ hs' i = None) \/ ((n < i <= ih)%nat /\ hs' i = hs (i - 1)%nat) \/ ((i < n \/ ih < i)%nat /\ hs' i = hs i)) ->
    good hs'.
  Proof.
    intros G H F LS S.
    assert (Full : forall i, (n < i <= ih)%nat \/ ((i < n \/ ih < i)%nat /\ hs i <> None) -> hs' i <> None).
    { intros i Hi. destruct (S i) as [[B Q]|[[B Q]|[B Q]]]; rewrite Q; [lia| |].
      - destruct (F (i - 1)%nat) as (x & X & _); [lia|]. rewrite X. discriminate.
      - destruct Hi as [Hi|Hi]; [lia|tauto]. }
    constructor.
    - intros i Hi. destruct (S i) as [[B Q]|[[B Q]|[B Q]]]; [exact Q|lia|]. rewrite Q. apply (g_out _ G _ Hi).
    - intros i x Hx. destruct (S i) as [[B Q]|[[B Q]|[B Q]]]; rewrite Q in Hx; [discriminate| |]; exact (g_tag _ G _ _ Hx).
    - intros i j x y Hij Hx Hy.
      destruct (S i) as [[Bi Qi]|[[Bi Qi]|[Bi Qi]]]; rewrite Qi in Hx; try discriminate;
      destruct (S j) as [[Bj Qj]|[[Bj Qj]|[Bj Qj]]]; rewrite Qj in Hy; try discriminate.
      + apply (g_sort _ G (i - 1)%nat (j - 1)%nat x y); auto; lia.
      + apply (g_sort _ G (i - 1)%nat j x y); auto; lia.
      + apply (g_sort _ G i (j - 1)%nat x y); auto; lia.
      + apply (g_sort _ G i j x y); auto; lia.
    - intros j x i Hx Hi. apply Full. destruct (S j) as [[Bj Qj]|[[Bj Qj]|[Bj Qj]]]; rewrite Qj in Hx; [discriminate| |].
      + destruct (F (j - 1)%nat) as (y & Y & Hy); [lia|]. rewrite Y in Hx. injection Hx as <-.
        destruct (Nat.lt_ge_cases ih i) as [K|K]; [|left; lia]. right. split; [lia|]. apply (g_run _ G _ _ i Y). lia.
      + destruct Bj as [Bj|Bj].
        * pose proof (LS j x Bj Hx). right. split; [lia|]. exact (g_run _ G _ _ i Hx Hi).
        * destruct (F n) as (y & Y & Hy); [lia|]. pose proof (home_mono _ _ (g_sort _ G n j y x ltac:(lia) Y Hx)).
          destruct (Nat.lt_ge_cases ih i) as [K|K]; [|left; lia]. right. split; [lia|]. exact (g_run _ G _ _ i Hx Hi).
  Qed.
  Lemma pulled_right_good hs ih m hs' : good hs -> (ih <= m < NS)%nat ->
    (forall j, (ih < j <= m)%nat -> exists x, hs j = Some x /\ (home (fst x) < j)%nat) ->
    (forall j x, (j < ih)%nat -> hs j = Some x -> (home (fst x) < ih)%nat) ->
    (forall j x, (m < j)%nat -> hs j = Some x -> (m < home (fst x))%nat) ->
    (forall i, (i = m /\ hs' i = None) \/ ((ih <= i < m)%nat /\ hs' i = hs (S i)) \/ ((i < ih \/ m < i)%nat /\ hs' i = hs i)) ->
    good hs'.
  Proof.
    intros G H F LS RS S.
    assert (Full : forall i, (ih <= i < m)%nat \/ ((i < ih \/ m < i)%nat /\ hs i <> None) -> hs' i <> None).
    { intros i Hi. destruct (S i) as [[B Q]|[[B Q]|[B Q]]]; rewrite Q; [lia| |].
      - destruct (F (Datatypes.S i)) as (x & X & _); [lia|]. rewrite X. discriminate.
      - destruct Hi as [Hi|Hi]; [lia|tauto]. }
    constructor.
    - intros i Hi. destruct (S i) as [[B Q]|[[B Q]|[B Q]]]; [exact Q|lia|]. rewrite Q. apply (g_out _ G _ Hi).
    - intros i x Hx. destruct (S i) as [[B Q]|[[B Q]|[B Q]]]; rewrite Q in Hx; [discriminate| |]; exact (g_tag _ G _ _ Hx).
    - intros i j x y Hij Hx Hy.
      destruct (S i) as [[Bi Qi]|[[Bi Qi]|[Bi Qi]]]; rewrite Qi in Hx; try discriminate;
      destruct (S j) as [[Bj Qj]|[[Bj Qj]|[Bj Qj]]]; rewrite Qj in Hy; try discriminate.
      + apply (g_sort _ G (Datatypes.S i) (Datatypes.S j) x y); auto; lia.
      + apply (g_sort _ G (Datatypes.S i) j x y); auto; lia.
      + apply (g_sort _ G i (Datatypes.S j) x y); auto; lia.
      + apply (g_sort _ G i j x y); auto; lia.
    - intros j x i Hx Hi. apply Full. destruct (S j) as [[Bj Qj]|[[Bj Qj]|[Bj Qj]]]; rewrite Qj in Hx; [discriminate| |].
      + destruct (F (Datatypes.S j)) as (y & Y & Hy); [lia|]. rewrite Y in Hx. injection Hx as <-.
        destruct (Nat.lt_ge_cases i ih) as [K|K]; [|left; lia]. right. split; [lia|]. apply (g_run _ G _ _ i Y). lia.
      + destruct Bj as [Bj|Bj].
        * pose proof (LS j x Bj Hx). right. split; [lia|]. exact (g_run _ G _ _ i Hx Hi).
        * pose proof (RS j x Bj Hx). right. split; [lia|]. exact (g_run _ G _ _ i Hx Hi).
  Qed.

  Lemma pull_ok hs ih z ss : good hs -> hs ih = Some z -> NoDup ss -> (forall i, In i ss <-> put hs ih None i <> None) ->
    let l' := pull_ih (mksleaf (put hs ih None) ss) ih in ok l' /\ view l' = map (put hs ih None) ss.
  Proof.
    intros G Z ND O. cbv zeta. unfold pull_ih. cbn [s_hs s_ss]. set (hs0 := put hs ih None) in *.
    assert (I : (ih < NS)%nat). { destruct (Nat.lt_ge_cases ih NS) as [L|L]; [exact L|]. rewrite (g_out _ G _ L) in Z. discriminate. }
    assert (E0 : forall j, j <> ih -> e1 hs0 j = e1 hs j) by (intros j; apply e1_put).
    assert (H0 : forall j, j <> ih -> hs0 j = hs j) by (intros j; apply put_other).
    assert (H1 : hs0 ih = None) by apply put_same.
    destruct (pull_left_spec hs0 ih) as (A1 & A2 & A3). set (n := pull_left hs0 ih) in *. clearbody n.
    assert (F : forall j, (n <= j < ih)%nat -> exists x, hs j = Some x /\ (j < home (fst x))%nat).
    { intros j Hj. destruct (A2 j Hj) as [B1 B2]. rewrite E0 in B1, B2 by lia. unfold e1 in B1, B2. destruct (hs j) as [x|]; [|contradiction].
      exists x. auto. }
    assert (LS : forall j x, (j < n)%nat -> hs j = Some x -> (home (fst x) < n)%nat).
    { apply left_stop; [exact G|]. destruct (Nat.eq_dec n 0) as [->|N]; [auto|].
      rewrite E0 in A3 by lia. destruct A3 as [A3|[A3|A3]]; [lia| |].
      - right; left. apply (e1_zero _ _ G). exact A3.
      - destruct (hs (n - 1)%nat) as [y|] eqn:Y; [|auto]. right; right. exists y. rewrite (e1_some _ _ _ Y) in A3. auto. }
    clear A2 A3. clearbody hs0.
    destruct (Nat.ltb_spec n ih) as [C|C].
    - cbn [shift_inc s_hs s_ss].
      set (hs' := put (fun i => if in_run (S n) (ih - n) i then hs0 (i - 1)%nat else hs0 i) n None).
      assert (S : forall i, (i = n /\ hs' i = None) \/ ((n < i <= ih)%nat /\ hs' i = hs (i - 1)%nat) \/ ((i < n \/ ih < i)%nat /\ hs' i = hs i)).
      { intros i. unfold hs', put. destruct (Nat.eqb_spec i n) as [->|N]; [auto|].
        destruct (in_run (Datatypes.S n) (ih - n) i) eqn:Q; apply in_run_eq in Q; cbv iota in Q; right.
        - left. split; [lia|]. apply H0. lia.
        - right. split; [lia|]. apply H0. lia. }
      apply (ok_renamed hs0 ss hs' (fun s => if in_run n (ih - n) s then Datatypes.S s else s)); auto.
      + apply (pulled_left_good hs ih n hs'); auto.
      + intros i Hi. cbv beta. assert (i <> ih) by (intros ->; auto). rewrite H0 in * by assumption.
        destruct (in_run n (ih - n) i) eqn:Q; apply in_run_eq in Q; cbv iota in Q.
        * destruct (S (Datatypes.S i)) as [[B _]|[[B K]|[B _]]]; [lia| |lia]. rewrite K. f_equal. lia.
        * destruct (S i) as [[B _]|[[B _]|[B K]]]; [lia|lia|exact K].
      + intros i j Hi Hj. cbv beta. assert (i <> ih) by (intros ->; auto). assert (j <> ih) by (intros ->; auto).
        destruct (in_run n (ih - n) i) eqn:Qi; apply in_run_eq in Qi; cbv iota in Qi; destruct (in_run n (ih - n) j) eqn:Qj; apply in_run_eq in Qj; cbv iota in Qj; lia.
      + intros i Hi. cbv beta. destruct (S i) as [[B K]|[[B K]|[B K]]]; rewrite K in Hi; [contradiction| |].
        * exists (i - 1)%nat. rewrite H0 by lia. split; [exact Hi|]. replace (in_run n (ih - n) (i - 1)) with true by (symmetry; apply in_run_spec; lia). lia.
        * exists i. rewrite H0 by lia. split; [exact Hi|]. replace (in_run n (ih - n) i) with false by (symmetry; apply in_run_false; lia). reflexivity.
    - assert (n = ih) as -> by lia. clear C F A1.
      destruct (go_right_spec hs0 (fun a i => Nat.ltb (home a) i) (NS - Datatypes.S ih) ltac:(lia)) as (B1 & B2 & B3).
      set (q := go_right hs0 (fun a i => Nat.ltb (home a) i) (NS - Datatypes.S ih)) in *. clearbody q.
      replace (NS - (NS - Datatypes.S ih))%nat with (Datatypes.S ih) in * by lia.
      assert (F : forall j, (ih < j <= q - 1)%nat -> exists x, hs j = Some x /\ (home (fst x) < j)%nat).
      { intros j Hj. destruct (B2 j) as [D1 D2]; [lia|]. rewrite E0 in D1, D2 by lia. apply Nat.ltb_lt in D2. unfold e1 in D1, D2.
        destruct (hs j) as [x|]; [|contradiction]. exists x. auto. }
      assert (RS : forall j x, (q - 1 < j)%nat -> hs j = Some x -> (q - 1 < home (fst x))%nat).
      { intros j x Hj Hx. cut (q <= home (fst x))%nat; [lia|]. apply (right_stop hs q G) with (j := j); [|lia|exact Hx].
        destruct (Nat.eq_dec q NS) as [K|K]; [auto|]. rewrite E0 in B3 by lia. destruct B3 as [B3|[B3|B3]]; [auto| |].
        - right; left. apply (e1_zero _ _ G). exact B3.
        - apply Nat.ltb_ge in B3. destruct (hs q) as [y|] eqn:Y; [|auto]. right; right. exists y. rewrite (e1_some _ _ _ Y) in B3. auto. }
      clear B2 B3. set (m := (q - 1)%nat) in *. assert (M : (ih <= m < NS)%nat) by lia. clearbody m.
      destruct (Nat.ltb_spec ih m) as [C|C].
      + cbn [shift_dec s_hs s_ss].
        set (hs' := put (fun i => if in_run (Datatypes.S ih - 1) (m - ih) i then hs0 (Datatypes.S i) else hs0 i) m None).
        assert (S : forall i, (i = m /\ hs' i = None) \/ ((ih <= i < m)%nat /\ hs' i = hs (Datatypes.S i)) \/ ((i < ih \/ m < i)%nat /\ hs' i = hs i)).
        { intros i. unfold hs', put. destruct (Nat.eqb_spec i m) as [->|N]; [auto|].
          destruct (in_run (Datatypes.S ih - 1) (m - ih) i) eqn:Q; apply in_run_eq in Q; cbv iota in Q; right.
          - left. split; [lia|]. apply H0. lia.
          - right. split; [lia|]. apply H0. lia. }
        apply (ok_renamed hs0 ss hs' (fun s => if in_run (Datatypes.S ih) (m - ih) s then (s - 1)%nat else s)); auto.
        * apply (pulled_right_good hs ih m hs'); auto.
        * intros i Hi. cbv beta. assert (i <> ih) by (intros ->; auto). rewrite H0 in * by assumption.
          destruct (in_run (Datatypes.S ih) (m - ih) i) eqn:Q; apply in_run_eq in Q; cbv iota in Q.
          -- destruct (S (i - 1)%nat) as [[B _]|[[B K]|[B _]]]; [lia| |lia]. rewrite K. f_equal. lia.
          -- destruct (S i) as [[B _]|[[B _]|[B K]]]; [lia|lia|exact K].
        * intros i j Hi Hj. cbv beta. assert (i <> ih) by (intros ->; auto). assert (j <> ih) by (intros ->; auto).
          destruct (in_run (Datatypes.S ih) (m - ih) i) eqn:Qi; apply in_run_eq in Qi; cbv iota in Qi; destruct (in_run (Datatypes.S ih) (m - ih) j) eqn:Qj; apply in_run_eq in Qj; cbv iota in Qj; lia.
        * intros i Hi. cbv beta. destruct (S i) as [[B K]|[[B K]|[B K]]]; rewrite K in Hi; [contradiction| |].
          -- exists (Datatypes.S i). rewrite H0 by lia. split; [exact Hi|]. replace (in_run (Datatypes.S ih) (m - ih) (Datatypes.S i)) with true by (symmetry; apply in_run_spec; lia). lia.
          -- exists i. rewrite H0 by lia. split; [exact Hi|]. replace (in_run (Datatypes.S ih) (m - ih) i) with false by (symmetry; apply in_run_false; lia). reflexivity.
      + assert (m = ih) as -> by lia. rewrite <- (map_id ss) at 1 2.
        apply (ok_renamed hs0 ss hs0 (fun s => s)); auto; [|intros i Hi; exists i; auto].
        apply (pulled_right_good hs ih ih hs0); auto.
        intros i. destruct (Nat.eq_dec i ih) as [->|N]; [auto|]. right; right. split; [lia|]. apply H0. exact N.
  Qed.
End slots.
