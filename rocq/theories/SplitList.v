(** The lists InsertSplit makes out of one half of a block's elements. *)
From Coq Require Import ZArith List Bool Lia Sorting.Sorted Permutation.
From Coq Require Import ZifyBool.
From Verif Require Import Base Util Store Tables Key Diva Bits Shift View Cells Lowbit StoreRep Match.
Import ListNotations.
Open Scope Z_scope.

(** last position of the interval of an element; the first one is [lbase x] *)
Definition up (x : Z) : Z := x + lowbit x - 1.
(** order of the elements of a block: by start, larger intervals first *)
Definition lex (x y : Z) : Prop := lbase x < lbase y \/ (lbase x = lbase y /\ lowbit y <= lowbit x).

Lemma bind_ok {A B} (m : res A) (f : A -> res B) y : bind m f = Ok y -> exists x, m = Ok x /\ f x = Ok y.
Proof. destruct m; simpl; intros H; try discriminate. eauto. Qed.

Lemma lowbit_form x : 0 < x < 2 ^ 64 -> exists t k, 0 <= t < 64 /\ 0 <= k /\ tzcnt x = t /\ lowbit x = 2 ^ t /\ x = 2 ^ t * (2 * k + 1) /\
  lbase x = 2 ^ t * (2 * k) /\ up x = 2 ^ t * (2 * k + 2) - 1.
Proof.
  intros Hx. destruct (tz_decomp x ltac:(lia)) as (k & Hk & E). pose proof (tzcnt_lt x Hx). destruct (tzcnt_spec x ltac:(lia)) as (H0 & _).
  exists (tzcnt x), k. pose proof (lowbit_pow x Hx) as E2. unfold lbase, up. rewrite E2. set (p := 2 ^ tzcnt x) in *.
  repeat split; first [lia|assumption|reflexivity].
Qed.
Lemma form_lowbit t k : 0 <= t -> 0 <= k -> 2 ^ t * (2 * k + 1) < 2 ^ 64 -> lowbit (2 ^ t * (2 * k + 1)) = 2 ^ t.
Proof.
  intros Ht Hk H. apply lowbit_unique; [lia| |eauto]. pose proof (Z.pow_pos_nonneg 2 t ltac:(lia) ltac:(lia)). nia.
Qed.

Section Half.
Variable c : cfg.
Variable s w o h : Z.
Hypothesis Hs : 1 <= s <= 46.
Hypothesis Hw : 0 <= w.
Hypothesis Hws : w + s + 10 <= 64.
Hypothesis Ho : 0 <= o <= h.
Hypothesis Hh : h * 2 ^ s + 2 ^ s <= 2 ^ 64.

Definition elem (x : Z) : Prop := 0 < x < 1024 * 2 ^ s.
(** the images of one element *)
Definition image (x : Z) : list Z :=
  let X := x * 2 ^ w in
  if X mod 2 ^ s =? 0 then
    map (fun i => (Z.max (lbase X / 2 ^ s) o + Z.of_nat i - o) * 2 ^ s + 2 ^ (s - 1))
        (seq 0 (Z.to_nat (Z.min (up X / 2 ^ s) h - Z.max (lbase X / 2 ^ s) o + 1)))
  else [X - o * 2 ^ s].

Lemma ps_pos : 0 < 2 ^ s. Proof. apply Z.pow_pos_nonneg; lia. Qed.
Lemma pw_pos : 0 < 2 ^ w. Proof. apply Z.pow_pos_nonneg; lia. Qed.
Lemma ps_half : 2 ^ s = 2 * 2 ^ (s - 1).
Proof. replace s with (1 + (s - 1)) at 1 by lia. rewrite Z.pow_add_r by lia. reflexivity. Qed.
Lemma elem_lt x : elem x -> 0 < x * 2 ^ w < 2 ^ 64 /\ x < 2 ^ 64.
Proof.
  intros [H1 H2]. pose proof pw_pos. split.
  - split; [nia|]. apply Z.lt_le_trans with (1024 * 2 ^ s * 2 ^ w); [nia|].
    change 1024 with (2 ^ 10). rewrite <- !Z.pow_add_r by lia. apply pow2_le_mono. lia.
  - pose proof (pow2_le_mono s 46 ltac:(lia)). change (2 ^ 64) with (2 ^ 18 * 2 ^ 46). change (2 ^ 46) with 70368744177664 in *. lia.
Qed.

(** shifting an element *)
Lemma shifted x : elem x -> lowbit (x * 2 ^ w) = lowbit x * 2 ^ w /\ lbase (x * 2 ^ w) = lbase x * 2 ^ w /\ up (x * 2 ^ w) = up x * 2 ^ w + 2 ^ w - 1 /\
  0 < lowbit x.
Proof.
  intros Hx. destruct (elem_lt x Hx) as [H1 H2]. destruct (lowbit_form x ltac:(destruct Hx; lia)) as (t & k & Ht & Hk & _ & E1 & E2 & E3 & E4).
  pose proof pw_pos.
  assert (E : x * 2 ^ w = 2 ^ (t + w) * (2 * k + 1)) by (rewrite E2 at 1; rewrite Z.pow_add_r by lia; lia).
  assert (El : lowbit (x * 2 ^ w) = 2 ^ (t + w)) by (rewrite E in *; apply form_lowbit; lia).
  assert (El2 : lowbit (x * 2 ^ w) = lowbit x * 2 ^ w) by (rewrite El, E1, Z.pow_add_r by lia; lia).
  split; [exact El2|]. unfold lbase, up. rewrite El2. split; [lia|]. split; [lia|]. rewrite E1. apply Z.pow_pos_nonneg; lia.
Qed.

(** an element that has to be expanded *)
Lemma exp_iff x : elem x -> (x * 2 ^ w mod 2 ^ s = 0 <-> s <= lowbit_pos x + w).
Proof.
  intros Hx. destruct (elem_lt x Hx) as [H1 H2]. destruct (lowbit_form x ltac:(destruct Hx; lia)) as (t & k & Ht & Hk & Et & E1 & E2 & E3 & E4).
  unfold lowbit_pos. rewrite Et. pose proof ps_pos. split.
  - intros Hm. destruct (Z.le_gt_cases s (t + w)) as [|Hlt]; auto. exfalso.
    apply Z.mod_divide in Hm as [z Hz]; [|lia]. rewrite E2 in Hz.
    replace s with ((t + w) + (1 + (s - t - w - 1))) in Hz by lia. rewrite !Z.pow_add_r in Hz by lia. change (2 ^ 1) with 2 in Hz.
    pose proof (Z.pow_pos_nonneg 2 t ltac:(lia) ltac:(lia)). pose proof pw_pos. set (a := 2 ^ t) in *. set (b := 2 ^ w) in *. set (d := 2 ^ (s - t - w - 1)) in *.
    assert (a * b * (2 * k + 1) = a * b * (2 * (z * d))) by (rewrite <- !Z.mul_assoc in *; nia). 
    assert (2 * k + 1 = 2 * (z * d)) by (apply (Z.mul_reg_l _ _ (a * b)); [nia|assumption]). lia.
  - intros Hle. apply Z.mod_divide; [lia|]. exists (2 ^ (t + w - s) * (2 * k + 1)). rewrite E2 at 1.
    replace (2 ^ t * (2 * k + 1) * 2 ^ w) with (2 ^ (t + w) * (2 * k + 1)) by (rewrite Z.pow_add_r by lia; lia).
    replace (t + w) with ((t + w - s) + s) at 1 by lia. rewrite Z.pow_add_r by lia. lia.
Qed.
Lemma exp_form x : elem x -> x * 2 ^ w mod 2 ^ s = 0 -> let X := x * 2 ^ w in
  0 < X / 2 ^ s /\ lowbit (X / 2 ^ s) * 2 ^ s = lowbit X /\ lbase X mod 2 ^ s = 0 /\ lbase (X / 2 ^ s) = lbase X / 2 ^ s /\ up (X / 2 ^ s) = up X / 2 ^ s /\
  up X = up X / 2 ^ s * 2 ^ s + 2 ^ s - 1 /\ 2 ^ s <= lowbit X.
Proof.
  intros Hx Hm X. pose proof (proj1 (exp_iff x Hx) Hm) as Hle. unfold lowbit_pos in Hle.
  destruct (elem_lt x Hx) as [H1 H2]. destruct (lowbit_form x ltac:(destruct Hx; lia)) as (t & k & Ht & Hk & Et & E1 & E2 & E3 & E4). rewrite Et in Hle.
  pose proof ps_pos. assert (EX : X = 2 ^ s * (2 ^ (t + w - s) * (2 * k + 1))).
  { unfold X. rewrite E2 at 1. replace (2 ^ t * (2 * k + 1) * 2 ^ w) with (2 ^ (t + w) * (2 * k + 1)) by (rewrite Z.pow_add_r by lia; lia).
    replace (t + w) with (s + (t + w - s)) at 1 by lia. rewrite Z.pow_add_r by lia. lia. }
  fold X in H1. set (u := 2 ^ (t + w - s)) in *. assert (0 < u) by (apply Z.pow_pos_nonneg; lia).
  assert (Ed : X / 2 ^ s = u * (2 * k + 1)) by (rewrite EX, (Z.mul_comm (2 ^ s)); apply Z.div_mul; lia).
  assert (Elo : lowbit X = 2 ^ s * u).
  { destruct (shifted x Hx) as (E & _). fold X in E. rewrite E, E1. unfold u. rewrite <- !Z.pow_add_r by lia. f_equal. lia. }
  assert (El2 : lowbit (X / 2 ^ s) = u) by (rewrite Ed; apply form_lowbit; try lia; nia).
  unfold lbase, up. rewrite El2, Elo, Ed.
  assert (Eb : X - 2 ^ s * u = (u * (2 * k)) * 2 ^ s) by (rewrite EX; lia).
  assert (Ee : X + 2 ^ s * u - 1 = (u * (2 * k + 2) - 1) * 2 ^ s + (2 ^ s - 1)) by (rewrite EX; lia).
  rewrite Eb, Ee. rewrite Z.mod_mul, Z.div_mul by lia.
  assert (Eq : ((u * (2 * k + 2) - 1) * 2 ^ s + (2 ^ s - 1)) / 2 ^ s = u * (2 * k + 2) - 1).
  { rewrite Z.div_add_l by lia. rewrite (Z.div_small (2 ^ s - 1)) by lia. lia. }
  rewrite Eq. repeat split; try lia; nia.
Qed.
(** an element that is only moved *)
Lemma non_form x : elem x -> x * 2 ^ w mod 2 ^ s <> 0 -> o * 2 ^ s <= up (x * 2 ^ w) -> let y := x * 2 ^ w - o * 2 ^ s in
  0 < y < 2 ^ 64 /\ lowbit y = lowbit (x * 2 ^ w) /\ 0 <= lbase y /\ lbase y / 2 ^ s = y / 2 ^ s /\ y mod 2 ^ s <> 0 /\ lowbit y <= 2 ^ (s - 1) /\ 0 < lowbit y /\
  up y / 2 ^ s = y / 2 ^ s.
Proof.
  intros Hx Hm Hup y. assert (Hlt : lowbit_pos x + w < s).
  { destruct (Z.le_gt_cases s (lowbit_pos x + w)) as [H|H]; auto. apply (exp_iff x Hx) in H. contradiction. }
  unfold lowbit_pos in Hlt. destruct (elem_lt x Hx) as [H1 H2]. destruct (lowbit_form x ltac:(destruct Hx; lia)) as (t & k & Ht & Hk & Et & E1 & E2 & E3 & E4).
  rewrite Et in Hlt. destruct (shifted x Hx) as (S1 & S2 & S3 & S4). rewrite S1, E1 in *.
  assert (Eu : 2 ^ t * 2 ^ w = 2 ^ (t + w)) by (rewrite Z.pow_add_r by lia; lia). rewrite Eu in *.
  set (u := 2 ^ (t + w)) in *. assert (Hu : 0 < u) by (apply Z.pow_pos_nonneg; lia).
  set (d := 2 ^ (s - t - w - 1)). assert (Hd : 0 < d) by (apply Z.pow_pos_nonneg; lia).
  assert (Es : 2 ^ s = u * (2 * d)) by (unfold u, d; change 2 with (2 ^ 1) at 3; rewrite <- !Z.pow_add_r by lia; f_equal; lia).
  assert (Es2 : 2 ^ (s - 1) = u * d) by (unfold u, d; rewrite <- !Z.pow_add_r by lia; f_equal; lia).
  assert (EX : x * 2 ^ w = u * (2 * k + 1)) by (rewrite E2 at 1; rewrite <- Eu; lia).
  assert (EU : up (x * 2 ^ w) = u * (2 * k + 2) - 1) by (unfold up; rewrite S1, EX; lia).
  rewrite EU, Es in Hup. assert (Hod : o * (2 * d) < 2 * k + 2).
  { apply (Zmult_lt_reg_r _ _ u); [exact Hu|]. replace (o * (2 * d) * u) with (o * (u * (2 * d))) by ring. replace ((2 * k + 2) * u) with (u * (2 * k + 2)) by ring. lia. }
  assert (Hod2 : o * d <= k) by lia.
  assert (Ey : y = u * (2 * (k - o * d) + 1)) by (unfold y; rewrite EX, Es; lia).
  assert (Hy : 0 < y < 2 ^ 64). { split; [rewrite Ey; apply Z.mul_pos_pos; lia|]. unfold y. pose proof ps_pos. pose proof (Z.mul_nonneg_nonneg o (2 ^ s) ltac:(lia) ltac:(lia)). lia. }
  assert (El : lowbit y = u). { rewrite Ey in *. apply form_lowbit; try lia. }
  unfold lbase, up. rewrite El.
  set (m := k - o * d) in *. assert (Hm0 : 0 <= m) by lia.
  pose proof (Z.div_mod m d ltac:(lia)) as Dm. pose proof (Z.mod_pos_bound m d Hd) as Rm.
  assert (D1 : (y - u) / 2 ^ s = m / d).
  { rewrite Es, Ey. symmetry. apply (Z.div_unique_pos _ _ (m / d) (u * (2 * (m mod d)))); [clear -Hu Hd Rm; split; nia|]. rewrite Dm at 1. ring. }
  assert (D2 : y / 2 ^ s = m / d).
  { rewrite Es, Ey. symmetry. apply (Z.div_unique_pos _ _ (m / d) (u * (2 * (m mod d) + 1))); [clear -Hu Hd Rm; split; nia|]. rewrite Dm at 1. ring. }
  assert (D3 : (y + u - 1) / 2 ^ s = m / d).
  { rewrite Es, Ey. symmetry. apply (Z.div_unique_pos _ _ (m / d) (u * (2 * (m mod d) + 2) - 1)); [clear -Hu Hd Rm; split; nia|]. rewrite Dm at 1. ring. }
  rewrite D1, D2, D3. split; [exact Hy|]. split; [reflexivity|].
  split; [rewrite Ey; clear -Hu Hm0; assert (0 <= u * (2 * m)) by (apply Z.mul_nonneg_nonneg; lia); lia|]. split; [reflexivity|].
  split; [|split; [rewrite Es2; clear -Hu Hd; nia|split; [exact Hu|reflexivity]]].
  intros Hz. apply Z.mod_divide in Hz as [z Hz]; [|apply not_eq_sym, Z.lt_neq, ps_pos]. rewrite Es, Ey in Hz. clear -Hz Hu.
  assert (2 * m + 1 = 2 * (z * d)) by (apply (Z.mul_reg_l _ _ u); [lia|]; rewrite Hz; ring). lia.
Qed.
(** a whole cell *)
Lemma cell_form j : 0 <= j -> j * 2 ^ s + 2 ^ s <= 2 ^ 64 -> let y := j * 2 ^ s + 2 ^ (s - 1) in
  0 < y < 2 ^ 64 /\ lowbit y = 2 ^ (s - 1) /\ lbase y = j * 2 ^ s /\ up y = j * 2 ^ s + 2 ^ s - 1 /\ y / 2 ^ s = j /\ y mod 2 ^ s <> 0.
Proof.
  intros Hj Hlt y. pose proof ps_half as E. pose proof (Z.pow_pos_nonneg 2 (s - 1) ltac:(lia) ltac:(lia)) as Hp. set (p := 2 ^ (s - 1)) in *.
  assert (Ey : y = p * (2 * j + 1)) by (unfold y; rewrite E; ring).
  assert (Hy : 0 < y < 2 ^ 64) by (split; [rewrite Ey|unfold y]; nia).
  assert (El : lowbit y = p). { rewrite Ey in *. apply form_lowbit; lia. }
  unfold lbase, up. rewrite El. unfold y in *. repeat split; try lia.
  - rewrite Z.div_add_l by lia. rewrite (Z.div_small p) by lia. lia.
  - rewrite Z.add_comm, Z.mod_add, Z.mod_small by lia. lia.
Qed.

(** which elements come out *)
Definition meets (jb je x : Z) : Prop := lbase x <= je /\ jb <= up x.
Lemma image_ok jb je x y : elem x -> jb / 2 ^ s = o -> je / 2 ^ s = h -> meets jb je (x * 2 ^ w) -> In y (image x) ->
  0 < y < (h - o + 1) * 2 ^ s /\ y mod 2 ^ s <> 0 /\ lbase (x * 2 ^ w) - o * 2 ^ s <= lbase y /\ lowbit y <= lowbit (x * 2 ^ w) /\
  meets (jb - o * 2 ^ s) (je - o * 2 ^ s) y /\ 0 <= lbase y.
Proof.
  intros Hx Hjb Hje [M1 M2] Hy. unfold image in Hy. set (X := x * 2 ^ w) in *. pose proof ps_pos as Hp.
  pose proof (Z.div_mod jb (2 ^ s) ltac:(lia)) as Db. pose proof (Z.mod_pos_bound jb (2 ^ s) Hp). rewrite Hjb in Db.
  pose proof (Z.div_mod je (2 ^ s) ltac:(lia)) as De. pose proof (Z.mod_pos_bound je (2 ^ s) Hp). rewrite Hje in De.
  destruct (Z.eqb_spec (X mod 2 ^ s) 0) as [Hm|Hm].
  - destruct (exp_form x Hx Hm) as (F1 & F2 & F3 & F4 & F5 & F6 & F7). fold X in F1, F2, F3, F4, F5, F6, F7.
    apply in_map_iff in Hy as (i & <- & Hi). apply in_seq in Hi. set (a := Z.max (lbase X / 2 ^ s) o) in *. set (b := Z.min (up X / 2 ^ s) h) in *.
    set (j := a + Z.of_nat i - o). assert (Hj : 0 <= j <= h - o) by lia.
    assert (Hjm : 0 <= j * 2 ^ s <= (h - o) * 2 ^ s) by (clear -Hj Hp; split; [apply Z.mul_nonneg_nonneg; lia|apply Z.mul_le_mono_nonneg_r; lia]).
    assert (Hom : 0 <= o * 2 ^ s) by (clear -Ho Hp; apply Z.mul_nonneg_nonneg; lia).
    destruct (cell_form j ltac:(clear -Hj; lia) ltac:(clear -Hjm Hom Hh; lia)) as (C1 & C2 & C3 & C4 & C5 & C6).
    assert (Hl : lbase X = lbase X / 2 ^ s * 2 ^ s). { pose proof (Z.div_mod (lbase X) (2 ^ s) ltac:(clear -Hp; lia)) as D. rewrite F3 in D. clear -D. lia. }
    assert (Hl2 : lbase X / 2 ^ s * 2 ^ s <= (j + o) * 2 ^ s). { apply Z.mul_le_mono_nonneg_r; [clear -Hp; lia|]. unfold j, a. clear. lia. }
    pose proof ps_half as Hhalf. pose proof (Z.pow_pos_nonneg 2 (s - 1) ltac:(lia) ltac:(clear -Hs; lia)) as Hp2.
    split; [split; [clear -C1; lia|clear -Hjm Hhalf Hp2; lia]|].
    split; [exact C6|]. rewrite C2, C3. split; [clear -Hl Hl2; lia|]. split; [clear -Hhalf Hp2 F7; lia|].
    split; [|clear -Hjm; lia]. unfold meets. rewrite C3, C4. clear -Hjm Db De H H0. lia.
  - destruct Hy as [<-|[]]. destruct (non_form x Hx Hm ltac:(fold X; clear -M2 Db H; lia)) as (N1 & N2 & N3 & N4 & N5 & N6 & N7 & N8). fold X in N1, N2, N3, N4, N5, N6, N7, N8.
    set (y := X - o * 2 ^ s) in *. assert (Elb : lbase y = lbase X - o * 2 ^ s) by (unfold lbase; rewrite N2; unfold y; lia).
    assert (Eup : up y = up X - o * 2 ^ s) by (unfold up; rewrite N2; unfold y; lia).
    assert (Hle : lbase y <= je - o * 2 ^ s) by lia.
    assert (Hd : y / 2 ^ s <= h - o).
    { rewrite <- N4. replace (h - o) with ((je - o * 2 ^ s) / 2 ^ s). { apply Z.div_le_mono; lia. }
      replace (je - o * 2 ^ s) with (je + (- o) * 2 ^ s) by lia. rewrite Z.div_add by lia. lia. }
    assert (Hd2 : y / 2 ^ s * 2 ^ s <= (h - o) * 2 ^ s) by (clear -Hd Hp; apply Z.mul_le_mono_nonneg_r; lia).
    split; [split; [clear -N1; lia|]|]. { pose proof (Z.div_mod y (2 ^ s) ltac:(clear -Hp; lia)) as D. pose proof (Z.mod_pos_bound y (2 ^ s) Hp) as R. clear -Hd2 D R. lia. }
    split; [exact N5|]. split; [clear -Elb; lia|]. split; [clear -N2; lia|]. split; [|exact N3]. unfold meets. rewrite Eup. clear -Hle M2; lia.
Qed.
Lemma image_cover x j : elem x -> o * 2 ^ s <= j -> j < h * 2 ^ s + 2 ^ s -> lbase (x * 2 ^ w) <= j <= up (x * 2 ^ w) ->
  exists y, In y (image x) /\ hit (j - o * 2 ^ s) (j - o * 2 ^ s) y.
Proof.
  intros Hx H1 H2 H3. unfold image. set (X := x * 2 ^ w) in *. pose proof ps_pos as Hp.
  pose proof (Z.div_mod j (2 ^ s) ltac:(lia)) as Dj. pose proof (Z.mod_pos_bound j (2 ^ s) Hp) as Rj.
  destruct (Z.eqb_spec (X mod 2 ^ s) 0) as [Hm|Hm].
  - destruct (exp_form x Hx Hm) as (F1 & F2 & F3 & F4 & F5 & F6 & F7). fold X in F1, F2, F3, F4, F5, F6, F7.
    set (a := Z.max (lbase X / 2 ^ s) o) in *. set (b := Z.min (up X / 2 ^ s) h) in *.
    assert (Hja : a <= j / 2 ^ s <= b).
    { unfold a, b. pose proof (Z.div_le_mono (lbase X) j (2 ^ s) Hp ltac:(lia)). pose proof (Z.div_le_mono j (up X) (2 ^ s) Hp ltac:(lia)).
      assert (o <= j / 2 ^ s) by (apply Z.div_le_lower_bound; lia). assert (j / 2 ^ s < h + 1) by (apply Z.div_lt_upper_bound; lia). lia. }
    exists ((j / 2 ^ s - o) * 2 ^ s + 2 ^ (s - 1)). split.
    + apply in_map_iff. exists (Z.to_nat (j / 2 ^ s - a)). split; [|apply in_seq; lia]. rewrite Z2Nat.id by lia. f_equal. f_equal. lia.
    + assert (Hjm : 0 <= (j / 2 ^ s - o) * 2 ^ s <= (h - o) * 2 ^ s) by (clear -Hja Hp; unfold a, b in Hja; split; [apply Z.mul_nonneg_nonneg; lia|apply Z.mul_le_mono_nonneg_r; lia]).
      assert (Hom : 0 <= o * 2 ^ s) by (clear -Ho Hp; apply Z.mul_nonneg_nonneg; lia).
      destruct (cell_form (j / 2 ^ s - o) ltac:(clear -Hja; lia) ltac:(clear -Hjm Hom Hh; lia)) as (C1 & C2 & C3 & C4 & C5 & C6). unfold hit. fold (up ((j / 2 ^ s - o) * 2 ^ s + 2 ^ (s - 1))).
      rewrite C3, C4. clear -Dj Rj. lia.
  - exists (X - o * 2 ^ s). split; [left; reflexivity|].
    destruct (non_form x Hx Hm ltac:(fold X; lia)) as (N1 & N2 & _). fold X in N1, N2. unfold hit, lbase in *. rewrite N2. unfold up in *. lia.
Qed.
(** and covers nothing else *)
Lemma image_back jb x y j : elem x -> jb / 2 ^ s = o -> jb <= up (x * 2 ^ w) -> In y (image x) -> hit j j y -> lbase (x * 2 ^ w) <= j + o * 2 ^ s <= up (x * 2 ^ w).
Proof.
  intros Hx Hjb M2 Hy [J1 J2]. fold (up y) in J2. unfold image in Hy. set (X := x * 2 ^ w) in *. pose proof ps_pos as Hp.
  pose proof (Z.div_mod jb (2 ^ s) ltac:(lia)) as Db. pose proof (Z.mod_pos_bound jb (2 ^ s) Hp) as Rb. rewrite Hjb in Db.
  destruct (Z.eqb_spec (X mod 2 ^ s) 0) as [Hm|Hm].
  - destruct (exp_form x Hx Hm) as (F1 & F2 & F3 & F4 & F5 & F6 & F7). fold X in F1, F2, F3, F4, F5, F6, F7.
    apply in_map_iff in Hy as (i & <- & Hi). apply in_seq in Hi. set (a := Z.max (lbase X / 2 ^ s) o) in *. set (b := Z.min (up X / 2 ^ s) h) in *.
    set (i' := a + Z.of_nat i - o) in *. assert (Hj : 0 <= i' <= h - o) by lia.
    assert (Hjm : 0 <= i' * 2 ^ s <= (h - o) * 2 ^ s) by (clear -Hj Hp; split; [apply Z.mul_nonneg_nonneg; lia|apply Z.mul_le_mono_nonneg_r; lia]).
    assert (Hom : 0 <= o * 2 ^ s) by (clear -Ho Hp; apply Z.mul_nonneg_nonneg; lia).
    destruct (cell_form i' ltac:(clear -Hj; lia) ltac:(clear -Hjm Hom Hh; lia)) as (C1 & C2 & C3 & C4 & C5 & C6). rewrite C3 in J1. rewrite C4 in J2.
    assert (Hl : lbase X = lbase X / 2 ^ s * 2 ^ s). { pose proof (Z.div_mod (lbase X) (2 ^ s) ltac:(clear -Hp; lia)) as D. rewrite F3 in D. clear -D. lia. }
    assert (Hl2 : lbase X / 2 ^ s * 2 ^ s <= (i' + o) * 2 ^ s). { apply Z.mul_le_mono_nonneg_r; [clear -Hp; lia|]. unfold i', a. clear. lia. }
    assert (Hl3 : (i' + o) * 2 ^ s <= up X / 2 ^ s * 2 ^ s). { apply Z.mul_le_mono_nonneg_r; [clear -Hp; lia|]. clear -Hi. unfold i', b in *. lia. }
    clear -Hl Hl2 Hl3 J1 J2 F6. lia.
  - destruct Hy as [<-|[]]. destruct (non_form x Hx Hm ltac:(fold X; clear -M2 Db Rb; lia)) as (N1 & N2 & _). fold X in N1, N2.
    unfold lbase, up in *. rewrite N2 in *. lia.
Qed.

(** *** the code computes these images *)
Lemma shl_eq x : elem x -> shl64 c x w = Ok (x * 2 ^ w).
Proof.
  intros Hx. unfold shl64. destruct (Z.leb_spec 0 w); [|lia]. destruct (Z.ltb_spec w 64); [|lia]. cbn [andb].
  rewrite Z.shiftl_mul_pow2 by lia. rewrite u64_small; [reflexivity|]. destruct (elem_lt x Hx). lia.
Qed.
Lemma shift_eq l r : Forall elem l -> Forall (fun x => o * 2 ^ s <= x * 2 ^ w) l -> shift_infixes c w (o * 2 ^ s) l = Ok r -> r = map (fun x => x * 2 ^ w - o * 2 ^ s) l.
Proof.
  revert r. induction l as [|x l IH]; intros r Hl Hlo H; [simpl in H; inversion H; reflexivity|]. inversion Hl as [|? ? Hx Hl']; subst. inversion Hlo as [|? ? Hox Hlo']; subst.
  cbn [shift_infixes] in H. rewrite shl_eq in H by assumption. cbn [bind] in H. apply bind_ok in H as (t & Et & H). inversion H; subst.
  rewrite (IH t Hl' Hlo' Et). cbn [map]. f_equal. apply u64_small. pose proof ps_pos. destruct (elem_lt x Hx). nia.
Qed.
Lemma land_mask v : 0 <= v -> Z.land v (bitmask s) = v mod 2 ^ s.
Proof. intros. unfold bitmask. apply Z.land_ones. lia. Qed.
Lemma expand_eq hi l r : Z.shiftr hi s = h -> Forall elem l -> Forall (fun x => x * 2 ^ w mod 2 ^ s <> 0 -> o * 2 ^ s <= x * 2 ^ w) l ->
  expand_infixes c s w (o * 2 ^ s) hi l = Ok r -> r = flat_map image l.
Proof.
  intros Hhi. revert r. induction l as [|x l IH]; intros r Hl Hlo H; [simpl in H; inversion H; reflexivity|]. inversion Hl as [|? ? Hx Hl']; subst. inversion Hlo as [|? ? Hox Hlo']; subst.
  cbn [expand_infixes] in H. rewrite shl_eq in H by assumption. cbn [bind] in H. apply bind_ok in H as (t & Et & H). cbv zeta in H.
  rewrite (IH t Hl' Hlo' Et) in H. clear IH Et t. cbn [flat_map]. destruct (elem_lt x Hx) as [HX _]. rewrite land_mask in H by lia. pose proof ps_pos as Hp.
  rewrite !Z.shiftr_div_pow2 in H by lia. rewrite Z.div_mul in H by lia. rewrite <- (Z.shiftr_div_pow2 hi) in H by lia. unfold image.
  destruct (Z.eqb_spec (x * 2 ^ w mod 2 ^ s) 0) as [Hm|Hm].
  - inversion H; subst r. f_equal. destruct (exp_form x Hx Hm) as (F1 & F2 & F3 & F4 & F5 & F6 & F7). set (X := x * 2 ^ w) in *.
    assert (Hip : 0 < X / 2 ^ s < 2 ^ 64). { split; [lia|]. apply Z.div_lt_upper_bound; [lia|]. clear -HX Hp. set (q := 2 ^ 64) in *. set (r := 2 ^ s) in *. assert (1 * q <= r * q) by (apply Z.mul_le_mono_nonneg_r; lia). lia. }
    rewrite lor_pred by assumption. fold (up (X / 2 ^ s)). fold (lbase (X / 2 ^ s)). rewrite F5.
    assert (0 <= lbase (X / 2 ^ s)). { destruct (lowbit_form _ Hip) as (t & k & Ht & Hk & _ & _ & _ & E & _). rewrite E. pose proof (Z.pow_pos_nonneg 2 t ltac:(lia) ltac:(lia)). apply Z.mul_nonneg_nonneg; lia. }
    rewrite u64_small by (unfold lbase in *; pose proof (lowbit_facts _ Hip); lia). rewrite F4.
    unfold expand_one. set (a := Z.max (lbase X / 2 ^ s) o). rewrite Hhi. set (b := Z.min (up X / 2 ^ s) h). apply map_ext_in. intros i Hi. apply in_seq in Hi. cbv zeta.
    pose proof ps_half. pose proof (Z.pow_pos_nonneg 2 (s - 1) ltac:(lia) ltac:(lia)).
    assert (Hj : 0 <= a + Z.of_nat i - o <= h - o) by lia.
    assert (Hjm : 0 <= (a + Z.of_nat i - o) * 2 ^ s <= (h - o) * 2 ^ s) by (clear -Hj Hp; split; [apply Z.mul_nonneg_nonneg; lia|apply Z.mul_le_mono_nonneg_r; lia]).
    assert (Hom : 0 <= o * 2 ^ s) by (clear -Ho Hp; apply Z.mul_nonneg_nonneg; lia).
    rewrite Z.shiftl_mul_pow2, Z.shiftl_1_l by lia. rewrite u64_small by (clear -Hjm Hom Hh Hp; lia). set (j := a + Z.of_nat i - o) in *.
    rewrite <- Z.lxor_lor, <- Z.add_nocarry_lxor; [reflexivity| |].
    all: apply Z.bits_inj'; intros n Hn; rewrite Z.land_spec, Z.bits_0, Z.pow2_bits_eqb by lia.
    all: destruct (Z.eqb_spec (s - 1) n) as [<-|]; [|apply andb_false_r]; rewrite Z.mul_pow2_bits_low by lia; reflexivity.
  - inversion H; subst r. rewrite u64_small; [reflexivity|]. specialize (Hox Hm). assert (0 <= o * 2 ^ s) by (clear -Ho Hp; apply Z.mul_nonneg_nonneg; lia). clear -Hox HX H0. lia.
Qed.
Lemma exp_flag lo hi l len b len' b' : Forall elem l -> expanded_length c s w lo hi l len b = Ok (len', b') ->
  b' = b || existsb (fun x => x * 2 ^ w mod 2 ^ s =? 0) l.
Proof.
  revert len b. induction l as [|x l IH]; intros len b Hl H; [simpl in H; inversion H; subst; simpl; rewrite orb_false_r; reflexivity|].
  inversion Hl as [|? ? Hx Hl']; subst. cbn [expanded_length] in H.
  assert (Ht : 0 <= lowbit_pos x < 64). { destruct (elem_lt x Hx). destruct (lowbit_form x ltac:(destruct Hx; lia)) as (t & k & Ht & _ & Et & _). unfold lowbit_pos. lia. }
  rewrite u32_small in H by lia. pose proof (exp_iff x Hx) as He. destruct (Z.leb_spec s (lowbit_pos x + w)) as [Hle|Hlt].
  - rewrite shl_eq in H by assumption. cbn [bind] in H. cbv zeta in H. apply IH in H; [|assumption]. subst b'. cbn [existsb].
    destruct (Z.eqb_spec (x * 2 ^ w mod 2 ^ s) 0); [|tauto]. rewrite orb_true_r. reflexivity.
  - apply IH in H; [|assumption]. subst b'. cbn [existsb]. destruct (Z.eqb_spec (x * 2 ^ w mod 2 ^ s) 0); [exfalso; apply He in e; lia|]. reflexivity.
Qed.
(** what InsertSplit stores for one half *)
Lemma half_eq hi l r : Z.shiftr hi s = h -> Forall elem l -> Forall (fun x => x * 2 ^ w mod 2 ^ s <> 0 -> o * 2 ^ s <= x * 2 ^ w) l ->
  split_half c s w (o * 2 ^ s) hi l = Ok r -> Z.of_nat (length r) < 2 ^ 20 /\
  (r = sort_infixes (flat_map image l) \/
   (r = map (fun x => x * 2 ^ w - o * 2 ^ s) l /\ Forall (fun x => x * 2 ^ w mod 2 ^ s <> 0) l /\ r = flat_map image l)).
Proof.
  intros Hhi Hl Hlo H. unfold split_half in H. apply bind_ok in H as ([len e] & E1 & H). apply bind_ok in H as (r' & E2 & H).
  destruct (Z.eqb_spec (Z.of_nat (length r')) len) as [El|]; [|discriminate]. destruct (Z.ltb_spec len (2 ^ 20)) as [Hlt|]; [|discriminate].
  cbn [andb] in H. inversion H; subst r'. split; [lia|]. apply exp_flag in E1; [|assumption]. cbn [orb] in E1. unfold update_infix_list in E2. destruct e.
  - left. apply bind_ok in E2 as (t & Et & E2). inversion E2. f_equal. apply (expand_eq hi); assumption.
  - right. assert (Hn : Forall (fun x => x * 2 ^ w mod 2 ^ s <> 0) l).
    { apply Forall_forall. intros x Hx Hz. symmetry in E1. assert (E : existsb (fun x => x * 2 ^ w mod 2 ^ s =? 0) l = true); [|congruence].
      apply existsb_exists. exists x. split; [exact Hx|]. apply Z.eqb_eq. exact Hz. }
    assert (Hlo2 : Forall (fun x => o * 2 ^ s <= x * 2 ^ w) l).
    { rewrite Forall_forall in *. intros x Hx. apply Hlo; auto. }
    pose proof (shift_eq l r Hl Hlo2 E2) as Er. split; [exact Er|]. split; [exact Hn|]. rewrite Er. clear -Hn.
    induction l as [|x l IH]; [reflexivity|]. inversion Hn as [|? ? H1 H2]; subst. cbn [map flat_map]. rewrite IH by assumption. unfold image at 2.
    destruct (Z.eqb_spec (x * 2 ^ w mod 2 ^ s) 0); [contradiction|]. reflexivity.
Qed.
End Half.

(** ** sorting *)
Definition small (x : Z) : Prop := 0 < x < 2 ^ 64.
Lemma lbase_range x : small x -> 0 <= lbase x < 2 ^ 64 /\ 0 < lowbit x.
Proof.
  intros Hx. destruct (lowbit_form x Hx) as (t & k & Ht & Hk & _ & E1 & E2 & E3 & E4). pose proof (Z.pow_pos_nonneg 2 t ltac:(lia) ltac:(lia)).
  assert (0 <= 2 ^ t * (2 * k)) by (apply Z.mul_nonneg_nonneg; lia). unfold small in Hx. rewrite E3. unfold lbase in E3. lia.
Qed.
Lemma infix_le_iff x y : small x -> small y -> (infix_le x y = true <-> lex x y).
Proof.
  intros Hx Hy. unfold infix_le, lex. fold (lbase x) (lbase y). destruct (lbase_range x Hx) as [B1 _]. destruct (lbase_range y Hy) as [B2 _].
  rewrite (u64_small (lbase x)), (u64_small (lbase y)) by lia. lia.
Qed.
Lemma lex_total x y : lex x y \/ lex y x.
Proof. unfold lex. lia. Qed.
Lemma lex_trans x y z : lex x y -> lex y z -> lex x z.
Proof. unfold lex. lia. Qed.
Lemma insert_sorted_perm x l : Permutation (x :: l) (insert_sorted x l).
Proof.
  induction l as [|y l IH]; [reflexivity|]. cbn [insert_sorted]. destruct (infix_le x y); [reflexivity|].
  rewrite <- IH. apply perm_swap.
Qed.
Lemma sort_perm l : Permutation l (sort_infixes l).
Proof. induction l as [|x l IH]; [reflexivity|]. unfold sort_infixes in *. cbn [fold_right]. rewrite <- insert_sorted_perm. constructor. exact IH. Qed.
Lemma insert_sorted_lex x l : small x -> Forall small l -> StronglySorted lex l -> StronglySorted lex (insert_sorted x l).
Proof.
  intros Hx Hl Hs. induction l as [|y l IH]; [repeat constructor|]. inversion Hl as [|? ? Hy Hl']; subst. inversion Hs as [|? ? Hs' Hf]; subst.
  cbn [insert_sorted]. destruct (infix_le x y) eqn:E.
  - apply infix_le_iff in E; auto. constructor; [exact Hs|]. constructor; [exact E|]. eapply Forall_impl; [|exact Hf]. intros z Hz. eapply lex_trans; eauto.
  - assert (Hyx : lex y x). { destruct (lex_total x y) as [H|H]; auto. apply infix_le_iff in H; auto. congruence. }
    constructor; [apply IH; auto|]. apply (Permutation_Forall (insert_sorted_perm x l)). constructor; auto.
Qed.
Lemma sort_lex l : Forall small l -> StronglySorted lex (sort_infixes l).
Proof.
  intros Hl. induction l as [|x l IH]; [constructor|]. inversion Hl as [|? ? Hx Hl']; subst. unfold sort_infixes in *. cbn [fold_right].
  apply insert_sorted_lex; auto. apply (Permutation_Forall (sort_perm l)). exact Hl'.
Qed.
Lemma lex_lbase l : StronglySorted lex l -> StronglySorted (fun x y => lbase x <= lbase y) l.
Proof. intros H. induction H as [|x l H IH Hf]; constructor; auto. eapply Forall_impl; [|exact Hf]. intros y Hy. unfold lex in Hy. lia. Qed.

Section Half2.
Variable c : cfg.
Variable s w o h : Z.
Hypothesis Hs : 1 <= s <= 46.
Hypothesis Hw : 0 <= w.
Hypothesis Hws : w + s + 10 <= 64.
Hypothesis Ho : 0 <= o <= h.
Hypothesis Hh : h * 2 ^ s + 2 ^ s <= 2 ^ 64.
Variable jb je : Z.
Hypothesis Hjb : jb / 2 ^ s = o.
Hypothesis Hje : je / 2 ^ s = h.
Hypothesis Hcells : h - o + 1 <= 1024.

Lemma half_lo x : elem s x -> meets jb je (x * 2 ^ w) -> x * 2 ^ w mod 2 ^ s <> 0 -> o * 2 ^ s <= x * 2 ^ w.
Proof.
  intros Hx [M1 M2] Hm. pose proof (ps_pos s Hs) as Hp. pose proof (Z.div_mod jb (2 ^ s) ltac:(lia)) as D. pose proof (Z.mod_pos_bound jb (2 ^ s) Hp) as R. rewrite Hjb in D.
  assert (Hu : o * 2 ^ s <= up (x * 2 ^ w)) by (clear -D R M2; lia).
  destruct (non_form s w o h Hs Hw Hws Ho x Hx Hm Hu) as (N1 & _). clear -N1. lia.
Qed.
Theorem half_ok hi l r : Z.shiftr hi s = h -> Forall (elem s) l -> Forall (fun x => meets jb je (x * 2 ^ w)) l -> StronglySorted lex l ->
  split_half c s w (o * 2 ^ s) hi l = Ok r ->
  Z.of_nat (length r) < 2 ^ 20 /\ infs s r /\ StronglySorted lex r /\ Forall (meets (jb - o * 2 ^ s) (je - o * 2 ^ s)) r /\
  (forall (g : key -> Z) K, (forall k, In k K -> o * 2 ^ s <= g k < h * 2 ^ s + 2 ^ s) -> matched (fun k x => lbase (x * 2 ^ w) <= g k <= up (x * 2 ^ w)) K l ->
     matched (fun k y => hit (g k - o * 2 ^ s) (g k - o * 2 ^ s) y) K r) /\
  (forall v l', l = v :: l' -> jb <= lbase (v * 2 ^ w) -> exists y t, r = y :: t /\ lbase (v * 2 ^ w) <= lbase y + o * 2 ^ s /\ up y + o * 2 ^ s <= up (v * 2 ^ w)).
Proof.
  intros Hhi Hl Hm Hsort H. rewrite Forall_forall in Hl, Hm.
  assert (Hlo : Forall (fun x => x * 2 ^ w mod 2 ^ s <> 0 -> o * 2 ^ s <= x * 2 ^ w) l).
  { apply Forall_forall. intros x Hx. apply half_lo; auto. }
  destruct (half_eq c s w o h Hs Hw Hws Ho Hh hi l r Hhi ltac:(apply Forall_forall; exact Hl) Hlo H) as [Hlen Hr]. split; [exact Hlen|].
  assert (Hperm : Permutation (flat_map (image s w o h) l) r).
  { destruct Hr as [->|(_ & _ & ->)]; [apply sort_perm|reflexivity]. }
  assert (Hin : forall y, In y r <-> exists x, In x l /\ In y (image s w o h x)).
  { intros y. rewrite <- in_flat_map. split; intros Hy; [apply (Permutation_in _ (Permutation_sym Hperm) Hy)|apply (Permutation_in _ Hperm Hy)]. }
  assert (Hok : forall y, In y r -> exists x, In x l /\ 0 < y < (h - o + 1) * 2 ^ s /\ y mod 2 ^ s <> 0 /\ lbase (x * 2 ^ w) - o * 2 ^ s <= lbase y /\ lowbit y <= lowbit (x * 2 ^ w) /\
    meets (jb - o * 2 ^ s) (je - o * 2 ^ s) y /\ 0 <= lbase y).
  { intros y Hy. apply Hin in Hy as (x & Hx & Hy). exists x. split; [exact Hx|]. apply (image_ok s w o h Hs Hw Hws Ho Hh jb je x y); auto. }
  pose proof (ps_pos s Hs) as Hp.
  assert (Hsm : forall y, In y r -> 0 < y < 1024 * 2 ^ s /\ small y).
  { intros y Hy. destruct (Hok y Hy) as (x & _ & B & _). assert ((h - o + 1) * 2 ^ s <= 1024 * 2 ^ s) by (apply Z.mul_le_mono_nonneg_r; lia).
    assert (1024 * 2 ^ s <= 2 ^ 64). { change 1024 with (2 ^ 10). rewrite <- Z.pow_add_r by lia. apply pow2_le_mono. lia. }
    unfold small. clear -B H0 H1. lia. }
  assert (Hlex : StronglySorted lex r).
  { destruct Hr as [E|(E & Hn & _)].
    - rewrite E. apply sort_lex. apply Forall_forall. intros y Hy. apply (Permutation_in _ Hperm) in Hy. apply Hsm. exact Hy.
    - rewrite E. rewrite Forall_forall in Hn. clear -Hsort Hl Hm Hn Hs Hw Hws Ho Hjb Hp.
      assert (F : forall x, In x l -> lbase (x * 2 ^ w - o * 2 ^ s) = lbase x * 2 ^ w - o * 2 ^ s /\ lowbit (x * 2 ^ w - o * 2 ^ s) = lowbit x * 2 ^ w).
      { intros x Hx. destruct (shifted s w Hs Hw Hws x (Hl x Hx)) as (S1 & S2 & S3 & S4).
        pose proof (Z.div_mod jb (2 ^ s) ltac:(lia)) as D. pose proof (Z.mod_pos_bound jb (2 ^ s) Hp) as R. rewrite Hjb in D. destruct (Hm x Hx) as [_ M2].
        assert (Hu : o * 2 ^ s <= up (x * 2 ^ w)) by (clear -D R M2; lia).
        destruct (non_form s w o h Hs Hw Hws Ho x (Hl x Hx) (Hn x Hx) Hu) as (_ & N2 & _). unfold lbase. rewrite N2, S1. lia. }
      clear Hl Hm Hn. induction Hsort as [|x l Hsl IH Hf]; cbn [map]; constructor.
      + apply IH. intros z Hz. apply F. right. exact Hz.
      + rewrite Forall_forall in *. intros y Hy. apply in_map_iff in Hy as (z & <- & Hz). specialize (Hf z Hz).
        destruct (F x ltac:(left; reflexivity)) as [F1 F2]. destruct (F z ltac:(right; exact Hz)) as [F3 F4]. unfold lex in *. rewrite F1, F2, F3, F4.
        pose proof (Z.pow_pos_nonneg 2 w ltac:(lia) ltac:(lia)) as Hpw. clear -Hf Hpw. destruct Hf as [Hf|[Hf1 Hf2]].
        * left. assert (lbase x * 2 ^ w < lbase z * 2 ^ w) by (apply Z.mul_lt_mono_pos_r; lia). lia.
        * right. rewrite Hf1. split; [reflexivity|]. apply Z.mul_le_mono_nonneg_r; lia. }
  split. { split; [apply lex_lbase; exact Hlex|]. apply Forall_forall. intros y Hy. destruct (Hsm y Hy) as [B _]. destruct (Hok y Hy) as (x & _ & _ & M & _). split; [lia|exact M]. }
  split; [exact Hlex|]. split. { apply Forall_forall. intros y Hy. destruct (Hok y Hy) as (x & _ & _ & _ & _ & _ & M & _). exact M. }
  split.
  - intros g K Hj Hc. apply (matched_right _ K _ r Hperm). apply (matched_flat _ _ _ K l) with (2 := Hc). intros k x Hk Hx Hkx. specialize (Hj k Hk).
    apply (image_cover s w o h Hs Hw Hws Ho Hh x (g k) (Hl x Hx) ltac:(lia) ltac:(lia) Hkx).
  - intros v l' -> Hv. set (V := v * 2 ^ w) in *. destruct (Hm v ltac:(left; reflexivity)) as [M1 M2]. fold V in M1, M2.
    pose proof (Z.div_mod jb (2 ^ s) ltac:(lia)) as Db. pose proof (Z.mod_pos_bound jb (2 ^ s) Hp) as Rb. rewrite Hjb in Db.
    pose proof (Z.div_mod je (2 ^ s) ltac:(lia)) as De. pose proof (Z.mod_pos_bound je (2 ^ s) Hp) as Re. rewrite Hje in De.
    assert (Ev : elem s v) by (apply Hl; left; reflexivity).
    destruct (shifted s w Hs Hw Hws v Ev) as (S1 & S2 & S3 & S4). pose proof (Z.pow_pos_nonneg 2 w ltac:(lia) ltac:(lia)) as Hpw.
    assert (Lv : 0 < lowbit V) by (unfold V; rewrite S1; apply Z.mul_pos_pos; lia).
    destruct (image_cover s w o h Hs Hw Hws Ho Hh v (lbase V) Ev ltac:(clear -Hv Db Rb; lia) ltac:(clear -M1 De Re; lia) ltac:(fold V; unfold lbase, up; clear -Lv; lia)) as (y1 & Hy1 & H1).
    assert (Iy1 : In y1 r) by (apply Hin; exists v; split; [left; reflexivity|exact Hy1]).
    destruct r as [|y t]; [destruct Iy1|]. exists y, t. split; [reflexivity|].
    destruct (Hok y ltac:(left; reflexivity)) as (x & Hx & _ & _ & B1 & B2 & _ & B3).
    assert (Hly : lbase y <= lbase y1). { inversion Hlex as [|? ? _ Hf]; subst. destruct Iy1 as [->|Iy1]; [lia|]. rewrite Forall_forall in Hf. specialize (Hf y1 Iy1). unfold lex in Hf. clear -Hf. lia. }
    destruct H1 as [H1 _].
    assert (Hxv : lex v x). { destruct Hx as [<-|Hx]; [right; lia|]. inversion Hsort as [|? ? _ Hf]; subst. rewrite Forall_forall in Hf. apply Hf. exact Hx. }
    destruct (shifted s w Hs Hw Hws x (Hl x Hx)) as (X1 & X2 & X3 & X4). rewrite X2 in B1. rewrite X1 in B2. unfold V in *. rewrite S2 in *.
    assert (Hb : lbase v * 2 ^ w <= lbase x * 2 ^ w). { apply Z.mul_le_mono_nonneg_r; [clear -Hpw; lia|]. unfold lex in Hxv. clear -Hxv. lia. }
    assert (Elb : lbase x * 2 ^ w = lbase v * 2 ^ w) by (clear -B1 H1 Hly Hb; lia).
    assert (Elb2 : lbase x = lbase v) by (apply (Z.mul_reg_r _ _ (2 ^ w)); [clear -Hpw; lia|exact Elb]).
    assert (Hlow : lowbit x * 2 ^ w <= lowbit v * 2 ^ w). { apply Z.mul_le_mono_nonneg_r; [clear -Hpw; lia|]. unfold lex in Hxv. clear -Hxv Elb2. lia. }
    split; [clear -B1 Hb; lia|]. unfold up. rewrite S1. unfold lbase in *. unfold V in *. clear -B1 B2 H1 Hly Hb Hlow Elb S2 S1 B3. lia.
Qed.
Theorem half_back hi l r y j : Z.shiftr hi s = h -> Forall (elem s) l -> Forall (fun x => meets jb je (x * 2 ^ w)) l ->
  split_half c s w (o * 2 ^ s) hi l = Ok r -> In y r -> hit j j y -> exists x, In x l /\ lbase (x * 2 ^ w) <= j + o * 2 ^ s <= up (x * 2 ^ w).
Proof.
  intros Hhi Hl Hm H Hy Hh2. rewrite Forall_forall in Hl, Hm.
  assert (Hlo : Forall (fun x => x * 2 ^ w mod 2 ^ s <> 0 -> o * 2 ^ s <= x * 2 ^ w) l).
  { apply Forall_forall. intros x Hx. apply half_lo; auto. }
  destruct (half_eq c s w o h Hs Hw Hws Ho Hh hi l r Hhi ltac:(apply Forall_forall; exact Hl) Hlo H) as [Hlen Hr].
  assert (Hperm : Permutation (flat_map (image s w o h) l) r).
  { destruct Hr as [->|(_ & _ & ->)]; [apply sort_perm|reflexivity]. }
  apply (Permutation_in _ (Permutation_sym Hperm)) in Hy. apply in_flat_map in Hy as (x & Hx & Hy). exists x. split; [exact Hx|].
  apply (image_back s w o h Hs Hw Hws Ho Hh jb x y j); auto. apply (Hm x Hx).
Qed.
End Half2.

(** ** the search for the separator *)
Definition covers1 (x p : Z) : Prop := lbase x <= p <= up x.
Lemma up_odd x : small x -> Z.odd (up x) = true.
Proof.
  intros Hx. destruct (lowbit_form x Hx) as (t & k & Ht & Hk & _ & _ & _ & _ & E). rewrite E.
  replace (2 ^ t * (2 * k + 2) - 1) with (2 * (2 ^ t * (k + 1) - 1) + 1) by ring. rewrite Z.add_comm, Z.odd_add, Z.odd_mul. reflexivity.
Qed.
Lemma lbase_even x : small x -> Z.even (lbase x) = true.
Proof.
  intros Hx. destruct (lowbit_form x Hx) as (t & k & Ht & Hk & _ & _ & _ & E & _). rewrite E.
  replace (2 ^ t * (2 * k)) with (2 * (2 ^ t * k)) by ring. rewrite Z.even_mul. reflexivity.
Qed.
(** two intervals are disjoint or one contains the other *)
Lemma dyadic x v : small x -> small v -> lex x v -> lbase v <= up x -> up v <= up x.
Proof.
  intros Hx Hv Hlex Hle. destruct (lowbit_form x Hx) as (t & k & Ht & Hk & _ & X1 & X2 & X3 & X4).
  destruct (lowbit_form v Hv) as (t' & k' & Ht' & Hk' & _ & V1 & V2 & V3 & V4). unfold lex in Hlex. rewrite X3, V3, X1, V1 in Hlex. rewrite V3, X4 in Hle. rewrite V4, X4.
  clear -Ht Ht' Hk Hk' Hlex Hle. destruct (Z.le_gt_cases t' t) as [H|H].
  - replace t with (t' + (t - t')) in * by lia. rewrite Z.pow_add_r in * by lia.
    pose proof (Z.pow_pos_nonneg 2 t' ltac:(lia) ltac:(lia)) as P1. pose proof (Z.pow_pos_nonneg 2 (t - t') ltac:(lia) ltac:(lia)) as P2.
    set (a := 2 ^ t') in *. set (b := 2 ^ (t - t')) in *. assert (2 * k' < b * (2 * k + 2)).
    { apply (Zmult_lt_reg_r _ _ a); [lia|]. replace (2 * k' * a) with (a * (2 * k')) by ring. replace (b * (2 * k + 2) * a) with (a * b * (2 * k + 2)) by ring. lia. }
    assert (2 * k' + 2 <= b * (2 * k + 2)). { replace (b * (2 * k + 2)) with (2 * (b * (k + 1))) in * by ring. lia. }
    assert (a * (2 * k' + 2) <= a * (b * (2 * k + 2))) by (apply Z.mul_le_mono_nonneg_l; lia). lia.
  - exfalso. replace t' with (t + (1 + (t' - t - 1))) in * by lia. rewrite !Z.pow_add_r in * by lia. change (2 ^ 1) with 2 in *.
    pose proof (Z.pow_pos_nonneg 2 t ltac:(lia) ltac:(lia)) as P1. pose proof (Z.pow_pos_nonneg 2 (t' - t - 1) ltac:(lia) ltac:(lia)) as P2.
    set (a := 2 ^ t) in *. set (b := 2 ^ (t' - t - 1)) in *.
    assert (H1 : 2 * b * (2 * k') < 2 * k + 2).
    { apply (Zmult_lt_reg_r _ _ a); [lia|]. replace (2 * b * (2 * k') * a) with (a * (2 * b) * (2 * k')) by ring. replace ((2 * k + 2) * a) with (a * (2 * k + 2)) by ring. lia. }
    assert (H2 : b * (2 * k') <= k) by lia. assert (H3 : a * (b * (2 * k')) <= a * k) by (apply Z.mul_le_mono_nonneg_l; lia).
    assert (Hab : a * 1 <= a * b) by (apply Z.mul_le_mono_nonneg_l; lia).
    destruct Hlex as [Hlex|[H4 H5]]; [|lia]. lia.
Qed.
Lemma ss_nth {A} (R : A -> A -> Prop) (l : list A) d : StronglySorted R l -> forall i j, (i < j < length l)%nat -> R (nth i l d) (nth j l d).
Proof.
  intros H. induction H as [|x l H IH Hf]; intros i j Hij; [simpl in Hij; lia|]. destruct j as [|j]; [lia|]. destruct i as [|i].
  - cbn [nth]. rewrite Forall_forall in Hf. apply Hf. apply nth_In. simpl in Hij. lia.
  - cbn [nth]. apply IH. simpl in Hij. lia.
Qed.

Section Scan.
Variable s : Z.
Hypothesis Hs : 1 <= s <= 46.
Variable L : list Z.
Hypothesis HL : StronglySorted lex L.
Hypothesis HE : Forall (fun x => elem s x /\ x mod 2 ^ s <> 0) L.
Variable sep : Z.
Hypothesis Hsep : 0 < sep < 2 ^ 63.
Hypothesis Hodd : Z.odd sep = true.

Let at_ (i : Z) : Z := nth (Z.to_nat i) L 0.
Let n := Z.of_nat (length L).
Lemma at_ok i : 0 <= i < n -> elem s (at_ i) /\ at_ i mod 2 ^ s <> 0 /\ 0 < at_ i < 2 ^ 63.
Proof.
  intros Hi. rewrite Forall_forall in HE. destruct (HE (at_ i)) as [H1 H2]. { unfold at_. apply nth_In. unfold n in Hi. lia. }
  split; [exact H1|]. split; [exact H2|]. destruct H1 as [H3 H4]. split; [exact H3|].
  assert (1024 * 2 ^ s <= 2 ^ 63). { change 1024 with (2 ^ 10). rewrite <- Z.pow_add_r by lia. apply pow2_le_mono. lia. } lia.
Qed.
Lemma at_lex i j : 0 <= i < j -> j < n -> lex (at_ i) (at_ j).
Proof. intros Hi Hj. unfold at_. apply ss_nth; [exact HL|]. unfold n in Hj. lia. Qed.
Lemma at_small i : 0 <= i < n -> small (at_ i).
Proof. intros Hi. destruct (at_ok i Hi) as (_ & _ & H). unfold small. lia. Qed.

Lemma sep_search_wp (Q : Z * Z -> Prop) :
  (forall l, -1 <= l < n -> (forall i, 0 <= i <= l -> lbase (at_ i) <= sep - 1) -> (forall i, l < i < n -> sep - 1 < lbase (at_ i)) -> Q (l, l + 1)) ->
  wp (sep_search L sep) Q.
Proof.
  intros HQ. unfold sep_search. fold n.
  apply (wp_loop (fun x : Z * Z => -1 <= fst x < snd x /\ snd x <= n /\ (forall i, 0 <= i <= fst x -> lbase (at_ i) <= sep - 1) /\ (forall i, snd x <= i < n -> sep - 1 < lbase (at_ i)))
    (fun x => snd x - fst x)).
  - intros [l r] (H1 & H2 & H3 & H4). cbn [fst snd] in *. destruct (Z.ltb_spec 1 (r - l)) as [Hlt|Hge].
    + cbv zeta. rewrite Z.quot_div_nonneg by lia. set (mid := (l + r) / 2).
      assert (Hmid : l < mid < r) by (unfold mid; pose proof (Z.div_mod (l + r) 2 ltac:(lia)); pose proof (Z.mod_pos_bound (l + r) 2 ltac:(lia)); lia).
      fold (at_ mid). fold (lbase (at_ mid)). pose proof (at_small mid ltac:(lia)) as Hsm. destruct (lbase_range _ Hsm) as [Hb _].
      rewrite (u64_small (lbase (at_ mid))), (u64_small (sep - 1)) by lia.
      destruct (Z.leb_spec (lbase (at_ mid)) (sep - 1)) as [Hle|Hgt]; cbn [wp fst snd].
      * split; [|lia]. split; [lia|]. split; [lia|]. split; [|exact H4]. intros i Hi. destruct (Z.eq_dec i mid) as [->|]; [exact Hle|].
        pose proof (at_lex i mid ltac:(lia) ltac:(lia)) as Hx. unfold lex in Hx. lia.
      * split; [|lia]. split; [lia|]. split; [lia|]. split; [exact H3|]. intros i Hi. destruct (Z.eq_dec i mid) as [->|]; [exact Hgt|].
        pose proof (at_lex mid i ltac:(lia) ltac:(lia)) as Hx. unfold lex in Hx. lia.
    + cbn [wp]. replace r with (l + 1) by lia. apply HQ; [lia|exact H3|]. intros i Hi. apply H4. lia.
  - cbn [fst snd]. unfold n. split; [lia|]. split; [lia|]. split; intros; lia.
  - cbn [fst snd]. unfold n. lia.
Qed.

Lemma cell_eq x p : elem s x -> x mod 2 ^ s <> 0 -> lbase x <= p <= up x -> x / 2 ^ s = p / 2 ^ s.
Proof.
  intros Hx Hm Hp. assert (Hm2 : x * 2 ^ 0 mod 2 ^ s <> 0) by (rewrite Z.mul_1_r; exact Hm).
  destruct (non_form s 0 0 0 Hs ltac:(lia) ltac:(lia) ltac:(lia) x Hx Hm2) as (N1 & N2 & N3 & N4 & N5 & N6 & N7 & N8).
  { destruct (elem_lt s 0 Hs ltac:(lia) ltac:(lia) x Hx) as [E _]. rewrite Z.mul_1_r in *. destruct (lbase_range x E). unfold up. lia. }
  replace (x * 2 ^ 0 - 0 * 2 ^ s) with x in * by (change (2 ^ 0) with 1; lia).
  pose proof (ps_pos s Hs) as Hps. pose proof (Z.div_le_mono (lbase x) p (2 ^ s) Hps ltac:(lia)). pose proof (Z.div_le_mono p (up x) (2 ^ s) Hps ltac:(lia)). lia.
Qed.

(** outcome of the search: [A] lies below the separator, [B] above, or [B] starts
    with the first element that covers the separator *)
Definition found (N : Z) (sp zp : Z) : Prop :=
  exists A B, L = A ++ B /\ sp = Z.of_nat (length A) /\
    ((zp = -1 /\ Forall (fun x => up x < sep - 1) A /\ Forall (fun x => sep < lbase x) B) \/
     (exists v B', B = v :: B' /\ zp = N - lowbit_pos v - 1 /\ covers1 v (sep - 1) /\ covers1 v sep /\ Forall (fun x => up x < lbase v) A)).

Lemma split_nth k : 0 <= k <= n -> exists A B, L = A ++ B /\ k = Z.of_nat (length A) /\ (forall x, In x A -> exists i, 0 <= i < k /\ x = at_ i) /\
  (forall x, In x B -> exists i, k <= i < n /\ x = at_ i) /\ (k < n -> exists B', B = at_ k :: B').
Proof.
  intros Hk. exists (firstn (Z.to_nat k) L), (skipn (Z.to_nat k) L). unfold n in *. split; [symmetry; apply firstn_skipn|]. split; [rewrite firstn_length; lia|].
  split; [|split].
  - intros x Hx. apply (In_nth _ _ 0) in Hx as (i & Hi & E). rewrite firstn_length in Hi. exists (Z.of_nat i). split; [lia|]. unfold at_. rewrite Nat2Z.id.
    rewrite <- E. rewrite <- (firstn_skipn (Z.to_nat k) L) at 2. rewrite app_nth1; [reflexivity|]. rewrite firstn_length. lia.
  - intros x Hx. apply (In_nth _ _ 0) in Hx as (i & Hi & E). rewrite skipn_length in Hi. exists (k + Z.of_nat i). split; [lia|]. unfold at_.
    rewrite <- E. rewrite <- (firstn_skipn (Z.to_nat k) L) at 2. rewrite app_nth2; rewrite firstn_length; [f_equal; lia|lia].
  - intros Hlt. destruct (skipn (Z.to_nat k) L) as [|y B] eqn:E.
    + exfalso. pose proof (f_equal (@length Z) E) as El. rewrite skipn_length in El. simpl in El. lia.
    + exists B. f_equal. unfold at_. rewrite <- (firstn_skipn (Z.to_nat k) L). rewrite app_nth2; rewrite firstn_length; [|lia].
      replace (Z.to_nat k - Nat.min (Z.to_nat k) (length L))%nat with O by lia. rewrite E. reflexivity.
Qed.
Definition scan_inv (N l i sp zp : Z) : Prop := -1 <= i <= l /\
  ((zp = -1 /\ sp = l + 1 /\ forall j, i < j <= l -> ~ covers1 (at_ j) sep) \/
   (i < sp <= l /\ covers1 (at_ sp) sep /\ zp = N - lowbit_pos (at_ sp) - 1 /\ forall j, i < j < sp -> ~ covers1 (at_ j) sep)).
Section Scan1.
Variable l : Z.
Hypothesis Hl : -1 <= l < n.
Hypothesis Hlo : forall i, 0 <= i <= l -> lbase (at_ i) <= sep - 1.
Hypothesis Hhi : forall i, l < i < n -> sep - 1 < lbase (at_ i).

Lemma above i : l < i < n -> sep < lbase (at_ i).
Proof.
  intros Hi. specialize (Hhi i Hi). pose proof (lbase_even _ (at_small i ltac:(lia))) as He.
  destruct (Z.eq_dec (lbase (at_ i)) sep) as [E|E]; [|lia]. rewrite E in He. rewrite <- Z.negb_odd, Hodd in He. discriminate.
Qed.
Lemma below_ i : 0 <= i <= l -> ~ covers1 (at_ i) sep -> up (at_ i) < sep - 1.
Proof.
  intros Hi Hn. specialize (Hlo i Hi). pose proof (up_odd _ (at_small i ltac:(lia))) as He. unfold covers1 in Hn.
  assert (Hu : up (at_ i) < sep) by (clear -Hn Hlo; lia). destruct (Z.eq_dec (up (at_ i)) (sep - 1)) as [E|E]; [|clear -Hu E; lia].
  rewrite E, Z.odd_sub, Hodd in He. discriminate.
Qed.
Lemma scan_done N i sp zp : scan_inv N l i sp zp -> (forall j, 0 <= j <= i -> ~ covers1 (at_ j) sep) -> found N sp zp.
Proof.
  intros (Hi & [(-> & -> & HI)|(HI1 & HI2 & -> & HI3)]) Hn.
  - destruct (split_nth (l + 1) ltac:(lia)) as (A & B & E & El & HA & HB & _). exists A, B. split; [exact E|]. split; [exact El|]. left.
    split; [reflexivity|]. split; apply Forall_forall; intros x Hx.
    + destruct (HA x Hx) as (j & Hj & ->). apply below_; [lia|]. destruct (Z.le_gt_cases j i); [apply Hn; lia|apply HI; lia].
    + destruct (HB x Hx) as (j & Hj & ->). apply above. lia.
  - destruct (split_nth sp ltac:(lia)) as (A & B & E & El & HA & HB & HC). destruct (HC ltac:(lia)) as (B' & EB). exists A, B. split; [exact E|]. split; [exact El|]. right.
    exists (at_ sp), B'. split; [exact EB|]. split; [reflexivity|]. split. { specialize (Hlo sp ltac:(lia)). unfold covers1 in *. clear -Hlo HI2. lia. }
    split; [exact HI2|]. apply Forall_forall. intros x Hx. destruct (HA x Hx) as (j & Hj & ->).
    assert (Hnj : ~ covers1 (at_ j) sep) by (destruct (Z.le_gt_cases j i); [apply Hn; lia|apply HI3; lia]).
    pose proof (below_ j ltac:(lia) Hnj) as Hb. destruct (Z.lt_ge_cases (up (at_ j)) (lbase (at_ sp))) as [|Hge]; [assumption|exfalso].
    pose proof (dyadic _ _ (at_small j ltac:(lia)) (at_small sp ltac:(lia)) (at_lex j sp ltac:(lia) ltac:(lia)) Hge) as Hd. unfold covers1 in HI2. clear -Hd HI2 Hb. lia.
Qed.
Lemma scan_stop i : 0 <= i <= l -> at_ i / 2 ^ s <> sep / 2 ^ s -> forall j, 0 <= j <= i -> ~ covers1 (at_ j) sep.
Proof.
  intros Hi Hc j Hj Hcv. apply Hc. destruct (at_ok j ltac:(lia)) as (F1 & F2 & _). destruct (at_ok i ltac:(lia)) as (E1 & E2 & _). pose proof (cell_eq _ _ F1 F2 Hcv) as Ec.
  assert (H1 : lbase (at_ i) <= sep). { specialize (Hlo i ltac:(lia)). clear -Hlo. lia. }
  assert (H2 : lbase (at_ j) <= lbase (at_ i)). { destruct (Z.eq_dec j i) as [->|]; [clear; lia|]. pose proof (at_lex j i ltac:(lia) ltac:(lia)) as Hx. unfold lex in Hx. clear -Hx. lia. }
  pose proof (lbase_range _ (at_small i ltac:(lia))) as [_ Hlow]. pose proof (lbase_range _ (at_small j ltac:(lia))) as [_ Hlow2].
  rewrite (cell_eq (at_ i) (lbase (at_ i)) E1 E2) by (clear -Hlow; unfold up, lbase in *; lia).
  pose proof (cell_eq _ (lbase (at_ j)) F1 F2 ltac:(clear -Hlow2; unfold up, lbase in *; lia)) as Ec2. pose proof (ps_pos s Hs) as Hps.
  pose proof (Z.div_le_mono (lbase (at_ j)) (lbase (at_ i)) (2 ^ s) Hps H2) as M1. pose proof (Z.div_le_mono (lbase (at_ i)) sep (2 ^ s) Hps H1) as M2. clear -M1 M2 Ec Ec2. lia.
Qed.
Lemma sep_scan_wp N (Q : Z * Z -> Prop) : (forall sp zp, found N sp zp -> Q (sp, zp)) -> wp (sep_scan s N L sep l (l + 1)) Q.
Proof.
  intros HQ. unfold sep_scan.
  apply (wp_loop (fun x : Z * Z * Z => let '(i, sp, zp) := x in scan_inv N l i sp zp) (fun x => fst (fst x) + 1)).
  - intros [[i sp] zp] HI. pose proof HI as [Hi HI']. cbn [fst]. fold (at_ i). destruct (Z.leb_spec 0 i) as [H0|H0]; cbn [andb].
    + destruct (at_ok i ltac:(lia)) as (E1 & E2 & E3). rewrite !Z.shiftr_div_pow2 by lia. destruct (Z.eqb_spec (at_ i / 2 ^ s) (sep / 2 ^ s)) as [Hc|Hc].
      * cbv zeta. rewrite Z.eqb_sym. rewrite match_interval by lia. fold (lbase (at_ i)). fold (up (at_ i)).
        destruct ((lbase (at_ i) <=? sep) && (sep <=? up (at_ i))) eqn:Eb; cbn [wp fst].
        -- split; [|lia]. split; [lia|]. right. split; [lia|]. split; [clear -Eb; unfold covers1; lia|]. split; [reflexivity|]. intros; lia.
        -- split; [|lia]. split; [lia|]. assert (Hn : ~ covers1 (at_ i) sep) by (clear -Eb; unfold covers1; lia). destruct HI' as [(-> & -> & HI')|(HI1 & HI2 & -> & HI3)]; [left|right].
           ++ split; [reflexivity|]. split; [reflexivity|]. intros j Hj. destruct (Z.eq_dec j i) as [->|]; [exact Hn|]. apply HI'. lia.
           ++ split; [lia|]. split; [exact HI2|]. split; [reflexivity|]. intros j Hj. destruct (Z.eq_dec j i) as [->|]; [exact Hn|]. apply HI3. lia.
      * cbn [wp]. apply HQ. apply (scan_done N i sp zp HI). apply scan_stop; [lia|exact Hc].
    + cbn [wp]. apply HQ. apply (scan_done N i sp zp HI). intros j Hj. lia.
  - split; [lia|]. left. split; [reflexivity|]. split; [reflexivity|]. intros; lia.
  - cbn [fst]. unfold n in *. lia.
Qed.
End Scan1.
Lemma scan_run N a b sp zp : sep_search L sep = Ok (a, b) -> sep_scan s N L sep a b = Ok (sp, zp) -> found N sp zp.
Proof.
  intros E1 E2. assert (H : wp (sep_search L sep) (fun x => forall sp zp, sep_scan s N L sep (fst x) (snd x) = Ok (sp, zp) -> found N sp zp)).
  { apply sep_search_wp. intros l H1 H2 H3 sp' zp' E. cbn [fst snd] in E.
    apply (wp_inv _ _ _ (sep_scan_wp l H1 H2 H3 N (fun x => found N (fst x) (snd x)) ltac:(intros; assumption)) E). }
  apply (wp_inv _ _ _ H E1 sp zp). exact E2.
Qed.
End Scan.
