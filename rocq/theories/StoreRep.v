(** A block as a sorted list of integers. *)
From Coq Require Import ZArith List Bool Lia Sorted.
From Coq Require Import ZifyBool ZifyNat.
From Verif Require Import Base Util Store Bits View Cells Lowbit StoreFind StoreInsert StoreQuery Layout StoreList Spec.
Import ListNotations.
Open Scope Z_scope.

(** ** from cells to a sorted list *)
Lemma content_els_ok s S m cl : wf s S m cl -> els_ok s (content cl 0 S).
Proof.
  intros H. split.
  - unfold content. assert (Hgen : forall n a, StronglySorted ord (cont cl a n)); [|apply Hgen].
    induction n as [|n IH]; intros a; simpl; [constructor|].
    destruct (cl a) as [[p x]|] eqn:E; simpl; [|apply IH]. constructor; [apply IH|].
    apply Forall_forall. intros [q y] Hin. apply cont_in in Hin as (i & Hi & Ei).
    apply (w_mono _ _ _ _ H a i); auto. lia.
  - apply Forall_forall. intros [p x] Hin. apply content_in in Hin as (i & Hi & E). simpl.
    pose proof (w_dom _ _ _ _ H _ _ _ E). lia.
Qed.
Lemma content_len cl S : 0 <= S -> Z.of_nat (length (content cl 0 S)) <= S.
Proof. intros. unfold content. pose proof (cont_length cl (Z.to_nat (S - 0)) 0). lia. Qed.

(** memory always suffices in relaxed mode *)
Definition fits (c : cfg) (s : Z) : Prop := forall g, 0 <= g < 256 ->
  8 * ((1088 + c_size c g + c_size c g * s) / 8) + 64 <= 64 * ptr_word_count (c_size c g) s + (if c_strict c then 0 else 64).
Lemma fits_relaxed c s : c_strict c = false -> 1 <= s -> (forall g, 0 <= g < 256 -> 0 < c_size c g) -> fits c s.
Proof.
  intros Hc Hs Hg g Hr. rewrite Hc. unfold ptr_word_count, target_size. specialize (Hg g Hr).
  set (S := c_size c g) in *.
  pose proof (div_mod_64 (1024 + S * (s + 1) + 63)).
  pose proof (Z.div_mod (1088 + S + S * s) 8 ltac:(lia)). pose proof (Z.mod_pos_bound (1088 + S + S * s) 8 ltac:(lia)). lia.
Qed.

(** ** sorted integer lists *)
Definition infs (s : Z) (L : list Z) : Prop :=
  StronglySorted (fun x y => lbase x <= lbase y) L /\
  Forall (fun x => 0 <= x < 1024 * 2 ^ s /\ x mod 2 ^ s <> 0) L.

Lemma jn_facts s e : 1 <= s <= 53 -> 0 <= fst e < 1024 -> 0 < snd e < 2 ^ s ->
  0 <= jn s e < 1024 * 2 ^ s /\ jn s e mod 2 ^ s = snd e /\ jn s e / 2 ^ s = fst e /\ lowbit (jn s e) = lowbit (snd e) /\
  lbase (jn s e) = fst e * 2 ^ s + lbase (snd e) /\ 0 <= lbase (snd e) < 2 ^ s /\ 1024 * 2 ^ s <= 2 ^ 63.
Proof.
  intros Hs Hp Hx. unfold jn. destruct e as [p x]; simpl in *. pose proof (Z.pow_pos_nonneg 2 s ltac:(lia) ltac:(lia)).
  assert (Hb : 1024 * 2 ^ s <= 2 ^ 63) by (change (2 ^ 63) with (1024 * 2 ^ 53); pose proof (pow2_le_mono s 53 ltac:(lia)); lia).
  assert (Hr : 0 <= p * 2 ^ s + x < 1024 * 2 ^ s) by nia.
  assert (Hlb : lowbit (p * 2 ^ s + x) = lowbit x) by (apply lowbit_add; lia).
  destruct (lowbit_facts x ltac:(lia)) as (F1 & F2 & F3).
  split; [lia|]. split; [rewrite Z.add_comm, Z.mod_add, Z.mod_small; lia|].
  split; [rewrite Z.add_comm, Z.div_add, Z.div_small; lia|]. split; [exact Hlb|].
  unfold lbase. rewrite Hlb. split; [lia|]. split; [|lia]. lia.
Qed.
Lemma split_jn s x : 0 <= s -> jn s (x / 2 ^ s, x mod 2 ^ s) = x.
Proof. intros. unfold jn. simpl. pose proof (Z.pow_pos_nonneg 2 s ltac:(lia) ltac:(lia)). pose proof (Z.div_mod x (2 ^ s) ltac:(lia)). lia. Qed.

Lemma els_infs s els : 1 <= s <= 53 -> els_ok s els -> infs s (map (jn s) els).
Proof.
  intros Hs [H1 H2]. induction H1 as [|e l Hl IH He]; [split; constructor|].
  inversion_clear H2 as [|? ? Hr Ht]. destruct (IH Ht) as [I1 I2]. simpl.
  destruct (jn_facts s e Hs ltac:(lia) ltac:(lia)) as (A1 & A2 & A3 & A4 & A5 & A6 & A7).
  split; constructor; auto.
  - apply Forall_map. apply Forall_forall. intros f Hf. rewrite Forall_forall in He, Ht. specialize (He f Hf). specialize (Ht f Hf).
    destruct (jn_facts s f Hs ltac:(lia) ltac:(lia)) as (B1 & B2 & B3 & B4 & B5 & B6 & B7). rewrite A5, B5.
    destruct He as [Hlt|[He Hle]]; [nia|]. rewrite He. lia.
  - split; [lia|]. rewrite A2. lia.
Qed.
Lemma infs_els s L : 1 <= s <= 53 -> infs s L -> exists els, els_ok s els /\ L = map (jn s) els.
Proof.
  intros Hs [H1 H2]. exists (map (fun x => (x / 2 ^ s, x mod 2 ^ s)) L).
  pose proof (Z.pow_pos_nonneg 2 s ltac:(lia) ltac:(lia)) as Hp.
  assert (Hf : forall x, 0 <= x < 1024 * 2 ^ s /\ x mod 2 ^ s <> 0 -> 0 <= x / 2 ^ s < 1024 /\ 0 < x mod 2 ^ s < 2 ^ s).
  { intros x [Hx Hn]. pose proof (Z.mod_pos_bound x (2 ^ s) Hp). split; [|lia]. split; [apply Z.div_pos; lia|apply Z.div_lt_upper_bound; lia]. }
  split.
  - split.
    + induction H1 as [|x l Hl IH Hx]; simpl; constructor.
      * apply IH. inversion H2; auto.
      * inversion_clear H2 as [|? ? Hr Ht]. apply Forall_map. apply Forall_forall. intros y Hy.
        rewrite Forall_forall in Hx, Ht. specialize (Hx y Hy). specialize (Ht y Hy). simpl in Hx.
        pose proof (Hf x Hr). pose proof (Hf y Ht).
        destruct (jn_facts s (x / 2 ^ s, x mod 2 ^ s) Hs) as (_ & _ & _ & _ & A5 & A6 & _); simpl; [lia|lia|].
        destruct (jn_facts s (y / 2 ^ s, y mod 2 ^ s) Hs) as (_ & _ & _ & _ & B5 & B6 & _); simpl; [lia|lia|].
        rewrite split_jn in A5, B5 by lia. simpl in A5, A6, B5, B6. unfold ord. simpl.
        destruct (Z.lt_trichotomy (x / 2 ^ s) (y / 2 ^ s)) as [|[E|E]]; [left; lia|right; split; [exact E|rewrite E in *; lia]|exfalso; nia].
    + apply Forall_map. eapply Forall_impl; [|exact H2]. intros x Hx. simpl. apply Hf; auto.
  - rewrite map_map. symmetry. rewrite <- (map_id L) at 2. apply map_ext. intros x. apply split_jn. lia.
Qed.

Section Rep.
Variable c : cfg.
Hypothesis T : tables_ok c.

Lemma size_mono g h : 0 <= g <= h -> h < 256 -> c_size c g <= c_size c h.
Proof.
  intros Hg Hh. replace h with (g + Z.of_nat (Z.to_nat (h - g))) in * by lia.
  induction (Z.to_nat (h - g)) as [|n IH]; [replace (g + Z.of_nat 0) with g by lia; lia|].
  pose proof (t_incr _ T (g + Z.of_nat n) ltac:(lia)). specialize (IH ltac:(lia) ltac:(lia)).
  replace (g + Z.of_nat (Datatypes.S n)) with (g + Z.of_nat n + 1) by lia. lia.
Qed.
Lemma size_pos g : 0 <= g < 256 -> 0 < c_size c g.
Proof. intros. pose proof (size_mono 0 g ltac:(lia) ltac:(lia)). pose proof (t_pos _ T). lia. Qed.

Lemma impl_ok ti scalar : implicit_scalar c ti = Ok scalar -> exists i, 0 <= i <= 512 /\ scalar = c_impl c i /\ ti = 512 + i.
Proof.
  unfold implicit_scalar. change (target_size / 2) with 512.
  destruct (Z.leb_spec 0 (ti - 512)), (Z.leb_spec (ti - 512) 512); simpl; intros E; inversion E.
  exists (ti - 512). lia.
Qed.
Lemma mapped_exact ti scalar g p : implicit_scalar c ti = Ok scalar -> 0 <= g < 256 -> 0 <= p < 1024 ->
  mapped_pos c p g scalar = Z.min (c_size c g - 1) (p * c_scal c g * scalar / 2 ^ 30) /\
  0 <= p * c_scal c g * scalar < 2 ^ 62.
Proof.
  intros Hi Hg Hp. destruct (impl_ok _ _ Hi) as (i & Hir & -> & _). unfold mapped_pos, scale_shift, scale_implicit_shift.
  pose proof (t_scal _ T g Hg). pose proof (t_impl _ T i Hir). pose proof (t_prod _ T g i Hg Hir).
  assert (0 <= c_scal c g * c_impl c i) by (apply Z.mul_nonneg_nonneg; auto).
  assert (0 <= p * c_scal c g * c_impl c i <= 1023 * c_scal c g * c_impl c i).
  { rewrite <- !Z.mul_assoc. split; [apply Z.mul_nonneg_nonneg; lia|]. apply Z.mul_le_mono_nonneg_r; lia. }
  split; [|lia]. rewrite u64_small by lia. rewrite Z.shiftr_div_pow2 by lia. change (15 + 15) with 30.
  rewrite u32_small; auto. split; [apply Z.div_pos; lia|]. apply Z.div_lt_upper_bound; lia.
Qed.
Lemma mapped_range ti scalar g p : implicit_scalar c ti = Ok scalar -> 0 <= g < 256 -> 0 <= p < 1024 ->
  0 <= mapped_pos c p g scalar < c_size c g.
Proof.
  intros Hi Hg Hp. destruct (mapped_exact ti scalar g p Hi Hg Hp) as [-> Hr]. pose proof (size_pos g Hg).
  pose proof (Z.div_pos (p * c_scal c g * scalar) (2 ^ 30) ltac:(lia) ltac:(lia)). lia.
Qed.
Lemma mapped_mono ti scalar g p q : implicit_scalar c ti = Ok scalar -> 0 <= g < 256 -> 0 <= p <= q -> q < 1024 ->
  mapped_pos c p g scalar <= mapped_pos c q g scalar.
Proof.
  intros Hi Hg Hp Hq. destruct (mapped_exact ti scalar g p Hi Hg ltac:(lia)) as [-> _].
  destruct (mapped_exact ti scalar g q Hi Hg ltac:(lia)) as [-> _].
  destruct (impl_ok _ _ Hi) as (i & Hir & -> & _). pose proof (t_scal _ T g Hg). pose proof (t_impl _ T i Hir).
  assert (0 <= c_scal c g * c_impl c i) by (apply Z.mul_nonneg_nonneg; auto).
  assert (p * c_scal c g * c_impl c i <= q * c_scal c g * c_impl c i).
  { rewrite <- !Z.mul_assoc. apply Z.mul_le_mono_nonneg_r; lia. }
  pose proof (Z.div_le_mono (p * c_scal c g * c_impl c i) (q * c_scal c g * c_impl c i) (2 ^ 30) ltac:(lia) ltac:(lia)). lia.
Qed.

(** [rep s ti w st L]: the block holds exactly the integers [L] (in stored order) *)
Definition rep (s ti : Z) (w : bool) (st : store) (L : list Z) : Prop :=
  exists u o r v a0 a1 cl scalar els,
    implicit_scalar c ti = Ok scalar /\ 0 <= u < 2 ^ 32 /\
    good c s (c_size c (st_grade u)) (fun p => mapped_pos c p (st_grade u) scalar) u w o r v a0 a1 cl st /\
    content cl 0 (c_size c (st_grade u)) = els /\ L = map (jn s) els /\ st_count u = Z.of_nat (length els).

Definition flags (st : store) : Z := Z.shiftr (status st) 28.

Lemma grade_range u : 0 <= st_grade u < 256.
Proof. rewrite st_grade_mod. change 256 with (2 ^ 8). apply Z.mod_pos_bound. lia. Qed.

(** ** fresh blocks *)
Lemma blank_intro s g u w st : fits c s -> 1 <= s <= 53 -> status st = u -> st_grade u = g -> owned st = w ->
  wc st = ptr_word_count (c_size c g) s -> (forall j, 0 <= j < 64 * wc st -> tb st j = false) ->
  blank c s (c_size c g) u w st.
Proof.
  intros Hf Hs Hu Hg Hw Hwc Hz. pose proof (grade_range u) as Hgr. rewrite Hg in Hgr. pose proof (size_pos g Hgr) as HS.
  set (S := c_size c g) in *.
  assert (Hend : 1088 + S + S * s <= 64 * wc st).
  { rewrite Hwc. unfold ptr_word_count, target_size. pose proof (div_mod_64 (1024 + S * (s + 1) + 63)). lia. }
  assert (Hlow : forall a n, 0 <= a -> 0 <= n -> a + n <= 64 * wc st -> low n (Z.shiftr (mem st) a) = 0).
  { intros a n Ha Hn Hl. apply Z.bits_inj'. intros i Hi. rewrite Z.bits_0. rewrite rd_testbit by lia.
    destruct (Z.ltb_spec i n); [|reflexivity]. simpl. apply Hz. lia. }
  constructor; auto; try lia.
  - unfold slots, get_size_grade. rewrite Hu. fold (st_grade u). rewrite Hg. reflexivity.
  - unfold addr, limit. rewrite Hwc. apply (Hf g Hgr).
  - intros p Hp. apply Hz. lia.
  - intros i Hi. apply Hz. lia.
  - intros i Hi. unfold addr. apply Hlow; nia.
  - rewrite <- (Z.shiftr_0_r (mem st)). apply Hlow; lia.
  - apply Hlow; lia.
Qed.

Lemma new_store_blank s g : fits c s -> 1 <= s <= 53 -> 0 <= g < 256 ->
  blank c s (c_size c g) (ugrade 0 g) true (new_store c (c_size c g) s g).
Proof.
  intros Hf Hs Hg. destruct (ugrade_spec 0 g ltac:(lia) ltac:(lia)) as (_ & _ & Eg & _).
  apply blank_intro; auto.
  intros j Hj. unfold tb, new_store, set_size_grade, with_status. simpl. rewrite Z.shiftl_spec by lia.
  apply Z.testbit_neg_r. unfold new_store, set_size_grade, with_status in Hj. simpl in Hj. lia.
Qed.

Lemma reset_wp s g u w st (Q : store -> Prop) : fits c s -> 1 <= s <= 53 -> status st = u -> st_grade u = g -> owned st = w ->
  wc st = ptr_word_count (c_size c g) s ->
  (forall st', blank c s (c_size c g) u w st' -> Q st') -> wp (reset_block c s st) Q.
Proof.
  intros Hf Hs Hu Hg Hw Hwc HQ. unfold reset_block.
  assert (Hsl : slots c st = c_size c g). { unfold slots, get_size_grade. rewrite Hu. fold (st_grade u). rewrite Hg. reflexivity. }
  rewrite Hsl. rewrite <- Hwc.
  assert (0 <= wc st).
  { rewrite Hwc. unfold ptr_word_count, target_size. pose proof (grade_range u) as Hgr. rewrite Hg in Hgr. pose proof (size_pos g Hgr).
    pose proof (Z.div_pos (1024 + c_size c g * (s + 1) + 63) 64 ltac:(nia) ltac:(lia)). lia. }
  apply wr_wp; [lia|lia| |].
  - unfold limit. destruct (c_strict c); lia.
  - intros st' (E1 & E2 & E3) Htb. apply HQ. apply blank_intro; [exact Hf|exact Hs|congruence|exact Hg|congruence|congruence|].
    intros j Hj. rewrite E2 in Hj. rewrite Htb by lia. rewrite Z.bits_0.
    destruct (Z.leb_spec 0 j), (Z.ltb_spec j (0 + 64 * wc st)); simpl; auto; exfalso; lia.
Qed.

Lemma load_list_reset s st l ti Q : 
  wp (let* st0 := reset_block c s st in load_list c s st0 l ti false) Q ->
  wp (load_list c s st l ti true) Q.
Proof.
  intros H. unfold load_list in *.
  assert (Hs : forall st0, reset_block c s st = Ok st0 -> get_size_grade st0 = get_size_grade st).
  { intros st0 E. unfold reset_block, wr in E. destruct (_ && _); inversion E. reflexivity. }
  destruct (reset_block c s st) as [st0| |] eqn:E; simpl in H.
  - rewrite (Hs st0 eq_refl) in H. destruct (implicit_scalar c ti); simpl in *; auto.
  - destruct (implicit_scalar c ti); simpl in *; auto.
  - destruct (implicit_scalar c ti); simpl in *; auto.
Qed.

(** ** loading *)
Lemma load_rep s g u w st els ti scalar (Q : store -> Prop) : fits c s -> 1 <= s <= 53 ->
  blank c s (c_size c g) u w st -> 0 <= u < 2 ^ 32 -> st_grade u = g -> implicit_scalar c ti = Ok scalar ->
  els_ok s els -> Z.of_nat (length els) <= c_size c g -> Z.of_nat (length els) < 2 ^ 20 ->
  (forall st', rep s ti w st' (map (jn s) els) -> flags st' = Z.shiftr u 28 -> st_grade (status st') = g -> Q st') ->
  wp (load_list c s st (map (jn s) els) ti false) Q.
Proof.
  intros Hf Hs HB Hu Hg Hi He Hl1 Hl2 HQ. pose proof (grade_range u) as Hgr. rewrite Hg in Hgr.
  destruct (ucount_spec u (Z.of_nat (length els)) Hu ltac:(lia)) as (U1 & U2 & U3 & U4).
  apply (load_blank_wp c s (c_size c g) (fun p => mapped_pos c p g scalar) u w st els ti scalar g); auto.
  - intros p Hp. apply (mapped_range ti); auto.
  - intros p q Hp Hq. apply (mapped_mono ti); auto.
  - intros o r v a0 a1 cl st' HG HC. apply HQ.
    + exists (ucount u (Z.of_nat (length els))), o, r, v, a0, a1, cl, scalar, els.
      rewrite U3, Hg. split; [exact Hi|]. split; [exact U1|]. split; [exact HG|]. split; [exact HC|]. split; [reflexivity|exact U2].
    + unfold flags. rewrite (V_status _ _ _ _ _ _ _ _ _ _ _ (g_V _ _ _ _ _ _ _ _ _ _ _ _ _ HG)). exact U4.
    + rewrite (V_status _ _ _ _ _ _ _ _ _ _ _ (g_V _ _ _ _ _ _ _ _ _ _ _ _ _ HG)). congruence.
Qed.

Lemma load_infs s g u w st L ti scalar (Q : store -> Prop) : fits c s -> 1 <= s <= 53 ->
  blank c s (c_size c g) u w st -> 0 <= u < 2 ^ 32 -> st_grade u = g -> implicit_scalar c ti = Ok scalar ->
  infs s L -> Z.of_nat (length L) <= c_size c g -> Z.of_nat (length L) < 2 ^ 20 ->
  (forall st', rep s ti w st' L -> flags st' = Z.shiftr u 28 -> st_grade (status st') = g -> Q st') ->
  wp (load_list c s st L ti false) Q.
Proof.
  intros Hf Hs HB Hu Hg Hi HL Hl1 Hl2 HQ. destruct (infs_els s L Hs HL) as (els & He & ->). rewrite map_length in *.
  apply (load_rep s g u w st els ti scalar); auto.
Qed.

(** ** views of a represented list *)
Lemma rep_infs s ti w st L : rep s ti w st L -> infs s L.
Proof.
  intros (u & o & r & v & a0 & a1 & cl & scalar & els & Hi & Hu & HG & <- & -> & Hc).
  apply els_infs; [exact (g_s _ _ _ _ _ _ _ _ _ _ _ _ _ HG)|].
  apply (content_els_ok s _ _ cl (g_wf _ _ _ _ _ _ _ _ _ _ _ _ _ HG)).
Qed.
Lemma rep_s s ti w st L : rep s ti w st L -> 1 <= s <= 53 /\ 512 <= ti <= 1024.
Proof.
  intros (u & o & r & v & a0 & a1 & cl & scalar & els & Hi & Hu & HG & <- & -> & Hc).
  split; [exact (g_s _ _ _ _ _ _ _ _ _ _ _ _ _ HG)|]. destruct (impl_ok _ _ Hi) as (i & Hr & _ & ->). lia.
Qed.
Lemma rep_list s ti w st L : rep s ti w st L -> get_infix_list c s st = Ok L.
Proof.
  intros (u & o & r & v & a0 & a1 & cl & scalar & els & Hi & Hu & HG & <- & -> & Hc).
  assert (H : wp (get_infix_list c s st) (fun l => l = map (jn s) (content cl 0 (c_size c (st_grade u))))) by (apply (get_infix_list_wp HG); reflexivity).
  apply wp_exists in H as (l & -> & ->). reflexivity.
Qed.
Lemma rep_count s ti w st L : rep s ti w st L -> get_elem_count st = Z.of_nat (length L) /\ 0 <= status st < 2 ^ 32 /\
  0 <= get_size_grade st < 256 /\ Z.of_nat (length L) <= slots c st /\ owned st = w /\
  wc st = ptr_word_count (slots c st) s /\ Z.of_nat (length L) < 2 ^ 20.
Proof.
  intros (u & o & r & v & a0 & a1 & cl & scalar & els & Hi & Hu & HG & <- & -> & Hc). rewrite map_length.
  pose proof (g_V _ _ _ _ _ _ _ _ _ _ _ _ _ HG) as HV. pose proof (V_status _ _ _ _ _ _ _ _ _ _ _ HV) as Es.
  pose proof (V_slots _ _ _ _ _ _ _ _ _ _ _ HV) as Esl. pose proof (grade_range u).
  unfold get_elem_count, get_size_grade. rewrite Es, Esl. fold (st_count u) (st_grade u). split; [exact Hc|]. split; [exact Hu|].
  split; [lia|]. split; [apply content_len; pose proof (size_pos (st_grade u) ltac:(lia)); lia|].
  split; [exact (V_owned _ _ _ _ _ _ _ _ _ _ _ HV)|]. split; [exact (V_wc _ _ _ _ _ _ _ _ _ _ _ HV)|].
  rewrite <- Hc, st_count_mod. apply Z.mod_pos_bound. lia.
Qed.

(** ** queries *)
Definition hit (l h x : Z) : Prop := lbase x <= h /\ l <= x + lowbit x - 1.
Lemma hits_rep s cl S m l h : 1 <= s <= 53 -> wf s S m cl ->
  (@hits s cl l h <-> exists x, In x (map (jn s) (content cl 0 S)) /\ hit l h x).
Proof.
  intros Hs HW. unfold hits, hit. split.
  - intros (i & p & x & E & H1 & H2). exists (jn s (p, x)). destruct (w_dom _ _ _ _ HW _ _ _ E) as (D1 & D2 & D3).
    destruct (jn_facts s (p, x) Hs ltac:(simpl; lia) ltac:(simpl; lia)) as (A1 & A2 & A3 & A4 & A5 & A6 & A7).
    split; [apply in_map; apply content_in; eauto|]. rewrite A5, A4. unfold lbase, jn. simpl. lia.
  - intros (y & Hin & H1 & H2). apply in_map_iff in Hin as ([p x] & <- & Hin). apply content_in in Hin as (i & Hi & E).
    exists i, p, x. split; [exact E|]. destruct (w_dom _ _ _ _ HW _ _ _ E) as (D1 & D2 & D3).
    destruct (jn_facts s (p, x) Hs ltac:(simpl; lia) ltac:(simpl; lia)) as (A1 & A2 & A3 & A4 & A5 & A6 & A7).
    rewrite A5 in H1. rewrite A4 in H2. unfold lbase, jn in *. simpl in *. lia.
Qed.
Lemma rep_point s ti w st L key (Q : bool -> Prop) : rep s ti w st L -> 0 <= key < 1024 * 2 ^ s ->
  (forall b : bool, (b = true <-> exists x, In x L /\ hit key key x) -> Q b) ->
  wp (point_query_store c s st key ti) Q.
Proof.
  intros (u & o & r & v & a0 & a1 & cl & scalar & els & Hi & Hu & HG & <- & -> & Hc) Hk HQ.
  eapply (point_query_store_wp HG); eauto. intros b Hb. apply HQ. rewrite Hb.
  apply (hits_rep s cl _ _ key key (g_s _ _ _ _ _ _ _ _ _ _ _ _ _ HG) (g_wf _ _ _ _ _ _ _ _ _ _ _ _ _ HG)).
Qed.
Lemma rep_range s ti w st L lk rk (Q : bool -> Prop) : rep s ti w st L -> 0 <= lk <= rk -> rk < 1024 * 2 ^ s ->
  (forall b : bool, (b = true <-> exists x, In x L /\ hit lk rk x) -> Q b) ->
  wp (range_query_store c s st lk rk) Q.
Proof.
  intros (u & o & r & v & a0 & a1 & cl & scalar & els & Hi & Hu & HG & <- & -> & Hc) Hk Hk' HQ.
  eapply (range_query_store_wp HG); eauto. intros b Hb. apply HQ. rewrite Hb.
  apply (hits_rep s cl _ _ lk rk (g_s _ _ _ _ _ _ _ _ _ _ _ _ _ HG) (g_wf _ _ _ _ _ _ _ _ _ _ _ _ _ HG)).
Qed.

(** ** allocation and resizing *)
Lemma alloc_grade_eq n g : 0 <= g < 250 -> (forall h, 0 <= h < g -> c_size c h < n) -> n <= c_size c g -> alloc_grade c n = Ok g.
Proof.
  intros Hg Hlt Hle. unfold alloc_grade, size_scalar_count.
  assert (Hw : wp (loop (Z.to_nat (500 + 1)) (fun g0 => if (g0 <? 500) && (c_size c g0 <? n) then Ok (inl (g0 + 1)) else Ok (inr g0)) 0) (fun r => r = g)).
  { apply (wp_loop (fun k => 0 <= k <= g) (fun k => 500 - k)).
    - intros k Hk. destruct (Z.ltb_spec k 500); [|exfalso; lia]. destruct (Z.ltb_spec (c_size c k) n); simpl.
      + split; [|lia]. destruct (Z.eq_dec k g); [subst; exfalso; lia|lia].
      + destruct (Z.eq_dec k g); [exact e|]. specialize (Hlt k ltac:(lia)). exfalso; lia.
    - lia.
    - lia. }
  apply wp_exists in Hw as (r & -> & ->). reflexivity.
Qed.

Lemma least_grade n : 0 <= n <= c_size c 249 ->
  exists g, 0 <= g < 250 /\ n <= c_size c g /\ (forall h, 0 <= h < g -> c_size c h < n).
Proof.
  intros Hn. assert (H : forall k : nat, (k <= 249)%nat -> (exists g, 0 <= g <= Z.of_nat k /\ n <= c_size c g /\ (forall h, 0 <= h < g -> c_size c h < n)) \/
    (forall h, 0 <= h <= Z.of_nat k -> c_size c h < n)).
  { induction k as [|k IH]; intros Hk.
    - destruct (Z.le_gt_cases n (c_size c 0)); [left; exists 0; split; [lia|]; split; [lia|intros; exfalso; lia]|right].
      intros h Hh. replace h with 0 by lia. lia.
    - destruct (IH ltac:(lia)) as [(g & G1 & G2 & G3)|Hall]; [left; exists g; split; [lia|]; auto|].
      destruct (Z.le_gt_cases n (c_size c (Z.of_nat (Datatypes.S k)))).
      + left. exists (Z.of_nat (Datatypes.S k)). split; [lia|]. split; [lia|]. intros h Hh. apply Hall. lia.
      + right. intros h Hh. destruct (Z.eq_dec h (Z.of_nat (Datatypes.S k))); [subst; lia|apply Hall; lia]. }
  destruct (H 249%nat ltac:(lia)) as [(g & G1 & G2 & G3)|Hall].
  - exists g. split; [lia|]. auto.
  - specialize (Hall 249 ltac:(lia)). exfalso; lia.
Qed.

Lemma alloc_rep s L ti scalar (Q : store -> Prop) : fits c s -> 1 <= s <= 53 -> implicit_scalar c ti = Ok scalar ->
  infs s L -> Z.of_nat (length L) < 2 ^ 20 ->
  (forall st', rep s ti true st' L -> flags st' = 0 -> Q st') ->
  wp (alloc_with_list c s L ti) Q.
Proof.
  intros Hf Hs Hi HL Hn HQ. unfold alloc_with_list. set (n := Z.of_nat (length L)) in *.
  assert (Hn0 : 0 <= n) by (unfold n; lia). pose proof (t_sep _ T) as Hsep. pose proof (t_last _ T) as Hlast.
  unfold scale_shift in *. rewrite Z.shiftr_div_pow2 in * by lia. set (k := c_scal c grow_sep) in *.
  rewrite u64_small by nia.
  assert (Hk1 : n <= k * n / 2 ^ 15) by (apply Z.div_le_lower_bound; nia).
  assert (Hk2 : k * n / 2 ^ 15 <= k * 2 ^ 20 / 2 ^ 15) by (apply Z.div_le_mono; nia).
  assert (Hk3 : k * 2 ^ 20 / 2 ^ 15 < 2 ^ 32) by (apply Z.div_lt_upper_bound; nia).
  rewrite u32_small by lia.
  destruct (least_grade (k * n / 2 ^ 15) ltac:(lia)) as (g & Hg & Hle & Hlt).
  rewrite (alloc_grade_eq _ g Hg Hlt Hle). cbn [bind].
  destruct (Z.ltb_spec g size_scalar_count); [|unfold size_scalar_count in *; exfalso; lia].
  destruct (ugrade_spec 0 g ltac:(lia) ltac:(lia)) as (U1 & U2 & U3 & U4).
  apply (load_infs s g (ugrade 0 g) true _ L ti scalar); [exact Hf|exact Hs| |exact U1|exact U3|exact Hi|exact HL|fold n; lia|fold n; lia|].
  - apply new_store_blank; [exact Hf|exact Hs|lia].
  - intros st' HR Hfl _. apply HQ; [exact HR|]. rewrite Hfl, U4. reflexivity.
Qed.

Lemma resize_rep s ti st L (expand : bool) (Q : store -> Prop) : fits c s -> rep s ti true st L ->
  let g := get_size_grade st + (if expand then 1 else -1) in
  0 <= g < 256 -> Z.of_nat (length L) <= c_size c g ->
  (forall st', rep s ti true st' L -> flags st' = flags st -> get_size_grade st' = g -> Q st') ->
  wp (resize c s st expand ti) Q.
Proof.
  intros Hf HR g Hg Hl HQ. destruct (rep_s _ _ _ _ _ HR) as [Hs _].
  destruct (rep_count _ _ _ _ _ HR) as (C1 & C2 & C3 & C4 & C5 & C6 & C7). pose proof (rep_infs _ _ _ _ _ HR) as HL.
  assert (Hi : exists scalar, implicit_scalar c ti = Ok scalar) by (destruct HR as (? & ? & ? & ? & ? & ? & ? & sc & ? & ? & _); eauto).
  destruct Hi as (scalar & Hi).
  unfold resize. rewrite (rep_list _ _ _ _ _ HR). cbn [bind]. rewrite C1. rewrite Z.eqb_refl.
  unfold free_block. rewrite C5. cbn [bind]. fold g. cbv zeta.
  set (st2 := mkstore _ _ _ _). set (u := status st) in *.
  destruct (ugrade_spec u g ltac:(lia) ltac:(lia)) as (U1 & U2 & U3 & U4).
  assert (Es : status st2 = ugrade u g) by reflexivity.
  apply load_list_reset. apply wp_bind.
  apply (reset_wp s g (ugrade u g) true st2); [exact Hf|exact Hs|exact Es|exact U3|reflexivity|reflexivity|].
  intros st3 HB. apply (load_infs s g (ugrade u g) true st3 L ti scalar); [exact Hf|exact Hs|exact HB|exact U1|exact U3|exact Hi|exact HL|lia|lia|].
  intros st' HR' Hfl Hgr. apply HQ; [exact HR'|unfold flags; fold u; rewrite <- U4; exact Hfl|]. exact Hgr.
Qed.

(** ** insertion *)
(** [x] is put behind every element whose interval starts at or before its own *)
Definition ins (x : Z) (L L' : list Z) : Prop := exists A B, L = A ++ B /\ L' = A ++ x :: B /\ Forall (fun y => lbase x < lbase y) B.

Lemma room cl S : 0 <= S -> Z.of_nat (length (content cl 0 S)) < S -> exists i, 0 <= i < S /\ cl i = None.
Proof.
  intros HS. unfold content. replace (Z.to_nat (S - 0)) with (Z.to_nat S) by (f_equal; lia).
  assert (H : forall n a, Z.of_nat (length (cont cl a n)) < Z.of_nat n -> exists i, a <= i < a + Z.of_nat n /\ cl i = None).
  { induction n as [|n IH]; intros a H; [simpl in H; lia|]. simpl in H. destruct (cl a) eqn:E.
    - cbn [app length] in H. destruct (IH (a + 1) ltac:(lia)) as (i & Hi & Ei). exists i. split; [lia|exact Ei].
    - exists a. split; [lia|exact E]. }
  intros Hl. destruct (H (Z.to_nat S) 0 ltac:(lia)) as (i & Hi & E). exists i. split; [lia|exact E].
Qed.

Lemma insert_tail_rep s ti st L key (Q : store -> Prop) : rep s ti true st L -> 0 <= key < 1024 * 2 ^ s -> Z.odd key = true ->
  Z.of_nat (length L) < slots c st -> Z.of_nat (length L) + 1 < 2 ^ 20 ->
  (forall st' L', rep s ti true st' L' -> ins key L L' -> flags st' = flags st -> Q st') ->
  wp (insert_tail c s st (get_size_grade st) key ti) Q.
Proof.
  intros HR Hk Hodd Hroom Hn HQ. pose proof HR as (u & o & r & v & a0 & a1 & cl & scalar & els & Hi & Hu & HG & Hcont & HLe & Hc).
  destruct (rep_s _ _ _ _ _ HR) as [Hs _].
  pose proof (g_V _ _ _ _ _ _ _ _ _ _ _ _ _ HG) as HV. pose proof (V_status _ _ _ _ _ _ _ _ _ _ _ HV) as Es.
  pose proof (V_slots _ _ _ _ _ _ _ _ _ _ _ HV) as Esl. rewrite Esl in Hroom.
  assert (Eg : get_size_grade st = st_grade u) by (unfold get_size_grade; rewrite Es; reflexivity). rewrite Eg.
  pose proof (grade_range u) as Hgr. set (g := st_grade u) in *. pose proof (size_pos g Hgr) as HS.
  pose proof (Z.pow_pos_nonneg 2 s ltac:(lia) ltac:(lia)) as Hps.
  destruct (split_key key s ltac:(lia) ltac:(lia)) as (Ek & Hep & Hip0).
  set (p := Z.shiftr key s) in *. set (x := Z.land key (bitmask s)) in *.
  assert (Hp : 0 <= p < 1024) by nia.
  assert (Hxo : Z.odd x = true).
  { rewrite <- Hodd, Ek. rewrite Z.odd_add, Z.odd_mul. replace (Z.odd (2 ^ s)) with false; [rewrite andb_false_r, xorb_false_l; reflexivity|].
    replace s with (1 + (s - 1)) by lia. rewrite Z.pow_add_r by lia. rewrite Z.odd_mul. reflexivity. }
  assert (Hx : 0 < x < 2 ^ s). { split; [|lia]. destruct (Z.eq_dec x 0) as [E|]; [rewrite E in Hxo; discriminate|lia]. }
  rewrite HLe, map_length in Hroom, Hn.
  destruct (status_incr u Hu ltac:(lia)) as (I1 & I2 & I3 & I4 & I5).
  apply (insert_tail_wp HG p x Hp Hx Hxo key ti scalar g).
  - reflexivity.
  - apply room; [lia|]. rewrite Hcont. lia.
  - reflexivity.
  - reflexivity.
  - exact Hi.
  - reflexivity.
  - exact Hu.
  - lia.
  - intros st' r' v' a1' cl' HG' (_ & _ & k & Hkr & Hct & Haft).
    apply (HQ st' (map (jn s) (content cl' 0 (c_size c g)))).
    + eexists (u + 1), _, _, _, _, _, cl', scalar, _. rewrite I3. fold g.
      split; [exact Hi|]. split; [lia|]. split; [exact HG'|]. split; [reflexivity|]. split; [reflexivity|].
      rewrite I2, Hc, Hct, app_length, <- Hcont. cbn [length].
      rewrite (content_split cl 0 k (c_size c g)) by lia. rewrite app_length. lia.
    + exists (map (jn s) (content cl 0 k)), (map (jn s) (content cl k (c_size c g))). rewrite HLe, <- Hcont, Hct.
      rewrite (content_split cl 0 k (c_size c g)) by lia. rewrite !map_app. cbn [map]. split; [reflexivity|].
      assert (Ej : jn s (p, x) = key) by (unfold jn; simpl; lia). rewrite Ej. split; [reflexivity|].
      apply Forall_forall. intros y Hy. apply in_map_iff in Hy as (e & <- & He). apply content_in in He as (i & Hi' & Ei).
      pose proof (w_dom _ _ _ _ (g_wf _ _ _ _ _ _ _ _ _ _ _ _ _ HG) i (fst e) (snd e) ltac:(rewrite Ei; destruct e; reflexivity)) as (_ & De1 & De2).
      destruct (jn_facts s e Hs De1 De2) as (_ & _ & _ & _ & J1 & J2 & _).
      destruct (jn_facts s (p, x) Hs Hp Hx) as (_ & _ & _ & _ & J3 & J4 & _). rewrite Ej in J3. cbn [fst snd] in *.
      rewrite J1, J3. destruct (Haft i e ltac:(lia) Ei) as [H|[H H']]; [nia|rewrite <- H; lia].
    + unfold flags. rewrite (V_status _ _ _ _ _ _ _ _ _ _ _ (g_V _ _ _ _ _ _ _ _ _ _ _ _ _ HG')), Es. exact I5.
Qed.

Theorem insert_raw_rep s ti st L key (Q : store -> Prop) : fits c s -> rep s ti true st L -> 0 <= key < 1024 * 2 ^ s -> Z.odd key = true ->
  Z.of_nat (length L) + 1 < 2 ^ 20 ->
  (forall st' L', rep s ti true st' L' -> ins key L L' -> flags st' = flags st -> Q st') ->
  wp (insert_raw c s st key ti) Q.
Proof.
  intros Hf HR Hk Hodd Hn HQ. rewrite insert_raw_tail.
  destruct (rep_count _ _ _ _ _ HR) as (C1 & C2 & C3 & C4 & C5 & C6 & C7). cbv zeta. rewrite C1.
  set (g := get_size_grade st) in *. unfold slots in C4. fold g in C4.
  pose proof (t_exc _ T). pose proof (t_big _ T) as Hbig.
  destruct (Z.leb_spec (if g =? 0 then c_exc c else c_size c (g - 1)) (Z.of_nat (length L))) as [Hthr|Hthr].
  - assert (Hg1 : g + 1 < 255).
    { destruct (Z.eqb_spec g 0); [lia|]. destruct (Z.lt_ge_cases g 254); [lia|]. pose proof (size_mono 253 (g - 1) ltac:(lia) ltac:(lia)). exfalso; lia. }
    pose proof (t_incr _ T g ltac:(lia)) as Hinc.
    apply wp_bind. apply (resize_rep s ti st L true); [exact Hf|exact HR|fold g; lia|fold g; lia|].
    intros st' HR' Hfl Hg'. fold g in Hg'. rewrite <- Hg'.
    apply (insert_tail_rep s ti st' L); [exact HR'|exact Hk|exact Hodd|unfold slots; rewrite Hg'; lia|lia|].
    intros st2 L' HR2 Hins Hfl2. apply (HQ st2 L'); [exact HR2|exact Hins|congruence].
  - cbn [bind]. apply (insert_tail_rep s ti st L); [exact HR|exact Hk|exact Hodd| |lia|exact HQ].
    unfold slots. fold g. destruct (Z.eqb_spec g 0) as [E|E]; [rewrite E in *; lia|].
    pose proof (t_incr _ T (g - 1) ltac:(lia)) as Hinc. replace (g - 1 + 1) with g in Hinc by lia. lia.
Qed.

Lemma insert_raw_run s ti st L key : fits c s -> rep s ti true st L -> 0 <= key < 1024 * 2 ^ s -> Z.odd key = true ->
  Z.of_nat (length L) + 1 < 2 ^ 20 ->
  exists st' L', insert_raw c s st key ti = Ok st' /\ rep s ti true st' L' /\ ins key L L' /\ flags st' = flags st.
Proof.
  intros Hf HR Hk Ho Hn. assert (H : wp (insert_raw c s st key ti) (fun st' => exists L', rep s ti true st' L' /\ ins key L L' /\ flags st' = flags st)).
  { apply (insert_raw_rep s ti st L key); auto. eauto. }
  apply wp_exists in H as (st' & E & L' & H1 & H2 & H3). eauto 8.
Qed.
End Rep.
