(** Serialization: what is read back is what was written. *)
From Coq Require Import ZArith List Bool Lia Sorting.Sorted Sorting.Permutation.
From Coq Require Import ZifyBool ZifyNat.
From Verif Require Import Base Util Store Tables Key Diva Serial Bits Shift View Cells StoreFind StoreInsert StoreQuery Layout StoreList Spec StoreRep KeyBits KeyOrder Tree Filter RangeInt Contents Bulk SpecFilter Hist.
Import ListNotations.
Open Scope Z_scope.

Lemma ok_inj {A} (x y : A) : Ok x = Ok y -> y = x.
Proof. congruence. Qed.

(** ** bytes *)
Lemma le_length n : forall x, length (le_bytes n x) = n.
Proof. induction n as [|n IH]; intros x; simpl; [reflexivity|]. rewrite IH. reflexivity. Qed.
Lemma land255 x : Z.land x 255 = low 8 x.
Proof. reflexivity. Qed.
Lemma of_le_bytes n : forall x, of_le (le_bytes n x) = low (8 * Z.of_nat n) x.
Proof.
  induction n as [|n IH]; intros x; cbn [le_bytes of_le fold_right].
  - change (8 * Z.of_nat 0) with 0. unfold low. rewrite Z.land_0_r. reflexivity.
  - fold (of_le (le_bytes n (Z.shiftr x 8))). rewrite IH, land255. apply Z.bits_inj'. intros i Hi.
    rewrite Z.lor_spec, Z.shiftl_spec by lia. unfold low. rewrite !Z.land_spec.
    destruct (Z.ltb_spec i 8).
    + rewrite (Z.testbit_neg_r _ (i - 8)) by lia. rewrite orb_false_r. rewrite !Z.testbit_ones_nonneg by lia.
      replace (i <? 8) with true by lia. replace (i <? 8 * Z.of_nat (S n)) with true by lia. reflexivity.
    + rewrite ?Z.land_spec, Z.shiftr_spec by lia. replace (i - 8 + 8) with i by lia. rewrite !Z.testbit_ones_nonneg by lia.
      replace (i <? 8) with false by lia. rewrite andb_false_r. cbn [orb]. f_equal. lia.
Qed.
Lemma of_le_app a b : of_le (a ++ b) = Z.lor (of_le a) (Z.shiftl (of_le b) (8 * Z.of_nat (length a))).
Proof.
  induction a as [|x a IH].
  - cbn [app length of_le fold_right]. rewrite Z.shiftl_0_r, Z.lor_0_l. reflexivity.
  - cbn [app of_le fold_right]. fold (of_le (a ++ b)) (of_le a). rewrite IH. rewrite Z.shiftl_lor, Z.shiftl_shiftl by lia. rewrite Z.lor_assoc. f_equal. f_equal.
    cbn [length]. lia.
Qed.
Lemma low_low n m x : 0 <= n <= m -> low n (low m x) = low n x.
Proof.
  intros H. apply Z.bits_inj'. intros i Hi. unfold low. rewrite !Z.land_spec, !Z.testbit_ones_nonneg by lia.
  destruct (i <? n) eqn:E; [|rewrite !andb_false_r; reflexivity]. replace (i <? m) with true by lia. rewrite !andb_true_r. reflexivity.
Qed.
Lemma low_of_le_app n x rest : low (8 * Z.of_nat n) (of_le (le_bytes n x ++ rest)) = low (8 * Z.of_nat n) x.
Proof.
  rewrite of_le_app, le_length, of_le_bytes. apply Z.bits_inj'. intros i Hi. unfold low. rewrite !Z.land_spec, Z.lor_spec, Z.land_spec, !Z.testbit_ones_nonneg by lia.
  rewrite Z.shiftl_spec by lia. destruct (i <? 8 * Z.of_nat n) eqn:E; [|rewrite !andb_false_r; reflexivity].
  rewrite (Z.testbit_neg_r _ (i - _)) by lia. rewrite !andb_true_r, orb_false_r. reflexivity.
Qed.

(** ** reading at a known place *)
Lemma get_at P l Q n : Z.of_nat (length l) = n -> get_bytes (P ++ l ++ Q) (Z.of_nat (length P)) n = Ok l.
Proof.
  intros <-. unfold get_bytes. rewrite !app_length.
  replace ((0 <=? Z.of_nat (length P)) && (0 <=? Z.of_nat (length l)) && (Z.of_nat (length P) + Z.of_nat (length l) <=? Z.of_nat (length P + (length l + length Q)))) with true by lia.
  rewrite !Nat2Z.id. rewrite skipn_app, skipn_all, Nat.sub_diag. cbn [app skipn]. rewrite firstn_app, firstn_all, Nat.sub_diag. cbn [firstn]. rewrite app_nil_r. reflexivity.
Qed.
Lemma get_at' buf P l Q ind n : buf = P ++ l ++ Q -> ind = Z.of_nat (length P) -> Z.of_nat (length l) = n -> get_bytes buf ind n = Ok l.
Proof. intros -> -> <-. apply get_at. reflexivity. Qed.
Lemma get32_at buf P x Q ind : buf = P ++ word32 x ++ Q -> ind = Z.of_nat (length P) -> 0 <= x < 2 ^ 32 -> get32 buf ind = Ok x.
Proof.
  intros E1 E2 Hx. unfold get32. rewrite (get_at' buf P (word32 x) Q ind 4 E1 E2 eq_refl). cbn [bind]. f_equal.
  unfold word32. rewrite of_le_bytes. apply (u32_small x Hx).
Qed.
Lemma expect_at buf P x Q ind : buf = P ++ word32 x ++ Q -> ind = Z.of_nat (length P) -> 0 <= x < 2 ^ 32 -> expect buf ind x = Ok tt.
Proof. intros E1 E2 Hx. unfold expect. rewrite (get32_at _ _ _ _ _ E1 E2 Hx). cbn [bind]. rewrite Z.eqb_refl. reflexivity. Qed.

(** ** metadata *)
Lemma meta_length p s : length (meta p s) = 49%nat.
Proof. reflexivity. Qed.
Lemma get_meta_ok p s R : p_lf p = bits95 -> 0 <= s < 2 ^ 32 -> 0 <= p_seed p < 2 ^ 32 -> get_meta (p_int p) (meta p s ++ R) = Ok (s, p_seed p).
Proof.
  intros Hlf Hs Hseed. unfold get_meta. set (buf := meta p s ++ R).
  assert (H0 : get_bytes buf 0 1 = Ok [Z.b2z (p_int p)]).
  { eapply get_at' with (P := []); [reflexivity|reflexivity|reflexivity]. }
  rewrite H0. cbn [bind of_le fold_right]. rewrite Z.lor_0_r.
  replace (negb (eqb (negb (Z.b2z (p_int p) =? 0)) (p_int p))) with false by (destruct (p_int p); reflexivity).
  assert (X : forall A x B i, meta p s = A ++ word32 x ++ B -> i = Z.of_nat (length A) -> 0 <= x < 2 ^ 32 -> get32 buf i = Ok x).
  { intros A x B i E Hi Hx. apply (get32_at buf A x (B ++ R) i); auto. unfold buf. rewrite E, <- !app_assoc. reflexivity. }
  assert (Y : forall A x B i, meta p s = A ++ word32 x ++ B -> i = Z.of_nat (length A) -> 0 <= x < 2 ^ 32 -> expect buf i x = Ok tt).
  { intros A x B i E Hi Hx. unfold expect. rewrite (X A x B i E Hi Hx). cbn [bind]. rewrite Z.eqb_refl. reflexivity. }
  unfold meta in X, Y. rewrite Hlf in X, Y.
  pose (m0 := [Z.b2z (p_int p)]).
  pose (m1 := m0 ++ word32 target_size). pose (m2 := m1 ++ word32 base_implicit_size). pose (m3 := m2 ++ word32 scale_shift). pose (m4 := m3 ++ word32 scale_implicit_shift).
  pose (m5 := m4 ++ word32 size_scalar_count). pose (m6 := m5 ++ word32 grow_sep). pose (m7 := m6 ++ word32 bits95). pose (m8 := m7 ++ word32 bits95).
  pose (m9 := m8 ++ word32 s). pose (m10 := m9 ++ word32 (p_seed p)). pose (m11 := m10 ++ word32 8).
  rewrite (Y m0 target_size _ 1 eq_refl eq_refl ltac:(unfold target_size; lia)).
  rewrite (Y m1 base_implicit_size _ 5 eq_refl eq_refl ltac:(unfold base_implicit_size; lia)).
  rewrite (Y m2 scale_shift _ 9 eq_refl eq_refl ltac:(unfold scale_shift; lia)).
  rewrite (Y m3 scale_implicit_shift _ 13 eq_refl eq_refl ltac:(unfold scale_implicit_shift; lia)).
  rewrite (Y m4 size_scalar_count _ 17 eq_refl eq_refl ltac:(unfold size_scalar_count; lia)).
  rewrite (Y m5 grow_sep _ 21 eq_refl eq_refl ltac:(unfold grow_sep; lia)).
  rewrite (Y m6 bits95 _ 25 eq_refl eq_refl ltac:(unfold bits95; lia)).
  rewrite (Y m7 bits95 _ 29 eq_refl eq_refl ltac:(unfold bits95; lia)).
  rewrite (X m8 s _ 33 eq_refl eq_refl Hs).
  rewrite (X m9 (p_seed p) _ 37 eq_refl eq_refl Hseed).
  rewrite (Y m10 8 _ 41 eq_refl eq_refl ltac:(lia)).
  rewrite (Y m11 20 [] 45 eq_refl eq_refl ltac:(lia)).
  reflexivity.
Qed.

(** ** blocks *)
Section C.
Variables (c : cfg) (s : Z).

(** [like st st']: [st'] is [st] read back from a buffer *)
Definition like (st st' : store) : Prop :=
  status st' = low 32 (status st) /\ wc st' = ptr_word_count (slots c st) s /\ owned st' = false /\
  forall i, 0 <= i < 64 * wc st' -> Z.testbit (mem st') i = Z.testbit (mem st) i.

Lemma rounded_bounds n : 0 <= n -> n <= rounded n < n + 8.
Proof. intros H. unfold rounded. pose proof (Z.div_mod (n + 7) 8 ltac:(lia)). pose proof (Z.mod_pos_bound (n + 7) 8 ltac:(lia)). lia. Qed.
Lemma grade_low u : Z.land (Z.shiftr (low 32 u) 20) (bitmask 8) = Z.land (Z.shiftr u 20) (bitmask 8).
Proof.
  apply Z.bits_inj'. intros i Hi. unfold low, bitmask. rewrite !Z.land_spec, !Z.shiftr_spec, Z.land_spec, !Z.testbit_ones_nonneg by lia.
  destruct (i <? 8) eqn:E; [|rewrite !andb_false_r; reflexivity]. replace (i + 20 <? 32) with true by lia. rewrite !andb_true_r. reflexivity.
Qed.
Lemma words_pos st : 0 <= slots c st -> 0 <= s -> 0 <= ptr_word_count (slots c st) s.
Proof. intros H1 H2. unfold ptr_word_count, target_size. pose proof (Z.div_pos (1024 + slots c st * (s + 1) + 63) 64 ltac:(nia) ltac:(lia)). lia. Qed.

Lemma deser_store_ok st b P Q buf ind : 0 <= s -> 0 <= slots c st -> ser_store c s st = Ok b -> buf = P ++ b ++ Q -> ind = Z.of_nat (length P) ->
  exists st', deser_store c s buf ind = Ok (st', ind + Z.of_nat (length b)) /\ like st st'.
Proof.
  intros Hs Hsl Hb Hbuf Hind. unfold ser_store in Hb. set (n := ptr_word_count (slots c st) s) in *. assert (Hn : 0 <= n) by (apply words_pos; assumption).
  destruct (n <=? wc st) eqn:En; [|discriminate]. apply ok_inj in Hb. subst b.
  assert (Hu : get32 buf ind = Ok (low 32 (status st))).
  { unfold get32. rewrite (get_at' buf P (word32 (status st)) (le_bytes (Z.to_nat (8 * n)) (mem st) ++ Q) ind 4); [|rewrite Hbuf, <- !app_assoc; reflexivity|exact Hind|reflexivity].
    cbn [bind]. unfold word32. rewrite of_le_bytes. reflexivity. }
  unfold deser_store. rewrite Hu. cbn [bind]. rewrite grade_low. fold (get_size_grade st) (slots c st) n.
  assert (Hbuf2 : buf = (P ++ word32 (status st)) ++ le_bytes (Z.to_nat (8 * n)) (mem st) ++ Q) by (rewrite Hbuf, <- !app_assoc; reflexivity).
  assert (Hl4 : ind + 4 = Z.of_nat (length (P ++ word32 (status st)))) by (rewrite app_length; unfold word32; rewrite le_length; lia).
  rewrite (get_at' buf _ _ _ (ind + 4) (8 * n) Hbuf2 Hl4) by (rewrite le_length; lia). cbn [bind].
  eexists. split.
  - f_equal. f_equal. rewrite app_length. unfold word32. rewrite !le_length. lia.
  - unfold like. cbn [status wc owned mem]. split; [reflexivity|]. split; [reflexivity|]. split; [reflexivity|].
    intros i Hi. rewrite Hl4, Nat2Z.id, Hbuf2. rewrite skipn_app, skipn_all, Nat.sub_diag. cbn [app skipn].
    rewrite <- app_assoc. rewrite firstn_app, le_length. rewrite (firstn_all2 (le_bytes _ _)) by (rewrite le_length; lia).
    set (rest := firstn _ (Q ++ _)).
    pose proof (low_of_le_app (Z.to_nat (8 * n)) (mem st) rest) as HL.
    assert (HT : Z.testbit (low (8 * Z.of_nat (Z.to_nat (8 * n))) (of_le (le_bytes (Z.to_nat (8 * n)) (mem st) ++ rest))) i = Z.testbit (low (8 * Z.of_nat (Z.to_nat (8 * n))) (mem st)) i) by (rewrite HL; reflexivity).
    unfold low in HT. rewrite !Z.land_spec, !Z.testbit_ones_nonneg in HT by lia. replace (i <? 8 * Z.of_nat (Z.to_nat (8 * n))) with true in HT by lia.
    rewrite !andb_true_r in HT. exact HT.
Qed.

(** ** the tree *)
Definition same (e e' : key * store) : Prop := fst e' = fst e /\ like (snd e) (snd e').

Lemma put_end A k v : below A k -> put A k v = A ++ [(k, v)].
Proof. intros H. rewrite <- (app_nil_r A) at 1. apply put_new; [exact H|]. intros x B E. discriminate. Qed.
Lemma below_same A A' k : Forall2 same A A' -> below A k -> below A' k.
Proof.
  intros HF HB. induction HF as [|e e' A A' He HF IH]; intros x Hx; [destruct Hx|]. destruct Hx as [<-|Hx].
  - destruct He as [-> _]. apply HB. left. reflexivity.
  - apply IH; [|exact Hx]. intros y Hy. apply HB. right. exact Hy.
Qed.

Lemma deser_loop_ok Q : 0 <= s -> forall t b done done' P fuel, ser_tree c s t = Ok b -> sorted (done ++ t) -> Forall2 same done done' ->
  Forall (fun e => klen (fst e) <= max_key /\ 0 <= slots c (snd e)) t -> (length t < fuel)%nat ->
  exists t', loop fuel
    (fun x : Z * tree =>
       let '(ind, t) := x in
       let* len := get32 (P ++ b ++ word32 terminator ++ Q) ind in
       if len =? terminator then Ok (inr t)
       else if max_key <? len then UB
       else
         let* k := get_bytes (P ++ b ++ word32 terminator ++ Q) (ind + 4) len in
         let* '(st, ind') := deser_store c s (P ++ b ++ word32 terminator ++ Q) (ind + 4 + rounded len) in
         Ok (inl (ind', put t k st))) (Z.of_nat (length P), done') = Ok t' /\ Forall2 same (done ++ t) t'.
Proof.
  intros Hs. induction t as [|[k st] t IH]; intros b dn dn' P fuel Hb Hso HF Hk Hfu.
  - injection Hb as <-. destruct fuel as [|fuel]; [lia|]. cbn [loop app].
    rewrite (get32_at _ P terminator Q (Z.of_nat (length P)) eq_refl eq_refl) by (unfold terminator; lia). cbn [bind]. rewrite Z.eqb_refl.
    exists dn'. split; [reflexivity|]. rewrite app_nil_r. exact HF.
  - cbn [ser_tree] in Hb. destruct (ser_entry c s (k, st)) as [b1| |] eqn:E1; cbn [bind] in Hb; try discriminate.
    destruct (ser_tree c s t) as [b2| |] eqn:E2; cbn [bind] in Hb; try discriminate. apply ok_inj in Hb. subst b.
    unfold ser_entry in E1. destruct (ser_store c s st) as [b0| |] eqn:E0; cbn [bind] in E1; try discriminate. apply ok_inj in E1. subst b1.
    inversion Hk as [|? ? [Hk1 Hk2] Hk']; subst. cbn [fst snd] in Hk1, Hk2. assert (Hkn : 0 <= klen k) by (unfold klen; lia).
    destruct fuel as [|fuel]; [lia|]. cbn [loop].
    set (pad := repeat 0 (Z.to_nat (rounded (klen k) - klen k))) in *.
    set (b1 := word32 (klen k) ++ k ++ pad ++ b0) in *.
    set (buf := P ++ (b1 ++ b2) ++ word32 terminator ++ Q) in *.
    assert (B1 : buf = P ++ word32 (klen k) ++ (k ++ pad ++ b0) ++ b2 ++ word32 terminator ++ Q) by (unfold buf, b1; rewrite <- !app_assoc; reflexivity).
    assert (B2 : buf = (P ++ word32 (klen k)) ++ k ++ (pad ++ b0) ++ b2 ++ word32 terminator ++ Q) by (rewrite B1, <- !app_assoc; reflexivity).
    assert (B3 : buf = (P ++ word32 (klen k) ++ k ++ pad) ++ b0 ++ b2 ++ word32 terminator ++ Q) by (rewrite B1, <- !app_assoc; reflexivity).
    assert (Hpad : Z.of_nat (length pad) = rounded (klen k) - klen k).
    { unfold pad. rewrite repeat_length. pose proof (rounded_bounds (klen k) Hkn). lia. }
    rewrite (get32_at buf P (klen k) _ _ B1 eq_refl) by (unfold max_key in Hk1; lia). cbn [bind].
    replace (klen k =? terminator) with false by (unfold terminator; unfold max_key in Hk1; lia). replace (max_key <? klen k) with false by lia.
    rewrite (get_at' buf _ k _ (Z.of_nat (length P) + 4) (klen k) B2) by (rewrite ?app_length; unfold word32, klen; rewrite ?le_length; lia). cbn [bind].
    destruct (deser_store_ok st b0 _ _ buf (Z.of_nat (length P) + 4 + rounded (klen k)) Hs Hk2 E0 B3) as (st' & Es & Hl).
    { rewrite !app_length. unfold word32. rewrite le_length. unfold klen in *. lia. }
    rewrite Es. cbn [bind].
    assert (Hbl : below dn k) by (apply (sorted_app_below dn (k, st) t); exact Hso).
    rewrite (put_end dn' k st') by (apply (below_same dn); assumption).
    destruct (IH b2 (dn ++ [(k, st)]) (dn' ++ [(k, st')]) (P ++ b1) fuel eq_refl) as (t' & Et & HFt).
    + rewrite <- app_assoc. exact Hso.
    + apply Forall2_app; [exact HF|]. constructor; [|constructor]. split; [reflexivity|exact Hl].
    + exact Hk'.
    + cbn [length] in Hfu. lia.
    + exists t'. split.
      * replace (Z.of_nat (length P) + 4 + rounded (klen k) + Z.of_nat (length b0)) with (Z.of_nat (length (P ++ b1))).
        2:{ unfold b1. rewrite !app_length. unfold word32. rewrite le_length. unfold klen in *. lia. }
        replace buf with ((P ++ b1) ++ b2 ++ word32 terminator ++ Q) by (unfold buf; rewrite <- !app_assoc; reflexivity). exact Et.
      * rewrite <- app_assoc in HFt. exact HFt.
Qed.

Theorem round_trip p d buf : d_size d = s -> 0 <= s < 2 ^ 32 -> p_lf p = bits95 -> 0 <= p_seed p < 2 ^ 32 -> sorted (d_tree d) ->
  Forall (fun e => klen (fst e) <= max_key /\ 0 <= slots c (snd e)) (d_tree d) -> serialize c p d = Ok buf ->
  exists t', deserialize c (p_int p) buf = Ok (mkdiva s t', p_seed p) /\ Forall2 same (d_tree d) t'.
Proof.
  intros Hd Hs Hlf Hseed Hso Hk Hser. unfold serialize in Hser. rewrite Hd in Hser. destruct (ser_tree c s (d_tree d)) as [b| |] eqn:Eb; cbn [bind] in Hser; try discriminate.
  destruct (_ <? _) in Hser; [|discriminate]. apply ok_inj in Hser. subst buf.
  unfold deserialize. rewrite get_meta_ok by assumption. cbn [bind].
  destruct (deser_loop_ok [] ltac:(lia) (d_tree d) b [] [] (meta p s) (S (length (meta p s ++ b ++ word32 terminator))) Eb Hso ltac:(constructor) Hk) as (t' & Et & HF).
  { rewrite !app_length. rewrite meta_length. assert (Hle : (length (d_tree d) <= length b)%nat); [|lia].
    clear -Eb. revert b Eb. induction (d_tree d) as [|[k st] t IH]; intros b Eb; [cbn; lia|]. cbn [ser_tree] in Eb.
    destruct (ser_entry c s (k, st)) as [b1| |] eqn:E1; cbn [bind] in Eb; try discriminate.
    destruct (ser_tree c s t) as [b2| |] eqn:E2; cbn [bind] in Eb; try discriminate. injection Eb as <-. specialize (IH _ eq_refl).
    unfold ser_entry in E1. destruct (ser_store c s st) as [b0| |]; cbn [bind] in E1; try discriminate. apply ok_inj in E1. subst b1.
    rewrite !app_length. unfold word32. rewrite le_length. cbn [length]. lia. }
  exists t'. split; [|exact HF]. unfold deser_loop. rewrite app_nil_r in Et. change meta_len with (Z.of_nat (length (meta p s))). rewrite Et. reflexivity.
Qed.

(** ** what is read back answers alike *)
Definition own (st : store) : store := mkstore (status st) (wc st) (mem st) true.
Lemma like_rep ti st st' L : rep c s ti true st L -> like st st' -> rep c s ti true (own st') L.
Proof.
  intros (u & o & r & v & a0 & a1 & cl & scalar & els & Hi & Hu & HG & HC & HL & Hn) (E1 & E2 & E3 & E4).
  exists u, o, r, v, a0, a1, cl, scalar, els. split; [exact Hi|]. split; [exact Hu|]. split; [|auto].
  destruct HG as [HV HW HA Hmr Hmm Hs]. constructor; auto.
  destruct HV. rewrite V_slots in E2. rewrite V_status in E1.
  assert (Eu : status st' = u) by (rewrite E1; apply (u32_small u Hu)).
  set (S := c_size c (st_grade u)) in *.
  assert (Hend : 1088 + S + S * s <= 64 * wc st').
  { rewrite E2. unfold ptr_word_count, target_size. pose proof (div_mod_64 (1024 + S * (s + 1) + 63)). lia. }
  assert (Hlow : forall a n, 0 <= a -> 0 <= n -> a + n <= 64 * wc st' -> low n (Z.shiftr (mem st') a) = low n (Z.shiftr (mem st) a)).
  { intros a n Ha Hna Hl. apply Z.bits_inj'. intros i Hii. unfold low. rewrite !Z.land_spec, !Z.shiftr_spec, !Z.testbit_ones_nonneg by lia.
    destruct (Z.ltb_spec i n); [|rewrite !andb_false_r; reflexivity]. rewrite E4 by lia. reflexivity. }
  constructor; auto.
  - unfold slots, get_size_grade, own. cbn [status]. rewrite Eu. reflexivity.
  - unfold limit, own. cbn [wc]. rewrite E2, <- V_wc. exact V_fits.
  - intros p Hp. unfold tb, own. cbn [mem]. rewrite E4 by lia. apply V_occ. exact Hp.
  - intros i Hir. unfold tb, own. cbn [mem]. rewrite E4 by nia. apply V_re. exact Hir.
  - intros i Hir. cbn [own mem]. rewrite Hlow; [apply V_sl; exact Hir| | |]; unfold addr; nia.
  - cbn [own mem]. rewrite <- (Z.shiftr_0_r (mem st')). rewrite Hlow by nia. rewrite Z.shiftr_0_r. exact V_p0.
  - cbn [own mem]. rewrite Hlow by nia. exact V_p1.
Qed.
End C.

Section A.
Variables (c : cfg) (s : Z).
Hypothesis Hs : 1 <= s <= 46.
Hypothesis T : tables_ok c.
Hypothesis Hf : fits c s.
Notation valid := (valid c s).
Notation rcov := (rcov c s).

(** two filters whose blocks cover the same keys *)
Definition twins (d1 d2 : diva) : Prop :=
  boundaries d1 = boundaries d2 /\
  forall A pk st nk st' B A2 st2 st2' B2, d_tree d1 = A ++ (pk, st) :: (nk, st') :: B -> d_tree d2 = A2 ++ (pk, st2) :: (nk, st2') :: B2 ->
  forall l r, rcov pk st nk l r <-> rcov pk st2 nk l r.
Lemma twin_range d1 d2 i l r : valid d1 -> valid d2 -> twins d1 d2 ->
  kok l -> kok r -> int_ok i d1 l r -> key_lt r l = false -> range_query i c d1 l r = range_query i c d2 l r.
Proof.
  intros V1 V2 [Hb Ht] Kl Kr Hi H2.
  assert (Hi2 : int_ok i d2 l r) by (intros E; destruct (Hi E) as (S1 & S2 & S3); unfold boundaries in Hb; rewrite <- Hb; auto).
  rewrite (range_query_any c s Hs i d1), (range_query_any c s Hs i d2) by assumption. clear Hi Hi2 i.
  pose proof (valid_sorted _ _ _ V1) as So1. pose proof (valid_sorted _ _ _ V2) as So2. unfold boundaries in Hb.
  destruct (placed _ l So1 (v_some _ _ _ V1)) as [a st B E H|st B E|A pk st nk st' B E G1 G2|H].
  - unfold range_query. rewrite E, seek_below by exact H. rewrite E in Hb. destruct (d_tree d2) as [|[a' w] B2]; [discriminate|]. cbn [map fst] in Hb. injection Hb as <- _.
    rewrite seek_below by exact H. cbn [peek snd bind skip1_rev]. reflexivity.
  - unfold range_query. rewrite E, seek_first. rewrite E in Hb. destruct (d_tree d2) as [|[a' w] B2]; [discriminate|]. cbn [map fst] in Hb. injection Hb as <- _.
    rewrite seek_first. cbn [peek snd bind]. rewrite key_le_iff, H2. reflexivity.
  - assert (Hn : nbr (map fst (d_tree d2)) pk nk) by (rewrite <- Hb; eapply tree_nbr; exact E). apply nbr_tree in Hn as (A2 & st2 & w2 & B2 & E2).
    destruct (range_query_spec c s Hs d1 A pk st nk st' B l r (v_size _ _ _ V1) E (v_gap _ _ _ V1) Kl Kr G1 G2 H2) as (b1 & Eb1 & Hb1).
    destruct (range_query_spec c s Hs d2 A2 pk st2 nk w2 B2 l r (v_size _ _ _ V2) E2 (v_gap _ _ _ V2) Kl Kr G1 G2 H2) as (b2 & Eb2 & Hb2).
    rewrite Eb1, Eb2. f_equal. apply eq_true_iff_eq. rewrite Hb1, Hb2. destruct (key_lt r nk) eqn:E3; [|tauto].
    rewrite (Ht _ _ _ _ _ _ _ _ _ _ E E2 l r). reflexivity.
  - unfold range_query. rewrite seek_above by exact H. rewrite seek_above; [reflexivity|].
    intros x Hx. apply (in_map fst) in Hx. rewrite <- Hb in Hx. apply in_map_iff in Hx as (y & Ey & Hy). rewrite <- Ey. apply H. exact Hy.
Qed.
Lemma twin_point d1 d2 k : valid d1 -> valid d2 -> twins d1 d2 -> kok k -> point_query c d1 k = point_query c d2 k.
Proof.
  intros V1 V2 Ht Kk. rewrite (point_is_range c s Hs false d1 k V1 Kk ltac:(intros Hd; discriminate)).
  rewrite (point_is_range c s Hs false d2 k V2 Kk ltac:(intros Hd; discriminate)).
  apply twin_range; auto; [intros Hd; discriminate|apply key_lt_irrefl].
Qed.

(** who owns the memory does not matter for queries *)
Definition own_e (e : key * store) : key * store := (fst e, own (snd e)).
Definition own_d (d : diva) : diva := mkdiva (d_size d) (map own_e (d_tree d)).
Lemma own_peek (it : iter) : peek (map own_e (fst it), map own_e (snd it)) = let* x := peek it in Ok (own_e x).
Proof. destruct it as [B [|x A]]; reflexivity. Qed.
Lemma own_seek_from t : forall B k, seek_from (map own_e B) (map own_e t) k = (map own_e (fst (seek_from B t k)), map own_e (snd (seek_from B t k))).
Proof.
  induction t as [|[k' v] t IH]; intros B k; [reflexivity|]. cbn [map own_e fst snd seek_from]. destruct (key_lt k' k); [|reflexivity].
  apply (IH ((k', v) :: B)).
Qed.
Lemma own_rev (it : iter) : skip1_rev (map own_e (fst it), map own_e (snd it)) = (map own_e (fst (skip1_rev it)), map own_e (snd (skip1_rev it))).
Proof. destruct it as [[|x B] [|y A]]; reflexivity. Qed.
Lemma own_range i d l r : range_query i c (own_d d) l r = range_query i c d l r.
Proof.
  unfold range_query, own_d. cbn [d_tree d_size]. unfold seek. change (@nil (key * store)) with (map own_e []) at 1 2. rewrite own_seek_from. set (it := seek_from [] (d_tree d) l).
  rewrite own_rev, !own_peek. destruct (peek it) as [[nk v]| |]; cbn [bind own_e fst snd]; try reflexivity.
  destruct (key_le nk r); [reflexivity|]. destruct (peek (skip1_rev it)) as [[pk st]| |]; cbn [bind own_e fst snd]; try reflexivity.
Qed.
Lemma own_point d k : point_query c (own_d d) k = point_query c d k.
Proof.
  unfold point_query, own_d. cbn [d_tree d_size]. unfold seek. change (@nil (key * store)) with (map own_e []) at 1 2. rewrite own_seek_from. set (it := seek_from [] (d_tree d) k).
  rewrite own_rev, !own_peek. destruct (peek it) as [[nk v]| |]; cbn [bind own_e fst snd]; try reflexivity.
  destruct (key_eq nk k); [reflexivity|]. destruct (peek (skip1_rev it)) as [[pk st]| |]; cbn [bind own_e fst snd]; try reflexivity.
Qed.

(** the filter read back *)
Lemma same_fst t t' : Forall2 (same c s) t t' -> map fst t' = map fst t.
Proof. induction 1 as [|e e' t t' [E _] _ IH]; [reflexivity|]. cbn [map]. rewrite E, IH. reflexivity. Qed.
Lemma like_partial ti st st' L : rep c s ti true st L -> like c s st st' -> is_partial_key st' = is_partial_key st /\ get_invalid_bits st' = get_invalid_bits st.
Proof.
  intros HR (E & _). destruct (rep_count c T s ti true st L HR) as (_ & Hu & _). rewrite (u32_small _ Hu : low 32 (status st) = _) in E.
  unfold is_partial_key, get_invalid_bits. rewrite E. split; reflexivity.
Qed.
Lemma like_gap pk st nk st' : gapok c s pk st nk -> like c s st st' -> gapok c s pk (own st') nk.
Proof.
  intros (H1 & H2 & H3 & H4 & L & HR) Hl. split; [exact H1|]. split; [exact H2|]. split; [exact H3|]. split.
  - intros Hp. apply H4. destruct (like_partial _ _ _ _ HR Hl) as [<- _]. exact Hp.
  - exists L. eapply like_rep; eassumption.
Qed.
Lemma same_adj t t' : Forall2 (same c s) t t' -> adj (gapok c s) t -> adj (gapok c s) (map own_e t').
Proof.
  induction 1 as [|[a st] [a' st'] t t' [E Hl] HF IH]; intros HA; [exact I|]. cbn [fst snd] in E, Hl. subst a'.
  destruct HF as [|[b w] [b' w'] t t' [E' Hl'] HF]; [cbn [map]; apply adj_one; exact I|]. cbn [fst] in E'. subst b'. apply adj_cons in HA as [HA1 HA2].
  change (adj (gapok c s) ((a, own st') :: (b, own w') :: map own_e t')). rewrite adj_cons. split; [eapply like_gap; eassumption|exact (IH HA2)].
Qed.
Lemma same_pair t t' A pk st nk w B : Forall2 (same c s) t t' -> map own_e t' = A ++ (pk, st) :: (nk, w) :: B -> sorted t ->
  forall A1 st1 w1 B1, t = A1 ++ (pk, st1) :: (nk, w1) :: B1 -> exists st', st = own st' /\ like c s st1 st'.
Proof.
  intros HF E Hso A1 st1 w1 B1 E1. subst t. apply Forall2_app_inv_l in HF as (X & Y & HX & HY & ->).
  inversion HY as [|? [a u] ? Y' [Ea Hl] HY' E0]; subst. cbn [fst snd] in *. subst a. rewrite map_app in E. cbn [map] in E. change (own_e (pk, u)) with (pk, own u) in E.
  assert (HB : below A1 pk) by (apply (sorted_app_below _ _ _ Hso)).
  assert (HBX : forall x, In x (map own_e X) -> key_lt (fst x) pk = true).
  { intros x Hx. apply in_map_iff in Hx as (y & <- & Hy). cbn [own_e fst]. apply (below_same c s A1 X pk HX HB). exact Hy. }
  assert (HBA : forall x, In x A -> key_lt (fst x) pk = true).
  { assert (Hso' : sorted (map own_e X ++ (pk, own u) :: map own_e Y')).
    { clear -Hso HX HY' E. assert (HF2 : Forall2 (same c s) (A1 ++ (pk, st1) :: (nk, w1) :: B1) (X ++ (pk, u) :: Y') -> True) by auto. clear HF2.
      assert (Hk : forall (t1 t2 : tree), map fst t1 = map fst t2 -> sorted t1 -> sorted t2).
      { clear. intros t1. induction t1 as [|[a x] t1 IH]; intros [|[b y] t2] E H; try discriminate; [exact I|]. cbn [map fst] in E. injection E as <- E.
        destruct t1 as [|[a1 x1] t1], t2 as [|[b1 y1] t2]; try discriminate; [apply adj_one; exact I|]. cbn [map fst] in E. injection E as <- E.
        unfold sorted in *. apply adj_cons in H as [H1 H2]. apply adj_cons. split; [exact H1|]. apply IH; [cbn [map fst]; rewrite E; reflexivity|exact H2]. }
      apply (Hk (A1 ++ (pk, st1) :: (nk, w1) :: B1)); [|exact Hso]. rewrite !map_app. cbn [map fst]. f_equal; [|f_equal].
      - rewrite map_map. cbn [own_e fst]. symmetry. apply (same_fst A1 X HX).
      - rewrite map_map. cbn [own_e fst]. symmetry. apply (same_fst _ Y' HY'). }
    rewrite E in Hso'. intros x Hx. apply (sorted_app_below _ _ _ Hso' x Hx). }
  assert (HE : forall (P Q P' Q' : tree) x y, P ++ (pk, x) :: Q = P' ++ (pk, y) :: Q' -> (forall z, In z P -> key_lt (fst z) pk = true) -> (forall z, In z P' -> key_lt (fst z) pk = true) -> x = y).
  { clear. induction P as [|p P IH]; intros Q P' Q' x y E H1 H2; destruct P' as [|p' P']; cbn [app] in E.
    - congruence.
    - injection E as <- _. specialize (H2 _ (or_introl eq_refl)). cbn [fst] in H2. rewrite key_lt_irrefl in H2. discriminate.
    - injection E as -> _. specialize (H1 _ (or_introl eq_refl)). cbn [fst] in H1. rewrite key_lt_irrefl in H1. discriminate.
    - injection E as _ E. apply (IH Q P' Q' x y E); intros z Hz; [apply H1|apply H2]; right; exact Hz. }
  exists u. split; [|exact Hl]. symmetry. eapply HE; [exact E|exact HBX|exact HBA].
Qed.

Theorem read_back d t' : valid d -> Forall2 (same c s) (d_tree d) t' ->
  valid (own_d (mkdiva s t')) /\ twins d (own_d (mkdiva s t')).
Proof.
  intros HV HF. split.
  - constructor; cbn [own_d d_size d_tree].
    + reflexivity.
    + pose proof (v_some _ _ _ HV) as Hne. destruct HF; [congruence|]. discriminate.
    + apply (same_adj (d_tree d)); [exact HF|]. exact (v_gap _ _ _ HV).
  - split.
    + unfold boundaries, own_d. cbn [d_tree]. rewrite map_map. cbn [own_e fst]. symmetry. apply same_fst. exact HF.
    + intros A pk st nk st' B A2 st2 st2' B2 E E2 l r. cbn [own_d d_tree] in E2.
      destruct (same_pair _ _ _ _ _ _ _ _ HF E2 (valid_sorted _ _ _ HV) _ _ _ _ E) as (u & -> & Hl).
      pose proof (v_gap _ _ _ HV) as HA. rewrite E in HA. apply adj_at in HA. destruct HA as (_ & _ & _ & _ & L & HR).
      pose proof (rep_list c s _ _ _ _ HR) as E1. pose proof (rep_list c s _ _ _ _ (like_rep c s _ _ _ _ HR Hl)) as E3.
      destruct (like_partial _ _ _ _ HR Hl) as [P1 P2].
      unfold Filter.rcov, part. change (is_partial_key (own u)) with (is_partial_key u). change (get_invalid_bits (own u)) with (get_invalid_bits u). rewrite P1, P2, E1, E3. reflexivity.
Qed.
Theorem same_answers_back d t' : valid d -> Forall2 (same c s) (d_tree d) t' ->
  (forall k, kok k -> point_query c (mkdiva s t') k = point_query c d k) /\
  (forall i l r, kok l -> kok r -> int_ok i d l r -> key_lt r l = false -> range_query i c (mkdiva s t') l r = range_query i c d l r).
Proof.
  intros HV HF. destruct (read_back d t' HV HF) as [HV' HT]. split.
  - intros k Kk. rewrite <- own_point. symmetry. apply twin_point; assumption.
  - intros i l r Kl Kr Hi Hlt. rewrite <- own_range. symmetry. apply twin_range; assumption.
Qed.
End A.
