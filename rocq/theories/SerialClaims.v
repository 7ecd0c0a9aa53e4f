(** Serialization of the filters that histories build. *)
From Coq Require Import ZArith List Bool Lia Sorting.Sorted.
From Coq Require Import ZifyBool ZifyNat.
From Verif Require Import Base Util Store Tables Key Diva Serial Bits StoreInsert Spec StoreRep KeyBits KeyOrder Tree Filter RangeInt Contents Bulk SpecFilter SpecBlock SpecSerial Hist Claims SplitList SplitHist SerialProofs.
Import ListNotations.
Open Scope Z_scope.

Section W.
Variables (c : cfg) (s : Z).
Hypothesis Hs : 1 <= s <= 46.
Hypothesis T : tables_ok c.
Hypothesis Hf : fits c s.
Notation valid := (valid c s).

(** every block has exactly the words its capacity asks for *)
Definition whole (e : key * store) : Prop := wc (snd e) = ptr_word_count (slots c (snd e)) s /\ 0 <= slots c (snd e) /\ 0 <= wc (snd e).
Lemma slots_pos st : 0 <= slots c st.
Proof.
  unfold slots. assert (H : 0 <= get_size_grade st < 256).
  { unfold get_size_grade. change (bitmask 8) with (Z.ones 8). rewrite Z.land_ones by lia. change 256 with (2 ^ 8). apply Z.mod_pos_bound. lia. }
  pose proof (size_pos c T (get_size_grade st) ltac:(lia)). lia.
Qed.
Lemma whole_intro e : wc (snd e) = ptr_word_count (slots c (snd e)) s -> whole e.
Proof. intros H. split; [exact H|]. pose proof (slots_pos (snd e)). split; [assumption|]. rewrite H. apply words_pos; lia. Qed.
Lemma blank_whole k : whole (k, blankst c s).
Proof. apply whole_intro. cbn [snd]. destruct (blank_rep c s Hs T Hf 1024 (c_impl c 512) eq_refl) as [HR _]. apply (rep_count _ T _ _ _ _ _ HR). Qed.
Lemma valid_whole d : valid d -> last_st (d_tree d) = blankst c s -> Forall whole (d_tree d).
Proof.
  intros [_ Hne Ha] Hl. revert Hne Hl Ha. induction (d_tree d) as [|[a st] t IH]; intros Hne Hl Ha; [constructor|].
  destruct t as [|[b w] t].
  - constructor; [|constructor]. unfold last_st in Hl. cbn in Hl. subst st. apply blank_whole.
  - rewrite adj_cons in Ha. destruct Ha as [(_ & _ & _ & _ & L & HR) Ha]. constructor.
    + apply whole_intro. apply (rep_count _ T _ _ _ _ _ HR).
    + apply IH; [discriminate| |exact Ha]. change ((a, st) :: (b, w) :: t) with ([(a, st)] ++ (b, w) :: t) in Hl. rewrite last_st_app in Hl. exact Hl.
Qed.

Lemma padded_rounded (k : key) : padded (length k) = rounded (klen k).
Proof. unfold padded, rounded, klen. rewrite Nat2Z.inj_div. change (Z.of_nat 8) with 8. rewrite Nat2Z.inj_add. lia. Qed.
Definition need (e : key * store) : Z := 8 + padded (length (fst e)) + 8 * wc (snd e).
Lemma ser_tree_ok t : Forall whole t -> exists b, ser_tree c s t = Ok b /\ Z.of_nat (length b) = fold_right Z.add 0 (map need t).
Proof.
  induction 1 as [|[k st] t (H1 & H2 & H3) _ IH]; [exists []; split; reflexivity|]. destruct IH as (b & E & Hl). cbn [snd] in *.
  cbn [ser_tree]. unfold ser_entry, ser_store. rewrite <- H1, Z.leb_refl. cbn [bind]. rewrite E. cbn [bind]. eexists. split; [reflexivity|].
  cbn [map fold_right]. rewrite <- Hl. unfold need. cbn [fst snd]. rewrite padded_rounded. rewrite !app_length, repeat_length. unfold word32. rewrite !le_length.
  pose proof (rounded_bounds (klen k) ltac:(unfold klen; lia)). unfold klen in *. lia.
Qed.
Lemma footprint_need d : footprint d = 53 + fold_right Z.add 0 (map need (d_tree d)).
Proof. reflexivity. Qed.
Lemma serialize_ok p d : d_size d = s -> Forall whole (d_tree d) ->
  if footprint d <? 2 ^ 32 then exists buf, serialize c p d = Ok buf /\ Z.of_nat (length buf) = footprint d else serialize c p d = UB.
Proof.
  intros Hd HW. destruct (ser_tree_ok _ HW) as (b & E & Hl). unfold serialize. rewrite Hd, E. cbn [bind].
  assert (HL : Z.of_nat (length (meta p s ++ b ++ word32 terminator)) = footprint d).
  { rewrite !app_length, meta_length. unfold word32. rewrite le_length. rewrite footprint_need. lia. }
  rewrite HL. destruct (footprint d <? 2 ^ 32); [eexists; split; [reflexivity|exact HL]|reflexivity].
Qed.

(** Size *)
Lemma fold_need (f : key * store -> Z) t : forall a, fold_left (fun a e => a + f e) t a = a + fold_right Z.add 0 (map f t).
Proof. induction t as [|e t IH]; intros a; cbn [fold_left map fold_right]; [lia|]. rewrite IH. lia. Qed.
Lemma size_ok int_opt d : d_size d = s -> Forall whole (d_tree d) -> (int_opt = true -> Forall (fun e => Z.of_nat (length (fst e)) mod 8 = 0) (d_tree d)) ->
  size c int_opt d = footprint d mod 2 ^ 32.
Proof.
  intros Hd HW Hi. unfold size, u32. rewrite low_mod by lia. rewrite fold_need, Hd. f_equal.
  assert (HE : map (entry_size c int_opt s) (d_tree d) = map need (d_tree d)).
  { clear Hd. induction HW as [|[k st] t (H1 & H2 & H3) _ IH]; [reflexivity|]. cbn [map]. rewrite IH by (intros E; specialize (Hi E); inversion Hi; assumption). f_equal.
    unfold entry_size, need. cbn [fst snd] in *. rewrite <- H1, padded_rounded. destruct int_opt; [|lia]. specialize (Hi eq_refl). inversion Hi as [|? ? H8 _]; subst. cbn [fst] in H8.
    unfold rounded, klen. pose proof (Z.div_mod (Z.of_nat (length k)) 8 ltac:(lia)). replace (Z.of_nat (length k) + 7) with (Z.of_nat (length k) / 8 * 8 + 7) by lia. rewrite Z.div_add_l by lia. change (7 / 8) with 0. lia. }
  rewrite HE. rewrite footprint_need. lia.
Qed.
(** the integer build under-reports by the padding of the keys *)
Lemma size_int d : d_size d = s -> Forall whole (d_tree d) ->
  size c true d = (footprint d - fold_right Z.add 0 (map (fun e => padded (length (fst e)) - Z.of_nat (length (fst e))) (d_tree d))) mod 2 ^ 32.
Proof.
  intros Hd HW. unfold size, u32. rewrite low_mod by lia. rewrite fold_need, Hd. f_equal. rewrite footprint_need. clear Hd.
  induction HW as [|[k st] t (H1 & H2 & H3) _ IH]; [reflexivity|]. cbn [map fold_right]. unfold entry_size at 1, need at 1. cbn [fst snd] in *. rewrite <- H1. unfold klen. lia.
Qed.

Lemma pad_sum t : Forall whole t -> 0 <= fold_right Z.add 0 (map (fun e : key * store => padded (length (fst e)) - Z.of_nat (length (fst e))) t) <= fold_right Z.add 0 (map need t).
Proof.
  induction 1 as [|[k st] t (H1 & H2 & H3) _ IH]; cbn [map fold_right]; [lia|]. unfold need at 1. cbn [fst snd] in *. rewrite padded_rounded.
  pose proof (rounded_bounds (klen k) ltac:(unfold klen; lia)). unfold klen in *. lia.
Qed.

(** ** the round trip *)
Lemma le_ext n : forall x y, (forall i, 0 <= i < 8 * Z.of_nat n -> Z.testbit x i = Z.testbit y i) -> le_bytes n x = le_bytes n y.
Proof.
  induction n as [|n IH]; intros x y H; [reflexivity|]. cbn [le_bytes]. f_equal.
  - apply Z.bits_inj'. intros i Hi. change 255 with (Z.ones 8). rewrite !Z.land_spec, Z.testbit_ones_nonneg by lia.
    destruct (Z.ltb_spec i 8); [rewrite H by lia; reflexivity|rewrite !andb_false_r; reflexivity].
  - apply IH. intros i Hi. rewrite !Z.shiftr_spec by lia. apply H. lia.
Qed.
Lemma like_slots st st' : like c s st st' -> slots c st' = slots c st.
Proof. intros (E & _). unfold slots, get_size_grade. rewrite E. unfold low. f_equal. apply grade_low. Qed.
Lemma ser_again t t' : Forall whole t -> Forall2 (same c s) t t' -> ser_tree c s t' = ser_tree c s t.
Proof.
  intros HW HF. induction HF as [|[k st] [k' st'] t t' [Hk Hl] HF IH]; [reflexivity|]. cbn [fst snd] in *. subst k'. inversion HW as [|? ? (W1 & W2 & W3) HW']; subst. cbn [snd] in *.
  cbn [ser_tree]. rewrite IH by assumption. replace (ser_entry c s (k, st')) with (ser_entry c s (k, st)); [reflexivity|].
  unfold ser_entry. replace (ser_store c s st') with (ser_store c s st); [reflexivity|]. unfold ser_store. rewrite (like_slots _ _ Hl). destruct Hl as (L1 & L2 & _ & L4).
  rewrite L2, W1, !Z.leb_refl. f_equal. f_equal.
  - unfold word32. apply le_ext. intros i Hi. rewrite L1. unfold low. rewrite Z.land_spec, Z.testbit_ones_nonneg by lia. replace (i <? 32) with true by lia. rewrite andb_true_r. reflexivity.
  - apply le_ext. intros i Hi. symmetry. apply L4. lia.
Qed.

Theorem round_trip_all p d : valid d -> last_st (d_tree d) = blankst c s -> readable p -> short_boundaries d -> footprint d < 2 ^ 32 ->
  exists buf d', serialize c p d = Ok buf /\ Z.of_nat (length buf) = footprint d /\ deserialize c (p_int p) buf = Ok (d', p_seed p) /\
    d_size d' = d_size d /\ boundaries d' = boundaries d /\ serialize c p d' = Ok buf /\
    (forall k, bytes k -> point_query c d' k = point_query c d k) /\
    (forall i l r, bytes l -> bytes r -> le l r -> int_ok i d l r -> range_query i c d' l r = range_query i c d l r).
Proof.
  intros HV Hl [Hp1 Hp2] Hsh Hfp. pose proof (valid_whole d HV Hl) as HW. pose proof (v_size _ _ _ HV) as Hd.
  pose proof (serialize_ok p d Hd HW) as HS. replace (footprint d <? 2 ^ 32) with true in HS by lia. destruct HS as (buf & E & Hlen).
  destruct (round_trip c s p d buf Hd ltac:(lia) Hp1 Hp2 (valid_sorted _ _ _ HV)) as (t' & Et & HF).
  { rewrite Forall_forall. intros e He. unfold short_boundaries in Hsh. rewrite Forall_forall in Hsh. split; [apply (Hsh e He)|apply slots_pos]. }
  { exact E. }
  destruct (same_answers_back c s Hs T d t' HV HF) as [A1 A2].
  exists buf, (mkdiva s t'). split; [exact E|]. split; [exact Hlen|]. split; [exact Et|]. split; [symmetry; exact Hd|].
  split; [apply same_fst with (1 := HF)|]. split.
  - unfold serialize in *. rewrite Hd in E. cbn [d_size d_tree]. rewrite (ser_again _ _ HW HF). exact E.
  - split; [exact A1|]. intros i l r Kl Kr Hle Hi. apply A2; auto. apply le_iff. exact Hle.
Qed.
End W.

(** ** ownership *)
Definition owned_all (b : bool) (t : tree) : Prop := Forall (fun e => owned (snd e) = b) t.
Lemma put_owned b t k v : owned_all b t -> owned v = b -> owned_all b (put t k v).
Proof.
  unfold owned_all. intros H Hv. induction H as [|[k' v'] t He H IH]; cbn [put]; [repeat constructor; exact Hv|].
  destruct (key_eq k' k); [constructor; assumption|]. destruct (key_lt k' k); constructor; auto.
Qed.
Lemma deser_loop_owned c s buf fuel : forall ind t t', loop fuel
    (fun x : Z * tree =>
       let '(ind, t) := x in
       let* len := get32 buf ind in
       if len =? terminator then Ok (inr t)
       else if max_key <? len then UB
       else
         let* k := get_bytes buf (ind + 4) len in
         let* '(st, ind') := deser_store c s buf (ind + 4 + rounded len) in
         Ok (inl (ind', put t k st))) (ind, t) = Ok t' -> owned_all false t -> owned_all false t'.
Proof.
  induction fuel as [|fuel IH]; intros ind t t' E H; [discriminate|]. cbn [loop] in E. apply bind_ok in E as (x & E & E2).
  apply bind_ok in E as (len & E0 & E). destruct (len =? terminator); [injection E as <-; injection E2 as <-; exact H|].
  destruct (max_key <? len); [discriminate|]. apply bind_ok in E as (k & E1 & E). apply bind_ok in E as ([st i] & E3 & E). injection E as <-.
  apply (IH _ _ _ E2). apply put_owned; [exact H|]. unfold deser_store in E3. apply bind_ok in E3 as (u & E4 & E3). cbv zeta in E3. apply bind_ok in E3 as (w & E5 & E3).
  apply ok_inj in E3. injection E3 as -> _. reflexivity.
Qed.
Lemma deserialize_owned c i buf d seed : deserialize c i buf = Ok (d, seed) -> owned_all false (d_tree d).
Proof.
  unfold deserialize. intros E. apply bind_ok in E as ([s sd] & E0 & E). apply bind_ok in E as (t & E1 & E). injection E as <- _. cbn [d_tree].
  apply (deser_loop_owned _ _ _ _ _ _ _ E1). constructor.
Qed.
Lemma destroy_owned t : owned_all true t -> free_all t = Ok (map snd t).
Proof.
  induction t as [|[k st] t IH]; cbn [free_all map snd]; [reflexivity|]. intros H. inversion H as [|? ? H1 H2]; subst. cbn [snd] in H1.
  unfold free_block. rewrite H1. cbn [bind]. rewrite (IH H2). reflexivity.
Qed.
Theorem read_not_owned c i buf d seed : deserialize c i buf = Ok (d, seed) -> d_tree d <> [] -> destroy d = UB.
Proof.
  intros E Hne. apply deserialize_owned in E. unfold destroy. destruct (d_tree d) as [|[k st] t]; [congruence|]. inversion E as [|? ? H _]; subst. cbn [snd] in H.
  cbn [free_all]. unfold free_block. rewrite H. reflexivity.
Qed.
Section O.
Variables (c : cfg) (s : Z).
Hypothesis Hs : 1 <= s <= 46.
Hypothesis T : tables_ok c.
Lemma valid_owned d : valid c s d -> last_st (d_tree d) = blankst c s -> owned_all true (d_tree d).
Proof.
  intros [_ Hne Ha] Hl. revert Hne Hl Ha. induction (d_tree d) as [|[a st] t IH]; intros Hne Hl Ha; [constructor|].
  destruct t as [|[b w] t].
  - constructor; [|constructor]. unfold last_st in Hl. cbn in Hl. subst st. reflexivity.
  - rewrite adj_cons in Ha. destruct Ha as [(_ & _ & _ & _ & L & HR) Ha]. constructor.
    + cbn [snd]. apply (rep_count _ T _ _ _ _ _ HR).
    + apply IH; [discriminate| |exact Ha]. change ((a, st) :: (b, w) :: t) with ([(a, st)] ++ (b, w) :: t) in Hl. rewrite last_st_app in Hl. exact Hl.
Qed.
Lemma valid_destroy d : valid c s d -> last_st (d_tree d) = blankst c s -> destroy d = Ok (map snd (d_tree d)).
Proof. intros HV Hl. apply destroy_owned. apply valid_owned; assumption. Qed.
End O.

(** ** statements for the machine configuration *)
Section M.
Variables (junk s : Z).
Hypothesis Hs : 1 <= s <= 46.
Notation c := (machine junk).
Let T := machine_ok junk.
Let Hf := machine_fits junk s (proj1 Hs).
Lemma longest_le keys n : Forall (fun k => Z.of_nat (length k) <= n) keys -> 0 <= n -> Z.of_nat (longest keys) <= n.
Proof. unfold longest. intros H Hn. induction H as [|k keys Hk _ IH]; cbn [map list_max fold_right]; [lia|]. unfold list_max in IH. lia. Qed.
Lemma built_short m keys ks d : loadable m keys -> insertable c s m keys ks -> build c s m keys ks = Ok d -> keys_fit keys -> short_boundaries d.
Proof.
  intros HL HI E HK. destruct (built c s Hs T Hf m keys ks HL HI) as (d0 & d' & X & _ & E' & _ & _ & _ & HB & _). rewrite E in E'. injection E' as <-.
  pose proof (longest_le keys 20000 HK ltac:(lia)) as Hlo. unfold short_boundaries. rewrite Forall_forall. intros e He.
  assert (Hi : In (fst e) (boundaries d)) by (apply in_map; exact He). unfold keys_fit in HK. rewrite Forall_forall in HK.
  assert (Hlen : match m with FixedLength len => Z.of_nat len <= 20000 | _ => True end).
  { destruct m as [len| |]; auto. destruct HL as [_ Hne _ [Hl _]]. destruct keys as [|k0 keys]; [congruence|]. inversion Hl; subst. apply HK. left. reflexivity. }
  apply HB in Hi as [Hi|[Hi|Hi]]; [apply HK; exact Hi| |]; rewrite Hi; destruct m; cbn [low_end high_end]; rewrite repeat_length; lia.
Qed.
Lemma grown_short len keys ops d : grown c s len keys ops d -> Z.of_nat len <= 20000 -> short_boundaries d.
Proof.
  intros HG Hl. destruct (grown_stem c s Hs T Hf _ _ _ _ HG) as [HS _]. pose proof (stem_keys _ _ _ _ _ _ HS) as H. unfold short_boundaries.
  rewrite Forall_forall in *. intros e He. specialize (H (fst e) (in_map fst _ _ He)). unfold klen in H. lia.
Qed.

Theorem built_round_trip m keys ks d : loadable m keys -> insertable c s m keys ks -> build c s m keys ks = Ok d -> keys_fit keys ->
  forall p, readable p -> footprint d < 2 ^ 32 ->
  exists buf d', serialize c p d = Ok buf /\ Z.of_nat (length buf) = footprint d /\ deserialize c (p_int p) buf = Ok (d', p_seed p) /\
    d_size d' = d_size d /\ boundaries d' = boundaries d /\ serialize c p d' = Ok buf /\
    (forall k, bytes k -> point_query c d' k = point_query c d k) /\
    (forall i l r, bytes l -> bytes r -> le l r -> suited i m l r -> range_query i c d' l r = range_query i c d l r).
Proof.
  intros HL HI E HK p Hp Hfp.
  destruct (round_trip_all c s Hs T Hf p d (built_valid c s Hs T Hf m keys ks d HL HI E) (built_last c s Hs T Hf m keys ks d HL HI E) Hp (built_short m keys ks d HL HI E HK) Hfp)
    as (buf & d' & H1 & H2 & H3 & H4 & H5 & H6 & H7 & H8).
  exists buf, d'. do 7 (split; [assumption|]). intros i l r Kl Kr Hle Hsu. apply H8; auto. apply (suited_ok junk s Hs i m keys ks d l r); assumption.
Qed.
Theorem grown_round_trip len keys ops d : grown c s len keys ops d -> Z.of_nat len <= 20000 ->
  forall p, readable p -> footprint d < 2 ^ 32 ->
  exists buf d', serialize c p d = Ok buf /\ Z.of_nat (length buf) = footprint d /\ deserialize c (p_int p) buf = Ok (d', p_seed p) /\
    d_size d' = d_size d /\ boundaries d' = boundaries d /\ serialize c p d' = Ok buf /\
    (forall k, bytes k -> point_query c d' k = point_query c d k) /\
    (forall i l r, bytes l -> bytes r -> le l r -> suited i (FixedLength len) l r -> range_query i c d' l r = range_query i c d l r).
Proof.
  intros HG Hlen p Hp Hfp.
  destruct (round_trip_all c s Hs T Hf p d (grown_valid c s Hs T Hf _ _ _ _ HG) (grown_last c s Hs T Hf _ _ _ _ HG) Hp (grown_short _ _ _ _ HG Hlen) Hfp)
    as (buf & d' & H1 & H2 & H3 & H4 & H5 & H6 & H7 & H8).
  exists buf, d'. do 7 (split; [assumption|]). intros i l r Kl Kr Hle Hsu. apply H8; auto. apply (grown_int c s Hs T Hf len keys ops d i l r); assumption.
Qed.

Theorem built_size m keys ks d : loadable m keys -> insertable c s m keys ks -> build c s m keys ks = Ok d ->
  forall p int_opt buf, serialize c p d = Ok buf -> (int_opt = true -> exists len, m = FixedLength len /\ (len mod 8 = 0)%nat) -> size c int_opt d = Z.of_nat (length buf).
Proof.
  intros HL HI E p i buf Hb Hi. pose proof (built_valid c s Hs T Hf m keys ks d HL HI E) as HV.
  pose proof (valid_whole c s Hs T Hf d HV (built_last c s Hs T Hf m keys ks d HL HI E)) as HW. pose proof (v_size _ _ _ HV) as Hd.
  pose proof (serialize_ok c s p d Hd HW) as HS. assert (Hfp : footprint d < 2 ^ 32) by (destruct (Z.ltb_spec (footprint d) (2 ^ 32)); [assumption|rewrite HS in Hb; discriminate]).
  replace (footprint d <? 2 ^ 32) with true in HS by lia. destruct HS as (buf' & E2 & Hl). rewrite Hb in E2. apply ok_inj in E2. subst buf'. rewrite Hl.
  rewrite (size_ok c s i d Hd HW).
  - apply Z.mod_small. lia.
  - intros ->. destruct (Hi eq_refl) as (len & -> & Hm). destruct (built c s Hs T Hf _ keys ks HL HI) as (d0 & d' & X & _ & E' & _ & _ & _ & HB & _). rewrite E in E'. injection E' as <-.
    rewrite Forall_forall. intros e He. assert (Hin : In (fst e) (boundaries d)) by (apply in_map; exact He).
    assert (Hl8 : length (fst e) = len).
    { destruct HL as [_ _ _ [Hlen _]]. rewrite Forall_forall in Hlen. apply HB in Hin as [Hin|[Hin|Hin]]; [apply Hlen; exact Hin| |]; rewrite Hin; cbn [low_end high_end]; apply repeat_length. }
    rewrite Hl8. change 8 with (Z.of_nat 8). rewrite <- Nat2Z.inj_mod, Hm. reflexivity.
Qed.
Theorem grown_size len keys ops d : grown c s len keys ops d -> forall p buf, serialize c p d = Ok buf ->
  size c false d = Z.of_nat (length buf) /\
  size c true d = Z.of_nat (length buf) - fold_right Z.add 0 (map (fun k => padded (length k) - Z.of_nat (length k)) (boundaries d)).
Proof.
  intros HG p buf Hb. pose proof (grown_valid c s Hs T Hf _ _ _ _ HG) as HV.
  pose proof (valid_whole c s Hs T Hf d HV (grown_last c s Hs T Hf _ _ _ _ HG)) as HW. pose proof (v_size _ _ _ HV) as Hd.
  pose proof (serialize_ok c s p d Hd HW) as HS. assert (Hfp : footprint d < 2 ^ 32) by (destruct (Z.ltb_spec (footprint d) (2 ^ 32)); [assumption|rewrite HS in Hb; discriminate]).
  replace (footprint d <? 2 ^ 32) with true in HS by lia. destruct HS as (buf' & E2 & Hl). rewrite Hb in E2. apply ok_inj in E2. subst buf'. rewrite Hl.
  rewrite (size_ok c s false d Hd HW) by discriminate. rewrite (size_int c s d Hd HW). unfold boundaries. rewrite map_map.
  split; [apply Z.mod_small; lia|]. apply Z.mod_small. pose proof (pad_sum c s (d_tree d) HW). rewrite footprint_need in *. lia.
Qed.
Theorem built_destroy m keys ks d : loadable m keys -> insertable c s m keys ks -> build c s m keys ks = Ok d -> destroy d = Ok (map snd (d_tree d)).
Proof. intros HL HI E. apply (valid_destroy c s T d (built_valid c s Hs T Hf m keys ks d HL HI E) (built_last c s Hs T Hf m keys ks d HL HI E)). Qed.
Theorem grown_destroy len keys ops d : grown c s len keys ops d -> destroy d = Ok (map snd (d_tree d)).
Proof. intros HG. apply (valid_destroy c s T d (grown_valid c s Hs T Hf _ _ _ _ HG) (grown_last c s Hs T Hf _ _ _ _ HG)). Qed.
End M.
