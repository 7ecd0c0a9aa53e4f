(** What holds of the filters that mixed histories build. *)
From Coq Require Import ZArith List Bool Lia Sorting.Sorted Permutation.
From Coq Require Import ZifyBool ZifyNat.
From Verif Require Import Base Util Store Tables SplitList StoreRep Layout Bits View Cells Key KeyBits KeyOrder RangeInt Diva Tree Spec SpecFilter SpecBlock SpecSerial SpecSplit Serial StoreInsert Filter Bulk Hist Contents Claims DelHist DelRun DelClaims
  Held SplitKeys Split SplitHist SplitTotal SerialProofs SerialClaims ShrinkTree SpecMixed MixDel MixHist.
Import ListNotations.
Open Scope Z_scope.

Section G.
Variable c : cfg.
Variable s : Z.
Hypothesis Hs : 1 <= s <= 46.
Hypothesis T : tables_ok c.
Hypothesis Hf : fits c s.
Hypothesis Hc : c_strict c = false.

Lemma smooth_runs len acts : Z.of_nat len < 2 ^ 29 -> forall d ks, sound c s len ks d -> smooth c s len d ks acts ->
  steady c s len d ks acts /\ exists d', do_acts c d acts = Ok d'.
Proof.
  intros Hlen. induction acts as [|a acts IH]; intros d ks HS HO; [split; [exact I|exists d; reflexivity]|].
  destruct a as [k split|k]; cbn [smooth steady do_acts do_act] in *.
  - destruct HO as ((W1 & W2 & W3) & W4 & W5 & W6). pose proof HS as (HT & _).
    assert (Kk : kok k) by exact W1.
    destruct (step_total c s Hs T Hf Hc len _ _ d k split HT Kk W2) as (d1 & E1); [rewrite <- W2; apply zeros_low; exact Kk|apply lt_iff; exact W3|exact W4|exact W5|].
    assert (HS1 : sound c s len (k :: ks) d1) by (apply (step_held c s Hs T Hf len d ks k split); auto; intros e; apply (W5 e)).
    destruct (IH d1 (k :: ks) HS1 (W6 d1 E1)) as (I1 & d2 & E2). split.
    + split; [auto|]. split; [exact W4|]. split; [intros e; apply (W5 e)|]. intros d' E'. rewrite E1 in E'. injection E' as <-. exact I1.
    + exists d2. rewrite E1. exact E2.
  - destruct HO as (W1 & W2 & W3 & W4 & W5). pose proof HS as (HT & HH & HL & HK). destruct (HK k W1) as [Kk Hl].
    assert (Hhi : key_lt k (repeat 255 len) = true).
    { destruct (key_lt k (repeat 255 len)) eqn:Ek; [reflexivity|exfalso]. pose proof (ffs_high k len Kk ltac:(lia)) as Hf2.
      destruct (nlt_cases _ _ Ek) as [E1|E1]; [|congruence]. apply W2. pose proof HT as (_ & Hne & _ & S4 & _).
      destruct (exists_last Hne) as (A & [x st] & Et). assert (x = k) by (rewrite Et, last_app_cons in S4; unfold last_key in S4; cbn in S4; congruence). subst x.
      unfold boundaries. rewrite Et, map_app. apply in_or_app. right. left. reflexivity. }
    destruct (delete_runs c s Hs T Hf (Z.of_nat len) _ _ d (remove_one k ks) k HT Kk) as (d1 & E1 & Eb); auto.
    + rewrite <- Hl. apply zeros_low. exact Kk.
    + apply (heldt_perm c s ks); [apply remove_one_perm; exact W1|exact HH].
    + intros A pk st nk st' B Et G1 G2. apply (W3 A pk st nk st' B Et); [apply le_iff; exact G1|apply lt_iff; exact G2].
    + assert (HS1 : sound c s len (remove_one k ks) d1) by (apply (drop_held c s Hs T Hf len d ks k); auto).
      destruct (IH d1 _ HS1 (W5 d1 E1)) as (I1 & d2 & E2). split.
      * split; [exact W1|]. split; [exact W4|]. intros d' E'. rewrite E1 in E'. injection E' as <-. auto.
      * exists d2. rewrite E1. exact E2.
Qed.
End G.

Section M.
Variables (junk s : Z).
Hypothesis Hs : 1 <= s <= 46.
Notation c := (machine junk).
Let T := machine_ok junk.
Let Hf := machine_fits junk s (proj1 Hs).
Let Hc : c_strict c = false := eq_refl.

Lemma mixed_valid len keys acts d : mixed c s len keys acts d -> stem c s (Z.of_nat len) (repeat 0 len) (repeat 255 len) d /\ valid c s d /\ last_st (d_tree d) = blankst c s.
Proof.
  intros HM. destruct (mixed_sound c s Hs T Hf len keys acts d HM) as (H1 & _ & H3 & _). split; [exact H1|]. split; [eapply stem_valid; exact H1|exact H3].
Qed.
Lemma mixed_int len keys acts d i l r : mixed c s len keys acts d -> suited i (FixedLength len) l r -> int_ok i d l r.
Proof.
  intros H HS Hi. destruct (HS Hi) as ((n & En & Hn) & Hl & Hr). injection En as <-. split; [exact Hl|]. split; [exact Hr|].
  destruct (mixed_valid _ _ _ _ H) as [HT _]. eapply Forall_impl; [|apply (stem_keys _ _ _ _ _ _ HT)]. intros k Hk. unfold klen, short in *. lia.
Qed.
Theorem mixed_found len keys acts d : mixed c s len keys acts d ->
  forall k, In k (left_over keys acts) -> point_query c d k = Ok true /\
    forall i l r, bytes l -> bytes r -> suited i (FixedLength len) l r -> le l k -> le k r -> range_query i c d l r = Ok true.
Proof.
  intros HM k Hk. pose proof (mixed_sound c s Hs T Hf _ _ _ _ HM) as HS. destruct (mixed_valid _ _ _ _ HM) as (HT & HV & _).
  destruct (sound_cov c s len _ d k HS Hk) as [Kk HC]. split; [apply (cov_point c s Hs); assumption|].
  intros i l r Bl Br HSu L1 L2. apply (cov_range c s Hs i d l r k); auto; [eapply mixed_int; eassumption|apply le_iff; exact L1|apply le_iff; exact L2].
Qed.
Theorem smooth_succeeds len keys acts : Z.of_nat len < 2 ^ 29 -> loadable (FixedLength len) keys ->
  (forall d0, load c s (FixedLength len) keys = Ok d0 -> smooth c s len d0 keys acts) -> exists d, mixed c s len keys acts d.
Proof.
  intros Hlen HL HO. destruct (loaded c s Hs T Hf (FixedLength len) keys HL) as (d0 & X & E0 & _).
  assert (HS : sound c s len keys d0) by (apply (mixed_sound c s Hs T Hf len keys [] d0); split; [exact Hlen|]; split; [exact HL|]; split; [intros; exact I|]; rewrite E0; reflexivity).
  destruct (smooth_runs c s Hs T Hf Hc len acts Hlen d0 keys HS (HO d0 E0)) as (H1 & d & E). exists d. split; [exact Hlen|]. split; [exact HL|].
  split; [intros d1 E1; rewrite E0 in E1; injection E1 as <-; exact H1|]. rewrite E0. exact E.
Qed.
Theorem mixed_grows len keys acts d : mixed c s len keys acts d -> forall i1 i2 l r l' r', bytes l -> bytes r -> bytes l' -> bytes r' ->
  suited i1 (FixedLength len) l r -> suited i2 (FixedLength len) l' r' -> le l r -> le l' l -> le r r' ->
  range_query i1 c d l r = Ok true -> range_query i2 c d l' r' = Ok true.
Proof.
  intros H i1 i2 l r l' r' B1 B2 B3 B4 U1 U2 H1 H2 H3. apply (range_grows c s Hs i1 i2 d l r l' r'); auto;
    [apply (mixed_valid _ _ _ _ H)|eapply mixed_int; eassumption|eapply mixed_int; eassumption|apply le_iff; assumption..].
Qed.
Theorem mixed_agree len keys acts d : mixed c s len keys acts d ->
  (forall i k, bytes k -> suited i (FixedLength len) k k -> point_query c d k = range_query i c d k k) /\
  (forall l r, bytes l -> bytes r -> suited true (FixedLength len) l r -> range_query true c d l r = range_query false c d l r).
Proof.
  intros H. destruct (mixed_valid _ _ _ _ H) as (_ & HV & _). split.
  - intros i k Bk HSu. apply (point_is_range c s Hs i d k); [exact HV|exact Bk|eapply mixed_int; eassumption].
  - intros l r B1 B2 HSu. apply (range_query_any c s Hs true d l r); [exact HV|exact B1|exact B2|eapply mixed_int; eassumption].
Qed.
Theorem mixed_answers len keys acts d : mixed c s len keys acts d ->
  (forall k, bytes k -> le (repeat 0 len) k -> le k (repeat 255 len) -> exists b, point_query c d k = Ok b) /\
  (forall i l r, bytes l -> bytes r -> suited i (FixedLength len) l r -> le (repeat 0 len) l -> le l r -> le r (repeat 255 len) -> exists b, range_query i c d l r = Ok b).
Proof.
  intros HM. destruct (mixed_valid _ _ _ _ HM) as (HS & HV & _). pose proof HS as (_ & S2 & S3 & S4 & _). destruct (mixed_agree _ _ _ _ HM) as [A1 A2].
  assert (Hr : forall l r, bytes l -> bytes r -> le (repeat 0 len) l -> le l r -> le r (repeat 255 len) -> exists b, range_query false c d l r = Ok b).
  { intros l r Bl Br L1 L2 L3. apply le_iff in L1, L2, L3. pose proof (valid_sorted _ _ _ HV) as Hso.
    destruct (placed _ l Hso (v_some _ _ _ HV)) as [a st B Et H|st B Et|A pk st nk st' B Et G1 G2|H].
    - exfalso. rewrite Et in S3. cbn [hd_key] in S3. congruence.
    - unfold range_query. rewrite Et, seek_first. cbn [peek snd bind]. rewrite key_le_iff, L2. eexists; reflexivity.
    - destruct (range_query_spec c s Hs d A pk st nk st' B l r (v_size _ _ _ HV) Et (v_gap _ _ _ HV) Bl Br G1 G2 L2) as (b & Eb & _). eauto.
    - exfalso. destruct (d_tree d) as [|y B] eqn:E; [congruence|]. destruct (last_key_in y B) as (z & Hz & Ez). specialize (H z Hz). rewrite Ez, S4 in H.
      rewrite (lt_nlt_trans _ _ _ H L2) in L3. discriminate. }
  split.
  - intros k Bk L1 L2. rewrite (A1 false k Bk ltac:(intros Hd; discriminate)). apply Hr; auto. left. reflexivity.
  - intros i l r Bl Br HSu L1 L2 L3. destruct i; [|apply Hr; auto]. rewrite (A2 l r Bl Br HSu). apply Hr; auto.
Qed.
Theorem mixed_round_trip len keys acts d : mixed c s len keys acts d -> Z.of_nat len <= 20000 ->
  forall p, readable p -> footprint d < 2 ^ 32 ->
  exists buf d', serialize c p d = Ok buf /\ Z.of_nat (length buf) = footprint d /\ deserialize c (p_int p) buf = Ok (d', p_seed p) /\
    d_size d' = d_size d /\ boundaries d' = boundaries d /\ serialize c p d' = Ok buf /\
    (forall k, bytes k -> point_query c d' k = point_query c d k) /\
    (forall i l r, bytes l -> bytes r -> le l r -> suited i (FixedLength len) l r -> range_query i c d' l r = range_query i c d l r).
Proof.
  intros HG Hlen p Hp Hfp. destruct (mixed_valid _ _ _ _ HG) as (HS & HV & HL).
  assert (Hsh : short_boundaries d).
  { pose proof (stem_keys _ _ _ _ _ _ HS) as H. unfold short_boundaries. rewrite Forall_forall in *. intros e He. specialize (H (fst e) (in_map fst _ _ He)). unfold klen in H. lia. }
  destruct (round_trip_all c s Hs T Hf p d HV HL Hp Hsh Hfp) as (buf & d' & H1 & H2 & H3 & H4 & H5 & H6 & H7 & H8).
  exists buf, d'. do 7 (split; [assumption|]). intros i l r Kl Kr Hle Hsu. apply H8; auto. eapply mixed_int; eassumption.
Qed.
Theorem mixed_size len keys acts d : mixed c s len keys acts d -> forall p buf, serialize c p d = Ok buf ->
  size c false d = Z.of_nat (length buf) /\
  size c true d = Z.of_nat (length buf) - fold_right Z.add 0 (map (fun k => padded (length k) - Z.of_nat (length k)) (boundaries d)).
Proof.
  intros HG p buf Hb. destruct (mixed_valid _ _ _ _ HG) as (_ & HV & HL).
  pose proof (valid_whole c s Hs T Hf d HV HL) as HW. pose proof (v_size _ _ _ HV) as Hd.
  pose proof (serialize_ok c s p d Hd HW) as HS. assert (Hfp : footprint d < 2 ^ 32) by (destruct (Z.ltb_spec (footprint d) (2 ^ 32)); [assumption|rewrite HS in Hb; discriminate]).
  replace (footprint d <? 2 ^ 32) with true in HS by lia. destruct HS as (buf' & E2 & Hl). rewrite Hb in E2. apply ok_inj in E2. subst buf'. rewrite Hl.
  rewrite (size_ok c s false d Hd HW) by discriminate. rewrite (size_int c s d Hd HW). unfold boundaries. rewrite map_map.
  split; [apply Z.mod_small; lia|]. apply Z.mod_small. pose proof (pad_sum c s (d_tree d) HW). rewrite footprint_need in *. lia.
Qed.
Theorem mixed_destroy len keys acts d : mixed c s len keys acts d -> destroy d = Ok (map snd (d_tree d)).
Proof. intros HG. destruct (mixed_valid _ _ _ _ HG) as (_ & HV & HL). apply (valid_destroy c s T d HV HL). Qed.
Theorem mixed_shrink s' len keys acts d : 1 <= s' <= s -> mixed c s len keys acts d -> shrinkable d ->
  exists d', shrink c d s' = Ok d' /\ d_size d' = s' /\ boundaries d' = boundaries d /\
    (forall k, In k (left_over keys acts) -> point_query c d' k = Ok true /\
      forall i l r, bytes l -> bytes r -> suited i (FixedLength len) l r -> le l k -> le k r -> range_query i c d' l r = Ok true).
Proof.
  intros Hs' HG Hsh. destruct (mixed_valid _ _ _ _ HG) as (_ & HV & HL).
  destruct (shrink_valid_keeps junk s s' Hs Hs' d HV HL Hsh) as (d' & Ed & Es & Eb & _ & Hp & Hr). exists d'. split; [exact Ed|]. split; [exact Es|]. split; [exact Eb|].
  intros k Hk. destruct (mixed_found _ _ _ _ HG k Hk) as [F1 F2]. pose proof (mixed_sound c s Hs T Hf _ _ _ _ HG) as HS. destruct (sound_cov c s len _ d k HS Hk) as [Kk _].
  split; [apply Hp; assumption|]. intros i l r Bl Br HSu L1 L2. apply Hr; auto; [|eapply mixed_int; eassumption]. apply le_iff. apply le_iff in L1, L2.
  destruct (key_lt r l) eqn:Erl; [|reflexivity]. rewrite (lt_nlt_trans _ _ _ Erl L1) in L2. discriminate.
Qed.
(** one more insertion or deletion *)
Theorem mixed_drop len keys acts d k : mixed c s len keys acts d -> In k (left_over keys acts) -> ~ In k (boundaries d) -> whole_start d k -> uncrammed c d k ->
  exists d', delete c d k = Ok d' /\ boundaries d' = boundaries d /\
    forall k', In k' (remove_one k (left_over keys acts)) -> point_query c d' k' = Ok true /\
      forall i l r, bytes l -> bytes r -> suited i (FixedLength len) l r -> le l k' -> le k' r -> range_query i c d' l r = Ok true.
Proof.
  intros HM Hk Hnb Hw Hun. pose proof (mixed_sound c s Hs T Hf _ _ _ _ HM) as HS. pose proof HM as (Hlen & _).
  assert (HO : smooth c s len d (left_over keys acts) [Drop k]) by (cbn [smooth]; repeat split; auto).
  destruct (smooth_runs c s Hs T Hf Hc len [Drop k] Hlen d _ HS HO) as (H1 & d' & E). cbn [do_acts do_act steady] in E, H1. apply bind_ok in E as (d1 & E1 & E2). injection E2 as ->.
  destruct H1 as (_ & _ & H1). destruct (H1 d' E1) as [Eb _]. exists d'. split; [exact E1|]. split; [exact Eb|].
  pose proof (drop_held c s Hs T Hf len d _ k d' Hlen HS Hk Hun E1 Eb) as HS'. pose proof HS' as (HT & _).
  intros k' Hk'. destruct (sound_cov c s len _ d' k' HS' Hk') as [Kk HC]. pose proof (stem_valid _ _ _ _ _ _ HT) as HV. split; [apply (cov_point c s Hs); assumption|].
  intros i l r Bl Br HSu L1 L2. apply (cov_range c s Hs i d' l r k'); auto; [|apply le_iff; exact L1|apply le_iff; exact L2].
  intros Hi. destruct (HSu Hi) as ((n & En & Hn) & Hl & Hr). injection En as <-. split; [exact Hl|]. split; [exact Hr|].
  eapply Forall_impl; [|apply (stem_keys _ _ _ _ _ _ HT)]. intros x Hx. unfold klen, short in *. lia.
Qed.
End M.

(** ** a decision procedure for the examples *)
Fixpoint steadyb (c : cfg) (s : Z) (len : nat) (d : diva) (ks : list key) (acts : list act) : bool :=
  match acts with
  | [] => true
  | Put k split :: rest =>
      withinb c s len d [(k, split)] && match insert c d k split with Ok d' => steadyb c s len d' (k :: ks) rest | _ => true end
  | Drop k :: rest =>
      existsb (same_key k) ks && uncrammedb c (d_size d) (d_tree d) k &&
      match delete c d k with Ok d' => (if list_eq_dec (list_eq_dec Z.eq_dec) (boundaries d') (boundaries d) then true else false) && steadyb c s len d' (remove_one k ks) rest | _ => true end
  end.
Lemma steadyb_ok c s len : s <= 53 -> tables_ok c -> forall acts d ks, steadyb c s len d ks acts = true -> steady c s len d ks acts.
Proof.
  intros Hs T. induction acts as [|[k b|k] acts IH]; intros d ks H; [exact I| |]; cbn [steadyb steady] in *.
  - apply andb_true_iff in H as [H1 H2]. apply withinb_ok in H1; [|exact Hs]. cbn [within_limits] in H1. destruct H1 as (W1 & W2 & W3 & _). split; [exact W1|]. split; [exact W2|]. split; [exact W3|].
    intros d' E. rewrite E in H2. apply IH. exact H2.
  - apply andb_true_iff in H as [H1 H2]. apply andb_true_iff in H1 as [H1 H3]. split; [apply existsb_same; exact H1|]. split; [apply uncrammedb_ok; assumption|].
    intros d' E. rewrite E in H2. apply andb_true_iff in H2 as [H2 H4]. destruct (list_eq_dec (list_eq_dec Z.eq_dec) (boundaries d') (boundaries d)) as [Eb|]; [|discriminate]. split; [exact Eb|apply IH; exact H4].
Qed.
Definition mixedb (c : cfg) (s : Z) (len : nat) (keys : list key) (acts : list act) : option diva :=
  match load c s (FixedLength len) keys with
  | Ok d0 => if steadyb c s len d0 keys acts then match do_acts c d0 acts with Ok d => Some d | _ => None end else None
  | _ => None
  end.
Lemma mixedb_ok c s len keys acts d : s <= 53 -> Z.of_nat len < 2 ^ 29 -> tables_ok c -> loadable (FixedLength len) keys -> mixedb c s len keys acts = Some d -> mixed c s len keys acts d.
Proof.
  intros Hs Hlen T HL H. unfold mixedb in H. destruct (load c s (FixedLength len) keys) as [d0| |] eqn:E; try discriminate.
  destruct (steadyb c s len d0 keys acts) eqn:W; [|discriminate]. destruct (do_acts c d0 acts) as [d1| |] eqn:E1; try discriminate. injection H as <-.
  split; [exact Hlen|]. split; [exact HL|]. split; [|rewrite E; exact E1]. intros d' E'. rewrite E in E'. injection E' as <-. apply steadyb_ok; assumption.
Qed.
Lemma held_existsb k l : existsb (same_key k) l = true -> In k l.
Proof. apply existsb_same. Qed.
Lemma existsb_held k l : In k l -> existsb (same_key k) l = true.
Proof. apply existsb_same. Qed.
Fixpoint whole_startb (t : tree) (k : key) : bool :=
  match t with
  | (a, st) :: (((b, _) :: _) as rest) => (if negb (key_lt k a) && key_lt k b then negb (is_partial_key st) else true) && whole_startb rest k
  | _ => true
  end.
Lemma whole_startb_ok d k : whole_startb (d_tree d) k = true -> whole_start d k.
Proof.
  intros H A a st b st' B E L1 L2. apply le_iff in L1. apply lt_iff in L2. rewrite E in H. clear E. induction A as [|[x w] A IH]; cbn [app whole_startb] in H.
  - apply andb_true_iff in H as [H _]. rewrite L1, L2 in H. cbn [negb andb] in H. apply negb_true_iff. exact H.
  - apply IH. destruct (A ++ (a, st) :: (b, st') :: B) as [|[y v] rest] eqn:E; [destruct A; discriminate|]. apply andb_true_iff in H as [_ H]. exact H.
Qed.
Fixpoint smoothb (c : cfg) (s : Z) (len : nat) (d : diva) (ks : list key) (acts : list act) : bool :=
  match acts with
  | [] => true
  | Put k split :: rest =>
      withinb c s len d [(k, split)] && splits_fitb c len d [(k, split)] && match insert c d k split with Ok d' => smoothb c s len d' (k :: ks) rest | _ => true end
  | Drop k :: rest =>
      existsb (same_key k) ks && negb (existsb (same_key k) (boundaries d)) && whole_startb (d_tree d) k && uncrammedb c (d_size d) (d_tree d) k &&
      match delete c d k with Ok d' => smoothb c s len d' (remove_one k ks) rest | _ => true end
  end.
Lemma smoothb_ok c s len : s <= 53 -> tables_ok c -> forall acts d ks, smoothb c s len d ks acts = true -> smooth c s len d ks acts.
Proof.
  intros Hs T. induction acts as [|[k b|k] acts IH]; intros d ks H; [exact I| |]; cbn [smoothb smooth] in *.
  - apply andb_true_iff in H as [H H2]. apply andb_true_iff in H as [H1 H3]. apply withinb_ok in H1; [|exact Hs]. apply splits_fitb_ok in H3. cbn [within_limits splits_fit] in *.
    destruct H1 as (W1 & W2 & W3 & _). destruct H3 as [W4 _]. split; [exact W1|]. split; [exact W2|]. split; [intros e; auto|]. intros d' E. rewrite E in H2. apply IH. exact H2.
  - apply andb_true_iff in H as [H H5]. apply andb_true_iff in H as [H H4]. apply andb_true_iff in H as [H H3]. apply andb_true_iff in H as [H1 H2].
    split; [apply existsb_same; exact H1|]. split; [intros Hin; apply existsb_same in Hin; rewrite Hin in H2; discriminate|]. split; [apply whole_startb_ok; exact H3|]. split; [apply uncrammedb_ok; assumption|].
    intros d' E. rewrite E in H5. apply IH; exact H5.
Qed.
