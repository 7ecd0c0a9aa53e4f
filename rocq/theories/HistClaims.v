(** What queries, Serialize, Size and the destructor do after histories with
    deletions. *)
From Coq Require Import ZArith List Bool Lia Sorting.Sorted Permutation.
From Coq Require Import ZifyBool ZifyNat.
From Verif Require Import Base Util Store Tables Key Diva Serial Bits Spec StoreRep KeyBits KeyOrder Tree Filter RangeInt Contents Bulk
  SpecFilter SpecBlock SpecSerial Hist DelHist DelRun Claims DelClaims SerialProofs SerialClaims.
Import ListNotations.
Open Scope Z_scope.

Section F.
Variable junk : Z.
Notation c := (machine junk).
Variable s : Z.
Hypothesis Hs : 1 <= s <= 46.
Let T := machine_ok junk.
Let Hf : fits c s := machine_fits junk s ltac:(lia).
Let Hc : c_strict c = false := eq_refl.
Variables (m : loader) (keys : list key) (ops : list op) (d : diva).
Hypothesis HL : loadable m keys.
Hypothesis HA : lawful_history c s m keys ops.
Hypothesis E : history c s m keys ops = Ok d.

Lemma history_facts : valid c s d /\ last_st (d_tree d) = blankst c s /\ hd_key (d_tree d) = low_end m keys /\
  (forall k, In k (boundaries d) -> In k keys \/ k = low_end m keys \/ k = high_end m keys) /\ In (high_end m keys) (boundaries d).
Proof.
  destruct (history_holds c s Hs T Hf Hc m keys ops HL HA) as (d0 & d' & E0 & E' & (X & _ & HI & _ & HB & HE) & _ & L). rewrite E in E'. injection E' as <-.
  split; [apply (inv_valid _ _ _ _ _ _ HI)|]. split; [exact L|]. split; [apply HI|]. split; assumption.
Qed.

Theorem history_one_key int_opt k : bytes k -> suited int_opt m k k -> point_query c d k = range_query int_opt c d k k.
Proof.
  intros Bk HSu. destruct history_facts as (HV & _). apply (point_is_range c s Hs int_opt d k HV Bk). exact (history_suited junk s Hs int_opt m keys ops d k k HL HA E HSu).
Qed.
Theorem history_grows i1 i2 l r l' r' : bytes l -> bytes r -> bytes l' -> bytes r' -> suited i1 m l r -> suited i2 m l' r' ->
  le l' l -> le l r -> le r r' -> range_query i1 c d l r = Ok true -> range_query i2 c d l' r' = Ok true.
Proof.
  intros B1 B2 B3 B4 S1 S2 L1 L2 L3. apply le_iff in L1, L2, L3. destruct history_facts as (HV & _).
  apply (range_grows c s Hs i1 i2 d l r l' r'); auto; eapply history_suited; eassumption.
Qed.
Theorem history_builds_agree l r : bytes l -> bytes r -> suited true m l r -> range_query true c d l r = range_query false c d l r.
Proof.
  intros B1 B2 HSu. destruct history_facts as (HV & _). apply (range_query_any c s Hs true d l r HV B1 B2). eapply history_suited; eassumption.
Qed.
Theorem history_always_answers :
  (forall k, bytes k -> le (low_end m keys) k -> le k (high_end m keys) -> exists b, point_query c d k = Ok b) /\
  (forall i l r, bytes l -> bytes r -> suited i m l r -> le (low_end m keys) l -> le l r -> le r (high_end m keys) -> exists b, range_query i c d l r = Ok b).
Proof.
  destruct history_facts as (HV & _ & Hhd & _ & Hhi).
  assert (Hr : forall l r, bytes l -> bytes r -> le (low_end m keys) l -> le l r -> le r (high_end m keys) -> exists b, range_query false c d l r = Ok b).
  { intros l r Bl Br L1 L2 L3. apply le_iff in L1, L2, L3. pose proof (valid_sorted _ _ _ HV) as Hso.
    destruct (placed _ l Hso (v_some _ _ _ HV)) as [a st B Et H|st B Et|A pk st nk st' B Et G1 G2|H].
    - exfalso. rewrite Et in Hhd. cbn [hd_key] in Hhd. congruence.
    - unfold range_query. rewrite Et, seek_first. cbn [peek snd bind]. rewrite key_le_iff, L2. eexists; reflexivity.
    - destruct (range_query_spec c s Hs d A pk st nk st' B l r (v_size _ _ _ HV) Et (v_gap _ _ _ HV) Bl Br G1 G2 L2) as (b & Eb & _). eauto.
    - exfalso. unfold boundaries in Hhi. apply in_map_iff in Hhi as ((hk & hv) & Eh & Hin). cbn [fst] in Eh. subst hk.
      pose proof (H _ Hin) as Hlt. cbn [fst] in Hlt. rewrite (lt_nlt_trans _ _ _ Hlt L2) in L3. discriminate. }
  split.
  - intros k Bk L1 L2. rewrite (history_one_key false k Bk ltac:(intros Hd; discriminate)). apply Hr; auto. left. reflexivity.
  - intros i l r Bl Br HSu L1 L2 L3. rewrite (range_query_any c s Hs i d l r HV Bl Br) by (eapply history_suited; eassumption). apply Hr; auto.
Qed.

Lemma history_short : keys_fit keys -> short_boundaries d.
Proof.
  intros HK. destruct history_facts as (_ & _ & _ & HB & _).
  pose proof (longest_le keys 20000 HK ltac:(lia)) as Hlo. unfold short_boundaries. rewrite Forall_forall. intros e He.
  assert (Hi : In (fst e) (boundaries d)) by (apply in_map; exact He). unfold keys_fit in HK. rewrite Forall_forall in HK.
  assert (Hlen : match m with FixedLength len => Z.of_nat len <= 20000 | _ => True end).
  { destruct m as [len| |]; auto. destruct HL as [_ Hne _ [Hl _]]. destruct keys as [|k0 keys']; [congruence|]. inversion Hl; subst. apply HK. left. reflexivity. }
  apply HB in Hi as [Hi|[Hi|Hi]]; [apply HK; exact Hi| |]; rewrite Hi; destruct m; cbn [low_end high_end]; rewrite repeat_length; lia.
Qed.
Theorem history_round_trip : keys_fit keys -> forall p, readable p -> footprint d < 2 ^ 32 ->
  exists buf d', serialize c p d = Ok buf /\ Z.of_nat (length buf) = footprint d /\ deserialize c (p_int p) buf = Ok (d', p_seed p) /\
    d_size d' = d_size d /\ boundaries d' = boundaries d /\ serialize c p d' = Ok buf /\
    (forall k, bytes k -> point_query c d' k = point_query c d k) /\
    (forall i l r, bytes l -> bytes r -> le l r -> suited i m l r -> range_query i c d' l r = range_query i c d l r).
Proof.
  intros HK p Hp Hfp. destruct history_facts as (HV & Hl & _).
  destruct (round_trip_all c s Hs T Hf p d HV Hl Hp (history_short HK) Hfp) as (buf & d' & H1 & H2 & H3 & H4 & H5 & H6 & H7 & H8).
  exists buf, d'. do 7 (split; [assumption|]). intros i l r Kl Kr Hle Hsu. apply H8; auto. eapply history_suited; eassumption.
Qed.
Theorem history_size p buf : serialize c p d = Ok buf ->
  size c false d = Z.of_nat (length buf) /\
  size c true d = Z.of_nat (length buf) - fold_right Z.add 0 (map (fun k => padded (length k) - Z.of_nat (length k)) (boundaries d)).
Proof.
  intros Hb. destruct history_facts as (HV & Hll & _).
  pose proof (valid_whole c s Hs T Hf d HV Hll) as HW. pose proof (v_size _ _ _ HV) as Hd.
  pose proof (serialize_ok c s p d Hd HW) as HS. assert (Hfp : footprint d < 2 ^ 32) by (destruct (Z.ltb_spec (footprint d) (2 ^ 32)); [assumption|rewrite HS in Hb; discriminate]).
  replace (footprint d <? 2 ^ 32) with true in HS by lia. destruct HS as (buf' & E2 & Hl). rewrite Hb in E2. apply ok_inj in E2. subst buf'. rewrite Hl.
  rewrite (size_ok c s false d Hd HW) by discriminate. rewrite (size_int c s d Hd HW). unfold boundaries. rewrite map_map.
  split; [apply Z.mod_small; lia|]. apply Z.mod_small. pose proof (pad_sum c s (d_tree d) HW). rewrite footprint_need in *. lia.
Qed.
(** *** few positive answers *)
Theorem history_few_positives a b : neighbours d a b -> exists (n : nat) (P : list Z),
  510 * 2 ^ (s - 1) < top n b - top n a < 1024 * 2 ^ (s - 1) /\
  (length P <= count_between a b (remaining keys ops))%nat /\
  (forall k, bytes k -> lt a k -> lt k b -> (point_query c d k = Ok true <-> In (top n k) P)) /\
  (forall l r, bytes l -> bytes r -> lt a l -> le l r -> lt r b ->
     (range_query false c d l r = Ok true <-> exists p, In p P /\ top n l <= p <= top n r)).
Proof.
  intros Hn. destruct (history_explained junk s Hs m keys ops d a b HL HA E Hn) as (q & Hq & H). cbv zeta in H. destruct H as [H1 H2].
  set (n := (q + Z.to_nat s - 1)%nat) in *. set (inner := in_blocks_of d keys (remaining keys ops)) in *.
  exists n, (map (top n) (filter (fun k => negb (ltb k a) && ltb k b) inner)).
  destruct (history_holds c s Hs T Hf Hc m keys ops HL HA) as (d0 & d' & E0 & E' & HH & _). rewrite E in E'. injection E' as <-.
  assert (Hin : forall x, In x (map (top n) (filter (fun k => negb (ltb k a) && ltb k b) inner)) <-> exists k', In k' inner /\ le a k' /\ lt k' b /\ top n k' = x).
  { intros x. rewrite in_map_iff. split.
    - intros (k' & Ex & Hk). apply filter_In in Hk as [Hk Hc2]. apply andb_true_iff in Hc2 as [C1 C2]. exists k'. repeat split; auto.
      apply le_iff. destruct (key_lt k' a) eqn:K; [|reflexivity]. apply lt_iff in K. unfold lt in K. rewrite K in C1. discriminate.
    - intros (k' & Hk & L1 & L2 & Ex). exists k'. split; [exact Ex|]. apply filter_In. split; [exact Hk|]. rewrite L2, andb_true_r. apply negb_true_iff.
      destruct (ltb k' a) eqn:K; [|reflexivity]. assert (K2 : lt k' a) by exact K. apply lt_iff in K2. apply le_iff in L1. congruence. }
  split; [|split; [|split]].
  - destruct Hn as (be & af & EB). destruct history_facts as (_ & _ & _ & HB & _).
    assert (Kall : forall k, In k (boundaries d) -> kok k).
    { intros k Hk. destruct (HB k Hk) as [H|[-> | ->]].
      - pose proof (ld_bytes _ _ HL) as F. rewrite Forall_forall in F. apply F. exact H.
      - destruct m; cbn [low_end]; apply kok_repeat; lia.
      - destruct m; cbn [high_end]; apply kok_repeat; lia. }
    assert (Ka : kok a) by (apply Kall; rewrite EB; apply in_or_app; right; left; reflexivity).
    assert (Kb : kok b) by (apply Kall; rewrite EB; apply in_or_app; right; right; left; reflexivity).
    rewrite !top_pre in * by assumption. replace (Z.of_nat n) with (Z.of_nat q + (s - 1)) by (unfold n; lia). rewrite !pre_split by lia.
    pose proof (sl_range a (Z.of_nat q) (s - 1) ltac:(lia)) as R1. pose proof (sl_range b (Z.of_nat q) (s - 1) ltac:(lia)) as R2.
    set (P2 := 2 ^ (s - 1)) in *. set (u := pre (Z.of_nat q) b) in *. set (v := pre (Z.of_nat q) a) in *. set (x := sl a (Z.of_nat q) (s - 1)) in *. set (y := sl b (Z.of_nat q) (s - 1)) in *. clearbody P2 u v x y.
    clear -Hq R1 R2. nia.
  - rewrite map_length. unfold count_between. destruct HH as (X & HP & _). 
    assert (HX : Permutation inner X) by (apply remove_all; exact HP).
    assert (Hfl : forall f (l1 l2 : list key), Permutation l1 l2 -> length (filter f l1) = length (filter f l2)).
    { clear. intros f l1 l2 H. induction H; cbn [filter]; auto.
      - destruct (f x); cbn [length]; lia.
      - destruct (f x), (f y); reflexivity.
      - lia. }
    rewrite (Hfl _ _ _ HX), (Hfl _ _ _ HP), filter_app, app_length. lia.
  - intros k Bk L1 L2. destruct (H1 k Bk L1 L2) as (ans & Ea & Hans). rewrite Hin, <- Hans, Ea. split; [intros H; injection H as ->; reflexivity|intros ->; reflexivity].
  - intros l r Bl Br L1 L2 L3. destruct (H2 l r Bl Br L1 L2 L3) as (ans & Ea & Hans). rewrite Ea. split.
    + intros H. injection H as ->. destruct (proj1 Hans eq_refl) as (k' & K1 & K2 & K3 & K4). exists (top n k'). split; [apply Hin; exists k'; auto|exact K4].
    + intros (p & Hp & Hr). apply Hin in Hp as (k' & K1 & K2 & K3 & K4). f_equal. apply Hans. exists k'. subst p. auto.
Qed.
Theorem history_destroy : destroy d = Ok (map snd (d_tree d)).
Proof. destruct history_facts as (HV & Hl & _). apply (valid_destroy c s T d HV Hl). Qed.
End F.
