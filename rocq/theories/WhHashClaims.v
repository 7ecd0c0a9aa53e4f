(** What follows for the hash table: answers, room, and two ways to run forever. *)
From Coq Require Import ZArith List Bool Arith Lia Permutation.
From Verif Require Import Base Key KeyOrder WhKey WhHash SpecHash WhHashProofs.
Import ListNotations.
Open Scope Z_scope.

Lemma table_is_a_map H fuel cs f t rs : proper H no_nodes cs f -> trun fuel hinit cs = Ok (t, rs) ->
  rs = repeat true (length cs) /\ forall k, get t k (H k) = Ok (f k) /\ (f k <> None -> peek t (H k) = true).
Proof.
  intros P E. destruct (trun_stores H fuel cs hinit no_nodes f (hinit_stores H) P) as [E'|(t' & rs' & E' & S & ->)]; rewrite E in E'; [discriminate|].
  injection E' as <- ->. split; [reflexivity|]. intros k. split; [apply get_stores; exact S|].
  intros N. destruct (f k) as [m|] eqn:Ef; [|contradiction]. exact (peek_stores H t f k m S Ef).
Qed.
Lemma table_no_UB H fuel cs f : proper H no_nodes cs f -> trun fuel hinit cs <> UB.
Proof.
  intros P. destruct (trun_stores H fuel cs hinit no_nodes f (hinit_stores H) P) as [->|(t' & rs' & -> & _)]; discriminate.
Qed.

(** ** Histories on lists *)
Definition node_eqb (a b : node) : bool := (n_at a =? n_at b) && key_eq (n_key a) (n_key b) && (n_hash a =? n_hash b).
Lemma node_eqb_eq a b : node_eqb a b = true -> a = b.
Proof.
  unfold node_eqb. intros E. apply andb_true_iff in E. destruct E as [E E3]. apply andb_true_iff in E. destruct E as [E1 E2].
  apply Z.eqb_eq in E1, E3. apply key_eq_iff in E2. destruct a, b; cbn in *; congruence.
Qed.
Definition without (ns : list node) (k : key) : list node := filter (fun x => negb (key_eq (n_key x) k)) ns.
Fixpoint properb (H : key -> Z) (ns : list node) (cs : list tcall) : option (list node) :=
  match cs with
  | [] => Some ns
  | Add m :: cs' =>
      if (n_hash m =? H (n_key m)) && forallb (fun x => negb (key_eq (n_key x) (n_key m)) && negb (n_at x =? n_at m)) ns
      then properb H (m :: ns) cs' else None
  | Drop m :: cs' => if existsb (node_eqb m) ns then properb H (without ns (n_key m)) cs' else None
  | Swap m m' :: cs' =>
      if existsb (node_eqb m) ns && key_eq (n_key m') (n_key m) && (n_hash m' =? H (n_key m)) && forallb (fun x => key_eq (n_key x) (n_key m) || negb (n_at x =? n_at m')) ns
      then properb H (m' :: without ns (n_key m)) cs' else None
  end.
Definition listed (f : tmap) (ns : list node) : Prop := forall k x, f k = Some x <-> In x ns /\ n_key x = k.
Lemma listed_put f ns m : listed f ns -> listed (with_node f (n_key m) (Some m)) (m :: without ns (n_key m)).
Proof.
  intros Hl k x. destruct (key_eq k (n_key m)) eqn:E.
  - apply key_eq_iff in E. subst k. rewrite with_node_same. split.
    + intros Ex. injection Ex as <-. split; [left|]; reflexivity.
    + intros [[->|Hx] Hk]; [reflexivity|]. apply filter_In in Hx. destruct Hx as [_ Hx]. rewrite Hk, key_eq_refl in Hx. discriminate.
  - assert (N : k <> n_key m) by (intros ->; rewrite key_eq_refl in E; discriminate).
    rewrite with_node_other by exact N. rewrite (Hl k x). split; intros [Hx Hk]; (split; [|exact Hk]).
    + right. apply filter_In. split; [exact Hx|]. rewrite Hk, E. reflexivity.
    + destruct Hx as [->|Hx]; [congruence|]. apply filter_In in Hx. apply Hx.
Qed.
Lemma listed_cut f ns k0 : listed f ns -> listed (with_node f k0 None) (without ns k0).
Proof.
  intros Hl k x. destruct (key_eq k k0) eqn:E.
  - apply key_eq_iff in E. subst k. rewrite with_node_same. split; [discriminate|].
    intros [Hx Hk]. apply filter_In in Hx. destruct Hx as [_ Hx]. rewrite Hk, key_eq_refl in Hx. discriminate.
  - assert (N : k <> k0) by (intros ->; rewrite key_eq_refl in E; discriminate).
    rewrite with_node_other by exact N. rewrite (Hl k x). split; intros [Hx Hk]; (split; [|exact Hk]).
    + apply filter_In. split; [exact Hx|]. rewrite Hk, E. reflexivity.
    + apply filter_In in Hx. apply Hx.
Qed.
Lemma without_all ns k : forallb (fun x => negb (key_eq (n_key x) k)) ns = true -> without ns k = ns.
Proof.
  induction ns as [|x ns IH]; cbn; [reflexivity|]. intros E. apply andb_true_iff in E. destruct E as [E1 E]. rewrite E1. f_equal. apply IH. exact E.
Qed.
Lemma properb_ok H cs : forall ns f ns', listed f ns -> properb H ns cs = Some ns' -> exists f', proper H f cs f' /\ listed f' ns'.
Proof.
  induction cs as [|c cs IH]; intros ns f ns' Hl E; cbn [properb] in E.
  - injection E as <-. exists f. split; [constructor|exact Hl].
  - destruct c as [m|m|m m'].
    + destruct ((n_hash m =? H (n_key m)) && forallb (fun x => negb (key_eq (n_key x) (n_key m)) && negb (n_at x =? n_at m)) ns) eqn:C; [|discriminate].
      apply andb_true_iff in C. destruct C as [C1 C2]. apply Z.eqb_eq in C1. rewrite forallb_forall in C2.
      assert (Ew : without ns (n_key m) = ns).
      { apply without_all. apply forallb_forall. intros x Hx. specialize (C2 x Hx). apply andb_true_iff in C2. apply C2. }
      pose proof (listed_put f ns m Hl) as Hl1. rewrite Ew in Hl1.
      destruct (IH _ _ _ Hl1 E) as (f' & P & Hl'). exists f'. split; [|exact Hl'].
      constructor; [exact C1| | |exact P].
      * destruct (f (n_key m)) as [x|] eqn:Ef; [|reflexivity]. exfalso. apply Hl in Ef. destruct Ef as [Hx Hk].
        specialize (C2 x Hx). rewrite Hk, key_eq_refl in C2. discriminate.
      * intros q x Ex _. apply Hl in Ex. destruct Ex as [Hx _]. specialize (C2 x Hx). apply andb_true_iff in C2. destruct C2 as [_ C2].
        apply negb_true_iff in C2. apply Z.eqb_neq in C2. exact C2.
    + destruct (existsb (node_eqb m) ns) eqn:C; [|discriminate]. apply existsb_exists in C. destruct C as (x & Hx & C). apply node_eqb_eq in C. subst x.
      destruct (IH _ _ _ (listed_cut f ns (n_key m) Hl) E) as (f' & P & Hl'). exists f'. split; [|exact Hl']. constructor; [|exact P].
      apply Hl. auto.
    + destruct (existsb (node_eqb m) ns && key_eq (n_key m') (n_key m) && (n_hash m' =? H (n_key m)) && forallb (fun x => key_eq (n_key x) (n_key m) || negb (n_at x =? n_at m')) ns) eqn:C; [|discriminate].
      apply andb_true_iff in C. destruct C as [C C4]. apply andb_true_iff in C. destruct C as [C C3]. apply andb_true_iff in C. destruct C as [C1 C2].
      apply existsb_exists in C1. destruct C1 as (x & Hx & C1). apply node_eqb_eq in C1. subst x. apply key_eq_iff in C2. apply Z.eqb_eq in C3. rewrite forallb_forall in C4.
      pose proof (listed_put f ns m' Hl) as Hl1. rewrite C2 in Hl1.
      destruct (IH _ _ _ Hl1 E) as (f' & P & Hl'). exists f'. split; [|exact Hl']. constructor; [apply Hl; auto|exact C2|exact C3| |exact P].
      intros q x Ex Nq. apply Hl in Ex. destruct Ex as [Hx' Hk]. specialize (C4 x Hx'). apply orb_true_iff in C4. destruct C4 as [C4|C4].
      * apply key_eq_iff in C4. congruence.
      * apply negb_true_iff in C4. apply Z.eqb_neq in C4. exact C4.
Qed.
Lemma listed_nil : listed no_nodes [].
Proof. intros k x. split; [discriminate|intros [[] _]]. Qed.

(** ** Nodes with equal hashes *)
Lemma too_many H t f (ms : list node) h : stores H t f -> bswap h = h -> NoDup ms -> (forall m, In m ms -> f (n_key m) = Some m /\ n_hash m = h) -> (length ms <= BKT)%nat.
Proof.
  intros (L & G & _ & _ & _ & Hf) Eh Hn Hm.
  assert (Hin : incl ms (L (Z.land h (t_mask t)))).
  { intros m Hi. destruct (Hm m Hi) as [E E2]. apply Hf in E. destruct E as [E _]. apply in_all in E. destruct E as (j & _ & Hj).
    destruct (g_home _ _ G j m Hj) as [E|E]; rewrite E2 in E; [|rewrite Eh in E]; rewrite E; exact Hj. }
  etransitivity; [exact (NoDup_incl_length Hn Hin)|apply (g_small _ _ G)].
Qed.
(** nine prefixes whose hash is 0x12343412 *)
Definition nine_keys : list key :=
  [[65; 63; 233; 22; 60]; [66; 203; 26; 70; 47]; [67; 200; 153; 45; 221]; [68; 35; 253; 231; 9]; [69; 32; 126; 140; 251];
   [70; 212; 141; 220; 232]; [71; 215; 14; 183; 26]; [72; 243; 50; 164; 68]; [73; 240; 177; 207; 182]].
Fixpoint nodes_at (a : Z) (ks : list key) : list node := match ks with [] => [] | k :: r => mknode a k (crc32c k) :: nodes_at (a + 32) r end.
Definition nine : list node := nodes_at 4096 nine_keys.
Lemma equal_hashes : exists f, proper crc32c no_nodes (map Add nine) f /\ forall fuel, trun fuel hinit (map Add nine) = Fuel.
Proof.
  destruct (properb crc32c [] (map Add nine)) as [ns|] eqn:E; [|vm_compute in E; discriminate].
  assert (En : ns = rev nine) by (vm_compute in E; injection E as <-; vm_compute; reflexivity).
  destruct (properb_ok _ _ _ _ _ listed_nil E) as (f & P & Hl). exists f. split; [exact P|]. intros fuel.
  destruct (trun_stores crc32c fuel _ hinit no_nodes f (hinit_stores _) P) as [E'|(t & rs & _ & S & _)]; [exact E'|exfalso].
  assert (Hh : forallb (fun m => n_hash m =? 305411090) nine = true) by (vm_compute; reflexivity).
  assert (Hd : NoDup nine).
  { apply (NoDup_map_inv n_at). vm_compute. repeat constructor; cbn; intuition discriminate. }
  assert (Hc : (length nine <= BKT)%nat).
  { apply (too_many crc32c t f nine 305411090 S); [vm_compute; reflexivity|exact Hd|]. intros m Hm. split.
    - apply Hl. split; [rewrite En; apply in_rev in Hm; exact Hm|reflexivity].
    - rewrite forallb_forall in Hh. apply Z.eqb_eq. exact (Hh m Hm). }
  vm_compute in Hc. lia.
Qed.

(** ** Moves that go round *)
Lemma path_round mask L A B (mA0 mA1 mB0 : node) :
  (BKT <= length (L A))%nat -> (BKT <= length (L B))%nat -> A <> B ->
  nth_error (L A) 0 = Some mA0 -> nth_error (L A) 1 = Some mA1 -> nth_error (L B) 0 = Some mB0 ->
  Z.land (n_hash mA0) mask = A -> Z.land (bswap (n_hash mA0)) mask = B ->
  Z.land (n_hash mA1) mask = B -> Z.land (n_hash mB0) mask = A ->
  forall f, path f mask L A 1 = Fuel /\ path f mask L B 1 = Fuel.
Proof.
  intros FA FB N E0 E1 EB H0 H0' H1 HB. induction f as [|f [IA IB]]; [split; reflexivity|].
  cbn [path]. destruct (Nat.ltb_spec (length (L A)) BKT); [lia|]. destruct (Nat.ltb_spec (length (L B)) BKT); [lia|].
  change (seq 0 BKT) with ([0; 1]%nat ++ seq 2 6). cbn [app tryp]. rewrite E0, E1, EB. unfold away, cost.
  rewrite H0, H0', H1, HB. rewrite !Z.eqb_refl. cbn [negb].
  assert (AB : (A =? B) = false) by (apply Z.eqb_neq; exact N).
  assert (BA : (B =? A) = false) by (apply Z.eqb_neq; congruence).
  rewrite !AB, !BA. cbn [negb]. rewrite !Z.eqb_refl, !AB, !BA, IA, IB. cbn [pred].
  split; [|reflexivity]. destruct f as [|f]; [reflexivity|]. cbn [path]. destruct (Nat.ltb_spec (length (L B)) BKT); [lia|]. reflexivity.
Qed.
(** ten prefixes with buckets 1 and 2, and fifteen with buckets 2 and 1 *)
Definition ten_keys : list key :=
  [[29; 150; 183; 216]; [26; 114; 231; 65]; [226; 40; 250; 239]; [229; 204; 170; 118]; [227; 235; 44; 182];
   [228; 15; 124; 47]; [28; 85; 97; 129]; [27; 177; 49; 24]; [225; 109; 129; 5]; [230; 137; 209; 156]].
Definition fifteen_keys : list key :=
  [[36; 173; 223; 225]; [35; 73; 143; 120]; [219; 19; 146; 214]; [220; 247; 194; 79]; [218; 208; 68; 143];
   [221; 52; 20; 22]; [37; 110; 9; 184]; [34; 138; 89; 33]; [216; 86; 233; 60]; [223; 178; 185; 165];
   [39; 232; 164; 11]; [32; 12; 244; 146]; [38; 43; 114; 82]; [33; 207; 34; 203]; [217; 149; 63; 101]].
Definition ten : list node := nodes_at 4096 ten_keys.
Definition fifteen : list node := nodes_at 8192 fifteen_keys.
Definition round_calls : list tcall :=
  map Add (firstn 1 ten) ++ map Add fifteen ++ map Drop (skipn 14 fifteen) ++ map Drop (firstn 7 (skipn 1 fifteen)) ++ map Add (firstn 8 (skipn 1 ten)).
Definition last_call : list tcall := map Add (skipn 9 ten).
(** the slots that matter after [round_calls] *)
Definition round_view (t : table) : Z * nat * nat * slot * slot * slot :=
  (t_mask t, slot_count (t_bkt t 1), slot_count (t_bkt t 2), hslot t 1 0, hslot t 1 1, hslot t 2 0).
Lemma trun_app fuel a : forall t b, trun fuel t (a ++ b) =
  let* '(t1, r1) := trun fuel t a in let* '(t2, r2) := trun fuel t1 b in Ok (t2, r1 ++ r2).
Proof.
  induction a as [|c a IH]; intros t b; cbn [trun app bind].
  - destruct (trun fuel t b) as [[t2 r2]| |]; reflexivity.
  - destruct (tdo fuel t c) as [[t1 r]| |]; cbn [bind]; [|reflexivity|reflexivity]. rewrite IH.
    destruct (trun fuel t1 a) as [[t2 r2]| |]; cbn [bind]; [|reflexivity|reflexivity].
    destruct (trun fuel t2 b) as [[t3 r3]| |]; reflexivity.
Qed.
Lemma round_state fuel t rs : trun fuel hinit round_calls = Ok (t, rs) ->
  round_view t = (4095, 8%nat, 8%nat, cell (nth 8 ten (mknode 0 [] 0)), cell (nth 0 fifteen (mknode 0 [] 0)), cell (nth 0 ten (mknode 0 [] 0))).
Proof.
  intros E. assert (Hx : match trun fuel hinit round_calls with Ok (t, _) => round_view t = (4095, 8%nat, 8%nat, cell (nth 8 ten (mknode 0 [] 0)), cell (nth 0 fifteen (mknode 0 [] 0)), cell (nth 0 ten (mknode 0 [] 0))) | _ => True end).
  { destruct fuel as [|[|[|fuel]]]; vm_compute; reflexivity || exact I. }
  rewrite E in Hx. exact Hx.
Qed.
Lemma slot_nth t L X i m : rep t L -> hslot t X i = cell m -> nth_error (L X) i = Some m.
Proof.
  intros R E. rewrite (hslot_rep _ _ X i R) in E. destruct (nth_error (L X) i) as [q|]; [|discriminate]. unfold cell in E. injection E as _ ->. reflexivity.
Qed.
Lemma moves_round : exists f, proper crc32c no_nodes (round_calls ++ last_call) f
  /\ (forall fuel, (3 <= fuel)%nat -> exists t rs, trun fuel hinit round_calls = Ok (t, rs))
  /\ forall fuel, trun fuel hinit (round_calls ++ last_call) = Fuel.
Proof.
  destruct (properb crc32c [] (round_calls ++ last_call)) as [ns|] eqn:E; [|vm_compute in E; discriminate].
  destruct (properb_ok _ _ _ _ _ listed_nil E) as (f & P & _). exists f. split; [exact P|]. clear E ns.
  destruct (properb crc32c [] round_calls) as [ns|] eqn:E; [|vm_compute in E; discriminate].
  destruct (properb_ok _ _ _ _ _ listed_nil E) as (f1 & P1 & _). clear E ns. split.
  - intros fuel Hf. assert (Hx : match trun fuel hinit round_calls with Ok _ => true | _ => false end = true).
    { destruct fuel as [|[|[|fuel]]]; [lia|lia|lia|]. vm_compute. reflexivity. }
    destruct (trun fuel hinit round_calls) as [[t rs]| |]; try discriminate. exists t, rs. reflexivity.
  - intros fuel. rewrite trun_app.
    destruct (trun_stores crc32c fuel _ hinit no_nodes f1 (hinit_stores _) P1) as [->|(t & rs & Et & S & _)]; [reflexivity|].
    pose proof (round_state _ _ _ Et) as V. rewrite Et. cbn [bind].
    destruct S as (L & G & _). destruct G as [R M _ _]. unfold round_view in V.
    assert (Vs : t_mask t = 4095 /\ slot_count (t_bkt t 1) = 8%nat /\ slot_count (t_bkt t 2) = 8%nat /\ hslot t 1 0 = cell (nth 8 ten (mknode 0 [] 0))
      /\ hslot t 1 1 = cell (nth 0 fifteen (mknode 0 [] 0)) /\ hslot t 2 0 = cell (nth 0 ten (mknode 0 [] 0))).
    { revert V. generalize (cell (nth 8 ten (mknode 0 [] 0))) (cell (nth 0 fifteen (mknode 0 [] 0))) (cell (nth 0 ten (mknode 0 [] 0))).
      intros c1 c2 c3 V. injection V as V1 V2 V3 V4 V5 V6. auto 10. }
    destruct Vs as (Vm & V1 & V2 & V3 & V4 & V5). rewrite (count_rep _ _ 1 R) in V1. rewrite (count_rep _ _ 2 R) in V2.
    apply (slot_nth _ _ _ _ _ R) in V3, V4, V5.
    destruct fuel as [|fuel]; [reflexivity|].
    assert (C : cuckoo fuel t 1 (nth 9 ten (mknode 0 [] 0)) (pkey (n_hash (nth 9 ten (mknode 0 [] 0)))) 1 = Fuel).
    { pose proof (cuckoo_path fuel t L 1 (nth 9 ten (mknode 0 [] 0)) 1 R) as C. rewrite Vm in C.
      destruct (path_round 4095 L 1 2 _ _ _ ltac:(rewrite V1; apply le_n) ltac:(rewrite V2; apply le_n) ltac:(discriminate) V3 V4 V5
        ltac:(vm_compute; reflexivity) ltac:(vm_compute; reflexivity) ltac:(vm_compute; reflexivity) ltac:(vm_compute; reflexivity) fuel) as [EA _].
      rewrite EA in C. exact C. }
    change last_call with [Add (nth 9 ten (mknode 0 [] 0))]. revert C.
    assert (Ex : midx t (n_hash (nth 9 ten (mknode 0 [] 0))) = 1) by (unfold midx; rewrite Vm; vm_compute; reflexivity).
    revert Ex. generalize (nth 9 ten (mknode 0 [] 0)) as e. intros e Ex C. cbn [trun tdo set]. cbv zeta. rewrite Ex, C. reflexivity.
Qed.

(** ** When there is room *)
Lemma NoDup_app_l {A} (a b : list A) : NoDup (a ++ b) -> NoDup a.
Proof.
  induction a as [|x a IH]; cbn; intros N; [constructor|]. apply NoDup_cons_iff in N. destruct N as [N1 N2]. constructor; [|exact (IH N2)].
  intros Hx. apply N1. apply in_or_app. left. exact Hx.
Qed.
Lemma stores_room H t f m : stores H t f -> n_hash m = H (n_key m) -> f (n_key m) = None -> fresh_but f (n_key m) m -> t_mask t = 4095 -> uncrowded H f (n_key m) ->
  forall fuel, exists t', set (S (S fuel)) t m = Ok t' /\ t_mask t' = 4095 /\ stores H t' (with_node f (n_key m) (Some m)).
Proof.
  intros S Eh Ek Hfr Hmask Hu fuel.
  assert (Hl : (slot_count (t_bkt t (midx t (n_hash m))) < BKT)%nat).
  { destruct S as (L & G & Hh & Hn & _ & Hf). rewrite (count_rep _ _ _ (g_rep _ _ G)).
    pose proof (masked_range (t_mask t) (n_hash m) (g_mask _ _ G)) as Rx. fold (midx t (n_hash m)) in Rx.
    specialize (Hu (map n_key (L (midx t (n_hash m))))). rewrite map_length in Hu. apply Hu.
    - destruct (all_split (t_mask t) L _ Rx) as (r & P & _). apply (Permutation_map n_key) in P. pose proof (Permutation_NoDup P Hn) as N.
      rewrite map_app in N. exact (NoDup_app_l _ _ N).
    - intros q Hq. apply in_map_iff in Hq. destruct Hq as (x & <- & Hx).
      pose proof (in_bucket _ _ _ _ Rx Hx) as Hall. split.
      + rewrite (proj2 (Hf (n_key x) x) (conj Hall eq_refl)). discriminate.
      + pose proof (g_home _ _ G _ _ Hx) as Hx2. unfold home, midx in Hx2. rewrite (Hh x Hall), Eh, Hmask in Hx2. exact Hx2. }
  destruct (set_stores H (Datatypes.S (Datatypes.S fuel)) t f m S Eh Ek Hfr) as [E|(t' & E & S')];
    revert E; cbn [set cuckoo]; cbv zeta; apply Nat.ltb_lt in Hl; rewrite Hl; cbn [bind]; intros E; [discriminate|].
  exists t'. split; [exact E|]. split; [|exact S']. injection E as <-. exact Hmask.
Qed.
Lemma del_slot_mask is t mid m tag : t_mask (fst (del_slot is t mid m tag)) = t_mask t.
Proof. induction is as [|i is IH]; cbn [del_slot]; [reflexivity|]. destruct ((fst (hslot t mid i) =? tag) && same_node (snd (hslot t mid i)) m); [reflexivity|exact IH]. Qed.
Lemma replace_slot_mask is t mid m tag m' : t_mask (fst (replace_slot is t mid m tag m')) = t_mask t.
Proof. induction is as [|i is IH]; cbn [replace_slot]; [reflexivity|]. destruct ((fst (hslot t mid i) =? tag) && same_node (snd (hslot t mid i)) m); [reflexivity|exact IH]. Qed.
Lemma del_mask t m : t_mask (fst (del t m)) = t_mask t.
Proof.
  unfold del. cbv zeta. pose proof (del_slot_mask (seq 0 BKT) t (midx t (n_hash m)) m (pkey (n_hash m))) as E1.
  destruct (del_slot (seq 0 BKT) t (midx t (n_hash m)) m (pkey (n_hash m))) as [t1 [|]]; cbn [fst] in *; [exact E1|]. rewrite del_slot_mask. exact E1.
Qed.
Lemma replace_mask t m m' : t_mask (fst (replace t m m')) = t_mask t.
Proof.
  unfold replace. cbv zeta. pose proof (replace_slot_mask (seq 0 BKT) t (midx t (n_hash m)) m (pkey (n_hash m)) m') as E1.
  destruct (replace_slot (seq 0 BKT) t (midx t (n_hash m)) m (pkey (n_hash m)) m') as [t1 [|]]; cbn [fst] in *; [exact E1|]. rewrite replace_slot_mask. exact E1.
Qed.
Lemma trun_room H fuel cs : forall t f f', stores H t f -> t_mask t = 4095 -> proper H f cs f' -> roomy H f cs ->
  exists t' rs, trun (S (S fuel)) t cs = Ok (t', rs).
Proof.
  induction cs as [|c cs IH]; intros t f f' S Hm P Hr; cbn [trun]; [exists t, []; reflexivity|].
  assert (Hstep : exists t1 f1, tdo (Datatypes.S (Datatypes.S fuel)) t c = Ok (t1, true) /\ stores H t1 f1 /\ t_mask t1 = 4095 /\ proper H f1 cs f' /\ roomy H f1 cs).
  { inversion P; subst; cbn [roomy] in Hr; cbn [tdo].
    - destruct Hr as [Hu Hr]. destruct (stores_room H t f m S) with (fuel := fuel) as (t1 & E & Em & S1); try assumption.
      rewrite E. cbn [bind]. exists t1. eexists. split; [reflexivity|]. split; [exact S1|]. auto.
    - destruct (del_stores H t f m S) as (t1 & E & S1); try assumption. pose proof (del_mask t m) as Em. rewrite E in *. cbn [fst] in Em.
      exists t1. eexists. split; [reflexivity|]. split; [exact S1|]. split; [congruence|]. auto.
    - destruct (replace_stores H t f m m' S) as (t1 & E & S1); try assumption. pose proof (replace_mask t m m') as Em. rewrite E in *. cbn [fst] in Em.
      exists t1. eexists. split; [reflexivity|]. split; [exact S1|]. split; [congruence|]. auto. }
  destruct Hstep as (t1 & f1 & -> & S1 & Hm1 & P1 & R1). cbn [bind].
  destruct (IH t1 f1 f' S1 Hm1 P1 R1) as (t' & rs & ->). cbn [bind]. eauto.
Qed.
(** a short history is roomy *)
Lemma roomy_short H cs : forall f (ks : list key), (forall q, f q <> None -> In q ks) -> (length ks + length cs <= 8)%nat -> roomy H f cs.
Proof.
  assert (Hc : forall f ks k x, (forall q, f q <> None -> In q ks) -> forall q, with_node f k x q <> None -> In q (k :: ks)).
  { intros f ks k x Hf q Hq. destruct (key_eq q k) eqn:E; [apply key_eq_iff in E; left; congruence|right].
    apply Hf. rewrite with_node_other in Hq; [exact Hq|]. intros ->. rewrite key_eq_refl in E. discriminate. }
  induction cs as [|c cs IH]; intros f ks Hf Hl; cbn [roomy length] in *; [exact I|]. destruct c as [m|m|m m'].
  - split.
    + intros l Nd Hk. assert (Hi : incl l ks) by (intros q Hq; apply Hf, (Hk q Hq)). pose proof (NoDup_incl_length Nd Hi). lia.
    + apply (IH _ (n_key m :: ks)); [apply Hc; exact Hf|cbn [length]; lia].
  - apply (IH _ (n_key m :: ks)); [apply Hc; exact Hf|cbn [length]; lia].
  - apply (IH _ (n_key m :: ks)); [apply Hc; exact Hf|cbn [length]; lia].
Qed.
