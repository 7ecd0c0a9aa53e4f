(** Proofs about the hash table of WhHash.v: it is a finite map. *)
From Coq Require Import ZArith List Bool Arith Lia Permutation.
From Verif Require Import Base Key KeyOrder WhKey WhHash SpecHash.
Import ListNotations.
Open Scope Z_scope.

(** ** Buckets as lists of nodes *)
Definition cell (m : node) : slot := (pkey (n_hash m), Some m).
Definition bk (l : list node) : bucket := map cell l ++ repeat empty_slot (BKT - length l).
Fixpoint lput (l : list node) (i : nat) (m : node) : list node :=
  match l, i with [], _ => [] | _ :: l', O => m :: l' | x :: l', S i' => x :: lput l' i' m end.

Lemma pkey_nz h : (pkey h =? 0) = false.
Proof. unfold pkey. cbv zeta. destruct (Z.lxor (h mod 2 ^ 16) (Z.shiftr h 16 mod 2 ^ 16) =? 0) eqn:E; [reflexivity|exact E]. Qed.

Lemma slot_count_bk l : slot_count (bk l) = length l.
Proof.
  unfold bk. generalize (BKT - length l)%nat as r. induction l as [|m l IH]; intros r; cbn [map app length slot_count cell].
  - destruct r; reflexivity.
  - unfold cell at 1. rewrite pkey_nz, IH. reflexivity.
Qed.
Lemma put_at_app a x b s : put_at (a ++ x :: b) (length a) s = a ++ s :: b.
Proof. induction a as [|y a IH]; cbn; [reflexivity|]. rewrite IH. reflexivity. Qed.
Lemma put_at_at a x b i s : i = length a -> put_at (a ++ x :: b) i s = a ++ s :: b.
Proof. intros ->. apply put_at_app. Qed.
Lemma put_at_app1 a b i s : (i < length a)%nat -> put_at (a ++ b) i s = put_at a i s ++ b.
Proof.
  revert i. induction a as [|y a IH]; intros [|i] Hi; cbn in *; try lia; [reflexivity|]. rewrite IH by lia. reflexivity.
Qed.
Lemma bk_room l : (length l < BKT)%nat -> bk l = map cell l ++ empty_slot :: repeat empty_slot (BKT - S (length l)).
Proof.
  intros Hl. unfold bk. replace (BKT - length l)%nat with (S (BKT - S (length l))) by lia. reflexivity.
Qed.
Lemma put_end l m : (length l < BKT)%nat -> put_at (bk l) (length l) (cell m) = bk (l ++ [m]).
Proof.
  intros Hl. rewrite bk_room by exact Hl.
  replace (length l) with (length (map cell l)) at 2 by apply map_length. rewrite put_at_app.
  unfold bk. rewrite map_app, <- app_assoc, app_length. cbn [map app length].
  replace (BKT - (length l + 1))%nat with (BKT - S (length l))%nat by lia. reflexivity.
Qed.
Lemma lput_len l i m : length (lput l i m) = length l.
Proof. revert i. induction l as [|x l IH]; intros [|i]; cbn; congruence. Qed.
Lemma put_mid l i m : (i < length l)%nat -> put_at (bk l) i (cell m) = bk (lput l i m).
Proof.
  intros Hi. unfold bk. rewrite put_at_app1 by (rewrite map_length; exact Hi). rewrite lput_len. f_equal.
  clear - Hi. revert i Hi. induction l as [|x l IH]; intros [|i] Hi; cbn in *; try lia; [reflexivity|]. rewrite IH by lia. reflexivity.
Qed.
Lemma nth_bk l i : nth i (bk l) empty_slot = match nth_error l i with Some m => cell m | None => empty_slot end.
Proof.
  unfold bk. generalize (BKT - length l)%nat as r. revert i.
  induction l as [|x l IH]; intros i r.
  - cbn [map app]. rewrite nth_repeat. destruct i; reflexivity.
  - destruct i as [|i]; cbn [map app nth nth_error]; [reflexivity|apply IH].
Qed.
(** taking slot [i] out: the last slot in use moves there *)
Lemma take_out a m b : (length (a ++ m :: b) <= BKT)%nat ->
  exists l', put_at (put_at (bk (a ++ m :: b)) (length a) (nth (length (a ++ m :: b) - 1) (bk (a ++ m :: b)) empty_slot)) (length (a ++ m :: b) - 1) empty_slot = bk l'
  /\ Permutation (m :: l') (a ++ m :: b)
  /\ forall i, (i < length a)%nat -> nth_error l' i = nth_error (a ++ m :: b) i.
Proof.
  intros Hlen. destruct b as [|y b0].
  - exists a. assert (E : bk (a ++ [m]) = map cell a ++ cell m :: repeat empty_slot (BKT - S (length a))).
    { unfold bk. rewrite map_app, <- app_assoc, app_length. cbn [map app length].
      replace (BKT - (length a + 1))%nat with (BKT - S (length a))%nat by lia. reflexivity. }
    rewrite nth_bk, E. rewrite app_length in *. cbn [length] in *.
    replace (length a + 1 - 1)%nat with (length a) by lia.
    rewrite nth_error_app2, Nat.sub_diag by lia. cbn [nth_error].
    rewrite !put_at_at by (symmetry; apply map_length).
    split; [|split].
    + symmetry. apply bk_room. lia.
    + apply Permutation_cons_append.
    + intros i Hi. rewrite nth_error_app1 by exact Hi. reflexivity.
  - destruct (exists_last (l := y :: b0)) as [b' [z Eb]]; [discriminate|]. rewrite Eb in *. clear Eb y b0.
    exists (a ++ z :: b').
    assert (E : bk (a ++ m :: b' ++ [z]) = map cell a ++ cell m :: map cell b' ++ cell z :: repeat empty_slot (BKT - (length a + length b' + 2))).
    { unfold bk. rewrite map_app. cbn [map]. rewrite map_app, <- app_assoc, !app_length. cbn [map app length]. rewrite app_length, <- app_assoc. cbn [length app].
      replace (BKT - (length a + S (length b' + 1)))%nat with (BKT - (length a + length b' + 2))%nat by lia. reflexivity. }
    assert (El : (length (a ++ m :: b' ++ [z]) - 1 = length (a ++ m :: b'))%nat).
    { rewrite !app_length. cbn [length]. rewrite app_length. cbn [length]. lia. }
    rewrite El. rewrite nth_bk.
    replace (a ++ m :: b' ++ [z]) with ((a ++ m :: b') ++ [z]) at 2 by (rewrite <- app_assoc; reflexivity).
    rewrite nth_error_app2, Nat.sub_diag by lia. cbn [nth_error]. rewrite E.
    rewrite put_at_at by (symmetry; apply map_length).
    replace (map cell a ++ cell z :: map cell b' ++ cell z :: repeat empty_slot (BKT - (length a + length b' + 2)))
      with ((map cell (a ++ z :: b')) ++ cell z :: repeat empty_slot (BKT - (length a + length b' + 2)))
      by (rewrite map_app; cbn [map]; rewrite <- app_assoc; reflexivity).
    rewrite put_at_at by (rewrite map_length, !app_length; reflexivity).
    rewrite !app_length in Hlen. cbn [length] in Hlen. rewrite app_length in Hlen. cbn [length] in Hlen.
    split; [|split].
    + rewrite bk_room by (rewrite app_length; cbn [length]; lia). rewrite app_length. cbn [length].
      replace (BKT - S (length a + S (length b')))%nat with (BKT - (length a + length b' + 2))%nat by lia. reflexivity.
    + etransitivity; [|apply Permutation_middle]. apply perm_skip. apply Permutation_app_head. apply Permutation_cons_append.
    + intros i Hi. rewrite !nth_error_app1 by exact Hi. reflexivity.
Qed.

(** ** Tables as functions to lists *)
Definition upd (L : Z -> list node) (X : Z) (l : list node) : Z -> list node := fun j => if j =? X then l else L j.
Definition rep (t : table) (L : Z -> list node) : Prop := forall j, t_bkt t j = bk (L j).
Lemma upd_same L X l : upd L X l X = l.
Proof. unfold upd. rewrite Z.eqb_refl. reflexivity. Qed.
Lemma upd_other L X l j : j <> X -> upd L X l j = L j.
Proof. intros Hj. unfold upd. destruct (Z.eqb_spec j X); [contradiction|reflexivity]. Qed.

Lemma rep_end t L X m : rep t L -> (length (L X) < BKT)%nat -> rep (hput t X (length (L X)) (cell m)) (upd L X (L X ++ [m])).
Proof.
  intros R Hl j. cbn. unfold upd. destruct (Z.eqb_spec j X) as [->|N]; [|apply R]. rewrite R. apply put_end. exact Hl.
Qed.
Lemma rep_mid t L X i m : rep t L -> (i < length (L X))%nat -> rep (hput t X i (cell m)) (upd L X (lput (L X) i m)).
Proof.
  intros R Hl j. cbn. unfold upd. destruct (Z.eqb_spec j X) as [->|N]; [|apply R]. rewrite R. apply put_mid. exact Hl.
Qed.
Lemma hslot_rep t L X i : rep t L -> hslot t X i = match nth_error (L X) i with Some m => cell m | None => empty_slot end.
Proof. intros R. unfold hslot. rewrite R. apply nth_bk. Qed.
Lemma count_rep t L X : rep t L -> slot_count (t_bkt t X) = length (L X).
Proof. intros R. rewrite R. apply slot_count_bk. Qed.

(** the bucket numbers *)
Definition nbk (t : table) : Z := t_mask t + 1.
Definition masked (mask : Z) : Prop := exists n, 0 <= n <= 32 /\ mask = Z.ones n.
Lemma masked_range mask h : masked mask -> 0 <= Z.land h mask < mask + 1.
Proof.
  intros (n & Hn & ->). rewrite Z.land_ones, Z.ones_equiv by lia. pose proof (Z.mod_pos_bound h (2 ^ n) ltac:(apply Z.pow_pos_nonneg; lia)). lia.
Qed.
Definition all (mask : Z) (L : Z -> list node) : list node := flat_map (fun j => L (Z.of_nat j)) (seq 0 (Z.to_nat (mask + 1))).
Lemma flat_map_same {A B} (f g : A -> list B) l : (forall x, In x l -> f x = g x) -> flat_map f l = flat_map g l.
Proof. induction l as [|x l IH]; cbn; intros E; [reflexivity|]. rewrite E, IH by auto. reflexivity. Qed.
Lemma all_split mask L X : 0 <= X < mask + 1 ->
  exists rest, Permutation (all mask L) (L X ++ rest) /\ forall l, Permutation (all mask (upd L X l)) (l ++ rest).
Proof.
  intros HX. set (x := Z.to_nat X). set (N := Z.to_nat (mask + 1)).
  assert (Es : seq 0 N = seq 0 x ++ x :: seq (S x) (N - x - 1)).
  { replace N with (x + S (N - x - 1))%nat at 1 by (unfold N, x; lia). rewrite seq_app. cbn [seq]. reflexivity. }
  exists (flat_map (fun j => L (Z.of_nat j)) (seq 0 x) ++ flat_map (fun j => L (Z.of_nat j)) (seq (S x) (N - x - 1))).
  unfold all. fold N. rewrite Es. split.
  - rewrite flat_map_app. cbn [flat_map]. replace (Z.of_nat x) with X by (unfold x; lia).
    rewrite !app_assoc. apply Permutation_app_tail. apply Permutation_app_comm.
  - intros l. rewrite flat_map_app. cbn [flat_map]. replace (Z.of_nat x) with X by (unfold x; lia). rewrite upd_same.
    rewrite (flat_map_same _ (fun j => L (Z.of_nat j)) (seq 0 x)), (flat_map_same _ (fun j => L (Z.of_nat j)) (seq (S x) (N - x - 1))).
    + rewrite !app_assoc. apply Permutation_app_tail. apply Permutation_app_comm.
    + intros j Hj. apply in_seq in Hj. apply upd_other. unfold x in Hj. lia.
    + intros j Hj. apply in_seq in Hj. apply upd_other. unfold x in Hj. lia.
Qed.
Lemma in_all mask L m : In m (all mask L) <-> exists j, 0 <= j < mask + 1 /\ In m (L j).
Proof.
  unfold all. rewrite in_flat_map. split.
  - intros (j & Hj & Hm). apply in_seq in Hj. exists (Z.of_nat j). split; [lia|exact Hm].
  - intros (j & Hj & Hm). exists (Z.to_nat j). split; [apply in_seq; lia|]. rewrite Z2Nat.id by lia. exact Hm.
Qed.

(** every node lies in one of its two buckets, and no bucket has more than eight *)
Definition home (mask h X : Z) : Prop := Z.land h mask = X \/ Z.land (bswap h) mask = X.
Definition homed (mask : Z) (L : Z -> list node) : Prop := forall j m, In m (L j) -> home mask (n_hash m) j.
Definition small (L : Z -> list node) : Prop := forall j, (length (L j) <= BKT)%nat.
Lemma home_range mask h X : masked mask -> home mask h X -> 0 <= X < mask + 1.
Proof. intros Hm [<-|<-]; apply masked_range; exact Hm. Qed.
Record good (t : table) (L : Z -> list node) : Prop := mkgood {
  g_rep : rep t L; g_mask : masked (t_mask t); g_home : homed (t_mask t) L; g_small : small L }.
Lemma nth_split_perm (l : list node) i m : nth_error l i = Some m ->
  exists a b, l = a ++ m :: b /\ length a = i /\ forall e, lput l i e = a ++ e :: b.
Proof.
  revert i. induction l as [|x l IH]; intros [|i] E; cbn in *; try discriminate.
  - injection E as ->. exists [], l. repeat split.
  - destruct (IH i E) as (a & b & -> & <- & Hp). exists (x :: a), b. repeat split. intros e. cbn. rewrite Hp. reflexivity.
Qed.

(** ** Making room: the chain of moves *)
(** the other bucket of a node *)
Definition away (mask X h : Z) : Z := if negb (Z.land h mask =? X) then Z.land h mask else Z.land (bswap h) mask.
Definition cost (mask Y h : Z) (d : nat) : nat := if Y =? Z.land h mask then d else pred d.
Definition chain := list (Z * nat * nat).
Fixpoint tryp (rec : Z -> nat -> res (option chain)) (mask : Z) (l : list node) (X : Z) (d : nat) (is : list nat) : res (option chain) :=
  match is with
  | [] => Ok None
  | i :: is' =>
      match nth_error l i with
      | None => UB
      | Some m =>
          let Y := away mask X (n_hash m) in
          if Y =? X then tryp rec mask l X d is'
          else match rec Y (cost mask Y (n_hash m) d) with
               | Ok (Some p) => Ok (Some ((X, d, i) :: p))
               | Ok None => tryp rec mask l X d is'
               | UB => UB
               | Fuel => Fuel
               end
      end
  end.
Fixpoint path (f : nat) (mask : Z) (L : Z -> list node) (X : Z) (d : nat) {struct f} : res (option chain) :=
  match f with
  | O => Fuel
  | S f' =>
      if Nat.ltb (length (L X)) BKT then Ok (Some [])
      else match d with O => Ok None | S _ => tryp (path f' mask L) mask (L X) X d (seq 0 BKT) end
  end.
Fixpoint moves (mask : Z) (L : Z -> list node) (p : chain) (X : Z) (e : node) : Z -> list node :=
  match p with
  | [] => upd L X (L X ++ [e])
  | (_, _, i) :: p' =>
      match nth_error (L X) i with
      | Some m => let L1 := moves mask L p' (away mask X (n_hash m)) m in upd L1 X (lput (L1 X) i e)
      | None => L
      end
  end.
Lemma moves_len mask L p : forall X e Y, (length (L Y) <= length (moves mask L p X e Y))%nat.
Proof.
  induction p as [|[[Z0 d] i] p IH]; intros X e Y; cbn [moves].
  - unfold upd. destruct (Z.eqb_spec Y X) as [->|]; [rewrite app_length; lia|lia].
  - destruct (nth_error (L X) i) as [m|]; [|lia]. unfold upd.
    destruct (Z.eqb_spec Y X) as [->|]; [rewrite lput_len|]; apply IH.
Qed.

Lemma cuckoo_path f : forall t L X e d, rep t L ->
  match path f (t_mask t) L X d with
  | Ok (Some p) => exists t', cuckoo f t X e (pkey (n_hash e)) d = Ok (t', true) /\ t_mask t' = t_mask t /\ rep t' (moves (t_mask t) L p X e)
  | Ok None => cuckoo f t X e (pkey (n_hash e)) d = Ok (t, false)
  | UB => False
  | Fuel => cuckoo f t X e (pkey (n_hash e)) d = Fuel
  end.
Proof.
  induction f as [|f IH]; intros t L X e d R; cbn [path cuckoo]; [reflexivity|].
  rewrite (count_rep _ _ X R). destruct (Nat.ltb_spec (length (L X)) BKT) as [Hl|Hl].
  { eexists. split; [reflexivity|]. split; [reflexivity|]. cbn [moves]. apply rep_end; assumption. }
  destruct d as [|d]; [reflexivity|].
  assert (His : Forall (fun i => (i < length (L X))%nat) (seq 0 BKT)).
  { apply Forall_forall. intros i Hi. apply in_seq in Hi. lia. }
  revert His. generalize (seq 0 BKT) as is. induction is as [|i is IHis]; intros His; cbn [tryp]; [reflexivity|].
  apply Forall_cons_iff in His. destruct His as [Hi His]. specialize (IHis His).
  rewrite (hslot_rep _ _ X i R). destruct (nth_error (L X) i) as [m|] eqn:Em; [|apply nth_error_None in Em; lia].
  unfold cell. unfold away, cost, midx, midy. cbv zeta.
  set (Y := if negb (Z.land (n_hash m) (t_mask t) =? X) then Z.land (n_hash m) (t_mask t) else Z.land (bswap (n_hash m)) (t_mask t)) in *.
  destruct (Y =? X) eqn:EY; [exact IHis|]. cbn [pred].
  specialize (IH t L Y m (if Y =? Z.land (n_hash m) (t_mask t) then S d else d) R).
  destruct (path f (t_mask t) L Y (if Y =? Z.land (n_hash m) (t_mask t) then S d else d)) as [[p|]| |] eqn:Ep.
  - destruct IH as (t' & -> & Hmask & R'). eexists. split; [reflexivity|]. split; [cbn; exact Hmask|].
    cbn [moves]. rewrite Em. unfold away. fold Y. apply rep_mid; [exact R'|].
    eapply Nat.lt_le_trans; [exact Hi|apply moves_len].
  - rewrite IH. exact IHis.
  - contradiction.
  - rewrite IH. reflexivity.
Qed.

(** the outcome does not depend on the fuel *)
Lemma tryp_more rec rec' mask l X d is r : (forall Y d' r', rec Y d' = Ok r' -> rec' Y d' = Ok r') ->
  tryp rec mask l X d is = Ok r -> tryp rec' mask l X d is = Ok r.
Proof.
  intros Hr. induction is as [|i is IH]; cbn [tryp]; [trivial|].
  destruct (nth_error l i) as [m|]; [|discriminate]. cbv zeta.
  destruct (away mask X (n_hash m) =? X); [exact IH|].
  destruct (rec (away mask X (n_hash m)) (cost mask (away mask X (n_hash m)) (n_hash m) d)) as [[p|]| |] eqn:E; try discriminate.
  - rewrite (Hr _ _ _ E). trivial.
  - rewrite (Hr _ _ _ E). exact IH.
Qed.
Lemma path_more f : forall f' mask L X d r, (f <= f')%nat -> path f mask L X d = Ok r -> path f' mask L X d = Ok r.
Proof.
  induction f as [|f IH]; intros f' mask L X d r Hf; cbn [path]; [discriminate|].
  destruct f' as [|f']; [lia|]. cbn [path]. destruct (Nat.ltb (length (L X)) BKT); [trivial|].
  destruct d as [|d]; [trivial|]. apply tryp_more. intros Y d' r' E. apply IH; [lia|exact E].
Qed.
Lemma path_det f f' mask L X d r r' : path f mask L X d = Ok r -> path f' mask L X d = Ok r' -> r = r'.
Proof.
  intros E E'. destruct (Nat.le_ge_cases f f') as [Hl|Hl].
  - apply (path_more _ _ _ _ _ _ _ Hl) in E. congruence.
  - apply (path_more _ _ _ _ _ _ _ Hl) in E'. congruence.
Qed.
Lemma tryp_some rec mask l X d is p : tryp rec mask l X d is = Ok (Some p) ->
  exists i m p', In i is /\ nth_error l i = Some m /\ away mask X (n_hash m) <> X
  /\ rec (away mask X (n_hash m)) (cost mask (away mask X (n_hash m)) (n_hash m) d) = Ok (Some p') /\ p = (X, d, i) :: p'.
Proof.
  induction is as [|i is IH]; cbn [tryp]; [discriminate|].
  destruct (nth_error l i) as [m|] eqn:Em; [|discriminate]. cbv zeta. intros H.
  destruct (Z.eqb_spec (away mask X (n_hash m)) X) as [E|E].
  { destruct (IH H) as (i' & m' & p' & Hi & Hr). exists i', m', p'. split; [right; exact Hi|exact Hr]. }
  destruct (rec (away mask X (n_hash m)) (cost mask (away mask X (n_hash m)) (n_hash m) d)) as [[p'|]| |] eqn:Er; try discriminate.
  - injection H as <-. exists i, m, p'. repeat split; auto. left; reflexivity.
  - destruct (IH H) as (i' & m' & p' & Hi & Hr). exists i', m', p'. split; [right; exact Hi|exact Hr].
Qed.
Lemma tryp_none rec mask l X d is : tryp rec mask l X d is = Ok None ->
  forall i m, In i is -> nth_error l i = Some m -> away mask X (n_hash m) <> X ->
  rec (away mask X (n_hash m)) (cost mask (away mask X (n_hash m)) (n_hash m) d) = Ok None.
Proof.
  induction is as [|i is IH]; cbn [tryp]; [intros _ ? ? []|].
  destruct (nth_error l i) as [m|] eqn:Em; [|discriminate]. cbv zeta. intros H i' m' [<-|Hi] Em' Ha.
  - rewrite Em in Em'. injection Em' as <-. destruct (Z.eqb_spec (away mask X (n_hash m)) X) as [E|E]; [contradiction|].
    destruct (rec (away mask X (n_hash m)) (cost mask (away mask X (n_hash m)) (n_hash m) d)) as [[p'|]| |] eqn:Er; try discriminate. reflexivity.
  - destruct (Z.eqb_spec (away mask X (n_hash m)) X) as [E|E]; [exact (IH H i' m' Hi Em' Ha)|].
    destruct (rec (away mask X (n_hash m)) (cost mask (away mask X (n_hash m)) (n_hash m) d)) as [[p'|]| |] eqn:Er; try discriminate.
    exact (IH H i' m' Hi Em' Ha).
Qed.
(** one step of a chain *)
Lemma path_step f mask L X d p : path f mask L X d = Ok (Some p) ->
  (p = [] /\ (length (L X) < BKT)%nat) \/
  exists f' i m p', p = (X, d, i) :: p' /\ (BKT <= length (L X))%nat /\ (1 <= d)%nat /\ (f' < f)%nat /\ In i (seq 0 BKT) /\ nth_error (L X) i = Some m /\ away mask X (n_hash m) <> X
  /\ path f' mask L (away mask X (n_hash m)) (cost mask (away mask X (n_hash m)) (n_hash m) d) = Ok (Some p').
Proof.
  destruct f as [|f]; cbn [path]; [discriminate|]. destruct (Nat.ltb_spec (length (L X)) BKT) as [Hl|Hl].
  { intros E. injection E as <-. left. split; [reflexivity|exact Hl]. }
  destruct d as [|d]; [discriminate|]. intros E. apply tryp_some in E.
  destruct E as (i & m & p' & Hi & Em & Ha & Er & ->). right. exists f, i, m, p'. repeat split; auto; lia.
Qed.
(** what is behind a place of a chain is a chain from there *)
Lemma path_suffix p : forall f mask L X d Y c i, path f mask L X d = Ok (Some p) -> In (Y, c, i) p ->
  (BKT <= length (L Y))%nat /\ (1 <= c <= d)%nat /\ exists f' p', path f' mask L Y c = Ok (Some p') /\ (length p' <= length p)%nat.
Proof.
  induction p as [|[[Z0 d0] i0] p IH]; intros f mask L X d Y c i E Hin; [contradiction|].
  destruct (path_step _ _ _ _ _ _ E) as [[E0 _]|(f' & i' & m & p' & E0 & Hfull & Hd & Hf & Hi & Em & Ha & Er)]; [discriminate|].
  injection E0 as -> -> -> <-. destruct Hin as [H|Hin].
  - injection H as <- <- <-. split; [exact Hfull|]. split; [lia|]. exists f, ((X, d, i') :: p). split; [exact E|lia].
  - destruct (IH _ _ _ _ _ _ _ _ Er Hin) as (Hf2 & Hc & f2 & p2 & E2 & Hlen).
    split; [exact Hf2|]. split.
    { unfold cost in Hc. destruct (away mask X (n_hash m) =? Z.land (n_hash m) mask); lia. }
    exists f2, p2. split; [exact E2|cbn [length]; lia].
Qed.
(** a chain does not come back with the same depth *)
Lemma path_nodup p : forall f mask L X d, path f mask L X d = Ok (Some p) -> NoDup (map fst p).
Proof.
  induction p as [|[[Z0 d0] i0] p IH]; intros f mask L X d E; cbn [map]; [constructor|].
  destruct (path_step _ _ _ _ _ _ E) as [[E0 _]|(f' & i' & m & p' & E0 & Hfull & Hd & Hf & Hi & Em & Ha & Er)]; [discriminate|].
  injection E0 as -> -> -> <-. constructor; [|exact (IH _ _ _ _ _ Er)].
  intros Hin. apply in_map_iff in Hin. destruct Hin as ([[Y c] i2] & Eq & Hin). cbn in Eq. injection Eq as -> ->.
  destruct (path_suffix _ _ _ _ _ _ _ _ _ Er Hin) as (_ & _ & f2 & p2 & E2 & Hlen).
  pose proof (path_det _ _ _ _ _ _ _ _ E E2) as Eq. injection Eq as <-. cbn [length] in Hlen. lia.
Qed.
Definition bkts (p : chain) : list Z := map (fun x => fst (fst x)) p.
Lemma nodup_bkts p : (forall Y c c' i i', In (Y, c, i) p -> In (Y, c', i') p -> c = c') -> NoDup (map fst p) -> NoDup (bkts p).
Proof.
  induction p as [|[[X d] i] p IH]; intros Hd Hn; cbn; [constructor|]. cbn in Hn. apply NoDup_cons_iff in Hn. destruct Hn as [Hn1 Hn2].
  constructor.
  - intros Hin. apply in_map_iff in Hin. destruct Hin as ([[Y c] i2] & Eq & Hin). cbn in Eq. subst Y.
    assert (c = d) by (eapply Hd; [right; exact Hin|left; reflexivity]). subst c.
    apply Hn1. apply in_map_iff. exists (X, d, i2). split; [reflexivity|exact Hin].
  - apply IH; [|exact Hn2]. intros Y c c' j j' H1 H2. eapply Hd; right; eassumption.
Qed.
(** with depth 1, or with depth 2 when depth 1 has failed, no bucket is used twice *)
Lemma path_one f mask L X p : path f mask L X 1 = Ok (Some p) -> NoDup (bkts p).
Proof.
  intros E. apply nodup_bkts; [|exact (path_nodup _ _ _ _ _ _ E)].
  intros Y c c' i i' H1 H2. destruct (path_suffix _ _ _ _ _ _ _ _ _ E H1) as (_ & Hc & _).
  destruct (path_suffix _ _ _ _ _ _ _ _ _ E H2) as (_ & Hc' & _). lia.
Qed.
Lemma path_two_one p : forall f f1 mask L X, path f mask L X 2 = Ok (Some p) -> path f1 mask L X 1 = Ok None ->
  forall Y i, In (Y, 2%nat, i) p -> exists f2, path f2 mask L Y 1 = Ok None.
Proof.
  induction p as [|[[Z0 d0] i0] p IH]; intros f f1 mask L X E E1 Y i Hin; [contradiction|].
  destruct (path_step _ _ _ _ _ _ E) as [[E0 _]|(f' & i' & m & p' & E0 & Hfull & Hd & Hf & Hi & Em & Ha & Er)]; [discriminate|].
  injection E0 as -> -> -> <-. destruct Hin as [H|Hin].
  - injection H as <- _. exists f1. exact E1.
  - unfold cost in Er. destruct (Z.eqb_spec (away mask X (n_hash m)) (Z.land (n_hash m) mask)) as [Eh|Nh].
    + destruct f1 as [|f1]; [discriminate E1|]. cbn [path] in E1.
      destruct (Nat.ltb_spec (length (L X)) BKT) as [Hl|_]; [lia|].
      pose proof (tryp_none _ _ _ _ _ _ E1 i' m Hi Em Ha) as En. unfold cost in En.
      rewrite Eh, Z.eqb_refl in En. rewrite Eh in Er. exact (IH _ _ _ _ _ Er En Y i Hin).
    + cbn [pred] in Er. destruct (path_suffix _ _ _ _ _ _ _ _ _ Er Hin) as (_ & Hc & _). lia.
Qed.
Lemma path_two f f1 mask L X p : path f mask L X 2 = Ok (Some p) -> path f1 mask L X 1 = Ok None -> NoDup (bkts p).
Proof.
  intros E E1. apply nodup_bkts; [|exact (path_nodup _ _ _ _ _ _ E)].
  assert (Hx : forall Y i i', In (Y, 2%nat, i) p -> In (Y, 1%nat, i') p -> False).
  { intros Y i i' H2 H1. destruct (path_two_one _ _ _ _ _ _ E E1 Y i H2) as (f2 & E2).
    destruct (path_suffix _ _ _ _ _ _ _ _ _ E H1) as (_ & _ & f3 & p3 & E3 & _).
    pose proof (path_det _ _ _ _ _ _ _ _ E2 E3). discriminate. }
  intros Y c c' i i' H1 H2. destruct (path_suffix _ _ _ _ _ _ _ _ _ E H1) as (_ & Hc & _).
  destruct (path_suffix _ _ _ _ _ _ _ _ _ E H2) as (_ & Hc' & _).
  assert (c = 1 \/ c = 2)%nat as [->| ->] by lia; assert (c' = 1 \/ c' = 2)%nat as [->| ->] by lia; try reflexivity; exfalso; eauto.
Qed.

(** ** What the moves do *)
Lemma away_home mask X h : home mask h (away mask X h).
Proof. unfold away, home. destruct (negb (Z.land h mask =? X)); auto. Qed.
Lemma moves_good p : forall f mask L X e d, path f mask L X d = Ok (Some p) -> NoDup (bkts p) ->
  masked mask -> homed mask L -> small L -> home mask (n_hash e) X ->
  homed mask (moves mask L p X e) /\ small (moves mask L p X e) /\ Permutation (all mask (moves mask L p X e)) (e :: all mask L)
  /\ forall Y, (BKT <= length (L Y))%nat -> ~ In Y (bkts p) -> moves mask L p X e Y = L Y.
Proof.
  induction p as [|[[Z0 d0] i0] p IH]; intros f mask L X e d E Hn Hmask Hh Hs He.
  - destruct (path_step _ _ _ _ _ _ E) as [[_ Hl]|(f' & i' & m & p' & E0 & _)]; [|discriminate]. cbn [moves].
    split; [|split; [|split]].
    + intros j m Hm. unfold upd in Hm. destruct (Z.eqb_spec j X) as [->|]; [|exact (Hh _ _ Hm)].
      apply in_app_or in Hm. destruct Hm as [Hm|[<-|[]]]; [exact (Hh _ _ Hm)|exact He].
    + intros j. unfold upd. destruct (j =? X); [rewrite app_length; cbn [length]; lia|apply Hs].
    + destruct (all_split mask L X (home_range _ _ _ Hmask He)) as (rest & P1 & P2).
      rewrite P2, P1. rewrite <- app_assoc. cbn [app]. symmetry. apply Permutation_middle.
    + intros Y HY _. apply upd_other. intros ->. lia.
  - destruct (path_step _ _ _ _ _ _ E) as [[E0 _]|(f' & i' & m & p' & E0 & Hfull & Hd & Hf & Hi & Em & Ha & Er)]; [discriminate|].
    injection E0 as -> -> -> <-. cbn in Hn. apply NoDup_cons_iff in Hn. destruct Hn as [Hn1 Hn2].
    destruct (IH _ _ _ _ m _ Er Hn2 Hmask Hh Hs (away_home _ _ _)) as (Hh1 & Hs1 & P & Hsame).
    cbn [moves]. rewrite Em. set (L1 := moves mask L p (away mask X (n_hash m)) m) in *.
    pose proof (Hsame X Hfull Hn1) as EX. rewrite EX.
    destruct (nth_split_perm _ _ _ Em) as (a & b & El & _ & Hp). rewrite Hp.
    split; [|split; [|split]].
    + intros j q Hq. unfold upd in Hq. destruct (Z.eqb_spec j X) as [->|]; [|exact (Hh1 _ _ Hq)].
      apply in_app_or in Hq. destruct Hq as [Hq|[<-|Hq]].
      * apply Hh. rewrite El. apply in_or_app. left. exact Hq.
      * exact He.
      * apply Hh. rewrite El. apply in_or_app. right. right. exact Hq.
    + intros j. unfold upd. destruct (j =? X); [|apply Hs1]. specialize (Hs X). rewrite El in Hs. rewrite app_length in *. exact Hs.
    + destruct (all_split mask L1 X (home_range _ _ _ Hmask He)) as (rest & P1 & P2).
      rewrite P2. rewrite EX, El in P1. rewrite P1 in P.
      apply (Permutation_cons_inv (a := m)). rewrite perm_swap. rewrite <- P.
      rewrite <- !app_assoc. cbn [app].
      rewrite (Permutation_sym (Permutation_middle a (b ++ rest) e)), (Permutation_sym (Permutation_middle a (b ++ rest) m)).
      apply perm_swap.
    + intros Y HY Hin. cbn in Hin. rewrite upd_other by (intros ->; apply Hin; left; reflexivity).
      apply Hsame; [exact HY|]. intros H. apply Hin. right. exact H.
Qed.

(** ** Making room keeps the table in order *)
Lemma cuckoo_good f t L X e d t' b : good t L -> home (t_mask t) (n_hash e) X ->
  cuckoo f t X e (pkey (n_hash e)) d = Ok (t', b) ->
  (d = 1%nat \/ d = 2%nat /\ exists f1 e1, cuckoo f1 t X e1 (pkey (n_hash e1)) 1 = Ok (t, false)) ->
  if b then t_mask t' = t_mask t /\ exists L', good t' L' /\ Permutation (all (t_mask t) L') (e :: all (t_mask t) L) else t' = t.
Proof.
  intros G He E Hd. destruct G as [R M Hh Hs]. pose proof (cuckoo_path f t L X e d R) as P.
  destruct (path f (t_mask t) L X d) as [[p|]| |] eqn:Ep; [| | contradiction |congruence].
  - destruct P as (t1 & E1 & Em & R1). rewrite E in E1. injection E1 as -> ->.
    assert (Hn : NoDup (bkts p)).
    { destruct Hd as [->|[-> (f1 & e1 & E1)]]; [exact (path_one _ _ _ _ _ Ep)|].
      pose proof (cuckoo_path f1 t L X e1 1 R) as P1.
      destruct (path f1 (t_mask t) L X 1) as [[p1|]| |] eqn:Ep1; [| exact (path_two _ _ _ _ _ _ Ep Ep1) | contradiction |congruence].
      destruct P1 as (t2 & E2 & _). congruence. }
    destruct (moves_good _ _ _ _ _ e _ Ep Hn M Hh Hs He) as (Hh1 & Hs1 & Pm & _).
    split; [exact Em|]. eexists. split; [|exact Pm]. constructor; rewrite ?Em; assumption.
  - rewrite E in P. injection P as -> ->. reflexivity.
Qed.
Lemma cuckoo_not_UB f t L X e d : rep t L -> cuckoo f t X e (pkey (n_hash e)) d <> UB.
Proof.
  intros R. pose proof (cuckoo_path f t L X e d R) as P.
  destruct (path f (t_mask t) L X d) as [[p|]| |]; [destruct P as (t' & -> & _); discriminate | rewrite P; discriminate | contradiction | rewrite P; discriminate].
Qed.

(** ** Squeeze *)
Lemma squeeze_bucket_good n : forall t L si ci, good t L -> 0 <= si < t_mask t + 1 -> length (L si) = ci -> (n <= ci)%nat ->
  exists t' L', squeeze_bucket n t si ci = Ok t' /\ t_mask t' = t_mask t /\ good t' L' /\ Permutation (all (t_mask t) L') (all (t_mask t) L).
Proof.
  induction n as [|ei IH]; intros t L si ci G Hsi Hci Hn; cbn [squeeze_bucket].
  { exists t, L. auto. }
  destruct G as [R M Hh Hs]. rewrite (hslot_rep _ _ si ei R).
  destruct (nth_error (L si) ei) as [m|] eqn:Em; [|apply nth_error_None in Em; lia]. cbn [cell snd]. unfold midx.
  set (sj := Z.land (n_hash m) (t_mask t)). destruct (Z.eqb_spec sj si) as [E|N].
  { apply (IH t L si ci); [constructor; assumption|exact Hsi|exact Hci|lia]. }
  rewrite (count_rep _ _ sj R). destruct (Nat.ltb_spec (length (L sj)) BKT) as [Hl|Hl].
  2:{ apply (IH t L si ci); [constructor; assumption|exact Hsi|exact Hci|lia]. }
  cbv zeta.
  pose proof (rep_end t L sj m R Hl) as R1. set (t1 := hput t sj (length (L sj)) (cell m)) in *. set (L1 := upd L sj (L sj ++ [m])) in *.
  assert (ESi : L1 si = L si) by (apply upd_other; congruence).
  destruct (nth_split_perm _ _ _ Em) as (a & b & El & Ea & _).
  destruct (take_out a m b) as (l' & Et & Pl & _); [rewrite <- El; apply Hs|]. rewrite <- El in Et, Pl. rewrite Hci, Ea in Et.
  set (t2 := if Nat.ltb ei (ci - 1) then hput t1 si ei (hslot t1 si (ci - 1)) else t1).
  assert (B2 : forall j, t_bkt (hput t2 si (ci - 1) empty_slot) j = bk (upd L1 si l' j)).
  { intros j. cbn. unfold upd at 1. destruct (Z.eqb_spec j si) as [->|Nj].
    - rewrite <- Et. f_equal. unfold t2. destruct (Nat.ltb_spec ei (ci - 1)) as [H1|H1].
      + cbn [t_bkt hput]. rewrite Z.eqb_refl. unfold hslot. rewrite R1, ESi. reflexivity.
      + assert (ei = ci - 1)%nat as -> by (rewrite El, app_length in Hci; cbn [length] in Hci; lia).
        rewrite R1, ESi. rewrite nth_bk, Em. rewrite put_mid by lia. f_equal.
        clear - Em. revert Em. generalize (ci - 1)%nat as i. induction (L si) as [|x l IHl]; intros [|i] Em; cbn in *; try discriminate.
        { injection Em as ->. reflexivity. } { f_equal. apply IHl. exact Em. }
    - unfold t2. destruct (Nat.ltb ei (ci - 1)); [|apply R1]. cbn [t_bkt hput]. destruct (Z.eqb_spec j si); [contradiction|]. apply R1. }
  assert (M2 : t_mask (hput t2 si (ci - 1) empty_slot) = t_mask t) by (unfold t2; destruct (Nat.ltb ei (ci - 1)); reflexivity).
  assert (Hin : forall q, In q l' -> In q (L si)).
  { intros q Hq. apply (Permutation_in q Pl). right. exact Hq. }
  assert (Hlen : S (length l') = length (L si)) by (apply Permutation_length in Pl; exact Pl).
  destruct (IH (hput t2 si (ci - 1) empty_slot) (upd L1 si l') si (ci - 1)%nat) as (t' & L' & E' & Em' & G' & P').
  - constructor; rewrite ?M2; [exact B2|exact M| |].
    + intros j q Hq. unfold upd in Hq. destruct (Z.eqb_spec j si) as [->|]; [apply Hh; apply Hin; exact Hq|].
      unfold L1, upd in Hq. destruct (Z.eqb_spec j sj) as [->|]; [|apply Hh; exact Hq].
      apply in_app_or in Hq. destruct Hq as [Hq|[<-|[]]]; [apply Hh; exact Hq|left; reflexivity].
    + intros j. unfold upd. destruct (j =? si); [pose proof (Hs si); lia|]. unfold L1, upd. destruct (j =? sj); [rewrite app_length; cbn [length]; lia|apply Hs].
  - rewrite M2. exact Hsi.
  - rewrite upd_same. lia.
  - rewrite El, app_length in Hci. cbn [length] in Hci. lia.
  - rewrite M2 in *. exists t', L'. split; [exact E'|]. split; [exact Em'|]. split; [exact G'|]. rewrite P'.
    destruct (all_split (t_mask t) L1 si Hsi) as (r1 & P1 & P1').
    rewrite P1'. rewrite ESi in P1. apply (Permutation_cons_inv (a := m)).
    change (m :: l' ++ r1) with ((m :: l') ++ r1). rewrite Pl, <- P1. unfold L1.
    destruct (all_split (t_mask t) L sj (masked_range _ _ M)) as (r2 & P2 & P2'). rewrite P2', P2.
    rewrite <- app_assoc. cbn [app]. symmetry. apply Permutation_middle.
Qed.
Lemma forz_good (body : Z -> table -> res table) (mask : Z) (ms : list node) (N : Z) n : forall a t L,
  (forall s t L, 0 <= s < N -> t_mask t = mask -> good t L -> Permutation (all mask L) ms ->
     exists t' L', body s t = Ok t' /\ t_mask t' = mask /\ good t' L' /\ Permutation (all mask L') ms) ->
  0 <= a -> a + Z.of_nat n <= N -> t_mask t = mask -> good t L -> Permutation (all mask L) ms ->
  exists t' L', forz n a body t = Ok t' /\ t_mask t' = mask /\ good t' L' /\ Permutation (all mask L') ms.
Proof.
  induction n as [|n IH]; intros a t L Hb Ha HN Em G P; cbn [forz].
  { exists t, L. auto. }
  destruct (Hb a t L ltac:(lia) Em G P) as (t1 & L1 & E1 & Em1 & G1 & P1). rewrite E1. cbn [bind].
  apply (IH (a + 1) t1 L1 Hb); auto; lia.
Qed.
Lemma squeeze_good t L : good t L -> exists t' L', squeeze t = Ok t' /\ t_mask t' = t_mask t /\ good t' L' /\ Permutation (all (t_mask t) L') (all (t_mask t) L).
Proof.
  intros G. unfold squeeze. apply forz_good with (N := t_mask t + 1) (L := L); auto; try lia.
  - intros s t1 L1 Hs Em1 G1 P1. rewrite (count_rep _ _ s (g_rep _ _ G1)).
    destruct (squeeze_bucket_good (length (L1 s)) t1 L1 s (length (L1 s)) G1) as (t' & L' & E & Em & G' & P'); auto; [rewrite Em1; exact Hs|].
    rewrite Em1 in *. exists t', L'. split; [exact E|]. split; [exact Em|]. split; [exact G'|]. rewrite P'. exact P1.
  - destruct (g_mask _ _ G) as (n & Hn & E). rewrite E, Z.ones_equiv. pose proof (Z.pow_pos_nonneg 2 n ltac:(lia) ltac:(lia)). lia.
Qed.

(** ** Expand *)
Lemma ones_ones n : 0 <= n -> Z.land (Z.ones (n + 1)) (Z.ones n) = Z.ones n.
Proof.
  intros Hn. apply Z.bits_inj'. intros k Hk. rewrite Z.land_spec.
  destruct (Z.lt_ge_cases k n).
  - rewrite !Z.ones_spec_low by lia. reflexivity.
  - rewrite (Z.ones_spec_high n k) by lia. apply andb_false_r.
Qed.
Lemma ones_next n : 0 <= n -> Z.ones n + (Z.ones n + 1) = Z.ones (n + 1).
Proof. intros Hn. rewrite !Z.ones_equiv, Z.pow_add_r by lia. lia. Qed.
(** where a node of old bucket [s] goes *)
Definition dest (mask0 mask1 s h : Z) : Z := Z.land (if Z.land h mask0 =? s then h else bswap h) mask1.
Lemma dest_home mask0 mask1 s h : home mask1 h (dest mask0 mask1 s h).
Proof. unfold dest, home. destruct (Z.land h mask0 =? s); auto. Qed.
Lemma dest_from n s h : 0 <= n -> home (Z.ones n) h s -> Z.land (dest (Z.ones n) (Z.ones (n + 1)) s h) (Z.ones n) = s.
Proof.
  intros Hn Hh. unfold dest. rewrite <- Z.land_assoc, ones_ones by exact Hn.
  destruct (Z.eqb_spec (Z.land h (Z.ones n)) s) as [E|N]; [exact E|]. destruct Hh as [Hh|Hh]; [contradiction|exact Hh].
Qed.
(** bucket [j] of the new table has received at most [c] nodes, and nothing yet when
    its old bucket is not read yet *)
Definition filled (mask0 : Z) (L1 : Z -> list node) (s : Z) (c : nat) : Prop :=
  forall j, let o := Z.land j mask0 in
    (o < s -> (length (L1 j) <= BKT)%nat) /\ (o = s -> (length (L1 j) <= c)%nat) /\ (s < o -> L1 j = []).
Lemma expand_bucket_good n s l r : 0 <= n < 32 -> (forall m, In m l -> home (Z.ones n) (n_hash m) s) -> forall c t1 L1,
  t_mask t1 = Z.ones (n + 1) -> rep t1 L1 -> homed (Z.ones (n + 1)) L1 -> filled (Z.ones n) L1 s c -> (c + length l <= BKT)%nat ->
  exists t2 L2, expand_bucket (Z.ones n) s (map cell l ++ repeat empty_slot r) t1 = Ok t2 /\ t_mask t2 = Z.ones (n + 1) /\ rep t2 L2
  /\ homed (Z.ones (n + 1)) L2 /\ filled (Z.ones n) L2 s (c + length l) /\ Permutation (all (Z.ones (n + 1)) L2) (all (Z.ones (n + 1)) L1 ++ l).
Proof.
  intros Hn. induction l as [|m l IH]; intros Hl c t1 L1 Em R Hh Hf Hc; cbn [map app length expand_bucket] in *.
  - exists t1, L1. rewrite Nat.add_0_r, app_nil_r. split; [destruct r; reflexivity|]. auto.
  - unfold cell at 1. rewrite Em. fold (dest (Z.ones n) (Z.ones (n + 1)) s (n_hash m)).
    set (J := dest (Z.ones n) (Z.ones (n + 1)) s (n_hash m)).
    assert (HJ : Z.land J (Z.ones n) = s) by (apply dest_from; [lia|apply Hl; left; reflexivity]).
    rewrite (count_rep _ _ J R). destruct (Hf J) as (_ & HJc & _). cbv zeta in HJc. specialize (HJc HJ).
    destruct (Nat.ltb_spec (length (L1 J)) BKT) as [Hlt|Hge]; [|lia].
    pose proof (rep_end t1 L1 J m R Hlt) as R1.
    destruct (IH (fun q Hq => Hl q (or_intror Hq)) (S c) (hput t1 J (length (L1 J)) (cell m)) (upd L1 J (L1 J ++ [m]))) as (t2 & L2 & E2 & Em2 & R2 & Hh2 & Hf2 & P2).
    + exact Em.
    + exact R1.
    + intros j q Hq. unfold upd in Hq. destruct (Z.eqb_spec j J) as [->|]; [|exact (Hh _ _ Hq)].
      apply in_app_or in Hq. destruct Hq as [Hq|[<-|[]]]; [exact (Hh _ _ Hq)|apply dest_home].
    + intros j. cbv zeta. specialize (Hf j). cbv zeta in Hf. destruct Hf as (F1 & F2 & F3). unfold upd.
      destruct (Z.eqb_spec j J) as [->|].
      * rewrite HJ. rewrite app_length. cbn [length]. split; [|split]; intros; try lia.
      * split; [exact F1|]. split; [intros Ho; specialize (F2 Ho); lia|exact F3].
    + lia.
    + exists t2, L2. replace (c + S (length l))%nat with (S c + length l)%nat by lia.
      split; [exact E2|]. split; [exact Em2|]. split; [exact R2|]. split; [exact Hh2|]. split; [exact Hf2|].
      rewrite P2.
      destruct (all_split (Z.ones (n + 1)) L1 J) as (rest & P1 & P1').
      { eapply home_range; [|apply dest_home]. exists (n + 1). split; [lia|reflexivity]. }
      rewrite P1', P1. rewrite <- !app_assoc. cbn [app]. rewrite <- Permutation_middle, <- (Permutation_middle rest l m).
      rewrite <- (Permutation_middle (L1 J) (rest ++ l) m). reflexivity.
Qed.
Lemma expand_loop n t L k : forall a t1 L1, 0 <= n < 32 -> t_mask t = Z.ones n -> good t L ->
  a + Z.of_nat k <= Z.ones n + 1 -> 0 <= a ->
  t_mask t1 = Z.ones (n + 1) -> rep t1 L1 -> homed (Z.ones (n + 1)) L1 -> filled (Z.ones n) L1 a 0 ->
  exists t2 L2, forz k a (fun s t1 => expand_bucket (Z.ones n) s (t_bkt t s) t1) t1 = Ok t2 /\ t_mask t2 = Z.ones (n + 1) /\ rep t2 L2
  /\ homed (Z.ones (n + 1)) L2 /\ filled (Z.ones n) L2 (a + Z.of_nat k) 0
  /\ Permutation (all (Z.ones (n + 1)) L2) (all (Z.ones (n + 1)) L1 ++ flat_map (fun j => L (Z.of_nat j)) (seq (Z.to_nat a) k)).
Proof.
  induction k as [|k IH]; intros a t1 L1 Hn Em G Hak Ha Em1 R1 Hh1 Hf1; cbn [forz].
  - exists t1, L1. cbn [seq flat_map]. rewrite app_nil_r, Z.add_0_r.
    split; [reflexivity|]. split; [exact Em1|]. split; [exact R1|]. split; [exact Hh1|]. split; [exact Hf1|reflexivity].
  - destruct G as [R M Hh Hs]. rewrite (R a). rewrite Em in *.
    destruct (expand_bucket_good n a (L a) (BKT - length (L a)) Hn (Hh a) 0 t1 L1 Em1 R1 Hh1 Hf1 (Hs a)) as (t2 & L2 & E2 & Em2 & R2 & Hh2 & Hf2 & P2).
    unfold bk. rewrite E2. cbn [bind].
    destruct (IH (a + 1) t2 L2) as (t3 & L3 & E3 & Em3 & R3 & Hh3 & Hf3 & P3); auto; try lia.
    + constructor; rewrite ?Em; assumption.
    + intros j. cbv zeta. specialize (Hf2 j). cbv zeta in Hf2. destruct Hf2 as (F1 & F2 & F3). pose proof (Hs a).
      split; [|split].
      * intros Ho. destruct (Z.eq_dec (Z.land j (Z.ones n)) a) as [Eo|No]; [specialize (F2 Eo); lia|apply F1; lia].
      * intros Ho. rewrite F3 by lia. cbn. lia.
      * intros Ho. apply F3. lia.
    + exists t3, L3. rewrite E3. split; [reflexivity|]. split; [exact Em3|]. split; [exact R3|]. split; [exact Hh3|].
      split; [replace (a + Z.of_nat (S k)) with (a + 1 + Z.of_nat k) by lia; exact Hf3|].
      rewrite P3, P2. cbn [seq flat_map]. rewrite Z2Nat.id by exact Ha. replace (Z.to_nat (a + 1)) with (S (Z.to_nat a)) by lia.
      rewrite <- app_assoc. reflexivity.
Qed.
Lemma all_empty mask : all mask (fun _ => []) = [].
Proof. unfold all. generalize (seq 0 (Z.to_nat (mask + 1))). induction l; cbn; auto. Qed.
Lemma expand_good t L : good t L ->
  expand t = Fuel \/ exists t' L', expand t = Ok t' /\ good t' L' /\ Permutation (all (t_mask t') L') (all (t_mask t) L).
Proof.
  intros G. unfold expand. destruct (Z.eqb_spec (t_mask t) (2 ^ 32 - 1)) as [E|N]; [left; reflexivity|right].
  destruct (g_mask _ _ G) as (n & Hn & En). rewrite En in *.
  assert (Hn' : 0 <= n < 32).
  { split; [lia|]. destruct (Z.eq_dec n 32) as [->|]; [|lia]. exfalso. apply N. reflexivity. }
  pose proof (Z.pow_pos_nonneg 2 n ltac:(lia) ltac:(lia)) as Hpos.
  assert (Eo : Z.ones n = 2 ^ n - 1) by (rewrite Z.ones_equiv; lia).
  rewrite ones_next by lia.
  destruct (expand_loop n t L (Z.to_nat (Z.ones n + 1)) 0 (mktable (Z.ones (n + 1)) (fun _ => empty_bucket)) (fun _ => []) Hn' En G) as (t1 & L1 & E1 & Em1 & R1 & Hh1 & Hf1 & P1).
  { lia. }
  { lia. }
  { reflexivity. }
  { intros j. reflexivity. }
  { intros j m []. }
  { intros j. cbv zeta. cbn [length]. split; [|split]; intros; try lia; reflexivity. }
  - rewrite E1. cbn [bind]. rewrite all_empty in P1. cbn [app] in P1.
    assert (G1 : good t1 L1).
    { constructor; rewrite ?Em1; [exact R1|exists (n + 1); split; [lia|reflexivity]|exact Hh1|].
      intros j. destruct (Hf1 j) as (F1 & _ & _). apply F1. rewrite Z2Nat.id by lia.
      rewrite Z.land_ones by lia. pose proof (Z.mod_pos_bound j (2 ^ n) Hpos). lia. }
    destruct (squeeze_good t1 L1 G1) as (t2 & L2 & E2 & Em2 & G2 & P2).
    exists t2, L2. split; [exact E2|]. split; [exact G2|]. rewrite Em2, P2, Em1, P1. reflexivity.
Qed.

(** ** Storing a node *)
Lemma set_good f : forall t L m, good t L ->
  set f t m = Fuel \/ exists t' L', set f t m = Ok t' /\ good t' L' /\ Permutation (all (t_mask t') L') (m :: all (t_mask t) L).
Proof.
  induction f as [|f IH]; intros t L m G; cbn [set]; [left; reflexivity|]. cbv zeta.
  destruct (cuckoo f t (midx t (n_hash m)) m (pkey (n_hash m)) 1) as [[t1 b1]| |] eqn:E1; cbn [bind]; [|exfalso; exact (cuckoo_not_UB _ _ _ _ _ _ (g_rep _ _ G) E1)|left; reflexivity].
  pose proof (cuckoo_good _ _ _ _ _ _ _ _ G (or_introl eq_refl) E1 (or_introl eq_refl)) as C1.
  destruct b1.
  { right. destruct C1 as (Em & L' & G' & P'). exists t1, L'. rewrite Em. auto. }
  subst t1.
  destruct (cuckoo f t (midy t (n_hash m)) m (pkey (n_hash m)) 1) as [[t2 b2]| |] eqn:E2; cbn [bind]; [|exfalso; exact (cuckoo_not_UB _ _ _ _ _ _ (g_rep _ _ G) E2)|left; reflexivity].
  pose proof (cuckoo_good _ _ _ _ _ _ _ _ G (or_intror eq_refl) E2 (or_introl eq_refl)) as C2.
  destruct b2.
  { right. destruct C2 as (Em & L' & G' & P'). exists t2, L'. rewrite Em. auto. }
  subst t2.
  destruct (cuckoo f t (midx t (n_hash m)) m (pkey (n_hash m)) 2) as [[t3 b3]| |] eqn:E3; cbn [bind]; [|exfalso; exact (cuckoo_not_UB _ _ _ _ _ _ (g_rep _ _ G) E3)|left; reflexivity].
  assert (C3 : if b3 then t_mask t3 = t_mask t /\ exists L', good t3 L' /\ Permutation (all (t_mask t) L') (m :: all (t_mask t) L) else t3 = t).
  { apply (cuckoo_good _ _ _ _ _ _ _ _ G (or_introl eq_refl) E3). right. split; [reflexivity|]. exists f, m. exact E1. }
  destruct b3.
  { right. destruct C3 as (Em & L' & G' & P'). exists t3, L'. rewrite Em. auto. }
  subst t3. destruct (expand_good t L G) as [->|(t4 & L4 & E4 & G4 & P4)]; cbn [bind]; [left; reflexivity|]. rewrite E4. cbn [bind].
  destruct (IH t4 L4 m G4) as [->|(t5 & L5 & E5 & G5 & P5)]; [left; reflexivity|]. right. exists t5, L5.
  split; [exact E5|]. split; [exact G5|]. rewrite P5, P4. reflexivity.
Qed.

(** ** The table as a map *)
Definition stores (H : key -> Z) (t : table) (f : tmap) : Prop :=
  exists L, good t L /\ (forall m, In m (all (t_mask t) L) -> n_hash m = H (n_key m))
  /\ NoDup (map n_key (all (t_mask t) L)) /\ NoDup (map n_at (all (t_mask t) L))
  /\ forall k m, f k = Some m <-> In m (all (t_mask t) L) /\ n_key m = k.
Lemma nodup_eq {A B} (g : A -> B) l a b : NoDup (map g l) -> In a l -> In b l -> g a = g b -> a = b.
Proof.
  induction l as [|x l IH]; cbn; intros Hn Ha Hb E; [contradiction|]. apply NoDup_cons_iff in Hn. destruct Hn as [H1 H2].
  destruct Ha as [->|Ha], Hb as [->|Hb]; auto.
  - exfalso. apply H1. rewrite E. apply in_map. exact Hb.
  - exfalso. apply H1. rewrite <- E. apply in_map. exact Ha.
Qed.
Definition fits (h : Z) (k : key) (m : node) : bool := (pkey (n_hash m) =? pkey h) && key_eq k (n_key m).
Lemma get_slot_bk l h k : get_slot (bk l) (pkey h) k = Ok (find (fits h k) l).
Proof.
  unfold bk. generalize (BKT - length l)%nat as r. induction l as [|m l IH]; intros r; cbn [map app find].
  - induction r as [|r IHr]; cbn [repeat get_slot]; [reflexivity|]. unfold empty_slot at 1. rewrite Z.eqb_sym, pkey_nz. exact IHr.
  - unfold cell at 1. cbn [get_slot]. unfold fits at 1. destruct (pkey (n_hash m) =? pkey h); cbn [andb]; [|apply IH].
    destruct (key_eq k (n_key m)); [reflexivity|apply IH].
Qed.
Lemma in_bucket mask L X m : 0 <= X < mask + 1 -> In m (L X) -> In m (all mask L).
Proof. intros HX Hm. apply in_all. exists X. auto. Qed.
Lemma find_fits H t L f h k X m : good t L -> NoDup (map n_key (all (t_mask t) L)) ->
  (forall k m, f k = Some m <-> In m (all (t_mask t) L) /\ n_key m = k) -> 0 <= X < t_mask t + 1 ->
  find (fits h k) (L X) = Some m -> h = H k -> f k = Some m.
Proof.
  intros G Hn Hf HX E ->. apply find_some in E. destruct E as [Hm E]. unfold fits in E. apply andb_true_iff in E. destruct E as [_ E].
  apply key_eq_iff in E. apply Hf. split; [exact (in_bucket _ _ _ _ HX Hm)|symmetry; exact E].
Qed.
Lemma stores_home H t L f k m : good t L -> (forall m, In m (all (t_mask t) L) -> n_hash m = H (n_key m)) ->
  (forall k m, f k = Some m <-> In m (all (t_mask t) L) /\ n_key m = k) -> f k = Some m ->
  n_key m = k /\ n_hash m = H k /\ (In m (L (midx t (H k))) \/ In m (L (midy t (H k)))).
Proof.
  intros G Hh Hf E. apply Hf in E. destruct E as [Hm Hk]. pose proof (Hh m Hm) as Ehash. rewrite Hk in Ehash.
  split; [exact Hk|]. split; [exact Ehash|]. apply in_all in Hm. destruct Hm as (j & _ & Hj).
  destruct (g_home _ _ G j m Hj) as [E|E]; rewrite Ehash in E; unfold midx, midy; rewrite E; auto.
Qed.
Lemma get_stores H t f k : stores H t f -> get t k (H k) = Ok (f k).
Proof.
  intros (L & G & Hh & Hn & _ & Hf). unfold get. rewrite !(g_rep _ _ G), !get_slot_bk. cbn [bind].
  assert (Rx : 0 <= midx t (H k) < t_mask t + 1) by (apply masked_range; apply G).
  assert (Ry : 0 <= midy t (H k) < t_mask t + 1) by (apply masked_range; apply G).
  destruct (find (fits (H k) k) (L (midx t (H k)))) as [m|] eqn:E1.
  { rewrite (find_fits H t L f _ _ _ _ G Hn Hf Rx E1 eq_refl). reflexivity. }
  destruct (find (fits (H k) k) (L (midy t (H k)))) as [m|] eqn:E2.
  { rewrite (find_fits H t L f _ _ _ _ G Hn Hf Ry E2 eq_refl). reflexivity. }
  destruct (f k) as [m|] eqn:Ef; [|reflexivity]. exfalso.
  destruct (stores_home H t L f k m G Hh Hf Ef) as (Hk & Ehash & Hin).
  assert (Fm : fits (H k) k m = true).
  { unfold fits. rewrite Ehash, Z.eqb_refl. cbn [andb]. apply key_eq_iff. symmetry. exact Hk. }
  destruct Hin as [Hin|Hin].
  - rewrite (find_none _ _ E1 m Hin) in Fm. discriminate.
  - rewrite (find_none _ _ E2 m Hin) in Fm. discriminate.
Qed.
Lemma peek_stores H t f k m : stores H t f -> f k = Some m -> peek t (H k) = true.
Proof.
  intros (L & G & Hh & Hn & _ & Hf) Ef. destruct (stores_home H t L f k m G Hh Hf Ef) as (Hk & Ehash & Hin).
  unfold peek. rewrite !(g_rep _ _ G). apply orb_true_iff.
  assert (Hx : forall l, In m l -> existsb (fun s => fst s =? pkey (H k)) (bk l) = true).
  { intros l Hl. apply existsb_exists. exists (cell m). split; [|cbn; rewrite Ehash; apply Z.eqb_refl].
    unfold bk. apply in_or_app. left. apply in_map. exact Hl. }
  destruct Hin; [left|right]; auto.
Qed.

(** ** Adding *)
Lemma with_node_same f k x : with_node f k x k = x.
Proof. unfold with_node. rewrite key_eq_refl. reflexivity. Qed.
Lemma with_node_other f k x q : q <> k -> with_node f k x q = f q.
Proof. intros N. unfold with_node. destruct (key_eq q k) eqn:E; [apply key_eq_iff in E; contradiction|reflexivity]. Qed.
Lemma set_stores H fuel t f m : stores H t f -> n_hash m = H (n_key m) -> f (n_key m) = None -> fresh_but f (n_key m) m ->
  set fuel t m = Fuel \/ exists t', set fuel t m = Ok t' /\ stores H t' (with_node f (n_key m) (Some m)).
Proof.
  intros (L & G & Hh & Hn & Ha & Hf) Em Ek Hfr. destruct (set_good fuel t L m G) as [E|(t' & L' & E & G' & P)]; [left; exact E|right].
  exists t'. split; [exact E|]. exists L'. split; [exact G'|].
  assert (Hnk : ~ In (n_key m) (map n_key (all (t_mask t) L))).
  { intros Hin. apply in_map_iff in Hin. destruct Hin as (q & Eq & Hq). assert (f (n_key m) = Some q) by (apply Hf; auto). congruence. }
  split; [|split; [|split]].
  - intros q Hq. apply (Permutation_in q P) in Hq. destruct Hq as [<-|Hq]; [exact Em|exact (Hh q Hq)].
  - eapply Permutation_NoDup; [apply Permutation_sym, Permutation_map; exact P|]. cbn [map]. constructor; [exact Hnk|exact Hn].
  - eapply Permutation_NoDup; [apply Permutation_sym, Permutation_map; exact P|]. cbn [map]. constructor; [|exact Ha].
    intros Hin. apply in_map_iff in Hin. destruct Hin as (q & Eq & Hq).
    apply (Hfr (n_key q) q); [apply Hf; auto| |exact Eq]. intros Ekk. apply Hnk. rewrite <- Ekk. apply in_map. exact Hq.
  - intros k q. destruct (key_eq k (n_key m)) eqn:Ekk.
    + apply key_eq_iff in Ekk. subst k. rewrite with_node_same. split.
      * intros Eq. injection Eq as <-. split; [|reflexivity]. apply (Permutation_in m (Permutation_sym P)). left; reflexivity.
      * intros [Hq Hk]. apply (Permutation_in q P) in Hq. destruct Hq as [<-|Hq]; [reflexivity|].
        exfalso. apply Hnk. rewrite <- Hk. apply in_map. exact Hq.
    + assert (Nk : k <> n_key m) by (intros ->; rewrite key_eq_refl in Ekk; discriminate).
      rewrite with_node_other by exact Nk. rewrite Hf. split; intros [Hq Hk]; (split; [|exact Hk]).
      * apply (Permutation_in q (Permutation_sym P)). right. exact Hq.
      * apply (Permutation_in q P) in Hq. destruct Hq as [<-|Hq]; [congruence|exact Hq].
Qed.

(** ** Dropping and replacing *)
(** the slot of a node among those of its bucket *)
Lemma slot_test l i m h : ((fst (nth i (bk l) empty_slot) =? pkey h) && same_node (snd (nth i (bk l) empty_slot)) m) =
  match nth_error l i with Some q => (pkey (n_hash q) =? pkey h) && (n_at q =? n_at m) | None => false end.
Proof.
  rewrite nth_bk. destruct (nth_error l i) as [q|]; [reflexivity|]. cbn. apply andb_false_r.
Qed.
Lemma del_slot_spec is t L mid m : rep t L -> (length (L mid) <= BKT)%nat ->
  (forall q, In q (L mid) -> n_at q = n_at m -> q = m) ->
  (exists t' l', del_slot is t mid m (pkey (n_hash m)) = (t', true) /\ t_mask t' = t_mask t /\ rep t' (upd L mid l') /\ Permutation (m :: l') (L mid))
  \/ (del_slot is t mid m (pkey (n_hash m)) = (t, false) /\ forall i, In i is -> nth_error (L mid) i <> Some m).
Proof.
  intros R Hl Hu. induction is as [|i is IH]; cbn [del_slot]; [right; split; [reflexivity|intros i []]|].
  unfold hslot. rewrite (R mid). rewrite slot_test.
  destruct (nth_error (L mid) i) as [q|] eqn:Eq.
  - destruct ((pkey (n_hash q) =? pkey (n_hash m)) && (n_at q =? n_at m)) eqn:E.
    + left. apply andb_true_iff in E. destruct E as [_ E]. apply Z.eqb_eq in E.
      assert (q = m) as -> by (apply Hu; [eapply nth_error_In; exact Eq|exact E]).
      destruct (nth_split_perm _ _ _ Eq) as (a & b & El & Ea & _).
      destruct (take_out a m b) as (l' & Et & Pl & _); [rewrite <- El; exact Hl|]. rewrite <- El in Et, Pl. rewrite Ea in Et.
      eexists. exists l'. split; [reflexivity|]. split; [reflexivity|]. split; [|exact Pl].
      intros j. cbn [t_bkt hput]. unfold upd. destruct (Z.eqb_spec j mid) as [->|]; [|apply R].
      rewrite Z.eqb_refl, (R mid), slot_count_bk. exact Et.
    + destruct IH as [IH|[IH1 IH2]]; [left; exact IH|right]. split; [exact IH1|]. intros i' [<-|Hi]; [|exact (IH2 i' Hi)].
      intros E2. rewrite Eq in E2. injection E2 as ->. rewrite !Z.eqb_refl in E. discriminate.
  - destruct IH as [IH|[IH1 IH2]]; [left; exact IH|right]. split; [exact IH1|]. intros i' [<-|Hi]; [congruence|exact (IH2 i' Hi)].
Qed.
Lemma in_slots (L : Z -> list node) mid m : (length (L mid) <= BKT)%nat -> In m (L mid) -> exists i, In i (seq 0 BKT) /\ nth_error (L mid) i = Some m.
Proof.
  intros Hl Hin. destruct (In_nth_error _ _ Hin) as (i & E). exists i. split; [|exact E]. apply in_seq.
  assert (i < length (L mid))%nat by (apply nth_error_Some; congruence). lia.
Qed.
Lemma del_good t L m : good t L -> In m (all (t_mask t) L) -> NoDup (map n_at (all (t_mask t) L)) ->
  exists t' L', del t m = (t', true) /\ t_mask t' = t_mask t /\ good t' L' /\ Permutation (m :: all (t_mask t) L') (all (t_mask t) L).
Proof.
  intros [R M Hh Hs] Hm Hn.
  assert (Hu : forall X, 0 <= X < t_mask t + 1 -> forall q, In q (L X) -> n_at q = n_at m -> q = m).
  { intros X HX q Hq E. exact (nodup_eq n_at _ _ _ Hn (in_bucket _ _ _ _ HX Hq) Hm E). }
  assert (Hfin : forall X t' l', 0 <= X < t_mask t + 1 -> t_mask t' = t_mask t -> rep t' (upd L X l') -> Permutation (m :: l') (L X) ->
     good t' (upd L X l') /\ Permutation (m :: all (t_mask t) (upd L X l')) (all (t_mask t) L)).
  { intros X t' l' HX Em R' P. split.
    - constructor; rewrite ?Em; [exact R'|exact M| |].
      + intros j q Hq. unfold upd in Hq. destruct (Z.eqb_spec j X) as [->|]; apply Hh; [|exact Hq]. apply (Permutation_in q P). right. exact Hq.
      + intros j. unfold upd. destruct (j =? X); [|apply Hs]. apply Permutation_length in P. cbn [length] in P. specialize (Hs X). lia.
    - destruct (all_split (t_mask t) L X HX) as (r & P1 & P2). rewrite P2, P1. change (m :: l' ++ r) with ((m :: l') ++ r). rewrite P. reflexivity. }
  pose proof (masked_range _ (n_hash m) M) as Rx. pose proof (masked_range _ (bswap (n_hash m)) M) as Ry.
  unfold del. cbv zeta. fold (midx t (n_hash m)) in Rx. fold (midy t (n_hash m)) in Ry.
  destruct (del_slot_spec (seq 0 BKT) t L (midx t (n_hash m)) m R (Hs _) (Hu _ Rx)) as [(t' & l' & -> & Em & R' & P)|[-> Hno]].
  { exists t'. eexists. split; [reflexivity|]. split; [exact Em|]. exact (Hfin _ _ _ Rx Em R' P). }
  destruct (del_slot_spec (seq 0 BKT) t L (midy t (n_hash m)) m R (Hs _) (Hu _ Ry)) as [(t' & l' & -> & Em & R' & P)|[-> Hno2]].
  { exists t'. eexists. split; [reflexivity|]. split; [exact Em|]. exact (Hfin _ _ _ Ry Em R' P). }
  exfalso. apply in_all in Hm. destruct Hm as (j & _ & Hj). pose proof (Hh j m Hj) as [E|E].
  - fold (midx t (n_hash m)) in E. subst j. destruct (in_slots _ _ _ (Hs _) Hj) as (i & Hi & Ei). exact (Hno i Hi Ei).
  - fold (midy t (n_hash m)) in E. subst j. destruct (in_slots _ _ _ (Hs _) Hj) as (i & Hi & Ei). exact (Hno2 i Hi Ei).
Qed.
Lemma replace_slot_spec is t L mid m m' : rep t L -> (length (L mid) <= BKT)%nat -> n_hash m' = n_hash m ->
  (forall q, In q (L mid) -> n_at q = n_at m -> q = m) ->
  (exists t' l', replace_slot is t mid m (pkey (n_hash m)) m' = (t', true) /\ t_mask t' = t_mask t /\ rep t' (upd L mid l') /\ Permutation (m :: l') (m' :: L mid))
  \/ (replace_slot is t mid m (pkey (n_hash m)) m' = (t, false) /\ forall i, In i is -> nth_error (L mid) i <> Some m).
Proof.
  intros R Hl Ehash Hu. induction is as [|i is IH]; cbn [replace_slot]; [right; split; [reflexivity|intros i []]|].
  unfold hslot. rewrite (R mid). rewrite slot_test.
  destruct (nth_error (L mid) i) as [q|] eqn:Eq.
  - destruct ((pkey (n_hash q) =? pkey (n_hash m)) && (n_at q =? n_at m)) eqn:E.
    + left. apply andb_true_iff in E. destruct E as [_ E]. apply Z.eqb_eq in E.
      assert (q = m) as -> by (apply Hu; [eapply nth_error_In; exact Eq|exact E]).
      rewrite nth_bk, Eq. cbn [fst cell]. rewrite <- Ehash. change (pkey (n_hash m'), Some m') with (cell m').
      eexists. eexists. split; [reflexivity|]. split; [reflexivity|]. split; [apply rep_mid; [exact R|apply nth_error_Some; congruence]|].
      destruct (nth_split_perm _ _ _ Eq) as (a & b & El & Ea & Hp). rewrite Hp, El.
      rewrite <- (Permutation_middle a b m'), <- (Permutation_middle a b m). apply perm_swap.
    + destruct IH as [IH|[IH1 IH2]]; [left; exact IH|right]. split; [exact IH1|]. intros i' [<-|Hi]; [|exact (IH2 i' Hi)].
      intros E2. rewrite Eq in E2. injection E2 as ->. rewrite !Z.eqb_refl in E. discriminate.
  - destruct IH as [IH|[IH1 IH2]]; [left; exact IH|right]. split; [exact IH1|]. intros i' [<-|Hi]; [congruence|exact (IH2 i' Hi)].
Qed.
Lemma replace_good t L m m' : good t L -> In m (all (t_mask t) L) -> NoDup (map n_at (all (t_mask t) L)) -> n_hash m' = n_hash m ->
  exists t' L', replace t m m' = (t', true) /\ t_mask t' = t_mask t /\ good t' L' /\ Permutation (m :: all (t_mask t) L') (m' :: all (t_mask t) L).
Proof.
  intros [R M Hh Hs] Hm Hn Ehash.
  assert (Hu : forall X, 0 <= X < t_mask t + 1 -> forall q, In q (L X) -> n_at q = n_at m -> q = m).
  { intros X HX q Hq E. exact (nodup_eq n_at _ _ _ Hn (in_bucket _ _ _ _ HX Hq) Hm E). }
  assert (Hfin : forall X t' l', home (t_mask t) (n_hash m) X -> t_mask t' = t_mask t -> rep t' (upd L X l') -> Permutation (m :: l') (m' :: L X) ->
     good t' (upd L X l') /\ Permutation (m :: all (t_mask t) (upd L X l')) (m' :: all (t_mask t) L)).
  { intros X t' l' HX Em R' P. split.
    - constructor; rewrite ?Em; [exact R'|exact M| |].
      + intros j q Hq. unfold upd in Hq. destruct (Z.eqb_spec j X) as [->|]; [|exact (Hh _ _ Hq)].
        assert (Hq' : In q (m' :: L X)) by (apply (Permutation_in q P); right; exact Hq).
        destruct Hq' as [<-|Hq']; [rewrite Ehash; exact HX|exact (Hh _ _ Hq')].
      + intros j. unfold upd. destruct (j =? X); [|apply Hs]. apply Permutation_length in P. cbn [length] in P. specialize (Hs X). lia.
    - destruct (all_split (t_mask t) L X (home_range _ _ _ M HX)) as (r & P1 & P2). rewrite P2, P1.
      change (m :: l' ++ r) with ((m :: l') ++ r). rewrite P. reflexivity. }
  pose proof (masked_range _ (n_hash m) M) as Rx. pose proof (masked_range _ (bswap (n_hash m)) M) as Ry.
  unfold replace. cbv zeta. fold (midx t (n_hash m)) in Rx. fold (midy t (n_hash m)) in Ry.
  destruct (replace_slot_spec (seq 0 BKT) t L (midx t (n_hash m)) m m' R (Hs _) Ehash (Hu _ Rx)) as [(t' & l' & -> & Em & R' & P)|[-> Hno]].
  { exists t'. eexists. split; [reflexivity|]. split; [exact Em|]. exact (Hfin _ _ _ (or_introl eq_refl) Em R' P). }
  destruct (replace_slot_spec (seq 0 BKT) t L (midy t (n_hash m)) m m' R (Hs _) Ehash (Hu _ Ry)) as [(t' & l' & -> & Em & R' & P)|[-> Hno2]].
  { exists t'. eexists. split; [reflexivity|]. split; [exact Em|]. exact (Hfin _ _ _ (or_intror eq_refl) Em R' P). }
  exfalso. apply in_all in Hm. destruct Hm as (j & _ & Hj). pose proof (Hh j m Hj) as [E|E].
  - fold (midx t (n_hash m)) in E. subst j. destruct (in_slots _ _ _ (Hs _) Hj) as (i & Hi & Ei). exact (Hno i Hi Ei).
  - fold (midy t (n_hash m)) in E. subst j. destruct (in_slots _ _ _ (Hs _) Hj) as (i & Hi & Ei). exact (Hno2 i Hi Ei).
Qed.
Lemma del_stores H t f m : stores H t f -> f (n_key m) = Some m -> exists t', del t m = (t', true) /\ stores H t' (with_node f (n_key m) None).
Proof.
  intros (L & G & Hh & Hn & Ha & Hf) Ef. pose proof (proj1 (Hf _ _) Ef) as [Hm _].
  destruct (del_good t L m G Hm Ha) as (t' & L' & E & Em & G' & P). exists t'. split; [exact E|]. exists L'. rewrite Em. split; [exact G'|].
  assert (Hin : forall q, In q (all (t_mask t) L') -> In q (all (t_mask t) L)) by (intros q Hq; apply (Permutation_in q P); right; exact Hq).
  assert (Nk : NoDup (map n_key (m :: all (t_mask t) L'))) by (eapply Permutation_NoDup; [apply Permutation_map, Permutation_sym; exact P|exact Hn]).
  assert (Na : NoDup (map n_at (m :: all (t_mask t) L'))) by (eapply Permutation_NoDup; [apply Permutation_map, Permutation_sym; exact P|exact Ha]).
  cbn [map] in Nk, Na. apply NoDup_cons_iff in Nk, Na.
  split; [intros q Hq; apply Hh, Hin, Hq|]. split; [apply Nk|]. split; [apply Na|].
  intros k q. destruct (key_eq k (n_key m)) eqn:Ekk.
  - apply key_eq_iff in Ekk. subst k. rewrite with_node_same. split; [discriminate|]. intros [Hq Hk]. exfalso.
    apply (proj1 Nk). rewrite <- Hk. apply in_map. exact Hq.
  - assert (Nkk : k <> n_key m) by (intros ->; rewrite key_eq_refl in Ekk; discriminate).
    rewrite with_node_other by exact Nkk. rewrite Hf. split; intros [Hq Hk]; (split; [|exact Hk]); [|exact (Hin q Hq)].
    apply (Permutation_in q (Permutation_sym P)) in Hq. destruct Hq as [<-|Hq]; [congruence|exact Hq].
Qed.
Lemma replace_stores H t f m m' : stores H t f -> f (n_key m) = Some m -> n_key m' = n_key m -> n_hash m' = H (n_key m) -> fresh_but f (n_key m) m' ->
  exists t', replace t m m' = (t', true) /\ stores H t' (with_node f (n_key m) (Some m')).
Proof.
  intros (L & G & Hh & Hn & Ha & Hf) Ef Ek Ehash Hfr. pose proof (proj1 (Hf _ _) Ef) as [Hm _].
  destruct (replace_good t L m m' G Hm Ha) as (t' & L' & E & Em & G' & P); [rewrite Ehash; symmetry; apply Hh; exact Hm|].
  exists t'. split; [exact E|]. exists L'. rewrite Em. split; [exact G'|].
  destruct (in_split _ _ Hm) as (a & b & Eab).
  assert (P' : Permutation (all (t_mask t) L') (m' :: a ++ b)).
  { apply (Permutation_cons_inv (a := m)). rewrite P, Eab. rewrite perm_swap. apply perm_skip. symmetry. apply Permutation_middle. }
  assert (Pm : Permutation (all (t_mask t) L) (m :: a ++ b)) by (rewrite Eab; symmetry; apply Permutation_middle).
  pose proof (Permutation_NoDup (Permutation_map n_key Pm) Hn) as Hkm. cbn [map] in Hkm. apply NoDup_cons_iff in Hkm.
  pose proof (Permutation_NoDup (Permutation_map n_at Pm) Ha) as Ham. cbn [map] in Ham. apply NoDup_cons_iff in Ham. destruct Ham as [_ Ham].
  assert (Hab : forall q, In q (a ++ b) -> In q (all (t_mask t) L)).
  { intros q Hq. rewrite Eab. apply in_app_or in Hq. apply in_or_app. destruct Hq; [left|right; right]; assumption. }
  split; [|split; [|split]].
  - intros q Hq. apply (Permutation_in q P') in Hq. destruct Hq as [<-|Hq]; [rewrite Ek; exact Ehash|apply Hh, Hab, Hq].
  - eapply Permutation_NoDup; [apply Permutation_map, Permutation_sym; exact P'|]. cbn [map]. rewrite Ek. constructor; apply Hkm.
  - eapply Permutation_NoDup; [apply Permutation_map, Permutation_sym; exact P'|]. cbn [map]. constructor; [|exact Ham].
    intros Hin. apply in_map_iff in Hin. destruct Hin as (q & Eq & Hq).
    apply (Hfr (n_key q) q); [apply Hf; split; [apply Hab, Hq|reflexivity]| |exact Eq]. intros E2. apply (proj1 Hkm). rewrite <- E2. apply in_map. exact Hq.
  - intros k q. destruct (key_eq k (n_key m)) eqn:Ekk.
    + apply key_eq_iff in Ekk. subst k. rewrite with_node_same. split.
      * intros Eq. injection Eq as <-. split; [|exact Ek]. apply (Permutation_in m' (Permutation_sym P')). left; reflexivity.
      * intros [Hq Hk]. apply (Permutation_in q P') in Hq. destruct Hq as [<-|Hq]; [reflexivity|].
        exfalso. apply (proj1 Hkm). rewrite <- Hk. apply in_map. exact Hq.
    + assert (Nkk : k <> n_key m) by (intros ->; rewrite key_eq_refl in Ekk; discriminate).
      rewrite with_node_other by exact Nkk. rewrite Hf. split; intros [Hq Hk]; (split; [|exact Hk]).
      * apply (Permutation_in q (Permutation_sym P')). rewrite Eab in Hq. apply in_app_or in Hq. right. apply in_or_app.
        destruct Hq as [Hq|[<-|Hq]]; [left; exact Hq|congruence|right; exact Hq].
      * apply (Permutation_in q P') in Hq. destruct Hq as [<-|Hq]; [congruence|apply Hab, Hq].
Qed.

(** ** Histories *)
Lemma hinit_stores H : stores H hinit no_nodes.
Proof.
  exists (fun _ => []). split.
  - constructor; [intros j; reflexivity|exists 12; split; [lia|reflexivity]|intros j m []|intros j; cbn; lia].
  - rewrite all_empty. cbn [map]. split; [intros m []|]. split; [constructor|]. split; [constructor|].
    intros k m. split; [discriminate|intros [[] _]].
Qed.
Lemma trun_stores H fuel cs : forall t f f', stores H t f -> proper H f cs f' ->
  trun fuel t cs = Fuel \/ exists t' rs, trun fuel t cs = Ok (t', rs) /\ stores H t' f' /\ rs = repeat true (length cs).
Proof.
  induction cs as [|c cs IH]; intros t f f' S P; cbn [trun].
  - inversion P; subst. right. exists t, []. auto.
  - assert (Hstep : (exists f1, proper H f1 cs f' /\ (tdo fuel t c = Fuel \/ exists t1, tdo fuel t c = Ok (t1, true) /\ stores H t1 f1))).
    { inversion P; subst; eexists; (split; [eassumption|]); cbn [tdo].
      - destruct (set_stores H fuel t f m S) as [->|(t1 & -> & S1)]; try assumption; [left; reflexivity|right]. exists t1. split; [reflexivity|exact S1].
      - destruct (del_stores H t f m S) as (t1 & -> & S1); try assumption. right. exists t1. split; [reflexivity|exact S1].
      - destruct (replace_stores H t f m m' S) as (t1 & -> & S1); try assumption. right. exists t1. split; [reflexivity|exact S1]. }
    destruct Hstep as (f1 & P1 & [->|(t1 & -> & S1)]); cbn [bind]; [left; reflexivity|].
    destruct (IH t1 f1 f' S1 P1) as [->|(t' & rs & -> & S' & ->)]; cbn [bind]; [left; reflexivity|]. right. exists t', (repeat true (length (c :: cs))). auto.
Qed.
