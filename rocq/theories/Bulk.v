(** The three bulk loaders (diva.hpp:1726-2007) store every key. *)
From Coq Require Import ZArith List Bool Lia Sorted Permutation.
From Coq Require Import ZifyBool ZifyNat.
From Verif Require Import Base Util Store Bits Cells Shift View Lowbit StoreFind StoreInsert StoreQuery Layout StoreList Key KeyBits KeyOrder Diva Tree StoreRep Spec Filter Contents.
Import ListNotations.
Open Scope Z_scope.

(** *** sorted lists *)
Lemma ss_app {A} (R : A -> A -> Prop) l1 l2 : StronglySorted R (l1 ++ l2) <->
  StronglySorted R l1 /\ StronglySorted R l2 /\ (forall x y, In x l1 -> In y l2 -> R x y).
Proof.
  induction l1 as [|a l1 IH]; cbn [app].
  - split; [intros H; split; [constructor|]; split; [exact H|intros x y []]|tauto].
  - split.
    + intros H. inversion H as [|? ? H1 H2]; subst. apply IH in H1 as (H3 & H4 & H5). rewrite Forall_forall in H2. split; [|split; [exact H4|]].
      * constructor; [exact H3|]. apply Forall_forall. intros x Hx. apply H2. apply in_or_app. left. exact Hx.
      * intros x y [->|Hx] Hy; [apply H2; apply in_or_app; right; exact Hy|auto].
    + intros (H1 & H2 & H3). inversion H1 as [|? ? H4 H5]; subst. constructor.
      * apply IH. split; [exact H4|]. split; [exact H2|]. intros x y Hx Hy. apply H3; [right; exact Hx|exact Hy].
      * apply Forall_app. split; [exact H5|]. apply Forall_forall. intros y Hy. apply H3; [left; reflexivity|exact Hy].
Qed.
Lemma split_nth {A} (l : list A) m d : (m < length l)%nat -> l = firstn m l ++ nth m l d :: skipn (S m) l.
Proof.
  revert m. induction l as [|a l IH]; intros m Hm; [simpl in Hm; lia|]. destruct m as [|m]; [reflexivity|].
  cbn [firstn nth skipn app]. f_equal. apply IH. simpl in Hm. lia.
Qed.

Section F.
Variable c : cfg.
Variable s : Z.
Hypothesis Hs : 1 <= s <= 46.
Hypothesis T : tables_ok c.
Hypothesis Hf : fits c s.

Notation inf := (inf c s).
Notation tot := (tot c).
Notation gapok := (gapok c s).
Notation gcov := (gcov c s).
Notation infx := (infx c s).
Notation exact := (exact c s).
Notation inv := (inv c s).
Definition blankst : store := new_store c (c_size c grow_sep) s grow_sep.

Lemma tot_scalar pk nk sh ig isz : seg c pk nk sh ig isz -> exists scalar, implicit_scalar c (tot pk nk) = Ok scalar.
Proof.
  intros HS. destruct (seg_tot _ _ _ _ _ _ HS) as [Ht _]. unfold implicit_scalar. change (target_size / 2) with 512.
  destruct (Z.leb_spec 0 (tot pk nk - 512)); [|lia]. destruct (Z.leb_spec (tot pk nk - 512) 512); [|lia]. eexists. reflexivity.
Qed.
Lemma blank_rep ti scalar : implicit_scalar c ti = Ok scalar -> rep c s ti true blankst [] /\ flags blankst = 0.
Proof.
  intros Hi. pose proof (new_store_blank c T s grow_sep Hf ltac:(lia) ltac:(unfold grow_sep; lia)) as HB.
  destruct (ugrade_spec 0 grow_sep ltac:(lia) ltac:(unfold grow_sep; lia)) as (U1 & U2 & U3 & U4).
  assert (HG : good c s (c_size c (st_grade (ugrade 0 grow_sep))) (fun p => mapped_pos c p (st_grade (ugrade 0 grow_sep)) scalar)
    (ugrade 0 grow_sep) true (fun _ => false) (fun _ => false) (fun _ => 0) 0 0 (fun _ => None) blankst).
  { rewrite U3. apply cells_nil_good; [exact HB| | |lia].
    - intros p Hp. apply (mapped_range c T ti); auto; unfold grow_sep; lia.
    - intros p q Hp Hq. apply (mapped_mono c T ti); auto; unfold grow_sep; lia. }
  split.
  - exists (ugrade 0 grow_sep), (fun _ => false), (fun _ => false), (fun _ => 0), 0, 0, (fun _ => None), scalar, [].
    split; [exact Hi|]. split; [exact U1|]. split; [exact HG|]. split; [apply content_empty; reflexivity|]. split; [reflexivity|].
    rewrite U2. reflexivity.
  - unfold flags, blankst. rewrite (V_status _ _ _ _ _ _ _ _ _ _ _ HB). exact U4.
Qed.
Lemma flags0 st : flags st = 0 -> is_partial_key st = false.
Proof. intros E. rewrite partial_flags, E. reflexivity. Qed.
Lemma flags0_ok st pk : flags st = 0 -> part_ok st pk.
Proof. intros E H. rewrite flags0 in H by exact E. discriminate. Qed.

(** an empty block between two boundaries without keys in between *)
Definition small (pk : key) (st : store) (nk : key) : Prop := forall L, get_infix_list c s st = Ok L -> Z.of_nat (length L) <= 1023.
Lemma blank_gap X pk nk : kok pk -> kok nk -> plt pk nk -> (forall k, In k X -> inside pk nk k = false) ->
  gapok pk blankst nk /\ exact X pk blankst nk /\ small pk blankst nk.
Proof.
  intros K1 K2 K3 HX. destruct (seg_ex c pk nk K1 K2 K3) as (sh & ig & isz & HS). destruct (tot_scalar _ _ _ _ _ HS) as (scalar & Hi).
  destruct (blank_rep _ _ Hi) as [HR Hfl]. split; [|split].
  - split; [exact K1|]. split; [exact K2|]. split; [exact K3|]. split; [apply flags0_ok; exact Hfl|]. exists []. exact HR.
  - split; [apply flags0; exact Hfl|]. exists []. split; [apply (rep_list c s (tot pk nk) true); exact HR|]. rewrite filter_none by exact HX. constructor.
  - intros L EL. rewrite (rep_list _ _ _ _ _ _ HR) in EL. injection EL as <-. simpl. lia.
Qed.

(** *** one block *)
Lemma map_res_ok {A B} (f : A -> res B) g l : (forall x, In x l -> f x = Ok (g x)) -> map_res f l = Ok (map g l).
Proof.
  induction l as [|a l IH]; intros H; [reflexivity|]. cbn [map_res]. rewrite (H a) by (left; reflexivity). cbn [bind].
  rewrite IH by (intros; apply H; right; assumption). reflexivity.
Qed.
Lemma infx_infs pk nk sh ig isz mid : seg c pk nk sh ig isz -> StronglySorted ple mid -> (forall m, In m mid -> ple pk m /\ ple m nk) ->
  infs s (map (infx pk nk) mid).
Proof.
  intros HS Hso Hr. destruct (seg_tot _ _ _ _ _ _ HS) as [_ Hq].
  assert (Hrng : forall m, In m mid -> 0 <= inf pk nk m < 1024 * 2 ^ s /\ inf pk nk m < 2 ^ 56).
  { intros m Hm. destruct (Hr m Hm) as [H1 H2]. destruct (inf_range c s Hs _ _ _ _ _ m HS H1 H2) as (I1 & I2 & I3). lia. }
  assert (Hp : 2 ^ s = 2 * 2 ^ (s - 1)) by (rewrite <- Z.pow_succ_r by lia; f_equal; lia).
  assert (Hp0 : 0 < 2 ^ (s - 1)) by (apply Z.pow_pos_nonneg; lia).
  assert (Hodd : forall m, In m mid -> 0 < infx pk nk m < 2 ^ 64 /\ lbase (infx pk nk m) = 2 * (inf pk nk m / 2) /\ infx pk nk m = 2 * (inf pk nk m / 2) + 1).
  { intros m Hm. destruct (Hrng m Hm) as [H1 H2]. destruct (lor1_range (inf pk nk m) ltac:(lia)) as [R1 R2].
    pose proof (Z.div_mod (inf pk nk m) 2 ltac:(lia)). pose proof (Z.mod_pos_bound (inf pk nk m) 2 ltac:(lia)).
    unfold infx in *. rewrite lor1 in * by lia. change (2 ^ 64) with (256 * 2 ^ 56). split; [lia|]. split; [|reflexivity].
    unfold lbase. rewrite lowbit_odd; [lia|change (2 ^ 64) with (256 * 2 ^ 56); lia|exact R2]. }
  split.
  - clear Hr Hrng. induction mid as [|m mid IH]; [constructor|]. inversion Hso as [|? ? H1 H2]; subst. cbn [map]. constructor.
    + apply IH; [exact H1|]. intros m' Hm'. apply Hodd. right. exact Hm'.
    + apply Forall_forall. intros y Hy. apply in_map_iff in Hy as (m' & <- & Hm').
      destruct (Hodd m ltac:(left; reflexivity)) as (_ & -> & _). destruct (Hodd m' ltac:(right; exact Hm')) as (_ & -> & _).
      rewrite Forall_forall in H2. pose proof (inf_mono c s Hs pk nk m m' ltac:(lia) (H2 _ Hm')).
      pose proof (Z.div_le_mono (inf pk nk m) (inf pk nk m') 2 ltac:(lia) ltac:(lia)). lia.
  - apply Forall_forall. intros y Hy. apply in_map_iff in Hy as (m & <- & Hm). destruct (Hodd m Hm) as (O1 & _ & O2). destruct (Hrng m Hm) as [R1 R2].
    pose proof (Z.div_mod (inf pk nk m) 2 ltac:(lia)). pose proof (Z.mod_pos_bound (inf pk nk m) 2 ltac:(lia)). split; [lia|].
    intros E0. apply Z.mod_divide in E0 as (z & E0); [|lia]. rewrite Hp in E0. lia.
Qed.
Lemma chunk_store_spec g left right mid : kok left -> kok right -> plt left right -> Forall kok mid -> StronglySorted ple mid ->
  (forall m, In m mid -> ple left m /\ ple m right) -> 0 <= g < 256 -> Z.of_nat (length mid) <= c_size c g -> Z.of_nat (length mid) < 2 ^ 20 ->
  exists st, chunk_store c s g left right mid = Ok st /\ flags st = 0 /\ rep c s (tot left right) true st (map (infx left right) mid).
Proof.
  intros K1 K2 K3 Hk Hso Hr Hg Hl Hl2. unfold chunk_store. destruct (seg_ex c left right K1 K2 K3) as (sh & ig & isz & HS).
  destruct (tot_scalar _ _ _ _ _ HS) as (scalar & Hi). rewrite (segment_eq c s Hs _ _ _ _ _ HS K1 K2). cbn [bind].
  rewrite (map_res_ok _ (infx left right)).
  2:{ intros m Hm. rewrite Forall_forall in Hk. destruct (Hr m Hm) as [R1 R2].
      destruct (extract_key_seg c s Hs _ _ _ _ _ m HS K1 (Hk m Hm) R1 R2) as (e & -> & _ & E2). cbn [bind]. rewrite E2. reflexivity. }
  cbn [bind]. destruct (ugrade_spec 0 g ltac:(lia) ltac:(lia)) as (U1 & U2 & U3 & U4).
  assert (Hw : wp (load_list c s (new_store c (c_size c g) s g) (map (infx left right) mid) (tot left right) false)
    (fun st => flags st = 0 /\ rep c s (tot left right) true st (map (infx left right) mid))).
  { apply (load_infs c T s g (ugrade 0 g) true _ _ (tot left right) scalar); [exact Hf|lia| |exact U1|exact U3|exact Hi| |rewrite map_length; lia|rewrite map_length; lia|].
    - apply new_store_blank; [exact T|exact Hf|lia|exact Hg].
    - apply (infx_infs _ _ _ _ _ _ HS Hso Hr).
    - intros st HR Hfl _. rewrite Hfl, U4. auto. }
  apply wp_exists in Hw as (st & E & H1 & H2). exists st. auto.
Qed.

(** *** adding a block at the end *)
(** [t] with [left] put into it is [A], [left], [F] *)
Definition slot (A : tree) (left : key) (F t : tree) : Prop := forall v, put t left v = A ++ (left, v) :: F.
Definition endok (F : tree) (k : key) : Prop := F = [] \/ exists ff w, F = [(ff, w)] /\ key_lt k ff = true.
(** what is known when [left] is the next boundary *)
Record start (X : list key) (A : tree) (left : key) : Prop := {
  st_kok : kok left;
  st_gap : adj gapok (A ++ [(left, blankst)]);
  st_small : adj small (A ++ [(left, blankst)]);
  st_ex : adj (exact X) (A ++ [(left, blankst)]);
  st_X : forall k, In k X -> key_lt k left = true /\ ~ In k (map fst A);
  st_nd : NoDup X
}.
Lemma start_sorted X A left v : start X A left -> sorted (A ++ [(left, v)]).
Proof. intros [_ H _ _ _ _]. apply gapok_sorted in H. apply (adj_last _ _ _ _ _ H). Qed.
Lemma slot_next A left F t v right : slot A left F t -> sorted (A ++ [(left, v)]) -> key_lt left right = true -> endok F right ->
  slot (A ++ [(left, v)]) right F (put t left v).
Proof.
  intros HS Hso Hlt He w. rewrite HS. rewrite <- app_assoc. cbn [app]. change (A ++ (left, v) :: F) with (A ++ [(left, v)] ++ F). rewrite app_assoc.
  rewrite put_new; [rewrite <- app_assoc; reflexivity| |].
  - intros x Hx. apply in_app_or in Hx as [Hx|[<-|[]]]; [|exact Hlt]. eapply key_lt_trans; [|exact Hlt]. exact (sorted_app_below _ _ _ Hso x Hx).
  - intros x B' E. destruct He as [->|(ff & u & -> & H)]; [discriminate|]. inversion E; subst. exact H.
Qed.
Lemma in_last_le A left v k : sorted (A ++ [(left, v)]) -> In k (map fst (A ++ [(left, v)])) -> key_lt left k = false.
Proof.
  intros Hso Hk. apply in_map_iff in Hk as ([k' u] & E & Hk). simpl in E. subst k'. apply in_app_or in Hk as [Hk|[Hk|[]]].
  - pose proof (sorted_app_below _ _ _ Hso _ Hk) as H. simpl in H. apply key_lt_asym. exact H.
  - inversion Hk. apply key_lt_irrefl.
Qed.

Lemma nodup_app {B} (l1 l2 : list B) : NoDup l1 -> NoDup l2 -> (forall x, In x l1 -> ~ In x l2) -> NoDup (l1 ++ l2).
Proof.
  intros H1 H2 H. induction H1 as [|x l Hx Hl IH]; [exact H2|]. cbn [app]. constructor.
  - rewrite in_app_iff. intros [H0|H0]; [auto|]. apply (H x); [left; reflexivity|exact H0].
  - apply IH. intros y Hy. apply H. right. exact Hy.
Qed.
Lemma plt_nodup l : StronglySorted plt l -> NoDup l.
Proof.
  induction 1 as [|x l Hl IH Hx]; constructor; [|exact IH]. intros Hin. rewrite Forall_forall in Hx. destruct (Hx x Hin) as (z & _ & P). lia.
Qed.
Lemma start_next X A left right mid st : start X A left -> kok right -> plt left right -> Forall kok mid -> NoDup mid ->
  (forall m, In m mid -> key_lt left m = true /\ key_lt m right = true) -> Z.of_nat (length mid) <= 1023 ->
  flags st = 0 -> rep c s (tot left right) true st (map (infx left right) mid) ->
  start (X ++ mid) (A ++ [(left, st)]) right.
Proof.
  intros [K1 Ha Hsm Hx HX Hnd] K2 K3 Hk Hso Hr Hlen Hfl HR. pose proof (gapok_sorted _ _ _ Ha) as Hsrt.
  assert (Hlr : key_lt left right = true) by (apply plt_key_lt; auto).
  assert (Hsrt2 : sorted (A ++ [(left, st)])) by (apply (adj_last _ _ _ _ _ Hsrt)).
  rewrite Forall_forall in Hk. constructor.
  - exact K2.
  - rewrite <- app_assoc. cbn [app]. apply adj_app. rewrite adj_cons, adj_one. split; [|split; [|exact I]].
    + apply (adj_last _ _ _ blankst). exact Ha.
    + split; [exact K1|]. split; [exact K2|]. split; [exact K3|]. split; [apply flags0_ok; exact Hfl|]. eexists. exact HR.
  - rewrite <- app_assoc. cbn [app]. apply adj_app. rewrite adj_cons, adj_one. split; [|split; [|exact I]].
    + apply (adj_last _ _ _ blankst). exact Hsm.
    + intros L EL. rewrite (rep_list _ _ _ _ _ _ HR) in EL. injection EL as <-. rewrite map_length. exact Hlen.
  - rewrite <- app_assoc. cbn [app]. apply adj_app. rewrite adj_cons, adj_one. split; [|split; [|exact I]].
    + assert (Hx2 : adj (exact X) (A ++ [(left, st)])) by (apply (adj_last _ _ _ blankst); exact Hx). rewrite adj_iff in *.
      intros A1 a v b w B1 E. destruct (Hx2 _ _ _ _ _ _ E) as (Hp & L & EL & HP). split; [exact Hp|]. exists L. split; [exact EL|].
      rewrite filter_app. rewrite (filter_none _ mid); [rewrite app_nil_r; exact HP|].
      intros m Hm. assert (Hb : In b (map fst (A ++ [(left, st)]))) by (rewrite E, map_app; apply in_or_app; right; right; left; reflexivity).
      pose proof (in_last_le _ _ _ _ Hsrt2 Hb) as Hn. unfold inside. destruct (Hr m Hm) as [Hm1 _].
      destruct (key_lt m b) eqn:Em; [|apply andb_false_r]. exfalso.
      pose proof (lt_nlt_trans _ _ _ (key_lt_trans _ _ _ Hm1 Em) ltac:(exact (key_lt_irrefl b))) as Hl. congruence.
    + split; [apply flags0; exact Hfl|]. eexists. split; [apply (rep_list c s (tot left right) true); exact HR|].
      rewrite filter_app, (filter_none _ X), (filter_all _ mid); [reflexivity| |].
      * intros m Hm. destruct (Hr m Hm) as [Hm1 Hm2]. unfold inside. rewrite Hm2, (key_lt_asym _ _ Hm1). reflexivity.
      * intros k HkX. unfold inside. rewrite (proj1 (HX k HkX)). reflexivity.
  - intros k Hin. apply in_app_or in Hin as [Hin|Hin].
    + destruct (HX k Hin) as [H1 H2]. split; [eapply key_lt_trans; [exact H1|exact Hlr]|]. rewrite map_app, in_app_iff. intros [H|[H|[]]]; [auto|].
      cbn [fst] in H. rewrite H, key_lt_irrefl in H1. discriminate.
    + destruct (Hr k Hin) as [H1 H2]. split; [exact H2|]. intros H. rewrite (in_last_le _ _ _ _ Hsrt2 H) in H1. discriminate.
  - apply nodup_app; [exact Hnd|exact Hso|]. intros k H1 H2. destruct (HX k H1) as [H3 _]. destruct (Hr k H2) as [H4 _].
    rewrite (key_lt_asym _ _ H3) in H4. discriminate.
Qed.

(** the step shared by all loaders *)
Lemma chunk_step X A left F t g mid right : start X A left -> slot A left F t -> kok right -> Forall kok mid ->
  StronglySorted plt (left :: mid ++ [right]) -> 0 <= g < 256 -> Z.of_nat (length mid) <= c_size c g -> Z.of_nat (length mid) <= 1023 ->
  exists st, chunk_store c s g left right mid = Ok st /\ start (X ++ mid) (A ++ [(left, st)]) right /\ put t left st = A ++ (left, st) :: F /\
    key_lt left right = true.
Proof.
  intros HS Hsl K2 Hk Hso Hg Hl Hl2. inversion Hso as [|? ? Hso1 Hfa]; subst. apply Forall_app in Hfa as [Hfa1 Hfa2]. inversion Hfa2; subst.
  apply ss_app in Hso1 as (Hso2 & _ & Hmr). rewrite Forall_forall in Hfa1. pose proof Hk as Hk'. rewrite Forall_forall in Hk'.
  pose proof (st_kok _ _ _ HS) as K1.
  assert (Hso3 : StronglySorted ple mid).
  { clear -Hso2. induction Hso2; constructor; auto. eapply Forall_impl; [|exact H]. intros b. apply plt_ple. }
  destruct (chunk_store_spec g left right mid) as (st & E & Hfl & HR); auto; try lia.
  { intros m Hm. split; apply plt_ple; [apply Hfa1; exact Hm|apply Hmr; [exact Hm|left; reflexivity]]. }
  exists st. split; [exact E|]. split; [|split; [apply Hsl|apply plt_key_lt; auto]].
  apply start_next; auto; try lia; [apply plt_nodup; exact Hso2|]. intros m Hm. split; apply plt_key_lt; auto; try (apply Hmr; [exact Hm|left; reflexivity]).
Qed.

(** *** the end of the input *)
Definition kept (X : list key) (t : tree) (k : key) : Prop := In k X \/ In k (map fst t).
(** the filter after the last key [right] became a boundary; [F] is what follows *)
Record done (X : list key) (A : tree) (right : key) (F : tree) (d : diva) : Prop := {
  dn_size : d_size d = s;
  dn_tree : d_tree d = A ++ (right, blankst) :: F;
  dn_start : start X A right
}.
Lemma load_tail_spec X A left F t rest : start X A left -> slot A left F t -> Forall kok rest -> StronglySorted plt (left :: rest) ->
  rest <> [] -> Z.of_nat (length rest) <= 1024 ->
  (forall k, In k rest -> k = last rest left \/ endok F k) ->
  (F = [] \/ exists ff w, F = [(ff, w)] /\ (last rest left = ff \/ key_lt (last rest left) ff = true)) ->
  exists X' A' F' d', load_tail c (mkdiva s t) left rest = Ok d' /\ done X' A' (last rest left) F' d' /\
    (forall k, kept X' A' k <-> kept X A k \/ In k (left :: removelast rest)) /\
    hd_key (A' ++ [(last rest left, blankst)]) = hd_key (A ++ [(left, blankst)]) /\
    (F' = match F with [] => [] | (ff, _) :: _ => if key_eq (last rest left) ff then [] else F end).
Proof.
  intros HS Hsl Hk Hso Hne Hlen Hend HF. set (mid := removelast rest). set (right := last rest left).
  assert (Er : rest = mid ++ [right]) by (apply app_removelast_last; exact Hne).
  assert (Kr : kok right) by (rewrite Forall_forall in Hk; apply Hk; rewrite Er; apply in_or_app; right; left; reflexivity).
  assert (Km : Forall kok mid) by (rewrite Er in Hk; apply Forall_app in Hk; apply Hk).
  assert (Hml : Z.of_nat (length mid) < 1024) by (rewrite Er, app_length in Hlen; simpl in Hlen; lia).
  assert (Hbig : 1023 <= c_size c 249).
  { pose proof (t_chunk _ T). pose proof (size_mono c T grow_sep 249 ltac:(unfold grow_sep; lia) ltac:(lia)). lia. }
  destruct (least_grade c (Z.of_nat (length mid)) ltac:(lia)) as (g & Hg & Hle & Hlt).
  rewrite Er in Hso. destruct (chunk_step X A left F t g mid right HS Hsl Kr Km Hso ltac:(lia) Hle ltac:(lia)) as (st & E & HS' & Ep & Hlr).
  unfold load_tail. fold mid right. unfold lower_bound_grade. rewrite (alloc_grade_eq c _ g Hg Hlt Hle). cbn [bind d_size d_tree].
  rewrite E. cbn [bind]. unfold with_tree. cbn [d_size d_tree]. rewrite Ep.
  pose proof (start_sorted _ _ _ blankst HS') as Hso2. pose proof (start_sorted _ _ _ st HS) as Hso1.
  assert (Hb : below (A ++ [(left, st)]) right) by (exact (sorted_app_below _ _ _ Hso2)).
  set (F' := match F with [] => [] | (ff, _) :: _ => if key_eq right ff then [] else F end).
  assert (Eput : put (A ++ (left, st) :: F) right blankst = (A ++ [(left, st)]) ++ (right, blankst) :: F').
  { change (A ++ (left, st) :: F) with (A ++ [(left, st)] ++ F). rewrite app_assoc. unfold F'.
    destruct HF as [->|(ff & w & -> & [Hff|Hff])].
    - apply put_new; [exact Hb|]. intros x B' Ex. discriminate.
    - fold right in Hff. rewrite <- Hff, key_eq_refl. apply put_hit. exact Hb.
    - fold right in Hff. destruct (key_eq right ff) eqn:Ee; [apply key_eq_iff in Ee; rewrite Ee, key_lt_irrefl in Hff; discriminate|].
      apply put_new; [exact Hb|]. intros x B' Ex. injection Ex as <- _. exact Hff. }
  destruct rest as [|r0 rest0]; [congruence|]. unfold add_tree_key, with_tree. cbn [d_size d_tree]. fold blankst.
  exists (X ++ mid), (A ++ [(left, st)]), F', (mkdiva s ((A ++ [(left, st)]) ++ (right, blankst) :: F')).
  split; [rewrite Eput; reflexivity|]. split; [constructor; [reflexivity|reflexivity|exact HS']|]. split; [|split; [|reflexivity]].
  - intros k. unfold kept. rewrite map_app, !in_app_iff. cbn [map fst In]. fold mid. tauto.
  - destruct A as [|a A]; reflexivity.
Qed.

Lemma last_nonempty {A} (l : list A) x y : l <> [] -> last l x = last l y.
Proof.
  induction l as [|a l IH]; intros H; [congruence|]. destruct l as [|b l]; [reflexivity|].
  change (last (b :: l) x = last (b :: l) y). apply IH. discriminate.
Qed.
Lemma last_app {A} (l1 l2 : list A) x : l2 <> [] -> last (l1 ++ l2) x = last l2 x.
Proof.
  intros H. induction l1 as [|a l1 IH]; [reflexivity|]. cbn [app]. rewrite <- IH. destruct (l1 ++ l2) eqn:E; [|reflexivity].
  apply app_eq_nil in E as [_ E]. congruence.
Qed.

Lemma last_in {A} (l : list A) x : l <> [] -> In (last l x) l.
Proof.
  intros H. rewrite (app_removelast_last x H) at 2. apply in_or_app. right. left. reflexivity.
Qed.

Definition tail_of (F : tree) (right : key) : tree := match F with [] => [] | (ff, _) :: _ => if key_eq right ff then [] else F end.
Definition ends (F : tree) (right : key) : Prop :=
  F = [] \/ exists ff w, F = [(ff, w)] /\ (right = ff \/ key_lt right ff = true).
Lemma load_chunks_spec fuel : forall X A left F t rest, start X A left -> slot A left F t -> Forall kok rest -> StronglySorted plt (left :: rest) ->
  Z.of_nat (length rest) mod 1024 <> 0 -> (length rest < fuel)%nat -> ends F (last rest left) ->
  exists X' A' d', load_chunks fuel c (mkdiva s t) left rest = Ok d' /\ done X' A' (last rest left) (tail_of F (last rest left)) d' /\
    (forall k, kept X' A' k <-> kept X A k \/ In k (left :: removelast rest)) /\
    hd_key (A' ++ [(last rest left, blankst)]) = hd_key (A ++ [(left, blankst)]).
Proof.
  induction fuel as [|fuel IH]; intros X A left F t rest HS Hsl Hk Hso Hmod Hfu HF; [lia|].
  assert (Hne : rest <> []) by (intros ->; apply Hmod; reflexivity).
  assert (Hord : forall k, In k rest -> k = last rest left \/ key_lt k (last rest left) = true).
  { intros k Hin. rewrite (app_removelast_last left Hne) in Hin, Hso, Hk. apply in_app_or in Hin as [Hin|[<-|[]]]; [right|left; reflexivity].
    inversion Hso as [|? ? Hso1 _]; subst. apply ss_app in Hso1 as (_ & _ & Hr). apply Forall_app in Hk as [Hk1 Hk2]. rewrite Forall_forall in *.
    apply plt_key_lt; [apply Hk1; exact Hin|apply Hk2; left; reflexivity|]. apply Hr; [exact Hin|left; reflexivity]. }
  cbn [load_chunks]. unfold target_size. destruct (Z.leb_spec 1024 (Z.of_nat (length rest))) as [Hge|Hlt].
  - change (Z.to_nat (1024 - 1)) with 1023%nat. cbn [d_size d_tree].
    set (right := nth 1023 rest []). set (mid := firstn 1023 rest). set (rest' := skipn 1024 rest).
    assert (Er : rest = mid ++ right :: rest') by (apply split_nth; lia).
    assert (Lm : length mid = 1023%nat) by (unfold mid; rewrite firstn_length; lia).
    assert (Lr : (length rest = length rest' + 1024)%nat) by (rewrite Er, app_length; cbn [length]; lia).
    assert (Hmod' : Z.of_nat (length rest') mod 1024 <> 0).
    { replace (Z.of_nat (length rest)) with (Z.of_nat (length rest') + 1 * 1024) in Hmod by lia. rewrite Z.mod_add in Hmod by lia. exact Hmod. }
    assert (Hne' : rest' <> []) by (intros E0; rewrite E0 in Hmod'; apply Hmod'; reflexivity).
    assert (Elast : last rest left = last rest' right).
    { rewrite Er. rewrite last_app by discriminate. change (right :: rest') with ([right] ++ rest'). rewrite last_app by exact Hne'. apply last_nonempty. exact Hne'. }
    assert (Hk2 : Forall kok mid /\ kok right /\ Forall kok rest').
    { rewrite Er in Hk. apply Forall_app in Hk as [Hk1 Hk2]. inversion Hk2. auto. }
    destruct Hk2 as (Km & Kr & Kr').
    assert (Hso' : StronglySorted plt ((left :: mid ++ [right]) ++ rest')) by (cbn [app]; rewrite <- app_assoc; cbn [app]; rewrite <- Er; exact Hso).
    pose proof Hso' as Hso''. apply ss_app in Hso'' as (Hso1 & Hso2 & Hso3).
    destruct (chunk_step X A left F t grow_sep mid right HS Hsl Kr Km Hso1 ltac:(unfold grow_sep; lia)) as (st & E & HS' & Ep & Hlr).
    { rewrite Lm. apply (t_chunk _ T). } { rewrite Lm. lia. }
    rewrite E. cbn [bind]. unfold with_tree. cbn [d_size d_tree].
    assert (Hright : key_lt right (last rest left) = true).
    { destruct (Hord right) as [E0|]; [rewrite Er; apply in_or_app; right; left; reflexivity| |assumption].
      exfalso. assert (P : plt right (last rest' right)).
      { apply Hso3; [right; apply in_or_app; right; left; reflexivity|]. apply last_in. exact Hne'. }
      rewrite <- Elast, <- E0 in P. destruct P as (z & Hz & Pz). lia. }
    assert (Hend : endok F right).
    { destruct HF as [->|(ff & w & -> & Hff)]; [left; reflexivity|right]. exists ff, w. split; [reflexivity|].
      destruct Hff as [<-|Hff]; [exact Hright|eapply key_lt_trans; eauto]. }
    pose proof (slot_next A left F t st right Hsl (start_sorted _ _ _ st HS) Hlr Hend) as Hsl'. change (S 1023) with 1024%nat. fold rest'.
    destruct (IH (X ++ mid) (A ++ [(left, st)]) right F (put t left st) rest' HS' Hsl' Kr') as (X' & A' & d' & E1 & E2 & E3 & E5).
    { constructor; [exact Hso2|]. apply Forall_forall. intros y Hy. apply Hso3; [right; apply in_or_app; right; left; reflexivity|exact Hy]. }
    { exact Hmod'. } { lia. } { rewrite <- Elast. exact HF. }
    exists X', A', d'. rewrite Elast. split; [exact E1|]. split; [exact E2|]. split.
    + intros k.
      assert (Hrl : removelast rest = mid ++ right :: removelast rest').
      { rewrite Er. rewrite removelast_app by discriminate. f_equal. cbn [removelast]. destruct rest'; [congruence|reflexivity]. }
      rewrite Hrl, E3. unfold kept. rewrite map_app. cbn [In]. rewrite !in_app_iff. cbn [map fst In]. tauto.
    + rewrite E5. destruct A; reflexivity.
  - destruct (load_tail_spec X A left F t rest HS Hsl Hk Hso Hne ltac:(lia)) as (X' & A' & F' & d' & E1 & E2 & E3 & E5 & E6).
    { intros k Hin. destruct (Hord k Hin) as [->|Hl]; [left; reflexivity|right]. destruct HF as [->|(ff & w & -> & Hff)]; [left; reflexivity|right].
      exists ff, w. split; [reflexivity|]. destruct Hff as [<-|Hff]; [exact Hl|eapply key_lt_trans; eauto]. }
    { exact HF. }
    exists X', A', d'. unfold tail_of. rewrite <- E6. auto 6.
Qed.

(** *** the constructors *)
Lemma finish X A right F d hi : done X A right F d -> (F = [] /\ hi = right \/ exists w, F = [(hi, w)] /\ kok hi /\ plt right hi /\ w = blankst) ->
  inv X (hd_key (A ++ [(right, blankst)])) hi d /\ (adj small (d_tree d) /\ last_st (d_tree d) = blankst /\ NoDup X /\ forall k, In k X -> ~ In k (map fst (d_tree d))) /\ map fst (d_tree d) = map fst A ++ right :: map fst F.
Proof.
  intros [Hd1 Hd2 [K1 Ha Hsm Hx HX Hnd]] HF.
  destruct HF as [[-> ->]|(w & -> & K2 & K3 & ->)].
  - split; [|rewrite Hd2, map_app; split; [split; [exact Hsm|split; [rewrite last_st_app; reflexivity|split; [exact Hnd|]]]|reflexivity]].
    2:{ intros k Hk. destruct (HX k Hk) as [H1 H2]. rewrite in_app_iff. intros [H|[H|[]]]; [auto|]. cbn [fst] in H. rewrite H, key_lt_irrefl in H1. discriminate. }
    split; [exact Hd1|]. rewrite Hd2. split; [destruct A; discriminate|]. split; [reflexivity|].
    split; [rewrite last_app_cons; reflexivity|]. split; assumption.
  - destruct (blank_gap X right hi K1 K2 K3) as (G1 & G2 & G3).
    { intros k Hk. unfold inside. rewrite (proj1 (HX k Hk)). reflexivity. }
    split; [|split; [split; [rewrite Hd2; apply adj_app; rewrite adj_cons, adj_one; auto|split; [rewrite Hd2, last_st_app; reflexivity|split; [exact Hnd|]]]|rewrite Hd2, map_app; reflexivity]].
    2:{ intros k Hk. destruct (HX k Hk) as [H1 H2]. rewrite Hd2, map_app, in_app_iff. intros [H|[H|[H|[]]]]; [auto| |]; cbn [fst] in H.
        - rewrite H, key_lt_irrefl in H1. discriminate.
        - assert (H3 : key_lt right hi = true) by (apply plt_key_lt; auto). rewrite H in H3. rewrite (key_lt_asym _ _ H1) in H3. discriminate. }
    split; [exact Hd1|]. rewrite Hd2. split; [destruct A; discriminate|]. split; [destruct A; reflexivity|].
    change (A ++ [(right, blankst); (hi, blankst)]) with (A ++ [(right, blankst)] ++ [(hi, blankst)]).
    split; [rewrite app_assoc, last_app_cons; reflexivity|]. cbn [app].
    split; apply adj_app; rewrite adj_cons, adj_one; auto.
Qed.

(** keys of one length *)
Lemma plt_of_lt a b : kok a -> kok b -> length a = length b -> key_lt a b = true -> plt a b.
Proof. intros. apply key_lt_plt; auto. Qed.
Lemma kok_repeat x n : 0 <= x < 256 -> kok (repeat x n).
Proof. intros H. apply Forall_forall. intros y Hy. apply repeat_spec in Hy. subst. exact H. Qed.
Lemma zeros_low k : kok k -> key_lt k (repeat 0 (length k)) = false.
Proof.
  induction k as [|x k IH]; intros H; [reflexivity|]. cbn [length repeat]. rewrite key_lt_cons. destruct (kok_cons _ _ H) as [Hx Hk].
  destruct (Z.compare_spec x 0); [apply IH; exact Hk|lia|reflexivity].
Qed.
Lemma ffs_high k n : kok k -> (length k <= n)%nat -> key_lt (repeat 255 n) k = false.
Proof.
  revert n. induction k as [|x k IH]; intros n H Hn; [destruct n; reflexivity|]. destruct n as [|n]; [simpl in Hn; lia|].
  cbn [repeat]. rewrite key_lt_cons. destruct (kok_cons _ _ H) as [Hx Hk].
  destruct (Z.compare_spec 255 x); [apply IH; [exact Hk|simpl in Hn; lia]|lia|reflexivity].
Qed.
(** a key of at most [n] bytes other than n times 255 is below it, zero padded too *)
Lemma ffs_plt k n : kok k -> (length k <= n)%nat -> k <> repeat 255 n -> plt k (repeat 255 n).
Proof.
  revert n. induction k as [|x k IH]; intros n H Hn Hne.
  - destruct n as [|n]; [exfalso; apply Hne; reflexivity|]. exists 8. split; [lia|]. change 8 with (8 + 0).
    cbn [repeat]. rewrite pre_cons by (try lia; apply (kok_repeat 255 (S n)); lia). rewrite pre_nil by lia. change (pre 0 (repeat 255 n)) with 0. lia.
  - destruct n as [|n]; [simpl in Hn; lia|]. cbn [repeat] in *. destruct (kok_cons _ _ H) as [Hx Hk].
    assert (Kr : kok (255 :: repeat 255 n)) by (apply (kok_repeat 255 (S n)); lia).
    destruct (Z.eq_dec x 255) as [->|Hn2].
    + apply plt_cons_eq; auto. apply IH; [exact Hk|simpl in Hn; lia|]. intros ->. apply Hne. reflexivity.
    + apply plt_cons_lt; auto. lia.
Qed.

Definition strict (keys : list key) : Prop := StronglySorted plt keys.

(** the first tree of the fixed-length and string constructors *)
Lemma first_slot lo first F : kok lo -> kok first -> lo = first \/ plt lo first -> endok F first ->
  exists A, start [] A first /\ slot A first F ((lo, blankst) :: F) /\ hd_key (A ++ [(first, blankst)]) = lo /\
    (forall k, kept [] A k -> k = lo).
Proof.
  intros K1 K2 Hlo He. destruct Hlo as [->|Hp].
  - exists []. split; [constructor; simpl; auto; try (intros k []); try apply NoDup_nil|]. split; [|split; [reflexivity|intros k [[]|[]]]].
    intros v. cbn [app put]. rewrite key_eq_refl. reflexivity.
  - exists [(lo, blankst)]. assert (Hlt : key_lt lo first = true) by (apply plt_key_lt; auto). split; [|split; [|split; [reflexivity|intros k [[]|[<-|[]]]; reflexivity]]].
    + destruct (blank_gap [] lo first K1 K2 Hp) as (G1 & G2 & G3); [intros k []|]. constructor; auto; cbn [app]; rewrite ?adj_cons, ?adj_one; auto; try apply NoDup_nil.
    + intros v. cbn [app]. change ((lo, blankst) :: F) with ([(lo, blankst)] ++ F). rewrite put_new; [reflexivity| |].
      * intros x [<-|[]]. exact Hlt.
      * intros x B' E. destruct He as [->|(ff & w & -> & Hff)]; [discriminate|]. injection E as <- _. exact Hff.
Qed.

Lemma kept_all (keys : list key) X t : (forall k, In k keys -> kept X t k) -> forall k, In k keys -> In k X \/ In k (map fst t).
Proof. auto. Qed.

Lemma members X (A A' : tree) first rest (F' : tree) lo hi : rest <> [] ->
  (forall k, kept X A' k <-> kept [] A k \/ In k (first :: removelast rest)) -> (forall k, kept [] A k -> k = lo) ->
  hd_key (A' ++ [(last rest first, blankst)]) = lo -> (F' = [] /\ hi = last rest first \/ exists w, F' = [(hi, w)]) ->
  forall k, In k X \/ In k (map fst A' ++ last rest first :: map fst F') <-> In k (first :: rest) \/ k = lo \/ k = hi.
Proof.
  intros Hne E3 HA Elo HF k. specialize (E3 k). specialize (HA k).
  assert (Ek : first :: rest = first :: removelast rest ++ [last rest first]) by (f_equal; apply app_removelast_last; exact Hne).
  rewrite Ek. cbn [In]. rewrite !in_app_iff. cbn [In]. cbn [In] in E3. split.
  - intros H. assert (H' : kept X A' k \/ last rest first = k \/ In k (map fst F')).
    { clear -H. unfold kept. destruct H as [H|[H|[H|H]]]; auto. }
    destruct H' as [H'|[H'|H']]; [|left; right; right; left; exact H'|].
    + apply E3 in H' as [H'|[H'|H']]; [right; left; apply HA; exact H'|left; left; exact H'|left; right; left; exact H'].
    + right. right. destruct HF as [[-> _]|(w & ->)]; [destruct H'|destruct H' as [<-|[]]; reflexivity].
  - intros H. assert (H' : kept X A' k \/ last rest first = k \/ In k (map fst F')).
    { destruct H as [[H|[H|[H|[]]]]|[H|H]].
      - left. apply E3. right. left. exact H.
      - left. apply E3. right. right. exact H.
      - right. left. exact H.
      - subst k. rewrite <- Elo. destruct A' as [|[a w] A']; [right; left; reflexivity|left; right; left; reflexivity].
      - subst k. destruct HF as [[_ ->]|(w & ->)]; [right; left; reflexivity|right; right; left; reflexivity]. }
    clear -H'. unfold kept in H'. destruct H' as [[H|H]|[H|H]]; auto.
Qed.

Theorem bulk_fixed_inv len keys : Forall kok keys -> Forall (fun k => length k = len) keys -> StronglySorted (fun a b => key_lt a b = true) keys ->
  keys <> [] -> Z.of_nat (length keys) mod 1024 <> 1 ->
  exists d X, bulk_load_fixed c s len keys = Ok d /\ inv X (repeat 0 len) (repeat 255 len) d /\ (adj small (d_tree d) /\ last_st (d_tree d) = blankst /\ NoDup X /\ forall k, In k X -> ~ In k (map fst (d_tree d))) /\
    (forall k, In k X \/ In k (map fst (d_tree d)) <-> In k keys \/ k = repeat 0 len \/ k = repeat 255 len).
Proof.
  intros Hk Hl Hso Hne Hmod. destruct keys as [|first rest]; [congruence|]. clear Hne.
  assert (Hso2 : StronglySorted plt (first :: rest)).
  { clear Hmod. induction Hso as [|a l Hso' IH Ha]; [constructor|]. inversion Hk; inversion Hl; subst. constructor; [apply IH; assumption|].
    rewrite Forall_forall in *. intros x Hx. apply plt_of_lt; auto. symmetry; auto. }
  assert (Hmod' : Z.of_nat (length rest) mod 1024 <> 0).
  { intros E. apply Hmod. cbn [length]. replace (Z.of_nat (S (length rest))) with (Z.of_nat (length rest) + 1) by lia.
    rewrite Z.add_mod by lia. rewrite E. reflexivity. }
  assert (Hne : rest <> []) by (intros ->; apply Hmod'; reflexivity).
  inversion Hk as [|? ? K1 Kr]; subst. inversion Hl as [|? ? L1 Lr]; subst. set (len := length first) in *.
  assert (Kz : kok (repeat 0 len)) by (apply kok_repeat; lia). assert (Kff : kok (repeat 255 len)) by (apply kok_repeat; lia).
  assert (Klast : In (last rest first) rest) by (apply last_in; exact Hne).
  assert (Hle : forall k, In k (first :: rest) -> k = repeat 255 len \/ plt k (repeat 255 len)).
  { intros k Hin. destruct (list_eq_dec Z.eq_dec k (repeat 255 len)); [left; assumption|right]. rewrite Forall_forall in Hk, Hl.
    apply ffs_plt; [apply Hk; exact Hin|rewrite (Hl k Hin); unfold len; lia|assumption]. }
  assert (Pfl : plt first (last rest first)) by (inversion Hso2 as [|? ? _ Hf2]; subst; rewrite Forall_forall in Hf2; apply Hf2; exact Klast).
  assert (Pff : plt first (repeat 255 len)).
  { destruct (Hle (last rest first)) as [<-|P]; [right; exact Klast|exact Pfl|]. eapply plt_ple_trans; [exact Pfl|]. apply plt_ple. exact P. }
  assert (Hfirst : repeat 0 len = first \/ plt (repeat 0 len) first).
  { destruct (nlt_cases _ _ (zeros_low first K1)) as [E|E]; [left; symmetry; exact E|right]. apply plt_of_lt; auto. rewrite repeat_length. reflexivity. }
  assert (Kfl : key_lt first (repeat 255 len) = true) by (apply plt_key_lt; auto).
  set (F := [(repeat 255 len, blankst)]).
  assert (He : endok F first) by (right; exists (repeat 255 len), blankst; auto).
  destruct (first_slot (repeat 0 len) first F Kz K1 Hfirst He) as (A & HS & Hsl & Hhd & HA).
  unfold bulk_load_fixed, add_tree_key, with_tree. cbn [d_size d_tree put]. fold len.
  assert (Hz : key_eq (repeat 0 len) (repeat 255 len) = false /\ key_lt (repeat 0 len) (repeat 255 len) = true).
  { assert (Hzl : key_lt (repeat 0 len) (repeat 255 len) = true).
    { destruct Hfirst as [->|P]; [exact Kfl|]. eapply key_lt_trans; [|exact Kfl]. apply plt_key_lt; auto. }
    split; [|exact Hzl]. destruct (key_eq (repeat 0 len) (repeat 255 len)) eqn:E; [|reflexivity]. apply key_eq_iff in E. rewrite E, key_lt_irrefl in Hzl. discriminate. }
  destruct Hz as [-> ->]. fold blankst. fold F. unfold load_keys.
  assert (Hends : ends F (last rest first)).
  { right. exists (repeat 255 len), blankst. split; [reflexivity|]. destruct (Hle (last rest first)) as [E|P]; [right; exact Klast|left; exact E|right].
    rewrite Forall_forall in Kr. apply plt_key_lt; auto. }
  destruct (load_chunks_spec (S (length rest)) [] A first F _ rest HS Hsl Kr Hso2 Hmod' ltac:(lia) Hends) as (X & A' & d & E1 & E2 & E3 & E5).
  exists d, X. rewrite Hhd in E5.
  assert (HF : tail_of F (last rest first) = [] /\ repeat 255 len = last rest first \/ exists w, tail_of F (last rest first) = [(repeat 255 len, w)] /\ kok (repeat 255 len) /\ plt (last rest first) (repeat 255 len) /\ w = blankst).
  { unfold tail_of, F. destruct (Hle (last rest first)) as [E|P]; [right; exact Klast| |].
    - left. rewrite E, key_eq_refl. auto.
    - right. exists blankst. destruct (key_eq (last rest first) (repeat 255 len)) eqn:E; [|auto]. apply key_eq_iff in E. rewrite E in P. destruct P as (z & _ & P). lia. }
  destruct (finish X A' (last rest first) _ d (repeat 255 len) E2 HF) as (HI & Hsm & Hmap). rewrite E5 in HI.
  split; [exact E1|]. split; [exact HI|]. split; [exact Hsm|].
  intros k. rewrite Hmap. apply (members X A A' first rest (tail_of F (last rest first)) (repeat 0 len) (repeat 255 len)); auto.
  destruct HF as [[-> ->]|(w & -> & _)]; [left; auto|right; exists w; reflexivity].
Qed.

(** *** strings *)
Lemma max_len_spec keys k : In k keys -> (length k <= max_len keys)%nat.
Proof.
  induction keys as [|a keys IH]; [intros []|]. intros [->|H]; cbn [max_len fold_right]; [apply Nat.le_max_l|].
  etransitivity; [apply IH; exact H|apply Nat.le_max_r].
Qed.
Theorem bulk_var_inv keys : Forall kok keys -> StronglySorted plt keys -> keys <> [] -> Z.of_nat (length keys) mod 1024 <> 1 ->
  hd [] keys = repeat 0 8 \/ plt (repeat 0 8) (hd [] keys) ->
  exists d X, bulk_load_var c s keys = Ok d /\ inv X (repeat 0 8) (repeat 255 (max_len keys)) d /\ (adj small (d_tree d) /\ last_st (d_tree d) = blankst /\ NoDup X /\ forall k, In k X -> ~ In k (map fst (d_tree d))) /\
    (forall k, In k X \/ In k (map fst (d_tree d)) <-> In k keys \/ k = repeat 0 8 \/ k = repeat 255 (max_len keys)).
Proof.
  intros Hk Hso2 Hne Hmod Hfirst. destruct keys as [|first rest]; [congruence|]. clear Hne. cbn [hd] in Hfirst.
  assert (Hmod' : Z.of_nat (length rest) mod 1024 <> 0).
  { intros E. apply Hmod. cbn [length]. replace (Z.of_nat (S (length rest))) with (Z.of_nat (length rest) + 1) by lia.
    rewrite Z.add_mod by lia. rewrite E. reflexivity. }
  assert (Hne : rest <> []) by (intros ->; apply Hmod'; reflexivity).
  inversion Hk as [|? ? K1 Kr]; subst. set (m := max_len (first :: rest)).
  assert (Kz : kok (repeat 0 8)) by (apply kok_repeat; lia). assert (Kff : kok (repeat 255 m)) by (apply kok_repeat; lia).
  assert (Klast : In (last rest first) rest) by (apply last_in; exact Hne).
  assert (Kl : kok (last rest first)) by (rewrite Forall_forall in Kr; apply Kr; exact Klast).
  assert (Hle : last rest first = repeat 255 m \/ plt (last rest first) (repeat 255 m)).
  { destruct (list_eq_dec Z.eq_dec (last rest first) (repeat 255 m)); [left; assumption|right].
    apply ffs_plt; [exact Kl|apply max_len_spec; right; exact Klast|assumption]. }
  assert (Hfirst' : repeat 0 8 = first \/ plt (repeat 0 8) first) by (destruct Hfirst as [->|]; [left; reflexivity|right; assumption]).
  assert (He : endok [] first) by (left; reflexivity).
  destruct (first_slot (repeat 0 8) first [] Kz K1 Hfirst' He) as (A & HS & Hsl & Hhd & HA).
  unfold bulk_load_var. fold m. change (add_tree_key c (mkdiva s []) (repeat 0 8)) with (mkdiva s [(repeat 0 8, blankst)]). unfold load_keys.
  destruct (load_chunks_spec (S (length rest)) [] A first [] _ rest HS Hsl Kr Hso2 Hmod' ltac:(lia)) as (X & A' & d & E1 & E2 & E3 & E5); [left; reflexivity|].
  match goal with |- context [load_chunks ?a ?b ?e ?f ?g] => replace (load_chunks a b e f g) with (Ok d) by (symmetry; exact E1) end. cbn [bind]. rewrite Hhd in E5. cbn [tail_of] in E2. destruct E2 as [D1 D2 D3].
  set (F' := if key_eq (last rest first) (repeat 255 m) then [] else [(repeat 255 m, blankst)]).
  assert (Hput : put (A' ++ [(last rest first, blankst)]) (repeat 255 m) blankst = A' ++ (last rest first, blankst) :: F').
  { unfold F'. destruct (key_eq (last rest first) (repeat 255 m)) eqn:E.
    - apply key_eq_iff in E. rewrite <- E. apply put_hit. exact (sorted_app_below _ _ _ (start_sorted _ _ _ blankst D3)).
    - destruct Hle as [E0|Hp]; [rewrite E0, key_eq_refl in E; discriminate|]. rewrite <- (app_nil_r (A' ++ _)).
      rewrite put_new; [rewrite <- app_assoc; reflexivity| |intros x B' Ex; discriminate].
      intros x Hx. assert (Hlt : key_lt (last rest first) (repeat 255 m) = true) by (apply plt_key_lt; auto).
      apply in_app_or in Hx as [Hx|[<-|[]]]; [|exact Hlt]. eapply key_lt_trans; [|exact Hlt].
      exact (sorted_app_below _ _ _ (start_sorted _ _ _ blankst D3) x Hx). }
  unfold add_tree_key, with_tree. rewrite D1, D2. fold blankst. rewrite Hput.
  assert (HF : F' = [] /\ repeat 255 m = last rest first \/ exists w, F' = [(repeat 255 m, w)] /\ kok (repeat 255 m) /\ plt (last rest first) (repeat 255 m) /\ w = blankst).
  { unfold F'. destruct Hle as [E|P].
    - left. rewrite E, key_eq_refl. auto.
    - right. exists blankst. destruct (key_eq (last rest first) (repeat 255 m)) eqn:E; [|auto]. apply key_eq_iff in E. rewrite E in P. destruct P as (z & _ & P). lia. }
  eexists. exists X. split; [reflexivity|].
  assert (E2' : done X A' (last rest first) F' (mkdiva s (A' ++ (last rest first, blankst) :: F'))) by (constructor; [reflexivity|reflexivity|exact D3]).
  destruct (finish X A' (last rest first) _ _ (repeat 255 m) E2' HF) as (HI & Hsm & Hmap). rewrite E5 in HI. split; [exact HI|]. split; [exact Hsm|].
  intros k. rewrite Hmap. apply (members X A A' first rest F' (repeat 0 8) (repeat 255 m)); auto.
  destruct HF as [[-> ->]|(w & -> & _)]; [left; auto|right; exists w; reflexivity].
Qed.

(** *** streaming *)
(** the state between two calls: [seen] are the keys so far, [first] the first *)
Definition streaming (seen : list key) (d : diva) (sm : stream) : Prop :=
  exists left X A, sm_left sm = Some left /\ d_size d = s /\ slot A left [] (d_tree d) /\ start X A left /\
    d_tree d = A /\ Z.of_nat (length (sm_buf sm)) < 1024 /\
    Z.of_nat (length seen) mod 1024 = (Z.of_nat (length (sm_buf sm)) + 1) mod 1024 /\
    (exists before, seen = before ++ left :: sm_buf sm /\ (forall k, kept X A k <-> In k before)) /\
    hd_key (A ++ [(left, blankst)]) = hd [] seen /\ sm_max sm = max_len seen.
Lemma max_len_app l k : max_len (l ++ [k]) = Nat.max (max_len l) (length k).
Proof.
  assert (C : forall a x, max_len (a :: x) = Nat.max (length a) (max_len x)) by reflexivity.
  induction l as [|a l IH]; cbn [app]; [rewrite C; change (max_len []) with 0%nat; lia|]. rewrite !C, IH. lia.
Qed.
Lemma stream_add_spec seen d sm k : streaming seen d sm -> Forall kok (seen ++ [k]) -> StronglySorted plt (seen ++ [k]) ->
  exists d' sm', stream_add c (d, sm) k = Ok (d', sm') /\ streaming (seen ++ [k]) d' sm'.
Proof.
  intros (left & X & A & El & Hd & Hsl & HS & Et & Hb & Hmod & (before & Es & HK) & Hhd & Hm) Hk Hso.
  destruct d as [ds t]. cbn [d_size d_tree] in *. subst ds. unfold stream_add. rewrite El. destruct sm as [ol buf m]. cbn [sm_left sm_buf sm_max] in *. subst ol.
  unfold target_size. destruct (Z.ltb_spec (Z.of_nat (length buf)) (1024 - 1)) as [Hlt|Hge].
  - eexists _, _. split; [reflexivity|]. exists left, X, A. cbn [sm_left sm_buf sm_max d_size d_tree].
    split; [reflexivity|]. split; [reflexivity|]. split; [exact Hsl|]. split; [exact HS|]. split; [exact Et|].
    rewrite !app_length. cbn [length]. split; [lia|]. split.
    { replace (Z.of_nat (length seen + 1)) with (Z.of_nat (length seen) + 1) by lia. rewrite <- Z.add_mod_idemp_l, Hmod, Z.add_mod_idemp_l by lia. f_equal. lia. }
    split; [exists before; split; [rewrite Es, <- app_assoc; reflexivity|exact HK]|].
    split; [rewrite Hhd; destruct seen; [destruct before; discriminate|reflexivity]|]. rewrite max_len_app, Hm. reflexivity.
  - assert (Hlen : length buf = 1023%nat) by lia. cbn [d_size d_tree].
    assert (Hkk : kok k /\ Forall kok buf) by (rewrite Es in Hk; rewrite !Forall_app in Hk; destruct Hk as [[_ Hk1] Hk2]; inversion Hk1; inversion Hk2; auto).
    destruct Hkk as [Kk Kb].
    assert (Hso1 : StronglySorted plt (left :: buf ++ [k])).
    { rewrite Es, <- app_assoc in Hso. apply ss_app in Hso as (_ & Hso & _). exact Hso. }
    destruct (chunk_step X A left [] t grow_sep buf k HS Hsl Kk Kb Hso1 ltac:(unfold grow_sep; lia)) as (st & E & HS' & Ep & Hlr).
    { rewrite Hlen. apply (t_chunk _ T). } { rewrite Hlen. lia. }
    rewrite E. cbn [bind]. unfold with_tree. cbn [d_size d_tree]. rewrite Ep. eexists _, _. split; [reflexivity|].
    exists k, (X ++ buf), (A ++ [(left, st)]). cbn [sm_left sm_buf sm_max d_size d_tree].
    split; [reflexivity|]. split; [reflexivity|]. split.
    { pose proof (slot_next A left [] t st k Hsl (start_sorted _ _ _ st HS) Hlr (or_introl eq_refl)) as Hn. rewrite Ep in Hn. exact Hn. }
    split; [exact HS'|]. split; [reflexivity|]. split; [cbn [length]; lia|]. split.
    { rewrite app_length. cbn [length]. replace (Z.of_nat (length seen + 1)) with (Z.of_nat (length seen) + 1) by lia.
      rewrite <- Z.add_mod_idemp_l, Hmod by lia. rewrite Hlen. reflexivity. }
    split.
    { exists seen. split; [reflexivity|]. intros k'. rewrite Es. unfold kept in *. specialize (HK k'). rewrite map_app, !in_app_iff. cbn [map fst In]. rewrite <- HK. clear. tauto. }
    split; [|rewrite max_len_app, Hm; reflexivity].
    rewrite <- app_assoc. destruct A; cbn [app hd_key] in *; rewrite Hhd; destruct seen; try reflexivity; destruct before; discriminate.
Qed.
Lemma stream_all_spec rest : forall seen d sm, streaming seen d sm -> Forall kok (seen ++ rest) -> StronglySorted plt (seen ++ rest) ->
  exists d' sm', stream_all c (d, sm) rest = Ok (d', sm') /\ streaming (seen ++ rest) d' sm'.
Proof.
  induction rest as [|k rest IH]; intros seen d sm HS Hk Hso.
  - rewrite app_nil_r in *. exists d, sm. split; [reflexivity|exact HS].
  - change (k :: rest) with ([k] ++ rest) in Hk, Hso. rewrite app_assoc in Hk, Hso.
    destruct (stream_add_spec seen d sm k HS) as (d1 & sm1 & E1 & HS1).
    { apply Forall_app in Hk. apply Hk. } { apply ss_app in Hso. apply Hso. }
    destruct (IH (seen ++ [k]) d1 sm1 HS1 Hk Hso) as (d2 & sm2 & E2 & HS2). exists d2, sm2. cbn [stream_all]. rewrite E1. cbn [bind].
    rewrite <- app_assoc in HS2. split; [exact E2|exact HS2].
Qed.
Theorem bulk_stream_inv keys : Forall kok keys -> StronglySorted plt keys -> keys <> [] -> Z.of_nat (length keys) mod 1024 <> 1 ->
  plt (repeat 0 (max_len keys)) (hd [] keys) ->
  exists d X, bulk_load_stream c s keys = Ok d /\ inv X (repeat 0 (max_len keys)) (repeat 255 (max_len keys)) d /\ (adj small (d_tree d) /\ last_st (d_tree d) = blankst /\ NoDup X /\ forall k, In k X -> ~ In k (map fst (d_tree d))) /\
    (forall k, In k X \/ In k (map fst (d_tree d)) <-> In k keys \/ k = repeat 0 (max_len keys) \/ k = repeat 255 (max_len keys)).
Proof.
  intros Hk Hso Hne Hmod Hfirst. destruct keys as [|first keys]; [congruence|]. cbn [hd] in Hfirst. unfold bulk_load_stream. cbn [stream_all stream_add sm_left bind].
  assert (K1 : kok first) by (inversion Hk; assumption).
  assert (HS0 : streaming [first] (mkdiva s []) (mkstream (Some first) [] (length first))).
  { exists first, [], []. cbn [sm_left sm_buf sm_max d_size d_tree]. split; [reflexivity|]. split; [reflexivity|]. split; [intros v; reflexivity|].
    split; [constructor; simpl; auto; try (intros k []); try apply NoDup_nil|]. split; [reflexivity|]. split; [simpl; lia|]. split; [reflexivity|].
    split; [exists []; split; [reflexivity|intros k; unfold kept; simpl; tauto]|]. split; [reflexivity|]. cbn [max_len fold_right]. lia. }
  destruct (stream_all_spec keys [first] _ _ HS0 Hk Hso) as (d & sm & E & HS). cbn [app] in HS. cbn [sm_buf]. rewrite E. cbn [bind].
  set (all := first :: keys) in *. set (m := max_len all) in *.
  destruct HS as (left & X & A & El & Hd & Hsl & HS & Et & Hb & Hm2 & (before & Es & HK) & Hhd & Hmx).
  destruct d as [ds t]. cbn [d_size d_tree] in *. subst ds. unfold stream_finish. rewrite El, Hmx. fold m.
  assert (Hbne : sm_buf sm <> []).
  { intros E0. rewrite E0 in Hm2. apply Hmod. rewrite Hm2. reflexivity. }
  unfold add_tree_key, with_tree. cbn [d_size d_tree]. fold blankst.
  assert (Hall : all = before ++ left :: sm_buf sm) by exact Es.
  assert (Kz : kok (repeat 0 m)) by (apply kok_repeat; lia). assert (Kff : kok (repeat 255 m)) by (apply kok_repeat; lia).
  set (buf := sm_buf sm) in *. set (right := last buf left).
  assert (Klast : In right all) by (rewrite Hall; apply in_or_app; right; right; apply last_in; exact Hbne).
  assert (Kall : forall k, In k all -> kok k) by (rewrite Forall_forall in Hk; exact Hk).
  assert (Kl : kok left) by (apply Kall; rewrite Hall; apply in_or_app; right; left; reflexivity).
  assert (Hle : forall k, In k all -> k = repeat 255 m \/ plt k (repeat 255 m)).
  { intros k Hin. destruct (list_eq_dec Z.eq_dec k (repeat 255 m)); [left; assumption|right].
    apply ffs_plt; [apply Kall; exact Hin|apply max_len_spec; exact Hin|assumption]. }
  assert (Hlr : plt left right).
  { pose proof Hso as Hso0. rewrite Hall in Hso0. apply ss_app in Hso0 as (_ & Hso0 & _). inversion Hso0 as [|? ? _ Hfa]; subst. rewrite Forall_forall in Hfa. apply Hfa. apply last_in. exact Hbne. }
  assert (Hlff : plt left (repeat 255 m)).
  { destruct (Hle right Klast) as [<-|P]; [exact Hlr|]. eapply plt_ple_trans; [exact Hlr|]. apply plt_ple. exact P. }
  (* the two artificial boundaries *)
  assert (Hsrt : sorted (A ++ [(left, blankst)])) by (apply (start_sorted _ _ _ blankst HS)).
  assert (Hz : forall x, In x (map fst (A ++ [(left, blankst)])) -> key_lt (repeat 0 m) x = true).
  { intros x Hx. assert (Hzf : key_lt (repeat 0 m) first = true) by (apply plt_key_lt; auto).
    apply in_map_iff in Hx as ([x' w] & E0 & Hx). simpl in E0. subst x'.
    destruct A as [|[a u] A']; cbn [app hd_key] in *.
    - destruct Hx as [Hx|[]]. injection Hx as <- _. rewrite Hhd. exact Hzf.
    - destruct Hx as [Hx|Hx]; [injection Hx as <- _; rewrite Hhd; exact Hzf|].
      pose proof (sorted_below _ _ Hsrt _ Hx) as H0. simpl in H0. eapply key_lt_trans; [|exact H0]. rewrite Hhd. exact Hzf. }
  subst t.
  assert (E1 : put A (repeat 0 m) blankst = (repeat 0 m, blankst) :: A).
  { change A with ([] ++ A). rewrite put_new; [reflexivity|intros x []|]. intros x B' Ex. apply Hz. cbn [app] in Ex. rewrite Ex, map_app. left. reflexivity. }
  rewrite E1.
  assert (Hlt : key_lt left (repeat 255 m) = true) by (apply plt_key_lt; auto).
  assert (E2 : put ((repeat 0 m, blankst) :: A) (repeat 255 m) blankst = (repeat 0 m, blankst) :: A ++ [(repeat 255 m, blankst)]).
  { rewrite <- (app_nil_r ((repeat 0 m, blankst) :: A)). rewrite put_new; [reflexivity| |intros x B' Ex; discriminate].
    intros x [<-|Hx]; [|eapply key_lt_trans; [exact (sorted_app_below _ _ _ Hsrt x Hx)|exact Hlt]].
    cbn [fst]. eapply key_lt_trans; [|exact Hlt]. apply Hz. rewrite map_app. apply in_or_app. right. left. reflexivity. }
  rewrite E2. fold buf.
  set (F := [(repeat 255 m, blankst)]). set (A0 := (repeat 0 m, blankst) :: A).
  assert (HS' : start X A0 left).
  { destruct HS as [S1 S2 S2' S3 S4 S5].
    assert (HX0 : forall k, In k X -> inside (repeat 0 m) first k = false).
    { intros k HkX. unfold inside. assert (Hin : In k before) by (apply HK; left; exact HkX).
      destruct (key_lt k first) eqn:Ek; [|apply andb_false_r]. exfalso.
      assert (Hka : In k all) by (rewrite Hall; apply in_or_app; left; exact Hin). destruct Hka as [<-|Hka]; [rewrite key_lt_irrefl in Ek; discriminate|].
      pose proof Hso as Hso0. inversion Hso0 as [|? ? _ Hfa]; subst. rewrite Forall_forall in Hfa. pose proof (plt_key_lt _ _ K1 (Kall k (or_intror Hka)) (Hfa k Hka)) as Hc.
      rewrite (key_lt_asym _ _ Hc) in Ek. discriminate. }
    destruct (blank_gap X (repeat 0 m) first Kz K1 Hfirst HX0) as (G1 & G2 & G3).
    constructor; [exact S1| | | | |exact S5];
      [unfold A0; cbn [app]; destruct A as [|[a u] A']; cbn [app hd_key hd] in *; subst; rewrite adj_cons; auto..|].
    intros k HkX. destruct (S4 k HkX) as [Q1 Q2]. split; [exact Q1|]. unfold A0. cbn [map fst]. intros [E0|H0]; [|auto].
    assert (Hka : In k all) by (rewrite Hall; apply in_or_app; left; apply HK; left; exact HkX).
    assert (Hzf : key_lt (repeat 0 m) first = true) by (apply plt_key_lt; auto). rewrite E0 in Hzf.
    destruct Hka as [Hka|Hka]; [rewrite Hka, key_lt_irrefl in Hzf; discriminate|].
    pose proof Hso as Hso0. inversion Hso0 as [|? ? _ Hfa]; subst. rewrite Forall_forall in Hfa. pose proof (plt_key_lt _ _ K1 (Kall _ (or_intror Hka)) (Hfa _ Hka)) as Hc.
    rewrite (key_lt_asym _ _ Hc) in Hzf. discriminate. }
  assert (Hsl' : slot A0 left F (A0 ++ F)).
  { intros v. rewrite put_new; [reflexivity| |].
    - intros x [<-|Hx]; [|exact (sorted_app_below _ _ _ Hsrt x Hx)]. apply Hz. rewrite map_app. apply in_or_app. right. left. reflexivity.
    - intros x B' Ex. injection Ex as <- _. exact Hlt. }
  change ((repeat 0 m, blankst) :: A ++ [(repeat 255 m, blankst)]) with (A0 ++ F).
  assert (Kb : Forall kok buf) by (apply Forall_forall; intros k Hin; apply Kall; rewrite Hall; apply in_or_app; right; right; exact Hin).
  assert (Hso1 : StronglySorted plt (left :: buf)) by (pose proof Hso as Hso0; rewrite Hall in Hso0; apply ss_app in Hso0 as (_ & Hso0 & _); exact Hso0).
  assert (Hends : ends F right).
  { right. exists (repeat 255 m), blankst. split; [reflexivity|]. destruct (Hle right Klast) as [E0|P]; [left; exact E0|right]. apply plt_key_lt; auto. }
  destruct (load_tail_spec X A0 left F (A0 ++ F) buf HS' Hsl' Kb Hso1 Hbne ltac:(lia)) as (X' & A' & F' & d' & T1 & T2 & T3 & T4 & T5).
  { intros k Hin. destruct (list_eq_dec Z.eq_dec k (last buf left)) as [->|Hn]; [left; reflexivity|right]. right. exists (repeat 255 m), blankst. split; [reflexivity|].
    assert (Hka : In k all) by (rewrite Hall; apply in_or_app; right; right; exact Hin).
    assert (P : plt k right).
    { rewrite (app_removelast_last left Hbne) in Hin. apply in_app_or in Hin as [Hin|[Hin|[]]]; [|exfalso; apply Hn; symmetry; exact Hin].
      rewrite (app_removelast_last left Hbne) in Hso1. inversion Hso1 as [|? ? Hso3 _]; subst. apply ss_app in Hso3 as (_ & _ & Hr). apply Hr; [exact Hin|left; reflexivity]. }
    destruct (Hle right Klast) as [<-|P2]; [apply plt_key_lt; auto|]. apply plt_key_lt; auto. eapply plt_ple_trans; [exact P|]. apply plt_ple. exact P2. }
  { exact Hends. }
  cbv zeta. exists d', X'. split; [clear -T1 Hbne; destruct buf; [congruence|exact T1]|]. fold right in T2, T3, T4, T5.
  assert (HF : F' = [] /\ repeat 255 m = right \/ exists w, F' = [(repeat 255 m, w)] /\ kok (repeat 255 m) /\ plt right (repeat 255 m) /\ w = blankst).
  { rewrite T5. unfold F. destruct (Hle right Klast) as [E0|P].
    - left. rewrite E0, key_eq_refl. auto.
    - right. exists blankst. destruct (key_eq right (repeat 255 m)) eqn:E0; [|auto]. apply key_eq_iff in E0. rewrite E0 in P. destruct P as (z & _ & P). lia. }
  destruct (finish X' A' right F' d' (repeat 255 m) T2 HF) as (HI & Hsm & Hmap). rewrite T4 in HI. split; [exact HI|]. split; [exact Hsm|].
  intros k. rewrite Hmap. rewrite in_app_iff. cbn [In].
  assert (HK2 : kept X A0 k <-> In k before \/ k = repeat 0 m).
  { rewrite <- HK. unfold kept, A0. cbn [map fst In]. clear. split; [intros [H|[H|H]]; auto|intros [[H|H]|H]; auto]. }
  specialize (T3 k). cbn [In] in T3.
  assert (Hin : In k all <-> In k before \/ left = k \/ In k (removelast buf) \/ right = k).
  { rewrite Hall, in_app_iff. cbn [In]. rewrite (app_removelast_last left Hbne) at 1. rewrite in_app_iff. cbn [In]. fold right. clear. tauto. }
  rewrite Hin. assert (HFk : In k (map fst F') -> k = repeat 255 m) by (destruct HF as [[-> _]|(w & -> & _)]; [intros []|intros [<-|[]]; reflexivity]).
  assert (HFk' : k = repeat 255 m -> right = k \/ In k (map fst F')) by (intros ->; destruct HF as [[_ ->]|(w & -> & _)]; [left; reflexivity|right; left; reflexivity]).
  clear - T3 HK2 HFk HFk'. unfold kept in *. split.
  - intros [H|[H|[H|H]]]; [| |auto|auto].
    + assert (H' : In k X' \/ In k (map fst A')) by auto. apply T3 in H' as [H'|H']; [apply HK2 in H'|]; destruct H'; auto 6.
    + assert (H' : In k X' \/ In k (map fst A')) by auto. apply T3 in H' as [H'|H']; [apply HK2 in H'|]; destruct H'; auto 6.
  - assert (H0 : In k before \/ k = repeat 0 m \/ left = k \/ In k (removelast buf) -> In k X' \/ In k (map fst A')).
    { intros H. apply T3. destruct H as [H|[H|[H|H]]]; [left; apply HK2; auto|left; apply HK2; auto|right; auto|right; auto]. }
    intros [[H|[H|[H|H]]]|[H|H]]; try (destruct H0 as [H'|H']; auto; fail); auto.
Qed.
End F.
