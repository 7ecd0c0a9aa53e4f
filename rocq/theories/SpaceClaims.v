(** The space that a filter needs and the loads that can be shrunk, for the default
    load factor. *)
From Coq Require Import ZArith List Bool Lia Sorting.Sorted.
From Verif Require Import Base Util Store Spec Tables Key Diva SpecFilter SpecBlock SpecSpace Hist Claims DelRun Space SpaceTree ShrinkTree.
Import ListNotations.
Open Scope Z_scope.

Section C.
Variable junk s : Z.
Notation c := (machine junk).
Let T := machine_ok junk.
Let tight : forall g, 56 <= g < 256 -> Z.shiftr (c_scal c grow_sep * (c_size c (g - 2) - 1)) scale_shift <= c_size c (g - 1) := proj1 (space_tables junk false).
Let ratio : forall g, 56 <= g < 256 -> 100 * c_size c g <= 112 * c_size c (g - 2) := proj1 (proj2 (space_tables junk false)).
Let dflt : c_size c 55 = 1077 := proj2 (proj2 (space_tables junk false)).

Theorem block_space m keys d : reached c s m keys d ->
  Forall (fun e => let slots := c_size c (get_size_grade (snd e)) in
    (slots <= 1077 \/ 100 * slots <= 112 * get_elem_count (snd e)) /\ wc (snd e) = 1 + (1024 + slots * (s + 1) + 63) / 64) (d_tree d).
Proof. intros H. exact (reached_blocks c s T tight ratio dflt m keys d H). Qed.
Theorem filter_space m keys d : 0 <= s -> reached c s m keys d ->
  StronglySorted lt (boundaries d) /\
  6400 * words d <= Z.of_nat (length (boundaries d)) * (115100 + 107700 * (s + 1)) + 112 * (s + 1) * elements d.
Proof. intros Hs H. split; [exact (reached_sorted c s T tight m keys d H)|exact (reached_words c s T tight ratio dflt Hs m keys d H)]. Qed.
Theorem space_after_history m keys ops d : 1 <= s <= 46 -> loadable m keys -> lawful_history c s m keys ops -> history c s m keys ops = Ok d ->
  elements d <= Z.of_nat (length (remaining keys ops)) /\
  Z.of_nat (length (boundaries d)) <= Z.of_nat (length keys) / 1024 + 4 /\
  6400 * words d <= (Z.of_nat (length keys) / 1024 + 4) * (115100 + 107700 * (s + 1)) + 112 * (s + 1) * Z.of_nat (length (remaining keys ops)).
Proof. intros Hs. exact (history_space c s Hs T (machine_fits junk s (proj1 Hs)) eq_refl tight ratio dflt m keys ops d). Qed.
Theorem space_of_load m keys d : 0 <= s -> load c s m keys = Ok d ->
  Z.of_nat (length (boundaries d)) <= Z.of_nat (length keys) / 1024 + 4 /\
  words d <= (Z.of_nat (length keys) / 1024 + 4) * (1 + (1087 + 1077 * (s + 1)) / 64).
Proof. intros Hs. exact (load_words c s T tight ratio dflt Hs m keys d). Qed.
Theorem load_shrinks m keys s' : 1 <= s <= 46 -> 1 <= s' <= s -> loadable m keys -> (length keys mod 1024 = 2)%nat ->
  exists d d', load c s m keys = Ok d /\ shrink c d s' = Ok d' /\ d_size d' = s' /\ boundaries d' = boundaries d /\
    forall k, In k keys -> point_query c d' k = Ok true /\
      forall int_opt l r, bytes l -> bytes r -> suited int_opt m l r -> le l k -> le k r -> range_query int_opt c d' l r = Ok true.
Proof.
  intros Hs Hs' HL Hn. destruct (loaded_holds c s Hs T (machine_fits junk s (proj1 Hs)) m keys HL) as (d & E & _).
  assert (HA : lawful_history c s m keys []) by (intros ? ?; exact I).
  assert (EH : history c s m keys [] = Ok d) by (unfold history; rewrite E; reflexivity).
  destruct (shrink_history junk s s' Hs Hs' m keys [] d HL HA EH (load_shrinkable c s T tight m keys d Hn E)) as (d' & Es & E1 & E2 & _ & _ & H).
  exists d, d'. split; [exact E|]. split; [exact Es|]. split; [exact E1|]. split; [exact E2|exact H].
Qed.
End C.

(** ** deciding the hypotheses, for examples *)
Fixpoint deletableb (prev : option store) (t : tree) (k : key) : bool :=
  match t with
  | [] => true
  | (a, st) :: after =>
      (if negb (ltb k a) && forallb (fun e => ltb k (fst e)) after
       then (same_key a k && negb (is_partial_key st) || (0 <? get_elem_count st)) &&
            match prev with
            | Some stp => if same_key a k || is_partial_key st then get_elem_count stp + get_elem_count st <? 2 ^ 20 else true
            | None => true
            end
       else true) && deletableb (Some st) after k
  end.
Lemma same_key_iff a b : same_key a b = true <-> a = b.
Proof. unfold same_key. destruct (list_eq_dec Z.eq_dec a b); split; congruence. Qed.
Lemma deletableb_sound k before : forall prev t a st after, deletableb prev t k = true -> t = before ++ (a, st) :: after -> le a k -> Forall (fun e => lt k (fst e)) after ->
  (a = k /\ is_partial_key st = false \/ 0 < get_elem_count st) /\
  (forall before' p stp, before = before' ++ [(p, stp)] -> a = k \/ is_partial_key st = true -> get_elem_count stp + get_elem_count st < 2 ^ 20) /\
  (forall stp, before = [] -> prev = Some stp -> a = k \/ is_partial_key st = true -> get_elem_count stp + get_elem_count st < 2 ^ 20).
Proof.
  induction before as [|[x w] before IH]; intros prev t a st after H -> Hle HF.
  - cbn [app deletableb] in H. apply andb_true_iff in H as [H _].
    replace (negb (ltb k a)) with true in H by (apply le_iff in Hle; rewrite ltb_key_lt, Hle; reflexivity).
    replace (forallb (fun e : key * store => ltb k (fst e)) after) with true in H by (symmetry; apply forallb_forall; rewrite Forall_forall in HF; exact HF).
    cbn [andb] in H. apply andb_true_iff in H as [H1 H2]. split; [|split].
    + apply orb_true_iff in H1 as [H1|H1]; [left|right; lia]. apply andb_true_iff in H1 as [H1 H3]. apply same_key_iff in H1. split; [exact H1|]. destruct (is_partial_key st); [discriminate|reflexivity].
    + intros ? ? ? Hb. destruct before'; discriminate.
    + intros stp _ -> Ho. replace (same_key a k || is_partial_key st) with true in H2; [lia|]. symmetry. apply orb_true_iff. destruct Ho as [Ho|Ho]; [left; apply same_key_iff; exact Ho|right; exact Ho].
  - cbn [app deletableb] in H. apply andb_true_iff in H as [_ H]. destruct (IH _ _ a st after H eq_refl Hle HF) as (A & B & C).
    split; [exact A|]. split; [|intros ? Hb; discriminate]. intros before' p stp Hb Ho. destruct before' as [|y before']; cbn [app] in Hb.
    + injection Hb as -> -> ->. apply C; [reflexivity|reflexivity|exact Ho].
    + injection Hb as _ Hb. exact (B _ _ _ Hb Ho).
Qed.
Lemma deletableb_ok d k : deletableb None (d_tree d) k = true -> deletable d k.
Proof. intros H before a st after E Hle HF. destruct (deletableb_sound k before None _ a st after H E Hle HF) as (A & B & _). split; assumption. Qed.

(** insert ([Some split]) or delete ([None]) one key after the other *)
Fixpoint stepsb (c : cfg) (d : diva) (ops : list (key * option bool)) : option diva :=
  match ops with
  | [] => Some d
  | (k, Some split) :: rest =>
      if forallb (fun e => get_elem_count (snd e) + 1 <? 2 ^ 20) (d_tree d)
      then match insert c d k split with Ok d' => stepsb c d' rest | _ => None end else None
  | (k, None) :: rest =>
      if deletableb None (d_tree d) k then match delete c d k with Ok d' => stepsb c d' rest | _ => None end else None
  end.
Lemma stepsb_ok c s m keys ops : forall d d', reached c s m keys d -> stepsb c d ops = Some d' -> reached c s m keys d'.
Proof.
  induction ops as [|[k [split|]] ops IH]; intros d d' R H; cbn [stepsb] in H.
  - injection H as <-. exact R.
  - destruct (forallb (fun e => get_elem_count (snd e) + 1 <? 2 ^ 20) (d_tree d)) eqn:Ef; [|discriminate]. destruct (insert c d k split) as [d1| |] eqn:E; try discriminate.
    apply (IH d1); [|exact H]. apply (reached_insert c s m keys d k split d1 R); [|exact E]. apply Forall_forall. intros e He. rewrite forallb_forall in Ef. specialize (Ef e He). lia.
  - destruct (deletableb None (d_tree d) k) eqn:Ef; [|discriminate]. destruct (delete c d k) as [d1| |] eqn:E; try discriminate.
    apply (IH d1); [|exact H]. apply (reached_delete c s m keys d k d1 R); [|exact E]. apply deletableb_ok. exact Ef.
Qed.
