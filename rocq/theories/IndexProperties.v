(** Properties of the ordered index under the filter (C37, C38 of
    /verif/properties.jsonl).  Vocabulary: SpecIndex.v. *)
From Coq Require Import ZArith List Bool Lia.
From Verif Require Import Base Key Store Diva SpecFilter SpecIndex Wormhole WhRun WhLong WhClaims.
Import ListNotations.
Open Scope Z_scope.

(** ** C37: the index is a map ordered by key.  Whatever calls are made on a new
    index, each returns, and returns what a finite map ordered by key would
    return; [fp], which says during each call for which absent prefixes a 16-bit
    hash collides with one in the table, has no influence. *)
Theorem C37_index_is_an_ordered_map :
  forall (V : Type) (cs : list ((key -> bool) * call V)), (forall fp c, In (fp, c) cs -> call_ok c) ->
  exists w rs, wh_calls wh_create cs = Ok (w, rs) /\ serves nothing (map snd cs) rs.
Proof. intros V. exact index_serves. Qed.
Print Assumptions C37_index_is_an_ordered_map.
(** and a sequence of calls has only one sequence of right answers *)
Theorem C37_answers_unique :
  forall (V : Type) cs (rs rs' : list (answer V)), serves nothing cs rs -> serves nothing cs rs' -> rs = rs'.
Proof. intros V cs rs rs'. apply serves_ext. reflexivity. Qed.
Print Assumptions C37_answers_unique.
(** 90 keys in an order that splits leaves and leaves their pairs unsorted, all
    hashes colliding, then 60 deletions, which merge leaves *)
Definition ex_keys : list key := map (fun i => [Z.of_nat (i * 37 mod 101); 7; Z.of_nat i]) (seq 0 90).
Definition ex_calls : list ((key -> bool) * call Z) :=
  map (fun c => (fun _ => true, c))
    (map (fun k => Bind k (nth 2 k 0)) ex_keys ++ map (fun k => Erase k) (firstn 60 ex_keys) ++
     [Bind [5] 1; Erase [6]; Walk [8; 8] [true; false; false; false; false; false]; Walk [95] [true; true; true; false]]).
Example C37_example : (forall fp c, In (fp, c) ex_calls -> call_ok c) /\
  exists w, wh_calls wh_create (firstn 90 ex_calls) = Ok (w, repeat (Stored true) 90) /\ length (w_leaves w) = 5%nat /\
  exists w', wh_calls wh_create ex_calls =
    Ok (w', repeat (Stored true) 90 ++ repeat (Erased true) 60 ++
      [Stored true; Erased false;
       Seen [Some ([11; 7; 74], 74); Some ([14; 7; 85], 85); Some ([11; 7; 74], 74); Some ([8; 7; 63], 63); Some ([5], 1); Some ([4; 7; 82], 82); Some ([1; 7; 71], 71)];
       Seen [Some ([95; 7; 79], 79); Some ([99; 7; 60], 60); None; None; None]]) /\ length (w_leaves w') = 2%nat.
Proof.
  split.
  - assert (H : forallb (fun fc => match snd fc with Bind k _ | Erase k | Walk k _ => forallb (fun b => (0 <=? b) && (b <? 256)) k && (Z.of_nat (length k) <=? 65520) end) ex_calls = true) by (vm_compute; reflexivity).
    intros fp c Hin. rewrite forallb_forall in H. specialize (H _ Hin). cbn [snd] in H.
    destruct c as [k v|k|k mv]; cbn [call_ok]; apply andb_true_iff in H; destruct H as [H1 H2]; (split; [|apply Z.leb_le; exact H2]); apply Forall_forall; intros b Hb;
      rewrite forallb_forall in H1; specialize (H1 b Hb); apply andb_true_iff in H1; destruct H1 as [H1 H3]; apply Z.leb_le in H1; apply Z.ltb_lt in H3; lia.
  - assert (forall (r : res (wormhole Z * list (answer Z))) rs n, match r with Ok (w, rs') => rs' = rs /\ length (w_leaves w) = n | _ => False end ->
      exists w, r = Ok (w, rs) /\ length (w_leaves w) = n) as Hw.
    { intros [[w rs']| |] rs n; try contradiction. intros [-> <-]. exists w. split; reflexivity. }
    destruct (Hw (wh_calls wh_create (firstn 90 ex_calls)) (repeat (Stored true) 90) 5%nat) as (w & E & L); [vm_compute; split; reflexivity|].
    exists w. split; [exact E|]. split; [exact L|]. apply Hw. vm_compute. split; reflexivity.
Qed.
(** The limit on the length of the keys is needed: when a leaf is full of keys that
    agree in their first 65535 bytes, it is not split and the next key is not
    stored (wh.c:1972-1975, 2392-2395; diva.hpp does not look at the result). *)
Definition long_key (i : nat) : key := repeat 7 (Nat.pow 2 16) ++ [Z.of_nat i].
Theorem C37_long_keys_refuted : exists cs : list ((key -> bool) * call Z),
  (forall fp c, In (fp, c) cs -> exists k v, c = Bind k v /\ bytes k) /\
  match wh_calls wh_create cs with Ok (_, rs) => last rs (Stored true) = Stored false | _ => False end.
Proof.
  exists (map (fun i => (fun _ => false, Bind (long_key i) 0)) (seq 0 33)). split.
  - intros fp c Hin. apply in_map_iff in Hin. destruct Hin as (i & E & Hi). apply (f_equal snd) in E. cbn [snd] in E. exists (long_key i), 0. split; [symmetry; exact E|]. unfold long_key.
    apply Forall_forall. intros b Hb. apply in_app_or in Hb. apply in_seq in Hi. destruct Hb as [Hb|[<-|[]]]; [apply repeat_spec in Hb; subst b; lia|lia].
  - assert (Hn : exists m, Nat.pow 2 16 = S m) by (exists (Nat.pred (Nat.pow 2 16)); symmetry; apply Nat.succ_pred; apply Nat.pow_nonzero; discriminate).
    destruct (lcalls_run (repeat 7 (Nat.pow 2 16))) with (n := 32%nat) (a := 0%nat) as (w & E); [rewrite repeat_length; unfold U16MAX; apply Nat.le_sub_l|destruct Hn as (m & ->); reflexivity|reflexivity|].
    change (wh_calls wh_create _) with (wh_calls (lstate (repeat 7 (Nat.pow 2 16)) 0) (lcalls (repeat 7 (Nat.pow 2 16)) 0 33)). rewrite E. reflexivity.
Qed.
Print Assumptions C37_long_keys_refuted.

(** ** C38: the sorted list that the model of the filter uses in place of the index
    gives the same answers (Diva.v: put, del, seek, peek, skip1, skip1_rev) *)
Theorem C38_index_is_the_sorted_list :
  forall cs : list ((key -> bool) * call store), (forall fp c, In (fp, c) cs -> call_ok c) ->
  exists w, wh_calls wh_create cs = Ok (w, tree_calls [] (map snd cs)).
Proof. exact index_is_tree. Qed.
Print Assumptions C38_index_is_the_sorted_list.
Example C38_example :
  let cs := [Bind [5; 1] (mkstore 1 0 0 true); Bind [3] (mkstore 2 0 0 true); Walk [4] [false; false; true]; Erase [3]; Walk [] []] in
  (forall c, In c cs -> call_ok c) /\
  tree_calls [] cs = [Stored true; Stored true; Seen [Some ([5; 1], mkstore 1 0 0 true); Some ([3], mkstore 2 0 0 true); None; None]; Erased true; Seen [Some ([5; 1], mkstore 1 0 0 true)]].
Proof.
  cbv zeta. split; [|vm_compute; reflexivity]. intros c Hin. cbn [In] in Hin.
  destruct Hin as [<-|[<-|[<-|[<-|[<-|[]]]]]]; (split; [repeat constructor; lia|cbn [length]; lia]).
Qed.
