(** Bit-by-bit specification of shift_bitmap_right / shift_bitmap_left. *)
From Coq Require Import ZArith List Bool Lia.
From Coq Require Import ZifyBool ZifyNat.
From Verif Require Import Base Util Store Bits.
Open Scope Z_scope.

Lemma splice_testbit (d w o p n i : Z) :
  0 <= o -> 0 <= n -> 0 <= i -> 0 <= p ->
  Z.testbit (Z.lor (Z.ldiff d (Z.shiftl (bitmask n) o))
                   (Z.shiftl (Z.land (Z.shiftr w p) (bitmask n)) o)) i =
  if (o <=? i) && (i <? o + n) then Z.testbit w (p + (i - o)) else Z.testbit d i.
Proof.
  intros. unfold bitmask. change (Z.land (Z.shiftr w p) (Z.ones n)) with (low n (Z.shiftr w p)).
  rewrite wr_testbit by lia. destruct (Z.leb_spec o i); [|reflexivity].
  rewrite Z.shiftr_spec by lia. replace (i - o + p) with (p + (i - o)) by lia. reflexivity.
Qed.

Lemma clear_testbit (d o n i : Z) :
  0 <= o -> 0 <= n -> 0 <= i ->
  Z.testbit (Z.ldiff d (Z.shiftl (bitmask n) o)) i =
  negb ((o <=? i) && (i <? o + n)) && Z.testbit d i.
Proof.
  intros. unfold bitmask. rewrite Z.ldiff_spec. destruct (Z.leb_spec o i).
  - rewrite Z.shiftl_spec, ones_testbit by lia.
    replace (i - o <? n) with (i <? o + n) by lia. rewrite andb_comm. reflexivity.
  - rewrite Z.shiftl_spec_low by lia. rewrite andb_comm. reflexivity.
Qed.

(** one step: copy [n] bits from bit [src] to bit [dst] of the bitmap at [base] *)
Lemma copy_step c st base src dst o p n (Q : store -> Prop) :
  0 <= base -> 0 <= src -> 0 <= dst -> 0 <= n ->
  0 <= p -> p + n <= 64 -> 0 <= o -> o + n <= 64 ->
  64 * (base + src / 64) + 64 <= limit c st ->
  64 * (base + dst / 64) + 64 <= limit c st ->
  (forall st', same st st' ->
     (forall j, 0 <= j ->
        let a := 64 * (base + dst / 64) + o in
        tb st' j = if (a <=? j) && (j <? a + n)
                   then tb st (64 * (base + src / 64) + p + (j - a)) else tb st j) -> Q st') ->
  wp (let* w := rdw c st (base + src / 64) in
      let* d := rdw c st (base + dst / 64) in
      wrw c st (base + dst / 64)
         (Z.lor (Z.ldiff d (Z.shiftl (bitmask n) o))
                (Z.shiftl (Z.land (Z.shiftr w p) (bitmask n)) o))) Q.
Proof.
  intros Hb Hs Hd Hn Hp Hpn Ho Hon Hl1 Hl2 HQ.
  assert (0 <= src / 64) by (apply Z.div_pos; lia).
  assert (0 <= dst / 64) by (apply Z.div_pos; lia).
  apply wp_bind, rdw_wp; [lia|lia|]. fold (word st (base + src / 64)).
  apply wp_bind, rdw_wp; [lia|lia|]. fold (word st (base + dst / 64)).
  apply wr_wp; [lia|lia|lia|].
  intros st' Hsm Hj. apply HQ; [exact Hsm|]. intros j Hj0. cbv zeta.
  rewrite Hj by lia. remember (64 * (base + dst / 64)) as b.
  destruct (Z.leb_spec b j), (Z.ltb_spec j (b + 64)); simpl.
  - rewrite splice_testbit by lia.
    assert (Z.testbit (word st (base + dst / 64)) (j - b) = tb st j) as ->.
    { rewrite word_testbit, <- Heqb by lia. destruct (Z.ltb_spec (j - b) 64); [|exfalso; lia].
      simpl. f_equal. lia. }
    destruct (Z.leb_spec o (j - b)), (Z.leb_spec (b + o) j); simpl; try (exfalso; lia); auto.
    destruct (Z.ltb_spec (j - b) (o + n)), (Z.ltb_spec j (b + o + n)); simpl; try (exfalso; lia); auto.
    rewrite !word_testbit by lia.
    destruct (Z.ltb_spec (p + (j - b - o)) 64); [|exfalso; lia]. simpl. f_equal. lia.
  - destruct (Z.ltb_spec j (b + o + n)); [exfalso; lia|]. rewrite andb_false_r. reflexivity.
  - destruct (Z.leb_spec (b + o) j); [exfalso; lia|]. reflexivity.
  - exfalso; lia.
Qed.

Lemma clear_step c st base pos o n (Q : store -> Prop) :
  0 <= base -> 0 <= pos -> 0 <= n -> 0 <= o -> o + n <= 64 ->
  64 * (base + pos / 64) + 64 <= limit c st ->
  (forall st', same st st' ->
     (forall j, 0 <= j ->
        let a := 64 * (base + pos / 64) + o in
        tb st' j = if (a <=? j) && (j <? a + n) then false else tb st j) -> Q st') ->
  wp (let* w := rdw c st (base + pos / 64) in
      wrw c st (base + pos / 64) (Z.ldiff w (Z.shiftl (bitmask n) o))) Q.
Proof.
  intros Hb Hp Hn Ho Hon Hl HQ.
  assert (0 <= pos / 64) by (apply Z.div_pos; lia).
  apply wp_bind, rdw_wp; [lia|lia|]. fold (word st (base + pos / 64)).
  apply wr_wp; [lia|lia|lia|].
  intros st' Hsm Hj. apply HQ; [exact Hsm|]. intros j Hj0. cbv zeta.
  rewrite Hj by lia. remember (64 * (base + pos / 64)) as b.
  destruct (Z.leb_spec b j), (Z.ltb_spec j (b + 64)); simpl.
  - rewrite clear_testbit by lia. rewrite word_testbit by lia. rewrite <- Heqb.
    replace (b + (j - b)) with j by lia.
    destruct (Z.ltb_spec (j - b) 64); [|exfalso; lia].
    replace ((o <=? j - b) && (j - b <? o + n)) with ((b + o <=? j) && (j <? b + o + n)) by lia.
    destruct ((b + o <=? j) && (j <? b + o + n)); reflexivity.
  - destruct (Z.ltb_spec j (b + o + n)); [exfalso; lia|]. rewrite andb_false_r. reflexivity.
  - destruct (Z.leb_spec (b + o) j); [exfalso; lia|]. reflexivity.
  - exfalso; lia.
Qed.

Lemma word_le c st base a b : a <= b ->
  64 * (base + b / 64) + 64 <= limit c st -> 64 * (base + a / 64) + 64 <= limit c st.
Proof. intros H1 H2. pose proof (Z.div_le_mono a b 64 ltac:(lia) H1). lia. Qed.

Lemma shift_right_move_wp c base l r d st (Q : store -> Prop) :
  0 <= base -> 0 <= l -> l - 1 <= r -> 0 < d ->
  64 * (base + (r + d) / 64) + 64 <= limit c st ->
  (forall st', same st st' ->
     (forall j, 0 <= j -> tb st' j =
        if (64 * base + l + d <=? j) && (j <=? 64 * base + r + d) then tb st (j - d) else tb st j) ->
     Q st') ->
  wp (loop (Z.to_nat (r - l + 2)) (shift_right_move c base l d) (st, r)) Q.
Proof.
  intros Hb Hl Hr Hd Hlim HQ.
  apply (wp_loop
    (fun x : store * Z => let '(s, p) := x in l - 1 <= p <= r /\ same st s /\
       forall j, 0 <= j -> tb s j =
         if (64 * base + p + d <? j) && (j <=? 64 * base + r + d) then tb st (j - d) else tb st j)
    (fun x => snd x - l + 1)).
  - intros [s p] (Hp & Hsm & Hbits). cbn [snd]. unfold shift_right_move.
    destruct (Z.leb_spec l p) as [Hlp|Hlp].
    + pose proof (div_mod_64 p) as [Ep Rp]. pose proof (div_mod_64 (p + d)) as [Epd Rpd].
      set (so := p mod 64) in *. set (dof := (p + d) mod 64) in *.
      set (ma := Z.min (p - l) (Z.min so dof) + 1). assert (Hma : ma = Z.min (p - l) (Z.min so dof) + 1) by reflexivity.
      clearbody ma.
      match goal with |- wp (bind (rdw c s ?i) (fun w => bind (rdw c s ?k) (fun d => bind (@?F w d) (fun st1 => Ok (inl (st1, ?v)))))) ?Q' =>
        assert (wp (let* w := rdw c s i in let* dd := rdw c s k in F w dd) (fun st1 => Q' (inl (st1, v)))) as HH
      end.
      2: { revert HH. clear. unfold bind.
           destruct (rdw c s (base + p / 64)); simpl; auto.
           destruct (rdw c s (base + (p + d) / 64)); simpl; auto.
           destruct (wrw _ _ _ _); simpl; auto. }
      cbn beta. assert (0 <= p) by lia.
      apply (copy_step c s base p (p + d) (dof - ma + 1) (so - ma + 1) ma); try lia.
      * rewrite (same_limit c st s) by auto. apply (word_le c st base p (r + d)); lia.
      * rewrite (same_limit c st s) by auto. apply (word_le c st base (p + d) (r + d)); lia.
      * intros st' Hsm' Hj. split; [|cbn [snd]; lia]. split; [lia|]. split; [eapply same_trans; eauto|].
        intros j Hj0. rewrite Hj by lia.
        remember (64 * (base + (p + d) / 64) + (dof - ma + 1)) as a.
        assert (Ha : a = 64 * base + p + d - ma + 1) by lia.
        destruct (Z.leb_spec a j); simpl.
        -- destruct (Z.ltb_spec j (a + ma)); simpl.
           ++ replace (64 * (base + p / 64) + (so - ma + 1) + (j - a)) with (j - d) by lia.
              rewrite Hbits by lia.
              destruct (Z.ltb_spec (64 * base + p + d) (j - d)); [exfalso; lia|]. simpl.
              destruct (Z.ltb_spec (64 * base + (p - ma) + d) j); [|exfalso; lia].
              destruct (Z.leb_spec j (64 * base + r + d)); [|exfalso; lia]. reflexivity.
           ++ rewrite Hbits by lia.
              destruct (Z.ltb_spec (64 * base + p + d) j); [|exfalso; lia].
              destruct (Z.ltb_spec (64 * base + (p - ma) + d) j); [|exfalso; lia]. reflexivity.
        -- rewrite Hbits by lia.
           destruct (Z.ltb_spec (64 * base + p + d) j); [exfalso; lia|].
           destruct (Z.ltb_spec (64 * base + (p - ma) + d) j); [exfalso; lia|]. reflexivity.
    + simpl. apply HQ; auto. intros j Hj. rewrite Hbits by lia.
      replace (64 * base + p + d <? j) with (64 * base + l + d <=? j) by lia. reflexivity.
  - split; [lia|]. split; [apply same_refl|]. intros j Hj.
    destruct (Z.ltb_spec (64 * base + r + d) j); simpl; [|reflexivity].
    destruct (Z.leb_spec j (64 * base + r + d)); [exfalso; lia|reflexivity].
  - cbn [snd]. lia.
Qed.

Lemma shift_right_erase_wp c base l r st (Q : store -> Prop) :
  0 <= base -> 0 <= l -> l - 1 <= r ->
  (l <= r -> 64 * (base + r / 64) + 64 <= limit c st) ->
  (forall st', same st st' ->
     (forall j, 0 <= j -> tb st' j =
        if (64 * base + l <=? j) && (j <=? 64 * base + r) then false else tb st j) ->
     Q st') ->
  wp (loop (Z.to_nat (r - l + 2)) (shift_right_erase c base l) (st, r)) Q.
Proof.
  intros Hb Hl Hr Hlim HQ.
  apply (wp_loop
    (fun x : store * Z => let '(s, p) := x in l - 1 <= p <= r /\ same st s /\
       forall j, 0 <= j -> tb s j =
         if (64 * base + p <? j) && (j <=? 64 * base + r) then false else tb st j)
    (fun x => snd x - l + 1)).
  - intros [s p] (Hp & Hsm & Hbits). cbn [snd]. unfold shift_right_erase.
    destruct (Z.leb_spec l p) as [Hlp|Hlp].
    + pose proof (div_mod_64 p) as [Ep Rp].
      set (off := p mod 64) in *.
      set (ea := Z.min (p - l) off + 1). assert (Hea : ea = Z.min (p - l) off + 1) by reflexivity.
      clearbody ea.
      match goal with |- wp (bind (rdw c s ?i) (fun w => bind (@?F w) (fun st1 => Ok (inl (st1, ?v))))) ?Q' =>
        assert (wp (let* w := rdw c s i in F w) (fun st1 => Q' (inl (st1, v)))) as HH
      end.
      2: { revert HH. clear. unfold bind.
           destruct (rdw c s (base + p / 64)); simpl; auto.
           destruct (wrw _ _ _ _); simpl; auto. }
      cbn beta.
      apply (clear_step c s base p (off - ea + 1) ea); try lia.
      * rewrite (same_limit c st s) by auto. apply (word_le c st base p r); lia.
      * intros st' Hsm' Hj. split; [|cbn [snd]; lia]. split; [lia|]. split; [eapply same_trans; eauto|].
        intros j Hj0. rewrite Hj by lia.
        remember (64 * (base + p / 64) + (off - ea + 1)) as a.
        assert (Ha : a = 64 * base + p - ea + 1) by lia.
        destruct (Z.leb_spec a j); simpl.
        -- destruct (Z.ltb_spec j (a + ea)); simpl.
           ++ destruct (Z.ltb_spec (64 * base + (p - ea)) j); [|exfalso; lia].
              destruct (Z.leb_spec j (64 * base + r)); [|exfalso; lia]. reflexivity.
           ++ rewrite Hbits by lia.
              destruct (Z.ltb_spec (64 * base + p) j); [|exfalso; lia].
              destruct (Z.ltb_spec (64 * base + (p - ea)) j); [|exfalso; lia]. reflexivity.
        -- rewrite Hbits by lia.
           destruct (Z.ltb_spec (64 * base + p) j); [exfalso; lia|].
           destruct (Z.ltb_spec (64 * base + (p - ea)) j); [exfalso; lia|]. reflexivity.
    + simpl. apply HQ; auto. intros j Hj. rewrite Hbits by lia.
      replace (64 * base + p <? j) with (64 * base + l <=? j) by lia. reflexivity.
  - split; [lia|]. split; [apply same_refl|]. intros j Hj.
    destruct (Z.ltb_spec (64 * base + r) j); simpl; [|reflexivity].
    destruct (Z.leb_spec j (64 * base + r)); [exfalso; lia|reflexivity].
  - cbn [snd]. lia.
Qed.

(** bits l..r of the bitmap at word [base] move up by [d]; bits l..l+d-1 are cleared *)
Lemma shift_bitmap_right_wp c st base l r d (Q : store -> Prop) :
  0 <= base -> 0 <= l -> l - 1 <= r -> 0 < d ->
  64 * (base + (r + d) / 64) + 64 <= limit c st ->
  (forall st', same st st' ->
     (forall j, 0 <= j -> tb st' j =
        if (64 * base + l <=? j) && (j <? 64 * base + l + d) then false
        else if (64 * base + l + d <=? j) && (j <=? 64 * base + r + d) then tb st (j - d)
        else tb st j) ->
     Q st') ->
  wp (shift_bitmap_right c st base l r d) Q.
Proof.
  intros Hb Hl Hr Hd Hlim HQ. unfold shift_bitmap_right. apply wp_bind.
  apply shift_right_move_wp; auto. intros st1 Hs1 Hb1.
  replace (d + 1) with ((l + d - 1) - l + 2) by lia.
  apply shift_right_erase_wp; try lia.
  - intros _. rewrite (same_limit c st st1) by auto. apply (word_le c st base _ (r + d)); lia.
  - intros st' Hs2 Hb2. apply HQ; [eapply same_trans; eauto|].
    intros j Hj. rewrite Hb2 by lia.
    replace (j <=? 64 * base + (l + d - 1)) with (j <? 64 * base + l + d) by lia.
    destruct ((64 * base + l <=? j) && (j <? 64 * base + l + d)); [reflexivity|].
    apply Hb1. lia.
Qed.

Lemma shift_left_move_wp c base l r d st (Q : store -> Prop) :
  0 <= base -> 0 < d -> d <= l -> l - 1 <= r ->
  (l <= r -> 64 * (base + r / 64) + 64 <= limit c st) ->
  (forall st', same st st' ->
     (forall j, 0 <= j -> tb st' j =
        if (64 * base + l - d <=? j) && (j <=? 64 * base + r - d) then tb st (j + d) else tb st j) ->
     Q st') ->
  wp (loop (Z.to_nat (r - l + 2)) (shift_left_move c base r d) (st, l)) Q.
Proof.
  intros Hb Hd Hl Hr Hlim HQ.
  apply (wp_loop
    (fun x : store * Z => let '(s, p) := x in l <= p <= r + 1 /\ same st s /\
       forall j, 0 <= j -> tb s j =
         if (64 * base + l - d <=? j) && (j <? 64 * base + p - d) then tb st (j + d) else tb st j)
    (fun x => r + 1 - snd x)).
  - intros [s p] (Hp & Hsm & Hbits). cbn [snd]. unfold shift_left_move.
    destruct (Z.leb_spec p r) as [Hlp|Hlp].
    + pose proof (div_mod_64 p) as [Ep Rp]. pose proof (div_mod_64 (p - d)) as [Epd Rpd].
      set (so := p mod 64) in *. set (dof := (p - d) mod 64) in *.
      set (ma := Z.min (r - p) (63 - Z.max so dof) + 1). assert (Hma : ma = Z.min (r - p) (63 - Z.max so dof) + 1) by reflexivity.
      clearbody ma.
      match goal with |- wp (bind (rdw c s ?i) (fun w => bind (rdw c s ?k) (fun d => bind (@?F w d) (fun st1 => Ok (inl (st1, ?v)))))) ?Q' =>
        assert (wp (let* w := rdw c s i in let* dd := rdw c s k in F w dd) (fun st1 => Q' (inl (st1, v)))) as HH
      end.
      2: { revert HH. clear. unfold bind.
           destruct (rdw c s (base + p / 64)); simpl; auto.
           destruct (rdw c s (base + (p - d) / 64)); simpl; auto.
           destruct (wrw _ _ _ _); simpl; auto. }
      cbn beta. assert (0 <= p) by lia.
      apply (copy_step c s base p (p - d) dof so ma); try lia.
      * rewrite (same_limit c st s) by auto. apply (word_le c st base p r); lia.
      * rewrite (same_limit c st s) by auto. apply (word_le c st base (p - d) r); lia.
      * intros st' Hsm' Hj. split; [|cbn [snd]; lia]. split; [lia|]. split; [eapply same_trans; eauto|].
        intros j Hj0. rewrite Hj by lia.
        remember (64 * (base + (p - d) / 64) + dof) as a.
        assert (Ha : a = 64 * base + p - d) by lia.
        destruct (Z.leb_spec a j); simpl.
        -- destruct (Z.ltb_spec j (a + ma)); simpl.
           ++ replace (64 * (base + p / 64) + so + (j - a)) with (j + d) by lia.
              rewrite Hbits by lia.
              destruct (Z.ltb_spec (j + d) (64 * base + p - d)); [exfalso; lia|]. rewrite andb_false_r.
              destruct (Z.leb_spec (64 * base + l - d) j); [|exfalso; lia].
              destruct (Z.ltb_spec j (64 * base + (p + ma) - d)); [|exfalso; lia]. reflexivity.
           ++ rewrite Hbits by lia.
              destruct (Z.ltb_spec j (64 * base + p - d)); [exfalso; lia|].
              destruct (Z.ltb_spec j (64 * base + (p + ma) - d)); [exfalso; lia|]. reflexivity.
        -- rewrite Hbits by lia.
           destruct (Z.ltb_spec j (64 * base + p - d)); [|exfalso; lia].
           destruct (Z.ltb_spec j (64 * base + (p + ma) - d)); [|exfalso; lia]. reflexivity.
    + simpl. apply HQ; auto. intros j Hj. rewrite Hbits by lia.
      replace (j <? 64 * base + p - d) with (j <=? 64 * base + r - d) by lia. reflexivity.
  - split; [lia|]. split; [apply same_refl|]. intros j Hj.
    destruct (Z.ltb_spec j (64 * base + l - d)); simpl; [|rewrite andb_false_r; reflexivity].
    destruct (Z.leb_spec (64 * base + l - d) j); [exfalso; lia|reflexivity].
  - cbn [snd]. lia.
Qed.

Lemma shift_left_erase_wp c base l r st (Q : store -> Prop) :
  0 <= base -> 0 <= l -> l - 1 <= r ->
  (l <= r -> 64 * (base + r / 64) + 64 <= limit c st) ->
  (forall st', same st st' ->
     (forall j, 0 <= j -> tb st' j =
        if (64 * base + l <=? j) && (j <=? 64 * base + r) then false else tb st j) ->
     Q st') ->
  wp (loop (Z.to_nat (r - l + 2)) (shift_left_erase c base r) (st, l)) Q.
Proof.
  intros Hb Hl Hr Hlim HQ.
  apply (wp_loop
    (fun x : store * Z => let '(s, p) := x in l <= p <= r + 1 /\ same st s /\
       forall j, 0 <= j -> tb s j =
         if (64 * base + l <=? j) && (j <? 64 * base + p) then false else tb st j)
    (fun x => r + 1 - snd x)).
  - intros [s p] (Hp & Hsm & Hbits). cbn [snd]. unfold shift_left_erase.
    destruct (Z.leb_spec p r) as [Hlp|Hlp].
    + pose proof (div_mod_64 p) as [Ep Rp].
      set (off := p mod 64) in *.
      set (ea := Z.min (r - p) (63 - off) + 1). assert (Hea : ea = Z.min (r - p) (63 - off) + 1) by reflexivity.
      clearbody ea.
      match goal with |- wp (bind (rdw c s ?i) (fun w => bind (@?F w) (fun st1 => Ok (inl (st1, ?v))))) ?Q' =>
        assert (wp (let* w := rdw c s i in F w) (fun st1 => Q' (inl (st1, v)))) as HH
      end.
      2: { revert HH. clear. unfold bind.
           destruct (rdw c s (base + p / 64)); simpl; auto.
           destruct (wrw _ _ _ _); simpl; auto. }
      cbn beta.
      apply (clear_step c s base p off ea); try lia.
      * rewrite (same_limit c st s) by auto. apply (word_le c st base p r); lia.
      * intros st' Hsm' Hj. split; [|cbn [snd]; lia]. split; [lia|]. split; [eapply same_trans; eauto|].
        intros j Hj0. rewrite Hj by lia.
        remember (64 * (base + p / 64) + off) as a.
        assert (Ha : a = 64 * base + p) by lia.
        destruct (Z.leb_spec a j); simpl.
        -- destruct (Z.ltb_spec j (a + ea)); simpl.
           ++ destruct (Z.leb_spec (64 * base + l) j); [|exfalso; lia].
              destruct (Z.ltb_spec j (64 * base + (p + ea))); [|exfalso; lia]. reflexivity.
           ++ rewrite Hbits by lia.
              destruct (Z.ltb_spec j (64 * base + p)); [exfalso; lia|].
              destruct (Z.ltb_spec j (64 * base + (p + ea))); [exfalso; lia|]. reflexivity.
        -- rewrite Hbits by lia.
           destruct (Z.ltb_spec j (64 * base + p)); [|exfalso; lia].
           destruct (Z.ltb_spec j (64 * base + (p + ea))); [|exfalso; lia]. reflexivity.
    + simpl. apply HQ; auto. intros j Hj. rewrite Hbits by lia.
      replace (j <? 64 * base + p) with (j <=? 64 * base + r) by lia. reflexivity.
  - split; [lia|]. split; [apply same_refl|]. intros j Hj.
    destruct (Z.ltb_spec j (64 * base + l)); simpl; [|rewrite andb_false_r; reflexivity].
    destruct (Z.leb_spec (64 * base + l) j); [exfalso; lia|reflexivity].
  - cbn [snd]. lia.
Qed.

(** bits l..r of the bitmap at word [base] move down by [d]; bits r-d+1..r are cleared *)
Lemma shift_bitmap_left_wp c st base l r d (Q : store -> Prop) :
  0 <= base -> 0 < d -> d <= l -> l - 1 <= r ->
  64 * (base + r / 64) + 64 <= limit c st ->
  (forall st', same st st' ->
     (forall j, 0 <= j -> tb st' j =
        if (64 * base + r - d <? j) && (j <=? 64 * base + r) then false
        else if (64 * base + l - d <=? j) && (j <=? 64 * base + r - d) then tb st (j + d)
        else tb st j) ->
     Q st') ->
  wp (shift_bitmap_left c st base l r d) Q.
Proof.
  intros Hb Hd Hl Hr Hlim HQ. unfold shift_bitmap_left. apply wp_bind.
  apply shift_left_move_wp; auto. intros st1 Hs1 Hb1.
  replace (d + 1) with (r - (r - d + 1) + 2) by lia.
  apply shift_left_erase_wp; try lia.
  - intros _. rewrite (same_limit c st st1) by auto. exact Hlim.
  - intros st' Hs2 Hb2. apply HQ; [eapply same_trans; eauto|].
    intros j Hj. rewrite Hb2 by lia.
    replace (64 * base + (r - d + 1) <=? j) with (64 * base + r - d <? j) by lia.
    destruct ((64 * base + r - d <? j) && (j <=? 64 * base + r)); [reflexivity|].
    apply Hb1. lia.
Qed.
