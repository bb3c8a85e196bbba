(** Facts about the list specification, by index. *)
From stdpp Require Import list.
From Coq Require Import Arith NArith ZArith Lia.
From Coq Require Import ZifyBool ZifyNat ZifyN.
From Verif.BitVec Require Import Spec.
Ltac Zify.zify_post_hook ::= Z.div_mod_to_equations.
Local Open Scope nat_scope.

Notation nthb l i := (nth i l false).
Lemma nthb_beyond (l : list bool) i : length l <= i -> nthb l i = false.
Proof. apply nth_overflow. Qed.
Lemma nthb_app (l1 l2 : list bool) i : nthb (l1 ++ l2) i = if i <? length l1 then nthb l1 i else nthb l2 (i - length l1).
Proof. destruct (Nat.ltb_spec i (length l1)); [apply app_nth1; assumption|apply app_nth2; lia]. Qed.
Lemma nthb_take n (l : list bool) i : nthb (take n l) i = (i <? n) && nthb l i.
Proof.
  revert n i. induction l as [|b l IH]; intros n i; [rewrite take_nil; destruct i; cbn; lia|].
  destruct n; [destruct i; reflexivity|]. destruct i; [cbn; reflexivity|]. cbn [take firstn nth]. rewrite IH. f_equal.
Qed.
Lemma nthb_drop n (l : list bool) i : nthb (drop n l) i = nthb l (n + i).
Proof.
  revert n. induction l as [|b l IH]; intros n; [rewrite drop_nil; destruct i, n; reflexivity|].
  destruct n; [reflexivity|]. cbn [drop skipn plus nth]. apply IH.
Qed.
Lemma nthb_repeat v n i : nthb (repeat v n) i = (i <? n) && v.
Proof.
  revert i. induction n as [|n IH]; intros i; [destruct i; reflexivity|]. destruct i; [destruct v; reflexivity|]. cbn [repeat nth]. rewrite IH. f_equal.
Qed.
Lemma list_ext (l1 l2 : list bool) : length l1 = length l2 -> (forall i, i < length l1 -> nthb l1 i = nthb l2 i) -> l1 = l2.
Proof. intros H1 H2. apply (nth_ext _ _ false false); assumption. Qed.

Lemma sub_length first last l : last <= length l -> length (sub first last l) = last - first.
Proof. intros H. unfold sub. rewrite take_length, drop_length. lia. Qed.
Lemma sub_nth first last l i : nthb (sub first last l) i = (i <? last - first) && nthb l (first + i).
Proof. unfold sub. rewrite nthb_take, nthb_drop. reflexivity. Qed.
Lemma splice_length first last new l : first <= last -> last <= length l -> length new = last - first ->
  length (splice first last new l) = length l.
Proof. intros. unfold splice. rewrite !app_length, take_length, drop_length. lia. Qed.
Lemma splice_nth first last new l i : first <= last -> last <= length l -> length new = last - first ->
  nthb (splice first last new l) i = if (first <=? i) && (i <? last) then nthb new (i - first) else nthb l i.
Proof.
  intros H1 H2 H3. unfold splice. rewrite !nthb_app, !nthb_take, nthb_drop, take_length.
  replace (Nat.min first (length l)) with first by lia. rewrite H3.
  destruct (Nat.ltb_spec i first), (Nat.leb_spec first i); try lia; cbn [andb]; [reflexivity|].
  destruct (Nat.ltb_spec i last), (Nat.ltb_spec (i - first) (last - first)); try lia; [reflexivity|].
  f_equal. lia.
Qed.
Lemma sub_splice first last new l : first <= last -> last <= length l -> length new = last - first ->
  sub first last (splice first last new l) = new.
Proof.
  intros H1 H2 H3. apply list_ext.
  - rewrite sub_length by (rewrite splice_length by assumption; lia). lia.
  - rewrite sub_length by (rewrite splice_length by assumption; lia). intros i Hi. rewrite sub_nth, splice_nth by assumption.
    destruct (Nat.ltb_spec i (last - first)), (Nat.leb_spec first (first + i)), (Nat.ltb_spec (first + i) last); try lia.
    cbn [andb]. f_equal. lia.
Qed.
Lemma splice_splice first last new new' l : first <= last -> last <= length l -> length new = last - first -> length new' = last - first ->
  splice first last new' (splice first last new l) = splice first last new' l.
Proof.
  intros H1 H2 H3 H4. apply list_ext.
  - rewrite !splice_length; try lia. rewrite splice_length; lia.
  - intros i Hi. rewrite !splice_nth; try lia; try (rewrite splice_length; lia).
    destruct ((first <=? i) && (i <? last)); reflexivity.
Qed.
Lemma splice_sub first last l : first <= last -> last <= length l -> splice first last (sub first last l) l = l.
Proof.
  intros H1 H2. apply list_ext.
  - rewrite splice_length; try lia. apply sub_length. lia.
  - intros i Hi. rewrite splice_nth; try lia; try (apply sub_length; lia). destruct (Nat.leb_spec first i), (Nat.ltb_spec i last); cbn [andb]; try reflexivity.
    rewrite sub_nth. destruct (Nat.ltb_spec (i - first) (last - first)); [|lia]. cbn [andb]. f_equal. lia.
Qed.
Lemma sub_all l : sub 0 (length l) l = l.
Proof. unfold sub. rewrite Nat.sub_0_r. cbn. apply firstn_all. Qed.
Lemma splice_all new l : length new = length l -> splice 0 (length l) new l = new.
Proof. intros H. unfold splice. rewrite skipn_all. cbn. apply app_nil_r. Qed.

Lemma map2_length g l1 l2 : length (map2 g l1 l2) = Nat.min (length l1) (length l2).
Proof. unfold map2. rewrite map_length. apply combine_length. Qed.
Lemma map2_nth g l1 l2 i : i < length l1 -> i < length l2 -> nthb (map2 g l1 l2) i = g (nthb l1 i) (nthb l2 i).
Proof.
  unfold map2. revert l2 i. induction l1 as [|a l1 IH]; intros [|b l2] i H1 H2; cbn in *; try lia.
  destruct i; [reflexivity|]. apply IH; lia.
Qed.

Lemma shl_length n l : length (shl_spec n l) = length l.
Proof. unfold shl_spec. rewrite app_length, drop_length, repeat_length. lia. Qed.
Lemma shl_nth n l i : nthb (shl_spec n l) i = nthb l (i + n).
Proof.
  unfold shl_spec. rewrite nthb_app, nthb_drop, nthb_repeat, andb_false_r, drop_length.
  destruct (Nat.ltb_spec i (length l - n)); [f_equal; lia|]. symmetry. apply nthb_beyond. lia.
Qed.
Lemma shr_length n l : length (shr_spec n l) = length l.
Proof. unfold shr_spec. rewrite app_length, take_length, repeat_length. lia. Qed.
Lemma shr_nth n l i : nthb (shr_spec n l) i = (n <=? i) && (i <? length l) && nthb l (i - n).
Proof.
  unfold shr_spec. rewrite nthb_app, nthb_take, nthb_repeat, andb_false_r, repeat_length.
  destruct (Nat.ltb_spec i (Nat.min n (length l))).
  - destruct (Nat.leb_spec n i); [lia|]. reflexivity.
  - destruct (Nat.leb_spec n i); cbn [andb].
    + replace (i - Nat.min n (length l) <? length l - n) with (i <? length l) by lia. destruct (Nat.ltb_spec i (length l)); cbn [andb]; [|reflexivity].
      f_equal. lia.
    + destruct (Nat.ltb_spec (i - Nat.min n (length l)) (length l - n)); [lia|reflexivity].
Qed.
Lemma shl_shl a b l : shl_spec b (shl_spec a l) = shl_spec (a + b) l.
Proof.
  apply list_ext; [rewrite !shl_length; reflexivity|]. intros i Hi. rewrite !shl_nth. f_equal. lia.
Qed.
Lemma shr_shr a b l : shr_spec b (shr_spec a l) = shr_spec (a + b) l.
Proof.
  apply list_ext; [rewrite !shr_length; reflexivity|]. rewrite !shr_length. intros i Hi. rewrite !shr_nth, shr_length.
  replace (a + b <=? i) with ((b <=? i) && (a <=? i - b)) by lia.
  destruct (Nat.ltb_spec i (length l)); [|lia]. rewrite !andb_true_r.
  destruct (Nat.leb_spec b i); cbn [andb]; [|reflexivity].
  destruct (Nat.ltb_spec (i - b) (length l)); [|lia]. rewrite andb_true_r. f_equal. f_equal. lia.
Qed.

Lemma resize_spec_length n v l : length (resize_spec n v l) = n.
Proof. unfold resize_spec. rewrite app_length, take_length, repeat_length. lia. Qed.
Lemma resize_spec_nth n v l i : nthb (resize_spec n v l) i = (i <? n) && (if i <? length l then nthb l i else v).
Proof.
  unfold resize_spec. rewrite nthb_app, nthb_take, nthb_repeat, take_length.
  destruct (Nat.ltb_spec i (Nat.min n (length l))), (Nat.ltb_spec i n), (Nat.ltb_spec i (length l)); try lia; cbn [andb]; try reflexivity.
  - replace (i - Nat.min n (length l) <? n - length l) with true by lia. reflexivity.
Qed.

Lemma any_spec_true l : any_spec l = true <-> exists i, i < length l /\ nthb l i = true.
Proof.
  unfold any_spec. rewrite existsb_exists. split.
  - intros (b & Hin & ->). destruct (In_nth _ _ false Hin) as (i & ? & ?). eauto.
  - intros (i & H1 & H2). exists true. split; [|reflexivity]. rewrite <- H2. apply nth_In. assumption.
Qed.
Lemma every_spec_true l : every_spec l = true <-> forall i, i < length l -> nthb l i = true.
Proof.
  unfold every_spec. rewrite forallb_forall. split.
  - intros H i Hi. apply H. apply nth_In. assumption.
  - intros H b Hin. destruct (In_nth _ _ false Hin) as (i & ? & <-). auto.
Qed.
Lemma combine_forall (p : bool * bool -> bool) l o : forallb p (combine l o) = true <->
  forall i, i < length l -> i < length o -> p (nthb l i, nthb o i) = true.
Proof.
  revert o. induction l as [|a l IH]; intros [|b o]; cbn [combine forallb length].
  - split; [intros; lia|reflexivity].
  - split; [intros; lia|reflexivity].
  - split; [intros; lia|reflexivity].
  - rewrite andb_true_iff, IH. split.
    + intros [H1 H2] [|i] Hi Ho; [exact H1|]. cbn [nth]. apply H2; lia.
    + intros H. split; [apply (H 0); lia|]. intros i Hi Ho. apply (H (S i)); lia.
Qed.
Lemma contains_spec_true l o : contains_spec l o = true <-> forall i, i < length l -> i < length o -> nthb o i = true -> nthb l i = true.
Proof.
  unfold contains_spec. rewrite combine_forall. cbn. split; intros H i H1 H2.
  - intros H3. specialize (H i H1 H2). rewrite H3 in H. destruct (nthb l i); [reflexivity|discriminate].
  - specialize (H i H1 H2). destruct (nthb l i), (nthb o i); auto.
Qed.
Lemma disjoint_spec_true l o : disjoint_spec l o = true <-> forall i, i < length l -> i < length o -> nthb l i && nthb o i = false.
Proof.
  unfold disjoint_spec. rewrite combine_forall. cbn. split; intros H i H1 H2; specialize (H i H1 H2); destruct (nthb l i), (nthb o i); auto.
Qed.

Lemma find_spec_some l i : find_spec l = Some i <-> i < length l /\ nthb l i = true /\ forall k, k < i -> nthb l k = false.
Proof.
  revert i. induction l as [|b l IH]; intros i; cbn [find_spec length].
  - split; [discriminate|intros [? _]; lia].
  - destruct b.
    + split.
      * intros [= <-]. split; [lia|]. split; [reflexivity|]. intros; lia.
      * intros (H1 & H2 & H3). destruct i; [reflexivity|]. specialize (H3 0 ltac:(lia)). discriminate.
    + destruct (find_spec l) as [k|] eqn:Hf.
      * destruct (IH k) as [IH1 _]. destruct (IH1 eq_refl) as (K1 & K2 & K3). split.
        -- intros [= <-]. split; [lia|]. split; [assumption|]. intros [|m] Hm; [reflexivity|]. apply K3. lia.
        -- intros (H1 & H2 & H3). destruct i as [|i]; [discriminate|]. f_equal. f_equal.
           assert (Some k = Some i) as E; [|congruence]. apply IH. split; [lia|]. split; [assumption|].
           intros m Hm. apply (H3 (S m)). lia.
      * split; [discriminate|]. intros (H1 & H2 & H3). destruct i as [|i]; [discriminate|].
        assert (None = Some i) as E; [|discriminate]. apply IH. split; [lia|]. split; [assumption|]. intros m Hm. apply (H3 (S m)). lia.
Qed.
Lemma find_spec_none l : find_spec l = None <-> forall i, nthb l i = false.
Proof.
  split.
  - intros H i. destruct (nthb l i) eqn:E; [|reflexivity]. exfalso.
    assert (Hex : exists k, nthb l k = true /\ forall m, m < k -> nthb l m = false).
    { revert E. induction i as [i IHi] using lt_wf_ind. intros E.
      destruct (existsb (fun m => nthb l m) (seq 0 i)) eqn:Ex.
      - apply existsb_exists in Ex. destruct Ex as (m & Hin & Hm). apply in_seq in Hin. apply (IHi m); [lia|assumption].
      - exists i. split; [assumption|]. intros m Hm. destruct (nthb l m) eqn:Em; [|reflexivity].
        assert (existsb (fun m => nthb l m) (seq 0 i) = true); [|congruence]. apply existsb_exists. exists m. split; [apply in_seq; lia|assumption]. }
    destruct Hex as (k & Hk1 & Hk2). assert (Hk3 : find_spec l = Some k).
    { apply find_spec_some. split; [|auto]. destruct (Nat.lt_ge_cases k (length l)); [assumption|]. rewrite nthb_beyond in Hk1 by lia. discriminate. }
    congruence.
  - intros H. destruct (find_spec l) as [k|] eqn:E; [|reflexivity]. apply find_spec_some in E. destruct E as (_ & E & _). congruence.
Qed.
Lemma count_app l1 l2 : count_spec (l1 ++ l2) = count_spec l1 + count_spec l2.
Proof. unfold count_spec. rewrite List.filter_app, app_length. reflexivity. Qed.
Lemma count_le l : count_spec l <= length l.
Proof. unfold count_spec. induction l as [|b l IH]; [reflexivity|]. cbn [List.filter]. destruct b; cbn [length]; lia. Qed.
Lemma digits_length n v : length (digits n v) = n.
Proof. unfold digits. rewrite map_length, seq_length. reflexivity. Qed.
Lemma digits_nth n v i : nthb (digits n v) i = (i <? n) && N.testbit v (N.of_nat i).
Proof.
  destruct (Nat.ltb_spec i n); cbn [andb].
  - unfold digits. rewrite (nth_indep _ false (N.testbit v (N.of_nat 0))) by (rewrite map_length, seq_length; lia).
    rewrite (map_nth (fun i => N.testbit v (N.of_nat i))), seq_nth by assumption. reflexivity.
  - apply nthb_beyond. rewrite digits_length. lia.
Qed.
Lemma value_bits l i : N.testbit (value l) (N.of_nat i) = nthb l i.
Proof.
  revert i. induction l as [|b l IH]; intros i; [cbn [value]; rewrite N.bits_0; destruct i; reflexivity|].
  cbn [value]. destruct i as [|i].
  - cbn [nth]. change (N.of_nat 0) with 0%N. rewrite N.add_comm. destruct b; [apply N.testbit_odd_0|rewrite N.add_0_r; apply N.testbit_even_0].
  - cbn [nth]. rewrite <- (IH i). replace (N.of_nat (S i)) with (N.succ (N.of_nat i)) by lia. rewrite N.add_comm.
    destruct b; [apply N.testbit_odd_succ; lia|rewrite N.add_0_r; apply N.testbit_even_succ; lia].
Qed.
