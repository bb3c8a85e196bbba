(** Every observer computes the list specification. *)
From stdpp Require Import list.
From Coq Require Import Arith NArith ZArith Lia.
From Coq Require Import ZifyBool ZifyNat ZifyN.
From Verif.Common Require Import Res Word WordFacts.
From Verif.BitVec Require Import Model Bits VisitProof Loops Spec SpecFacts OpsProof Popcount.
Ltac Zify.zify_post_hook ::= Z.div_mod_to_equations.
Local Open Scope nat_scope.
Local Open Scope res_scope.

Lemma inspect_ok {X} (f : X -> list N -> N -> Z -> res (N * X)) oor st first last (Inv : nat -> X -> Prop) (Q : X -> Prop) x :
  wf st -> first <= last -> last <= s_sz st ->
  (forall a x v, first <= a -> a < last -> (a = first \/ a mod 64 = 0) -> Inv a x -> word_of oor (s_slots st) a (nexta last a) v ->
     exists fs x', f x (s_slots st) v (sha first last a) = Ok (fs, x') /\ (fs = 0%N -> Inv (nexta last a) x') /\ (fs <> 0%N -> Q x')) ->
  Inv first x -> (forall x, Inv last x -> Q x) ->
  exists x', inspect f oor first last x st = Ok x' /\ Q x'.
Proof.
  intros Hwf H1 H2 Hs HI HQ. pose proof (wf_cap _ Hwf).
  destruct (visit_readonly f oor (s_slots st) first last Inv Q x (wf_w64 _ Hwf) ltac:(lia) Hs) as (x' & stop & Hr & Hq); [auto|intros; lia|assumption|].
  unfold inspect. rewrite Hr. cbn [rbind]. eauto.
Qed.

(** ** words against their step *)
Lemma word_any sl a b v : a < b -> b <= 64 * (a / 64 + 1) -> word_of false sl a b v -> (v <> 0%N <-> exists i, a <= i /\ i < b /\ bit sl i = true).
Proof.
  intros H1 H2 [Hw Hv]. split.
  - intros Hn. destruct (word_nonzero v Hw Hn) as (j & Hj & Ht). rewrite Hv in Ht by assumption.
    destruct (inr_spec a b (64 * (a / 64) + j)); [|discriminate]. exists (64 * (a / 64) + j). split; [lia|]. split; [lia|assumption].
  - intros (i & I1 & I2 & Ht) ->. specialize (Hv (i mod 64) ltac:(lia)). rewrite tb_0 in Hv.
    replace (64 * (a / 64) + i mod 64) with i in Hv by lia. destruct (inr_spec a b i); [congruence|lia].
Qed.
Lemma word_every sl a b v : a < b -> b <= 64 * (a / 64 + 1) -> word_of true sl a b v -> (v = ones <-> forall i, a <= i -> i < b -> bit sl i = true).
Proof.
  intros H1 H2 [Hw Hv]. split.
  - intros -> i I1 I2. specialize (Hv (i mod 64) ltac:(lia)). rewrite tb_ones in Hv.
    replace (64 * (a / 64) + i mod 64) with i in Hv by lia. destruct (inr_spec a b i); [|lia]. rewrite <- Hv. lia.
  - intros H. apply tb_ext; [assumption|auto with w64|]. intros j Hj. rewrite tb_ones, Hv by assumption.
    destruct (inr_spec a b (64 * (a / 64) + j)); [rewrite H by lia|]; lia.
Qed.

(** ** any, every *)
Section View.
Context (st : storage) (first last : nat) (Hwf : wf st) (H1 : first <= last) (H2 : last <= s_sz st).
Lemma sub_len : length (sub first last (bits st)) = last - first.
Proof using H2. apply sub_length. rewrite bits_length. assumption. Qed.
Lemma sub_bit i : i < last - first -> nthb (sub first last (bits st)) i = bit (s_slots st) (first + i).
Proof using Hwf. intros Hi. clear H1 H2. rewrite sub_nth, bits_nthb by assumption. destruct (Nat.ltb_spec i (last - first)); [reflexivity|lia]. Qed.
Lemma view_any_ok : view_any st first last = Ok (any_spec (sub first last (bits st))).
Proof using Hwf H1 H2.
  destruct (inspect_ok (fun (r : bool) _ v _ => let r' := if (v =? 0)%N then r else true in Ok ((if r' then 1 else 0)%N, r')) false st first last
    (fun a r => r = false /\ forall i, first <= i -> i < a -> bit (s_slots st) i = false)
    (fun r => r = any_spec (sub first last (bits st))) false Hwf H1 H2) as (x' & Hr & ->).
  - intros a r v A1 A2 A3 [-> Hb] Hv. destruct (nexta_bounds last a A2) as (N1 & N2 & N3).
    pose proof (word_any _ _ _ _ N1 N3 Hv) as Hany. eexists _, _. split; [reflexivity|].
    destruct (N.eqb_spec v 0) as [E|E]; cbn [N.eqb]; split; intros Hfs; try congruence.
    + split; [reflexivity|]. intros i I1 I2. destruct (Nat.lt_ge_cases i a); [auto|].
      destruct (bit (s_slots st) i) eqn:Eb; [|reflexivity]. exfalso. assert (v <> 0%N); [|auto]. apply Hany. eauto.
    + symmetry. apply any_spec_true. apply Hany in E. destruct E as (i & I1 & I2 & I3). exists (i - first). rewrite sub_len. split; [lia|].
      rewrite sub_bit by lia. rewrite <- I3. f_equal. lia.
  - split; [reflexivity|]. intros; lia.
  - intros r [-> Hb]. symmetry. apply not_true_is_false. intros Ht. apply any_spec_true in Ht. destruct Ht as (i & I1 & I2).
    rewrite sub_len in I1. rewrite sub_bit in I2 by assumption. rewrite Hb in I2 by lia. discriminate.
  - exact Hr.
Qed.
Lemma view_every_ok : view_every st first last = Ok (every_spec (sub first last (bits st))).
Proof using Hwf H1 H2.
  destruct (inspect_ok (fun (r : bool) _ v _ => let r' := if (v =? ones)%N then r else false in Ok ((if r' then 0 else 1)%N, r')) true st first last
    (fun a r => r = true /\ forall i, first <= i -> i < a -> bit (s_slots st) i = true)
    (fun r => r = every_spec (sub first last (bits st))) true Hwf H1 H2) as (x' & Hr & ->).
  - intros a r v A1 A2 A3 [-> Hb] Hv. destruct (nexta_bounds last a A2) as (N1 & N2 & N3).
    pose proof (word_every _ _ _ _ N1 N3 Hv) as Hev. eexists _, _. split; [reflexivity|].
    destruct (N.eqb_spec v ones) as [E|E]; split; intros Hfs; try congruence.
    + split; [reflexivity|]. intros i I1 I2. destruct (Nat.lt_ge_cases i a); [auto|]. apply Hev; assumption.
    + symmetry. apply not_true_is_false. intros Ht. apply E, Hev. intros i I1 I2. rewrite every_spec_true, sub_len in Ht.
      specialize (Ht (i - first) ltac:(lia)). rewrite sub_bit in Ht by lia. rewrite <- Ht. f_equal. lia.
  - split; [reflexivity|]. intros; lia.
  - intros r [-> Hb]. symmetry. apply every_spec_true. rewrite sub_len. intros i Hi. rewrite sub_bit by assumption. apply Hb; lia.
  - exact Hr.
Qed.

(** ** comparisons with another view of the same width *)
Section Pair.
Context (ot : storage) (ofirst olast : nat) (Hwo : wf ot) (H3 : ofirst <= olast) (H4 : olast <= s_sz ot) (Heq : olast - ofirst = last - first).
Context (t : N -> N -> bool) (tbb : bool -> bool -> bool).
Context (Ht : forall v b, w64 v -> w64 b -> (t v b = true <-> forall j, j < 64 -> tbb (tb v j) (tb b j) = true)).
Context (H0 : tbb false false = true).
Lemma pair_ok : exists q r, inspect (fun (x : seqst * bool) _ v _ =>
        let* (b, q') := seq_next (s_slots ot) (seq_const olast first) (fst x) in
        let r := if t v b then snd x else false in
        Ok ((if r then 0 else 1)%N, (q', r))) false first last (seq_start ofirst first, true) st = Ok (q, r) /\
    (r = true <-> forall k, k < last - first -> tbb (nthb (sub first last (bits st)) k) (nthb (sub ofirst olast (bits ot)) k) = true).
Proof using Hwf H1 H2 Hwo H3 H4 Heq Ht H0.
  destruct (inspect_ok (fun (x : seqst * bool) _ v _ =>
        let* (b, q') := seq_next (s_slots ot) (seq_const olast first) (fst x) in
        let r := if t v b then snd x else false in
        Ok ((if r then 0 else 1)%N, (q', r))) false st first last
    (fun a x => fst x = cursor first ofirst a /\ snd x = true /\ forall i, first <= i -> i < a -> tbb (bit (s_slots st) i) (bit (s_slots ot) (ofirst + (i - first))) = true)
    (fun x => snd x = true <-> forall i, first <= i -> i < last -> tbb (bit (s_slots st) i) (bit (s_slots ot) (ofirst + (i - first))) = true)
    (seq_start ofirst first, true) Hwf H1 H2) as ([q r] & Hr & HQ).
  - intros a [q r] v A1 A2 A3 (Hq & Hr & Hb) [Hv Hvb]. cbn [fst snd] in *. subst q r. destruct (nexta_bounds last a A2) as (N1 & N2 & N3).
    pose proof (wf_cap _ Hwo). destruct (seq_next_spec (s_slots ot) first last ofirst olast a (wf_w64 _ Hwo) ltac:(lia) Heq H3 A1 A2 A3) as (b & Hsn & Hwb & Hbb).
    rewrite Hsn. cbn [rbind]. eexists _, _. split; [reflexivity|]. cbn [fst snd].
    assert (Hstep : t v b = true <-> forall i, a <= i -> i < nexta last a -> tbb (bit (s_slots st) i) (bit (s_slots ot) (ofirst + (i - first))) = true).
    { rewrite Ht by assumption. split.
      - intros Hj i I1 I2. specialize (Hj (i mod 64) ltac:(lia)). rewrite Hvb, Hbb in Hj by lia. rewrite <- (in_step last a i I1 I2) in Hj.
        destruct (inr_spec a (nexta last a) i); [assumption|lia].
      - intros Hi j Hj. rewrite Hvb, Hbb by assumption. destruct (inr_spec a (nexta last a) (64 * (a / 64) + j)); [apply Hi; lia|assumption]. }
    destruct (t v b); split; intros Hfs; try congruence.
    + split; [reflexivity|]. split; [reflexivity|]. intros i I1 I2. destruct (Nat.lt_ge_cases i a); [auto|]. apply Hstep; auto.
    + split; [discriminate|]. intros Hall. exfalso. assert (false = true); [|discriminate]. apply Hstep. intros i I1 I2. apply Hall; lia.
  - cbn [fst snd]. unfold cursor, seq_start. rewrite Nat.sub_diag, Nat.add_0_r, Nat.eqb_refl. split; [reflexivity|]. split; [reflexivity|]. intros; lia.
  - intros [q r] (_ & E & Hb). cbn [snd] in *. subst r. split; auto.
  - exists q, r. split; [exact Hr|]. cbn [snd] in HQ. rewrite HQ. split.
    + intros H k Hk. specialize (H (first + k) ltac:(lia) ltac:(lia)). rewrite sub_bit by assumption. rewrite sub_nth, bits_nthb by assumption.
      rewrite Heq. destruct (Nat.ltb_spec k (last - first)); [|lia]. cbn [andb]. replace (first + k - first) with k in H by lia. assumption.
    + intros H i I1 I2. specialize (H (i - first) ltac:(lia)). rewrite sub_bit in H by lia. rewrite sub_nth, bits_nthb in H by assumption.
      rewrite Heq in H. destruct (Nat.ltb_spec (i - first) (last - first)); [|lia]. cbn [andb] in H. replace (first + (i - first)) with i in H by lia. assumption.
Qed.
End Pair.
End View.

Lemma bool_iff (b : bool) (P : Prop) (d : bool) : (b = true <-> P) -> (d = true <-> P) -> b = d.
Proof. intros A B. destruct b, d; try reflexivity; exfalso; (assert (false = true); [|discriminate]); tauto. Qed.

Lemma view_eq_ok st first last ot ofirst olast : wf st -> wf ot -> first <= last -> last <= s_sz st -> ofirst <= olast -> olast <= s_sz ot ->
  exists r, view_eq st first last ot ofirst olast = Ok r /\ (r = true <-> sub first last (bits st) = sub ofirst olast (bits ot)).
Proof.
  intros Hwf Hwo H1 H2 H3 H4. unfold view_eq. destruct (Nat.eqb_spec (last - first) (olast - ofirst)) as [E|E]; cbn [negb].
  - destruct (pair_ok st first last Hwf H1 H2 ot ofirst olast Hwo H3 H4 (eq_sym E) N.eqb Bool.eqb) as (q & r & Hr & Hiff).
    + intros v b Hv Hb. rewrite N.eqb_eq. split.
      * intros ->. intros. apply eqb_reflx.
      * intros H. apply tb_ext; [assumption|assumption|]. intros j Hj. apply eqb_prop. auto.
    + reflexivity.
    + unfold inspect in *. rewrite Hr. cbn [rbind]. exists r. split; [reflexivity|]. rewrite Hiff.
      assert (L1 : length (sub first last (bits st)) = last - first) by (apply sub_length; rewrite bits_length; assumption).
      assert (L2 : length (sub ofirst olast (bits ot)) = last - first) by (rewrite sub_length; rewrite ?bits_length; lia).
      split.
      * intros H. apply list_ext; [lia|]. intros i Hi. apply eqb_prop, H. lia.
      * intros -> k Hk. apply eqb_reflx.
  - exists false. split; [reflexivity|]. split; [discriminate|]. intros H. exfalso. apply E.
    rewrite <- (sub_length first last (bits st)), <- (sub_length ofirst olast (bits ot)), H by (rewrite bits_length; assumption). reflexivity.
Qed.
Lemma view_contains_ok st first last ot ofirst olast : wf st -> wf ot -> first <= last -> last <= s_sz st -> ofirst <= olast -> olast <= s_sz ot ->
  olast - ofirst = last - first ->
  view_contains st first last ot ofirst olast = Ok (contains_spec (sub first last (bits st)) (sub ofirst olast (bits ot))).
Proof.
  intros Hwf Hwo H1 H2 H3 H4 E. unfold view_contains. destruct (Nat.ltb_spec (last - first) (olast - ofirst)); [lia|].
  destruct (pair_ok st first last Hwf H1 H2 ot ofirst olast Hwo H3 H4 E (fun v b => (N.lor v b =? v)%N) (fun v b => implb b v)) as (q & r & Hr & Hiff).
  - intros v b Hv Hb. rewrite N.eqb_eq. split.
    + intros Hl j Hj. rewrite <- Hl at 1. rewrite tb_lor. destruct (tb v j), (tb b j); reflexivity.
    + intros H0. apply tb_ext; [auto with w64|assumption|]. intros j Hj. specialize (H0 j Hj). rewrite tb_lor. destruct (tb v j), (tb b j); auto; discriminate.
  - reflexivity.
  - unfold inspect in *. rewrite Hr. cbn [rbind]. f_equal. eapply bool_iff; [exact Hiff|]. rewrite contains_spec_true.
    rewrite !sub_length by (rewrite bits_length; assumption). rewrite E. split.
    + intros H0 k Hk. specialize (H0 k Hk Hk). destruct (nthb (sub ofirst olast (bits ot)) k); cbn; auto.
    + intros H0 k Hk _ Ho. specialize (H0 k Hk). rewrite Ho in H0. exact H0.
Qed.
Lemma view_disjoint_ok st first last ot ofirst olast : wf st -> wf ot -> first <= last -> last <= s_sz st -> ofirst <= olast -> olast <= s_sz ot ->
  view_disjoint st first last ot ofirst olast = Ok (disjoint_spec (sub first last (bits st)) (sub ofirst olast (bits ot))).
Proof.
  intros Hwf Hwo H1 H2 H3 H4. unfold view_disjoint.
  assert (Hgo : forall l ol, first <= l -> l <= last -> ofirst <= ol -> ol <= olast -> ol - ofirst = l - first -> l - first = Nat.min (last - first) (olast - ofirst) ->
    (let* (_, r) := inspect (fun (x : seqst * bool) _ v _ =>
        let* (b, q') := seq_next (s_slots ot) (seq_const ol first) (fst x) in
        let r := if (N.land v b =? 0)%N then snd x else false in
        Ok ((if r then 0 else 1)%N, (q', r))) false first l (seq_start ofirst first, true) st in
     Ok r) = Ok (disjoint_spec (sub first last (bits st)) (sub ofirst olast (bits ot)))).
  { intros l ol L1 L2 L3 L4 L5 L6.
    destruct (pair_ok st first l Hwf ltac:(lia) ltac:(lia) ot ofirst ol Hwo L3 ltac:(lia) L5 (fun v b => (N.land v b =? 0)%N) (fun v b => negb (v && b))) as (q & r & Hr & Hiff).
    - intros v b Hv Hb. rewrite N.eqb_eq, word_zero by auto with w64. split; intros H0 j Hj; specialize (H0 j Hj); rewrite tb_land in *; destruct (tb v j), (tb b j); auto; discriminate.
    - reflexivity.
    - rewrite Hr. cbn [rbind]. f_equal. eapply bool_iff; [exact Hiff|]. rewrite disjoint_spec_true.
      rewrite !sub_length by (rewrite bits_length; assumption). split.
      + intros H0 k Hk. specialize (H0 k ltac:(lia) ltac:(lia)). rewrite !sub_nth in *.
        destruct (Nat.ltb_spec k (last - first)), (Nat.ltb_spec k (l - first)), (Nat.ltb_spec k (olast - ofirst)), (Nat.ltb_spec k (ol - ofirst)); try lia.
        rewrite H0. reflexivity.
      + intros H0 k Hk Hk2. specialize (H0 k ltac:(lia)). rewrite !sub_nth in *.
        destruct (Nat.ltb_spec k (last - first)), (Nat.ltb_spec k (l - first)), (Nat.ltb_spec k (olast - ofirst)), (Nat.ltb_spec k (ol - ofirst)); try lia.
        cbn [andb] in *. apply negb_true_iff. assumption. }
  destruct (Nat.leb_spec (last - first) (olast - ofirst)); apply Hgo; lia.
Qed.

(** ** count *)
Lemma word_count st a b v : wf st -> a < b -> b <= 64 * (a / 64 + 1) -> b <= s_sz st -> word_of false (s_slots st) a b v ->
  popcount64 v = N.of_nat (count_spec (sub a b (bits st))).
Proof.
  intros Hwf H1 H2 H3 [Hw Hv]. rewrite popcount64_ok by assumption. f_equal.
  replace (digits 64 v) with (repeat false (a mod 64) ++ sub a b (bits st) ++ repeat false (64 - (a mod 64 + (b - a)))).
  - rewrite !count_app. assert (Hz : forall n, count_spec (repeat false n) = 0) by (unfold count_spec; induction n; [reflexivity|assumption]). rewrite !Hz. lia.
  - assert (L : length (sub a b (bits st)) = b - a) by (apply sub_length; rewrite bits_length; assumption).
    apply list_ext; [rewrite !app_length, !repeat_length, L, digits_length; lia|]. rewrite !app_length, !repeat_length, L. intros j Hj.
    rewrite digits_nth. destruct (Nat.ltb_spec j 64); [|lia]. cbn [andb]. fold (tb v j). rewrite Hv by lia.
    rewrite !nthb_app, !nthb_repeat, !andb_false_r, sub_nth, repeat_length, L, bits_nthb by assumption.
    destruct (Nat.ltb_spec j (a mod 64)), (Nat.ltb_spec (j - a mod 64) (b - a)), (inr_spec a b (64 * (a / 64) + j)); try lia; try reflexivity.
    cbn [andb]. f_equal. lia.
Qed.
Lemma sub_split a b c l : a <= b -> b <= c -> c <= length l -> sub a c l = sub a b l ++ sub b c l.
Proof.
  intros. apply list_ext; [rewrite app_length, !sub_length by lia; lia|]. rewrite sub_length by lia. intros i Hi.
  rewrite nthb_app, !sub_nth, sub_length by lia. destruct (Nat.ltb_spec i (b - a)), (Nat.ltb_spec i (c - a)); try lia; cbn [andb]; [reflexivity|].
  destruct (Nat.ltb_spec (i - (b - a)) (c - b)); [|lia]. cbn [andb]. f_equal. lia.
Qed.
Lemma sub_empty a l : sub a a l = [].
Proof. unfold sub. rewrite Nat.sub_diag. reflexivity. Qed.
Lemma view_count_ok st first last : wf st -> first <= last -> last <= s_sz st ->
  view_count st first last = Ok (N.of_nat (count_spec (sub first last (bits st)))).
Proof.
  intros Hwf H1 H2. destruct (inspect_ok (fun c _ v _ => Ok (0%N, (c + popcount64 v)%N)) false st first last
    (fun a c => c = N.of_nat (count_spec (sub first a (bits st)))) (fun c => c = N.of_nat (count_spec (sub first last (bits st)))) 0%N Hwf H1 H2) as (x' & Hr & ->).
  - intros a c v A1 A2 A3 -> Hv. destruct (nexta_bounds last a A2) as (N1 & N2 & N3). eexists _, _. split; [reflexivity|]. split; [intros _|congruence].
    rewrite (word_count st a (nexta last a) v Hwf N1 N3 ltac:(lia) Hv). rewrite (sub_split first a (nexta last a)) by (rewrite ?bits_length; lia). rewrite count_app. lia.
  - rewrite sub_empty. reflexivity.
  - auto.
  - exact Hr.
Qed.

(** ** find_first, exactly as the code computes it *)
Definition find_actual (first last : nat) (l : list bool) : option nat :=
  match find_spec (sub first last l) with
  | None => None
  | Some i =>
      if ((first + i) / 64 =? last / 64) && negb (first / 64 =? last / 64)
      then (if first + i + first mod 64 <? last then Some (i + first mod 64) else None)
      else Some i
  end.
Lemma view_find_first_exact st first last : wf st -> first <= last -> last <= s_sz st ->
  view_find_first st first last = Ok (find_actual first last (bits st)).
Proof.
  intros Hwf H1 H2. unfold view_find_first.
  assert (L : length (sub first last (bits st)) = last - first) by (apply sub_length; rewrite bits_length; assumption).
  destruct (inspect_ok (fun idx _ v shift =>
      if (v =? 0)%N then Ok (0%N, (idx + (64 - shift))%Z)
      else let* c := countr_zero v in Ok (1%N, (idx + (Z.of_N c - shift))%Z)) false st first last
    (fun a idx => (forall i, first <= i -> i < a -> bit (s_slots st) i = false) /\ (a < last -> idx = Z.of_nat a) /\ (a = last -> (Z.of_nat last <= idx)%Z))
    (fun idx => (if (idx <? Z.of_nat last)%Z then Some (Z.to_nat idx - first) else None) = find_actual first last (bits st))
    (Z.of_nat first) Hwf H1 H2) as (x' & Hr & HQ).
  - intros a idx v A1 A2 A3 (Hb & Hi & _) Hv. specialize (Hi A2). subst idx. destruct (nexta_bounds last a A2) as (N1 & N2 & N3).
    pose proof (word_any _ _ _ _ N1 N3 Hv) as Hany. destruct (N.eqb_spec v 0) as [E|E].
    + eexists _, _. split; [reflexivity|]. split; [intros _|congruence]. split; [|split].
      * intros i I1 I2. destruct (Nat.lt_ge_cases i a); [auto|]. destruct (bit (s_slots st) i) eqn:Eb; [|reflexivity].
        exfalso. assert (v <> 0%N); [|auto]. apply Hany. eauto.
      * intros Hlt. unfold sha. assert (nexta last a = 64 * (a / 64 + 1)) by (unfold nexta in *; lia).
        destruct (Nat.eqb_spec (a / 64) (first / 64)), (Nat.leb_spec (64 * (a / 64 + 1)) last); lia.
      * intros Hlt. assert (last <= 64 * (a / 64 + 1)) by lia. unfold sha.
        destruct (Nat.eqb_spec (a / 64) (first / 64)), (Nat.leb_spec (64 * (a / 64 + 1)) last); lia.
    + destruct Hv as [Hw Hvb]. rewrite countr_zero_ok by assumption. cbn [rbind]. eexists _, _. split; [reflexivity|]. split; [congruence|intros _].
      pose proof (ctz_lt v 64 E Hw). pose proof (ctz_bit v E) as Hc. pose proof (ctz_below v) as Hbl.
      set (c := N.to_nat (ctz v)). assert (Hcz : ctz v = N.of_nat c) by (unfold c; lia). rewrite Hcz in *. clearbody c.
      assert (Hc' : tb v c = true) by exact Hc. rewrite Hvb in Hc' by lia.
      destruct (inr_spec a (nexta last a) (64 * (a / 64) + c)) as [Hin|]; [|discriminate].
      set (p := 64 * (a / 64) + c) in *.
      assert (Hbelow : forall i, first <= i -> i < p -> bit (s_slots st) i = false).
      { intros i I1 I2. destruct (Nat.lt_ge_cases i a); [auto|]. specialize (Hbl (N.of_nat (i mod 64)) ltac:(unfold p in *; lia)). fold (tb v (i mod 64)) in Hbl.
        rewrite Hvb in Hbl by lia. replace (64 * (a / 64) + i mod 64) with i in Hbl by (unfold p in *; lia).
        destruct (inr_spec a (nexta last a) i); [assumption|lia]. }
      assert (Hfind : find_spec (sub first last (bits st)) = Some (p - first)).
      { apply find_spec_some. rewrite L. split; [lia|]. split.
        - rewrite sub_bit by (assumption || lia). rewrite <- Hc'. f_equal. lia.
        - intros k Hk. rewrite sub_bit by (assumption || lia). apply Hbelow; lia. }
      unfold find_actual. rewrite Hfind. replace (first + (p - first)) with p by lia.
      assert (Hp : p / 64 = a / 64) by (unfold p; lia). rewrite Hp. unfold sha.
      destruct (Nat.eqb_spec (a / 64) (first / 64)) as [Ea|Ea], (Nat.leb_spec (64 * (a / 64 + 1)) last) as [El|El], (Nat.eqb_spec (a / 64) (last / 64)) as [E1|E1],
        (Nat.eqb_spec (first / 64) (last / 64)) as [E2|E2]; try (exfalso; lia); cbn [andb negb].
      all: match goal with |- (if (?x <? _)%Z then _ else _) = _ => try (assert (Hx : x = Z.of_nat p) by (unfold p in *; lia); rewrite Hx; destruct (Z.ltb_spec (Z.of_nat p) (Z.of_nat last)); [f_equal; lia|lia]) end.
      assert (Hx : (Z.of_nat a + (Z.of_N (N.of_nat c) - - Z.of_nat (first mod 64)))%Z = Z.of_nat (p + first mod 64)) by (unfold p in *; lia). rewrite Hx.
      destruct (Z.ltb_spec (Z.of_nat (p + first mod 64)) (Z.of_nat last)), (Nat.ltb_spec (p + first mod 64) last); try lia; [f_equal; lia|reflexivity].
  - split; [intros; lia|]. split; [reflexivity|]. intros; lia.
  - intros idx (Hb & _ & Hl). specialize (Hl eq_refl). destruct (Z.ltb_spec idx (Z.of_nat last)); [lia|]. unfold find_actual.
    replace (find_spec (sub first last (bits st))) with (@None nat); [reflexivity|]. symmetry. apply find_spec_none. intros i.
    destruct (Nat.lt_ge_cases i (last - first)); [|apply nthb_beyond; lia]. rewrite sub_bit by assumption. apply Hb; lia.
  - rewrite Hr. cbn [rbind]. rewrite HQ. reflexivity.
Qed.
(** when it is right *)
Definition find_safe (first last : nat) : Prop := first mod 64 = 0 \/ last mod 64 = 0 \/ first / 64 = last / 64.
Lemma find_actual_safe first last l : last <= length l -> find_safe first last -> find_actual first last l = find_spec (sub first last l).
Proof.
  intros Hl Hs. unfold find_actual. destruct (find_spec (sub first last l)) as [i|] eqn:E; [|reflexivity].
  apply find_spec_some in E. rewrite sub_length in E by assumption. destruct E as (E & _).
  destruct (Nat.eqb_spec ((first + i) / 64) (last / 64)), (Nat.eqb_spec (first / 64) (last / 64)); cbn [andb negb]; try reflexivity.
  unfold find_safe in Hs. assert (first mod 64 = 0) as -> by lia. destruct (Nat.ltb_spec (first + i + 0) last); [f_equal; lia|lia].
Qed.
Definition find_next_spec (start : nat) (l : list bool) : option nat :=
  match find_spec (skipn start l) with None => None | Some i => Some (i + start) end.
Lemma view_find_next_ok st first last start : wf st -> first <= last -> last <= s_sz st -> find_safe (first + start) last ->
  view_find_next st first last start = Ok (find_next_spec start (sub first last (bits st))).
Proof.
  intros Hwf H1 H2 Hs. unfold view_find_next, find_next_spec.
  destruct (Nat.leb_spec last (first + start)).
  - assert (E : skipn start (sub first last (bits st)) = []).
    { apply skipn_all2. rewrite sub_length by (rewrite bits_length; assumption). lia. }
    rewrite E. reflexivity.
  - rewrite view_find_first_exact by (assumption || lia). cbn [rbind]. rewrite find_actual_safe by (assumption || (rewrite bits_length; assumption)).
    replace (skipn start (sub first last (bits st))) with (sub (first + start) last (bits st)); [reflexivity|].
    apply list_ext; [rewrite skipn_length, !sub_length by (rewrite bits_length; assumption); lia|]. intros i Hi. rewrite nthb_drop, !sub_nth.
    replace (i <? last - (first + start)) with (start + i <? last - first) by lia. f_equal. f_equal. lia.
Qed.

(** ** whole vector *)
Lemma vec_any_ok st : wf st -> vec_any st = Ok (any_spec (bits st)).
Proof.
  intros Hwf. unfold vec_any. destruct (visit_all_readonly (fun (r : bool) _ v _ => let r' := if (v =? 0)%N then r else true in Ok ((if r' then 1 else 0)%N, r')) false st
    (fun a r => r = false /\ forall i, i < a -> bit (s_slots st) i = false) (fun r => r = any_spec (bits st)) false Hwf) as (x' & Hr & ->).
  - intros a r v A1 A2 [-> Hb] Hv. destruct (nexta_bounds (s_sz st) a A1) as (N1 & N2 & N3).
    pose proof (word_any _ _ _ _ N1 N3 Hv) as Hany. eexists _, _. split; [reflexivity|]. destruct (N.eqb_spec v 0) as [E|E].
    + assert (Hb' : forall i, i < nexta (s_sz st) a -> bit (s_slots st) i = false).
      { intros i I2. destruct (Nat.lt_ge_cases i a); [auto|]. destruct (bit (s_slots st) i) eqn:Eb; [|reflexivity]. exfalso. assert (v <> 0%N); [|auto]. apply Hany. eauto. }
      split; [auto|]. intros [Hc|Hc]; [congruence|]. rewrite Hc in Hb'. symmetry. apply not_true_is_false. intros Ht. apply any_spec_true in Ht. destruct Ht as (i & I1 & I2).
      rewrite bits_length in I1. rewrite bits_nthb, Hb' in I2 by assumption. discriminate.
    + split; [congruence|]. intros _. symmetry. apply any_spec_true. apply Hany in E. destruct E as (i & I1 & I2 & I3). exists i. rewrite bits_length, bits_nthb by assumption. split; [lia|assumption].
  - split; [reflexivity|]. intros; lia.
  - intros E. unfold bits. rewrite E. reflexivity.
  - cbv zeta in Hr. rewrite Hr. reflexivity.
Qed.
Lemma vec_every_ok st : wf st -> vec_every st = Ok (every_spec (bits st)).
Proof.
  intros Hwf. unfold vec_every. destruct (visit_all_readonly (fun (r : bool) _ v _ => let r' := if (v =? ones)%N then r else false in Ok ((if r' then 0 else 1)%N, r')) true st
    (fun a r => r = true /\ forall i, i < a -> bit (s_slots st) i = true) (fun r => r = every_spec (bits st)) true Hwf) as (x' & Hr & ->).
  - intros a r v A1 A2 [-> Hb] Hv. destruct (nexta_bounds (s_sz st) a A1) as (N1 & N2 & N3).
    pose proof (word_every _ _ _ _ N1 N3 Hv) as Hev. eexists _, _. split; [reflexivity|]. destruct (N.eqb_spec v ones) as [E|E].
    + assert (Hb' : forall i, i < nexta (s_sz st) a -> bit (s_slots st) i = true).
      { intros i I2. destruct (Nat.lt_ge_cases i a); [auto|]. apply Hev; assumption. }
      split; [auto|]. intros [Hc|Hc]; [congruence|]. rewrite Hc in Hb'. symmetry. apply every_spec_true. intros i I1.
      rewrite bits_length in I1. rewrite bits_nthb by assumption. auto.
    + split; [congruence|]. intros _. symmetry. apply not_true_is_false. intros Ht. apply E, Hev. intros i I1 I2. rewrite every_spec_true, bits_length in Ht.
      rewrite <- bits_nthb by assumption. apply Ht. lia.
  - split; [reflexivity|]. intros; lia.
  - intros E. unfold bits. rewrite E. reflexivity.
  - cbv zeta in Hr. rewrite Hr. reflexivity.
Qed.
Lemma vec_count_ok st : wf st -> vec_count st = Ok (N.of_nat (count_spec (bits st))).
Proof.
  intros Hwf. unfold vec_count. destruct (visit_all_readonly (fun c _ v _ => Ok (0%N, if (v =? 0)%N then c else (c + popcount64 v)%N)) false st
    (fun a c => c = N.of_nat (count_spec (sub 0 a (bits st)))) (fun c => c = N.of_nat (count_spec (bits st))) 0%N Hwf) as (x' & Hr & ->).
  - intros a c v A1 A2 -> Hv. destruct (nexta_bounds (s_sz st) a A1) as (N1 & N2 & N3). eexists _, _. split; [reflexivity|].
    assert (E : (if (v =? 0)%N then N.of_nat (count_spec (sub 0 a (bits st))) else (N.of_nat (count_spec (sub 0 a (bits st))) + popcount64 v)%N) =
       N.of_nat (count_spec (sub 0 (nexta (s_sz st) a) (bits st)))).
    { rewrite (sub_split 0 a (nexta (s_sz st) a)) by (rewrite ?bits_length; lia). rewrite count_app, Nat2N.inj_add, <- (word_count st a _ v) by (assumption || lia).
      destruct (N.eqb_spec v 0) as [->|]; [|reflexivity]. change (popcount64 0) with 0%N. lia. }
    split; [intros _; exact E|]. intros [Hc|Hc]; [congruence|]. rewrite E, Hc, sub_whole. reflexivity.
  - rewrite sub_empty. reflexivity.
  - intros E. unfold bits. rewrite E. reflexivity.
  - cbv zeta in Hr. rewrite Hr. reflexivity.
Qed.
Lemma vec_eq_ok st ot : wf st -> wf ot -> exists r, vec_eq st ot = Ok r /\ (r = true <-> bits st = bits ot).
Proof.
  intros Hw Ho. unfold vec_eq. destruct (view_eq_ok st 0 (s_sz st) ot 0 (s_sz ot)) as (r & Hr & Hiff); try assumption; try lia.
  rewrite !sub_whole in Hiff. eauto.
Qed.
Lemma vec_find_first_ok st : wf st -> vec_find_first st = Ok (find_spec (bits st)).
Proof.
  intros Hw. unfold vec_find_first. rewrite view_find_first_exact by (assumption || lia). f_equal.
  rewrite find_actual_safe; [rewrite sub_whole; reflexivity|rewrite bits_length; lia|left; reflexivity].
Qed.

(** ** conversions *)
Definition digit_char (b : bool) : N := if b then 49%N else 48%N.
Lemma vec_to_string_ok st : wf st -> vec_to_string st = Ok (map digit_char (rev (bits st))).
Proof.
  intros Hw. unfold vec_to_string. rewrite <- (bits_length st) at 1.
  assert (H : forall n i, n + i = s_sz st -> to_string_loop n i (s_sz st) st = Ok (map digit_char (rev (firstn n (bits st))))).
  { induction n as [|n IH]; intros i Hi; [reflexivity|]. cbn [to_string_loop]. rewrite vec_get_ok by (assumption || lia). cbn [rbind].
    rewrite IH by lia. cbn [rbind]. replace (s_sz st - i - 1) with n by lia. f_equal.
    assert (E : firstn (S n) (bits st) = firstn n (bits st) ++ [nthb (bits st) n]).
    { apply list_ext; [rewrite app_length, !firstn_length, bits_length; cbn [length]; lia|]. intros k Hk. rewrite nthb_app, !nthb_take, firstn_length, bits_length.
      rewrite firstn_length, bits_length in Hk. destruct (Nat.ltb_spec k (n `min` s_sz st)), (Nat.ltb_spec k (S n)), (Nat.ltb_spec k n); try lia; cbn [andb]; try reflexivity.
      replace (k - n `min` s_sz st) with 0 by lia. cbn [nth]. f_equal. lia. }
    rewrite E, rev_app_distr. reflexivity. }
  rewrite H by (rewrite bits_length; lia). rewrite firstn_all. reflexivity.
Qed.
Lemma vec_to_ullong_ok st : wf st -> vec_to_ullong st = Ok (value (firstn 64 (bits st))).
Proof.
  intros Hwf. pose proof (wf_cap _ Hwf). unfold vec_to_ullong. destruct (Nat.eqb_spec (s_sz st) 0) as [E|E].
  - unfold bits. rewrite E. reflexivity.
  - destruct (lookup_lt_is_Some_2 (s_slots st) 0) as [s Hs]; [lia|]. unfold rd. rewrite Hs. cbn [of_option]. f_equal.
    pose proof (wf_w64 _ Hwf) as Hw. rewrite Forall_lookup in Hw. specialize (Hw _ _ Hs).
    apply N.bits_inj. intros i. rewrite <- (N2Nat.id i). rewrite value_bits, nthb_take, bits_nthb by assumption.
    destruct (Nat.ltb_spec (N.to_nat i) 64); cbn [andb].
    + fold (tb s (N.to_nat i)). symmetry. rewrite (bit_at _ _ s); [f_equal; lia|]. replace (N.to_nat i / 64) with 0 by lia. assumption.
    + apply (tb_high s); assumption.
Qed.
Lemma vec_hash_total st : wf st -> exists h, vec_hash st = Ok h.
Proof.
  intros Hwf. unfold vec_hash. rewrite <- (wf_len _ Hwf).
  assert (H : forall n i h, n + i <= length (s_slots st) -> exists h', hash_loop n i (s_slots st) h = Ok h').
  { induction n as [|n IH]; intros i h Hi; [eexists; reflexivity|]. cbn [hash_loop]. unfold rd. destruct (lookup_lt_is_Some_2 (s_slots st) i) as [s Hs]; [lia|].
    rewrite Hs. cbn [of_option rbind]. apply IH. lia. }
  apply H. lia.
Qed.
