(** Every mutating operation computes the list specification. *)
From stdpp Require Import list.
From Coq Require Import Arith NArith ZArith Lia.
From Coq Require Import ZifyBool ZifyNat ZifyN.
From Verif.Common Require Import Res Word WordFacts.
From Verif.BitVec Require Import Model Bits VisitProof Loops Spec SpecFacts.
Ltac Zify.zify_post_hook ::= Z.div_mod_to_equations.
Local Open Scope nat_scope.
Local Open Scope res_scope.

Lemma wf_cap st : wf st -> s_sz st <= 64 * length (s_slots st).
Proof. intros H. rewrite (wf_len _ H), slot_cnt_div. lia. Qed.
Lemma bits_nthb st i : wf st -> nthb (bits st) i = bit (s_slots st) i.
Proof.
  intros Hwf. destruct (Nat.lt_ge_cases i (s_sz st)); [apply bits_nth; assumption|].
  rewrite nthb_beyond by (rewrite bits_length; lia). symmetry. apply (wf_zero _ Hwf). assumption.
Qed.

Lemma result st sl' first last newb new : wf st -> first <= last -> last <= s_sz st ->
  length sl' = length (s_slots st) -> Forall w64 sl' ->
  (forall i, bit sl' i = if inr first last i then newb i else bit (s_slots st) i) ->
  length new = last - first -> (forall k, k < last - first -> nthb new k = newb (first + k)) ->
  wf (mkS sl' (s_sz st)) /\ bits (mkS sl' (s_sz st)) = splice first last new (bits st).
Proof.
  intros Hwf H1 H2 Hl Hw Hb Hn1 Hn2. assert (Hwf' : wf (mkS sl' (s_sz st))).
  { constructor; cbn [s_slots s_sz].
    - rewrite Hl. apply (wf_len _ Hwf).
    - assumption.
    - intros i Hi. rewrite Hb. destruct (inr_spec first last i); [lia|]. apply (wf_zero _ Hwf). assumption. }
  split; [assumption|]. apply list_ext.
  - rewrite splice_length; rewrite ?bits_length; try lia. reflexivity.
  - intros i Hi. rewrite bits_nthb by assumption. cbn [s_slots]. rewrite Hb, splice_nth; rewrite ?bits_length; try lia.
    change ((first <=? i) && (i <? last)) with (inr first last i). destruct (inr_spec first last i).
    + rewrite Hn2 by lia. f_equal. lia.
    + symmetry. apply bits_nthb. assumption.
Qed.

(** generic: a forward mutation *)
Lemma mutate_forward {X} (f : X -> list N -> N -> Z -> res (N * X)) st first last newb new J x :
  wf st -> first <= last -> last <= s_sz st -> fwd_step f (s_slots st) first last newb J -> J first x ->
  length new = last - first -> (forall k, k < last - first -> nthb new k = newb (first + k)) ->
  exists st', mutate f false first last x st = Ok st' /\ s_sz st' = s_sz st /\ wf st' /\ bits st' = splice first last new (bits st).
Proof.
  intros Hwf H1 H2 Hs HJ Hn1 Hn2. pose proof (wf_cap _ Hwf).
  destruct (visit_forward f (s_slots st) first last newb J x Hs H1 ltac:(lia) (wf_w64 _ Hwf) HJ) as (x' & sl' & Hr & _ & Hl & Hw & Hb).
  unfold mutate. rewrite Hr. cbn [rbind]. eexists. split; [reflexivity|]. split; [reflexivity|].
  apply (result st sl' first last newb new); assumption.
Qed.
Lemma mutate_backward {X} (f : X -> list N -> N -> Z -> res (N * X)) st first last newb new J x :
  wf st -> first <= last -> last <= s_sz st -> bwd_step f (s_slots st) first last newb J -> J last x ->
  length new = last - first -> (forall k, k < last - first -> nthb new k = newb (first + k)) ->
  exists st', mutate f true first last x st = Ok st' /\ s_sz st' = s_sz st /\ wf st' /\ bits st' = splice first last new (bits st).
Proof.
  intros Hwf H1 H2 Hs HJ Hn1 Hn2. pose proof (wf_cap _ Hwf).
  destruct (visit_backward f (s_slots st) first last newb J x Hs H1 ltac:(lia) (wf_w64 _ Hwf) HJ) as (x' & sl' & Hr & _ & Hl & Hw & Hb).
  unfold mutate. rewrite Hr. cbn [rbind]. eexists. split; [reflexivity|]. split; [reflexivity|].
  apply (result st sl' first last newb new); assumption.
Qed.
(** an index inside a step *)
Lemma in_step last a i : a <= i -> i < nexta last a -> i = 64 * (a / 64) + i mod 64.
Proof. unfold nexta. intros. lia. Qed.

(** ** set, reset, flip of a view *)
Section Simple.
Context (st : storage) (first last : nat) (Hwf : wf st) (H1 : first <= last) (H2 : last <= s_sz st).
Lemma view_set_ok : exists st', view_set first last st = Ok st' /\ s_sz st' = s_sz st /\ wf st' /\
  bits st' = splice first last (repeat true (last - first)) (bits st).
Proof using Hwf H1 H2.
  apply (mutate_forward _ st first last (fun _ => true) _ (fun _ _ => True)); try assumption.
  - intros a x sl v A1 A2 A3 _ _ _ _ _. exists ones, x. split; [reflexivity|]. split; [auto with w64|]. split; [exact I|].
    intros i I1 I2. rewrite tb_ones. lia.
  - exact I.
  - apply repeat_length.
  - intros k Hk. rewrite nthb_repeat. lia.
Qed.
Lemma view_reset_ok : exists st', view_reset first last st = Ok st' /\ s_sz st' = s_sz st /\ wf st' /\
  bits st' = splice first last (repeat false (last - first)) (bits st).
Proof using Hwf H1 H2.
  apply (mutate_forward _ st first last (fun _ => false) _ (fun _ _ => True)); try assumption.
  - intros a x sl v A1 A2 A3 _ _ _ _ _. exists 0%N, x. split; [reflexivity|]. split; [auto with w64|]. split; [exact I|].
    intros i I1 I2. apply tb_0.
  - exact I.
  - apply repeat_length.
  - intros k Hk. rewrite nthb_repeat. apply andb_false_r.
Qed.
Lemma view_flip_ok : exists st', view_flip first last st = Ok st' /\ s_sz st' = s_sz st /\ wf st' /\
  bits st' = splice first last (map negb (sub first last (bits st))) (bits st).
Proof using Hwf H1 H2.
  apply (mutate_forward _ st first last (fun i => negb (bit (s_slots st) i)) _ (fun _ _ => True)); try assumption.
  - intros a x sl v A1 A2 A3 _ _ _ _ [Hv Hb]. exists (wnot 64 v), x. split; [reflexivity|]. split; [auto with w64|]. split; [exact I|].
    intros i I1 I2. rewrite tb_wnot, Hb by lia. rewrite <- (in_step last a i I1 I2).
    destruct (inr_spec a (nexta last a) i); [|lia]. destruct (Nat.ltb_spec (i mod 64) 64); [reflexivity|lia].
  - exact I.
  - rewrite map_length. apply sub_length. rewrite bits_length. assumption.
  - intros k Hk. rewrite (nth_indep _ false (negb false)) by (rewrite map_length, sub_length; rewrite ?bits_length; lia).
    rewrite (map_nth negb), sub_nth, bits_nthb by assumption. destruct (Nat.ltb_spec k (last - first)); [reflexivity|lia].
Qed.
End Simple.

(** ** |= &= ^= -= or_not and copy *)
Definition word_op (g : N -> N -> N) (gb : bool -> bool -> bool) : Prop :=
  (forall a b, w64 a -> w64 b -> w64 (g a b)) /\ forall a b j, j < 64 -> tb (g a b) j = gb (tb a j) (tb b j).
Lemma wop_or : word_op g_or orb.
Proof. split; [intros; apply w64_lor; assumption|]. intros. apply tb_lor. Qed.
Lemma wop_and : word_op g_and andb.
Proof. split; [intros; apply w64_land_l; assumption|]. intros. apply tb_land. Qed.
Lemma wop_xor : word_op g_xor xorb.
Proof. split; [intros; apply w64_lxor; assumption|]. intros. apply tb_lxor. Qed.
Lemma wop_sub : word_op g_sub b_sub.
Proof. split; [intros; apply w64_land_l; assumption|]. intros a b j Hj. unfold g_sub, b_sub. rewrite tb_land, tb_wnot. destruct (Nat.ltb_spec j 64); [reflexivity|lia]. Qed.
Lemma wop_ornot : word_op g_ornot b_ornot.
Proof. split; [intros; apply w64_lor; auto with w64|]. intros a b j Hj. unfold g_ornot, b_ornot. rewrite tb_lor, tb_wnot. destruct (Nat.ltb_spec j 64); [reflexivity|lia]. Qed.
Lemma wop_copy : word_op g_copy b_copy.
Proof. split; [intros; assumption|]. reflexivity. Qed.

(** where the other operand's bits come from, and when reading them while writing is harmless *)
Definition ost (o : operand) (st : storage) : storage := match o with Same => st | Other s => s end.
Definition safe (o : operand) (first ofirst olast : nat) : Prop :=
  match o with Same => first <= ofirst \/ olast <= first | Other _ => True end.

Lemma bin_assign_ok g gb st first last o ofirst olast : word_op g gb -> wf st -> wf (ost o st) ->
  first <= last -> last <= s_sz st -> ofirst <= olast -> olast <= s_sz (ost o st) -> olast - ofirst = last - first ->
  safe o first ofirst olast ->
  exists st', bin_assign g first last o ofirst olast st = Ok st' /\ s_sz st' = s_sz st /\ wf st' /\
    bits st' = splice first last (map2 gb (sub first last (bits st)) (sub ofirst olast (bits (ost o st)))) (bits st).
Proof.
  intros [Hg1 Hg2] Hwf Hwo H1 H2 H3 H4 Heq Hsafe.
  assert (L1 : length (sub first last (bits st)) = last - first) by (apply sub_length; rewrite bits_length; assumption).
  assert (L2 : length (sub ofirst olast (bits (ost o st))) = last - first) by (rewrite sub_length; rewrite ?bits_length; assumption).
  apply (mutate_forward _ st first last
           (fun i => gb (bit (s_slots st) i) (bit (s_slots (ost o st)) (ofirst + (i - first)))) _
           (fun a q => q = cursor first ofirst a)); try assumption.
  - intros a q sl v A1 A2 A3 -> Hl Hw Hb [Hv Hvb].
    assert (Hosl : Forall w64 (osl o sl) /\ olast <= 64 * length (osl o sl)).
    { destruct o as [|s]; cbn [osl ost] in *.
      - split; [assumption|]. rewrite Hl. pose proof (wf_cap _ Hwf). lia.
      - split; [apply (wf_w64 _ Hwo)|]. pose proof (wf_cap _ Hwo). lia. }
    destruct Hosl as [Ho1 Ho2].
    destruct (seq_next_spec (osl o sl) first last ofirst olast a Ho1 Ho2 Heq H3 A1 A2 A3) as (b & Hsn & Hwb & Hbb).
    rewrite Hsn. cbn [rbind]. eexists _, _. split; [reflexivity|]. split; [auto|]. split; [reflexivity|].
    intros i I1 I2. rewrite Hg2 by lia. rewrite Hvb, Hbb by lia. rewrite <- (in_step last a i I1 I2).
    destruct (inr_spec a (nexta last a) i); [|lia]. cbn [andb]. f_equal.
    destruct o as [|s]; cbn [osl ost safe] in *; [|reflexivity].
    rewrite Hb. destruct (nexta_bounds last a A2). destruct (inr_spec first a (ofirst + (i - first))); [lia|reflexivity].
  - unfold cursor, seq_start. rewrite Nat.sub_diag, Nat.add_0_r, Nat.eqb_refl. reflexivity.
  - rewrite map2_length. lia.
  - intros k Hk. rewrite map2_nth by lia. rewrite !sub_nth, !bits_nthb by assumption.
    rewrite Heq. destruct (Nat.ltb_spec k (last - first)); [|lia]. cbn [andb]. replace (first + k - first) with k by lia. reflexivity.
Qed.

(** ** shifts by at most a word *)
Lemma shl_step_ok st cnt first last : wf st -> first <= last -> last <= s_sz st -> 1 <= cnt <= 64 ->
  exists st', shl_step cnt first last st = Ok st' /\ s_sz st' = s_sz st /\ wf st' /\
    bits st' = splice first last (shl_spec cnt (sub first last (bits st))) (bits st).
Proof.
  intros Hwf H1 H2 Hc.
  assert (L1 : length (sub first last (bits st)) = last - first) by (apply sub_length; rewrite bits_length; assumption).
  set (newb := fun i => (i + cnt <? last) && bit (s_slots st) (i + cnt)).
  set (J := fun b (c : N) => w64 c /\ (first < b -> forall j, j < 64 -> tb c j =
        (64 - cnt <=? j) && (64 * ((b - 1) / 64) + j + cnt <? last) && bit (s_slots st) (64 * ((b - 1) / 64) + j + cnt))).
  assert (Hn : forall k, k < last - first -> nthb (shl_spec cnt (sub first last (bits st))) k = newb (first + k)).
  { intros k Hk. rewrite shl_nth, sub_nth, bits_nthb by assumption. unfold newb. f_equal; [lia|f_equal; lia]. }
  assert (Hpre : forall b, first < b -> b <= last -> (b = last \/ b mod 64 = 0) -> preva first b / 64 = (b - 1) / 64 /\ (first < preva first b -> preva first b = 64 * ((b - 1) / 64))).
  { intros b B1 B2 B3. unfold preva. destruct (Nat.max_spec first (64 * ((b - 1) / 64))) as [[? ->]|[? ->]]; split; lia. }
  assert (HJ0 : J last 0%N).
  { split; [auto with w64|]. intros Hlt j Hj. rewrite tb_0. symmetry.
    destruct (Nat.leb_spec (64 - cnt) j); cbn [andb]; [|reflexivity].
    destruct (Nat.ltb_spec (64 * ((last - 1) / 64) + j + cnt) last); [lia|reflexivity]. }
  assert (Hstep : bwd_step (fun c _ v _ => Ok (N.lor (if cnt =? 64 then 0%N else wshr v (N.of_nat cnt)) c, wshl 64 v (N.of_nat (64 - cnt)))) (s_slots st) first last newb J).
  { intros b c sl v B1 B2 B3 [HJw HJ] [Hv Hvb]. destruct (Hpre b B1 B2 B3) as [P1 P2]. rewrite P1 in Hvb.
    eexists _, _. split; [reflexivity|]. split; [destruct (cnt =? 64); auto with w64|]. split.
    - split; [auto with w64|]. intros Hlt j Hj. specialize (P2 Hlt). rewrite tb_shl. destruct (Nat.ltb_spec j 64); [|lia]. cbn [andb].
      destruct (Nat.leb_spec (64 - cnt) j); cbn [andb]; [|reflexivity]. rewrite Hvb by lia.
      replace (64 * ((preva first b - 1) / 64) + j + cnt) with (64 * ((b - 1) / 64) + (j - (64 - cnt))) by lia.
      destruct (inr_spec (preva first b) b (64 * ((b - 1) / 64) + (j - (64 - cnt)))), (Nat.ltb_spec (64 * ((b - 1) / 64) + (j - (64 - cnt))) last); cbn [andb]; try reflexivity; lia.
    - intros i I1 I2. assert (Hi : i = 64 * ((b - 1) / 64) + i mod 64) by lia.
      set (j := i mod 64) in *. assert (Hj : j < 64) by (unfold j; lia). rewrite tb_lor, (HJ B1 j Hj). unfold newb.
      replace (64 * ((b - 1) / 64) + j + cnt) with (i + cnt) by lia.
      assert (Hz : tb (if cnt =? 64 then 0%N else wshr v (N.of_nat cnt)) j = (j + cnt <? 64) && tb v (j + cnt)).
      { destruct (Nat.eqb_spec cnt 64) as [->|Hne]; [rewrite tb_0; lia|]. rewrite tb_shr. destruct (Nat.ltb_spec (j + cnt) 64); [reflexivity|].
        apply tb_high; [assumption|lia]. }
      rewrite Hz. destruct (Nat.ltb_spec (j + cnt) 64); cbn [andb].
      + destruct (Nat.leb_spec (64 - cnt) j); [lia|]. cbn [andb]. rewrite orb_false_r, Hvb by lia.
        replace (64 * ((b - 1) / 64) + (j + cnt)) with (i + cnt) by lia.
        destruct (inr_spec (preva first b) b (i + cnt)), (Nat.ltb_spec (i + cnt) last); cbn [andb]; try reflexivity; lia.
      + destruct (Nat.leb_spec (64 - cnt) j); [|lia]. cbn [andb orb]. reflexivity. }
  unfold shl_step. unfold stride in *. destruct (Nat.eqb_spec cnt 64) as [E|E].
  - apply (mutate_backward _ st first last newb _ J); try assumption; [|rewrite shl_length; assumption].
    intros b c sl v B1 B2 B3 HJb Hv. destruct (Hstep b c sl v B1 B2 B3 HJb Hv) as (fs & x' & Hf & Hw & HJ' & Hi).
    injection Hf as <- <-. exists c, v. split; [reflexivity|]. replace (wshl 64 v (N.of_nat (64 - cnt))) with v in HJ'; [split; [apply HJb|split; assumption]|].
    destruct Hv as [Hv _]. apply tb_ext; [assumption|auto with w64|]. intros j Hj. rewrite tb_shl.
    rewrite E. destruct (Nat.ltb_spec j 64), (Nat.leb_spec (64 - 64) j); try lia. cbn [andb]. f_equal. lia.
  - apply (mutate_backward _ st first last newb _ J); try assumption; rewrite shl_length; assumption.
Qed.
Lemma shr_step_ok st cnt first last : wf st -> first <= last -> last <= s_sz st -> 1 <= cnt <= 64 ->
  exists st', shr_step cnt first last st = Ok st' /\ s_sz st' = s_sz st /\ wf st' /\
    bits st' = splice first last (shr_spec cnt (sub first last (bits st))) (bits st).
Proof.
  intros Hwf H1 H2 Hc.
  assert (L1 : length (sub first last (bits st)) = last - first) by (apply sub_length; rewrite bits_length; assumption).
  set (newb := fun i => (first + cnt <=? i) && bit (s_slots st) (i - cnt)).
  set (J := fun a (c : N) => w64 c /\ (a < last -> forall j, j < 64 -> tb c j =
        (j <? cnt) && (first + cnt <=? 64 * (a / 64) + j) && bit (s_slots st) (64 * (a / 64) + j - cnt))).
  assert (Hn : forall k, k < last - first -> nthb (shr_spec cnt (sub first last (bits st))) k = newb (first + k)).
  { intros k Hk. rewrite shr_nth, sub_nth, bits_nthb, L1 by assumption. unfold newb.
    destruct (Nat.leb_spec cnt k), (Nat.leb_spec (first + cnt) (first + k)); try (exfalso; lia); cbn [andb]; [|reflexivity].
    destruct (Nat.ltb_spec k (last - first)), (Nat.ltb_spec (k - cnt) (last - first)); try lia. cbn [andb]. f_equal. lia. }
  assert (HJ0 : J first 0%N).
  { split; [auto with w64|]. intros Hlt j Hj. rewrite tb_0. symmetry.
    destruct (Nat.ltb_spec j cnt); cbn [andb]; [|reflexivity].
    destruct (Nat.leb_spec (first + cnt) (64 * (first / 64) + j)); [lia|reflexivity]. }
  assert (Hstep : fwd_step (fun c _ v _ => Ok (N.lor (if cnt =? 64 then 0%N else wshl 64 v (N.of_nat cnt)) c, wshr v (N.of_nat (64 - cnt)))) (s_slots st) first last newb J).
  { intros a c sl v A1 A2 A3 [HJw HJ] _ _ _ [Hv Hvb]. specialize (HJ A2).
    eexists _, _. split; [reflexivity|]. split; [destruct (cnt =? 64); auto with w64|]. split.
    - split; [auto with w64|]. intros Hlt j Hj. rewrite tb_shr.
      assert (Hna : nexta last a = 64 * (a / 64 + 1)) by (unfold nexta in *; lia). rewrite Hna in *.
      replace (64 * (64 * (a / 64 + 1) / 64)) with (64 * (a / 64 + 1)) by lia.
      destruct (Nat.ltb_spec j cnt); cbn [andb]; [|apply tb_high; [assumption|lia]]. rewrite Hvb by lia.
      replace (64 * (a / 64 + 1) + j - cnt) with (64 * (a / 64) + (j + (64 - cnt))) by lia.
      destruct (inr_spec a (64 * (a / 64 + 1)) (64 * (a / 64) + (j + (64 - cnt)))), (Nat.leb_spec (first + cnt) (64 * (a / 64 + 1) + j)); cbn [andb]; try reflexivity; lia.
    - intros i I1 I2. pose proof (in_step last a i I1 I2) as Hi.
      set (j := i mod 64) in *. assert (Hj : j < 64) by (unfold j; lia). rewrite tb_lor, (HJ j Hj). unfold newb.
      replace (64 * (a / 64) + j - cnt) with (i - cnt) by lia. replace (64 * (a / 64) + j) with i by lia.
      assert (Hz : tb (if cnt =? 64 then 0%N else wshl 64 v (N.of_nat cnt)) j = (cnt <=? j) && tb v (j - cnt)).
      { destruct (Nat.eqb_spec cnt 64) as [->|Hne]; [rewrite tb_0; lia|]. rewrite tb_shl. destruct (Nat.ltb_spec j 64); [reflexivity|lia]. }
      rewrite Hz. destruct (Nat.leb_spec cnt j), (Nat.ltb_spec j cnt); try lia; cbn [andb].
      + rewrite orb_false_r, Hvb by lia. replace (64 * (a / 64) + (j - cnt)) with (i - cnt) by lia.
        destruct (inr_spec a (nexta last a) (i - cnt)), (Nat.leb_spec (first + cnt) i); cbn [andb]; try reflexivity; lia.
      + reflexivity. }
  unfold shr_step. unfold stride in *. destruct (Nat.eqb_spec cnt 64) as [E|E].
  - apply (mutate_forward _ st first last newb _ J); try assumption; [|rewrite shr_length; assumption].
    intros a c sl v A1 A2 A3 HJa B1 B2 B3 Hv. destruct (Hstep a c sl v A1 A2 A3 HJa B1 B2 B3 Hv) as (fs & x' & Hf & Hw & HJ' & Hi).
    injection Hf as <- <-. exists c, v. split; [reflexivity|]. replace (wshr v (N.of_nat (64 - cnt))) with v in HJ'; [split; [apply HJa|split; assumption]|].
    destruct Hv as [Hv _]. apply tb_ext; [assumption|auto with w64|]. intros j Hj. rewrite tb_shr. rewrite E. f_equal. lia.
  - apply (mutate_forward _ st first last newb _ J); try assumption; rewrite shr_length; assumption.
Qed.

(** ** shifts by any amount *)
Section Shift.
Context (step : nat -> nat -> nat -> storage -> res storage) (spec : nat -> list bool -> list bool).
Record shift_ok : Prop := {
  so_step : forall st cnt first last, wf st -> first <= last -> last <= s_sz st -> 1 <= cnt <= 64 ->
    exists st', step cnt first last st = Ok st' /\ s_sz st' = s_sz st /\ wf st' /\
      bits st' = splice first last (spec cnt (sub first last (bits st))) (bits st);
  so_len : forall n l, length (spec n l) = length l;
  so_add : forall a b l, spec b (spec a l) = spec (a + b) l;
  so_0 : forall l, spec 0 l = l;
  so_all : forall n l, length l <= n -> spec n l = repeat false (length l)
}.
Context (HO : shift_ok).
Lemma shift_small_ok st cnt first last : wf st -> first <= last -> last <= s_sz st -> cnt <= 64 ->
  exists st', shift_small step first last cnt st = Ok st' /\ s_sz st' = s_sz st /\ wf st' /\
    bits st' = splice first last (spec cnt (sub first last (bits st))) (bits st).
Proof using HO.
  intros Hwf H1 H2 Hc. unfold shift_small.
  assert (L1 : length (sub first last (bits st)) = last - first) by (apply sub_length; rewrite bits_length; assumption).
  destruct (Nat.leb_spec (last - first) cnt).
  - rewrite so_all by (assumption || lia). rewrite L1. apply view_reset_ok; assumption.
  - destruct (Nat.eqb_spec cnt 0) as [->|Hne].
    + exists st. rewrite so_0 by assumption. rewrite splice_sub by (rewrite ?bits_length; lia). auto.
    + apply so_step; try assumption. lia.
Qed.
Lemma shift_loop_ok fuel : forall st cnt first last, wf st -> first <= last -> last <= s_sz st -> cnt < fuel ->
  exists st', shift_loop step fuel first last cnt st = Ok st' /\ s_sz st' = s_sz st /\ wf st' /\
    bits st' = splice first last (spec cnt (sub first last (bits st))) (bits st).
Proof using HO.
  induction fuel as [|fuel IH]; intros st cnt first last Hwf H1 H2 Hf; [lia|].
  cbn [shift_loop]. destruct (Nat.eqb_spec cnt 0) as [->|Hne].
  - exists st. rewrite so_0 by assumption. rewrite splice_sub by (rewrite ?bits_length; lia). auto.
  - unfold stride. assert (L1 : length (sub first last (bits st)) = last - first) by (apply sub_length; rewrite bits_length; assumption).
    destruct (shift_small_ok st (Nat.min cnt 64) first last) as (st1 & -> & Hs1 & Hw1 & Hb1); try assumption; [lia|]. cbn [rbind].
    destruct (IH st1 (cnt - Nat.min cnt 64) first last) as (st2 & -> & Hs2 & Hw2 & Hb2); try assumption; [lia|lia|].
    exists st2. split; [reflexivity|]. split; [congruence|]. split; [assumption|].
    rewrite Hb2, Hb1. rewrite sub_splice; rewrite ?bits_length, ?so_len by assumption; try lia.
    rewrite so_add by assumption. rewrite splice_splice; rewrite ?bits_length, ?so_len by assumption; try lia.
    f_equal. f_equal. lia.
Qed.
Lemma view_shift_ok st cnt first last : wf st -> first <= last -> last <= s_sz st ->
  exists st', view_shift step first last cnt st = Ok st' /\ s_sz st' = s_sz st /\ wf st' /\
    bits st' = splice first last (spec cnt (sub first last (bits st))) (bits st).
Proof using HO.
  intros Hwf H1 H2. unfold view_shift.
  assert (L1 : length (sub first last (bits st)) = last - first) by (apply sub_length; rewrite bits_length; assumption).
  destruct (Nat.leb_spec (last - first) cnt).
  - rewrite so_all by (assumption || lia). rewrite L1. apply view_reset_ok; assumption.
  - destruct (Nat.eqb_spec cnt 0) as [->|Hne].
    + exists st. rewrite so_0 by assumption. rewrite splice_sub by (rewrite ?bits_length; lia). auto.
    + unfold stride. destruct (Nat.leb_spec cnt 64); [apply so_step; try assumption; lia|]. apply shift_loop_ok; try assumption. lia.
Qed.
End Shift.
Lemma shl_ok : shift_ok shl_step shl_spec.
Proof.
  constructor.
  - apply shl_step_ok.
  - apply shl_length.
  - apply shl_shl.
  - intros l. unfold shl_spec. cbn. apply app_nil_r.
  - intros n l H. unfold shl_spec. rewrite drop_ge by lia. cbn. f_equal. lia.
Qed.
Lemma shr_ok : shift_ok shr_step shr_spec.
Proof.
  constructor.
  - apply shr_step_ok.
  - apply shr_length.
  - apply shr_shr.
  - intros l. unfold shr_spec. cbn. rewrite Nat.sub_0_r. apply firstn_all.
  - intros n l H. unfold shr_spec. replace (length l - n) with 0 by lia. cbn. rewrite app_nil_r. f_equal. lia.
Qed.

(** ** single bits *)
Lemma vec_get_ok st i : wf st -> i < s_sz st -> vec_get st i = Ok (nthb (bits st) i).
Proof.
  intros Hwf Hi. pose proof (wf_cap _ Hwf). unfold vec_get, rd, slot.
  destruct (lookup_lt_is_Some_2 (s_slots st) (i / 64)) as [s Hs]; [lia|]. rewrite Hs. cbn [of_option rbind]. f_equal.
  rewrite bits_nthb, (bit_at _ _ _ Hs) by assumption. pose proof (wf_w64 _ Hwf) as Hw. rewrite Forall_lookup in Hw. specialize (Hw _ _ Hs).
  destruct (N.eqb_spec (N.land s (bitmask i)) 0) as [E|E]; cbn [negb].
  - assert (Ht : tb (N.land s (bitmask i)) (i mod 64) = false) by (rewrite E; apply tb_0).
    rewrite tb_land, tb_bitmask in Ht. unfold bmod in Ht. rewrite Nat.eqb_refl, andb_true_r in Ht. auto.
  - apply word_nonzero in E; [|auto with w64]. destruct E as (j & Hj & E). rewrite tb_land, tb_bitmask in E. unfold bmod in E.
    destruct (Nat.eqb_spec j (i mod 64)) as [->|]; [rewrite andb_true_r in E; auto|rewrite andb_false_r in E; discriminate].
Qed.
Lemma one_bit st i s fs v : wf st -> i < s_sz st -> s_slots st !! (i / 64) = Some s -> w64 fs ->
  (forall j, j < 64 -> tb fs j = if j =? i mod 64 then v else tb s j) ->
  wf (mkS (<[i / 64 := fs]> (s_slots st)) (s_sz st)) /\ bits (mkS (<[i / 64 := fs]> (s_slots st)) (s_sz st)) = splice i (S i) [v] (bits st).
Proof.
  intros Hwf Hi Hs Hfs Hb. pose proof (lookup_lt_Some _ _ _ Hs).
  apply (result st _ i (S i) (fun _ => v) [v]); try assumption; [lia|apply insert_length|apply Forall_insert; [apply (wf_w64 _ Hwf)|assumption]| |cbn; lia|].
  - intros k. rewrite bit_insert by assumption. destruct (Nat.eqb_spec (k / 64) (i / 64)) as [E|E].
    + rewrite Hb by lia. rewrite (bit_at (s_slots st) k s) by (rewrite E; assumption).
      destruct (Nat.eqb_spec (k mod 64) (i mod 64)), (inr_spec i (S i) k); try reflexivity; lia.
    + destruct (inr_spec i (S i) k); [|reflexivity]. exfalso. apply E. f_equal. lia.
  - intros k Hk. replace k with 0 by lia. reflexivity.
Qed.
Lemma vec_set_ok st i v : wf st -> i < s_sz st ->
  exists st', vec_set st i v = Ok st' /\ s_sz st' = s_sz st /\ wf st' /\ bits st' = splice i (S i) [v] (bits st).
Proof.
  intros Hwf Hi. pose proof (wf_cap _ Hwf). pose proof (vec_get_ok st i Hwf Hi) as Hget. unfold vec_get, rd, slot in Hget.
  unfold vec_set, update_bit, rd, wr, slot.
  destruct (lookup_lt_is_Some_2 (s_slots st) (i / 64)) as [s Hs]; [lia|]. rewrite Hs in *. cbn [of_option rbind] in *.
  pose proof (wf_w64 _ Hwf) as Hw. rewrite Forall_lookup in Hw. specialize (Hw _ _ Hs). pose proof (lookup_lt_Some _ _ _ Hs).
  assert (Hsame : forall b, nthb (bits st) i = b -> s_sz st = s_sz st /\ wf st /\ bits st = splice i (S i) [b] (bits st)).
  { intros b Hb. split; [reflexivity|]. split; [assumption|]. symmetry. replace [b] with (sub i (S i) (bits st)).
    - apply splice_sub; rewrite ?bits_length; lia.
    - apply list_ext; [rewrite sub_length by (rewrite bits_length; lia); cbn; lia|].
      rewrite sub_length by (rewrite bits_length; lia). intros k Hk. replace k with 0 by lia. rewrite sub_nth.
      destruct (Nat.ltb_spec 0 (S i - i)); [|lia]. cbn. rewrite <- Hb. f_equal. lia. }
  destruct v, (negb (N.land s (bitmask i) =? 0)%N) eqn:E; injection Hget as Hget.
  - exists st. split; [reflexivity|]. apply Hsame. congruence.
  - destruct (Nat.ltb_spec (i / 64) (length (s_slots st))); [|lia]. cbn [rbind]. eexists. split; [reflexivity|]. split; [reflexivity|].
    apply (one_bit st i s); try assumption; [auto with w64|]. intros j Hj. rewrite tb_lor, tb_bitmask. unfold bmod.
    destruct (j =? i mod 64); [apply orb_true_r|apply orb_false_r].
  - destruct (Nat.ltb_spec (i / 64) (length (s_slots st))); [|lia]. cbn [rbind]. eexists. split; [reflexivity|]. split; [reflexivity|].
    apply (one_bit st i s); try assumption; [auto with w64|]. intros j Hj. rewrite tb_land, tb_wnot, tb_bitmask. unfold bmod.
    destruct (Nat.ltb_spec j 64); [|lia]. destruct (j =? i mod 64); [apply andb_false_r|apply andb_true_r].
  - exists st. split; [reflexivity|]. apply Hsame. congruence.
Qed.
Lemma vec_flip_ok st i : wf st -> i < s_sz st ->
  exists st', vec_flip st i = Ok st' /\ s_sz st' = s_sz st /\ wf st' /\ bits st' = splice i (S i) [negb (nthb (bits st) i)] (bits st).
Proof.
  intros Hwf Hi. pose proof (wf_cap _ Hwf). unfold vec_flip, update_bit_f, rd, wr, slot.
  destruct (lookup_lt_is_Some_2 (s_slots st) (i / 64)) as [s Hs]; [lia|]. rewrite Hs in *. cbn [of_option rbind] in *.
  pose proof (wf_w64 _ Hwf) as Hw. rewrite Forall_lookup in Hw. specialize (Hw _ _ Hs). pose proof (lookup_lt_Some _ _ _ Hs).
  destruct (Nat.ltb_spec (i / 64) (length (s_slots st))); [|lia]. cbn [rbind]. eexists. split; [reflexivity|]. split; [reflexivity|].
  apply (one_bit st i s); try assumption; [auto with w64|]. intros j Hj. rewrite tb_lor, !tb_land, !tb_wnot, tb_bitmask. unfold bmod.
  destruct (Nat.ltb_spec j 64); [|lia]. rewrite bits_nthb, (bit_at _ _ _ Hs) by assumption. destruct (Nat.eqb_spec j (i mod 64)) as [->|]; cbn.
  - rewrite andb_false_r, andb_true_r. reflexivity.
  - rewrite andb_false_r, andb_true_r, orb_false_r. reflexivity.
Qed.

(** ** whole vector *)
Lemma splice_whole st new : length new = s_sz st -> splice 0 (s_sz st) new (bits st) = new.
Proof. intros H. rewrite <- (bits_length st). apply splice_all. rewrite bits_length. assumption. Qed.
Lemma sub_whole st : sub 0 (s_sz st) (bits st) = bits st.
Proof. rewrite <- (bits_length st) at 1. apply sub_all. Qed.
Lemma vec_flip_all_ok st : wf st -> exists st', vec_flip_all st = Ok st' /\ s_sz st' = s_sz st /\ wf st' /\ bits st' = map negb (bits st).
Proof.
  intros Hwf. destruct (visit_all_forward (fun (x : unit) _ v _ => Ok (wnot 64 v, x)) st (fun i => negb (bit (s_slots st) i)) (fun _ _ => True) tt)
    as (x' & sl' & Hr & _ & Hl & Hw & Hb); [assumption| |exact I|].
  - intros a x sl v A1 A2 A3 _ _ _ _ [Hv Hb]. exists (wnot 64 v), x. split; [reflexivity|]. split; [auto with w64|]. split; [exact I|].
    intros i I1 I2. rewrite tb_wnot, Hb by lia. rewrite <- (in_step (s_sz st) a i I1 I2).
    destruct (inr_spec a (nexta (s_sz st) a) i); [|lia]. destruct (Nat.ltb_spec (i mod 64) 64); [reflexivity|lia].
  - unfold vec_flip_all. rewrite Hr. cbn [rbind]. eexists. split; [reflexivity|]. split; [reflexivity|].
    destruct (result st sl' 0 (s_sz st) (fun i => negb (bit (s_slots st) i)) (map negb (bits st))) as [R1 R2]; try assumption; try lia.
    + rewrite map_length, bits_length. lia.
    + intros k Hk. rewrite (nth_indep _ false (negb false)) by (rewrite map_length, bits_length; lia). rewrite (map_nth negb), bits_nthb by assumption. reflexivity.
    + split; [assumption|]. rewrite R2. apply splice_whole. rewrite map_length, bits_length. reflexivity.
Qed.
Lemma bit_replicate n w i : bit (replicate n w) i = (i <? 64 * n) && tb w (i mod 64).
Proof.
  unfold bit. destruct (Nat.ltb_spec i (64 * n)).
  - rewrite lookup_replicate_2 by lia. reflexivity.
  - rewrite lookup_ge_None_2 by (rewrite replicate_length; lia). reflexivity.
Qed.
(** masking the last word *)
Lemma mask_last sl n k : n = slot_cnt k -> length sl = n -> Forall w64 sl -> 
  exists sl', (if bmod k =? 0 then Ok sl else let* d := rd sl (n - 1) in wr sl (n - 1) (N.land d (wnot 64 (himask k)))) = Ok sl' /\
    length sl' = n /\ Forall w64 sl' /\ forall i, bit sl' i = (i <? k) && bit sl i.
Proof.
  intros Hn Hl Hw. rewrite slot_cnt_div in Hn. unfold bmod. destruct (Nat.eqb_spec (k mod 64) 0) as [E|E].
  - exists sl. split; [reflexivity|]. split; [assumption|]. split; [assumption|]. intros i.
    destruct (Nat.ltb_spec i k); cbn [andb]; [reflexivity|]. apply bit_beyond. lia.
  - destruct (lookup_lt_is_Some_2 sl (n - 1)) as [d Hd]; [lia|]. unfold rd. rewrite Hd. cbn [of_option rbind].
    unfold wr. destruct (Nat.ltb_spec (n - 1) (length sl)); [|lia]. eexists. split; [reflexivity|].
    rewrite Forall_lookup in Hw. pose proof (Hw _ _ Hd). split; [rewrite insert_length; assumption|]. split.
    { apply Forall_insert; [rewrite Forall_lookup; assumption|auto with w64]. }
    intros i. rewrite bit_insert by assumption. destruct (Nat.eqb_spec (i / 64) (n - 1)) as [E2|E2].
    + rewrite tb_land, tb_wnot, tb_himask. unfold bmod. rewrite (bit_at sl i d) by (rewrite E2; assumption). rewrite andb_comm.
      destruct (Nat.ltb_spec (i mod 64) 64); [|lia]. cbn [andb]. f_equal. lia.
    + destruct (Nat.ltb_spec i k); cbn [andb]; [reflexivity|]. apply bit_beyond. lia.
Qed.
Lemma fill_all_ok st v : wf st -> exists st', fill_all v st = Ok st' /\ s_sz st' = s_sz st /\ wf st' /\ bits st' = repeat v (s_sz st).
Proof.
  intros Hwf. unfold fill_all. pose proof (wf_len _ Hwf) as Hl. destruct (Nat.ltb_spec (length (s_slots st)) (slot_cnt (s_sz st))); [lia|].
  rewrite drop_ge, app_nil_r by lia. set (n := slot_cnt (s_sz st)) in *. set (w := if v then ones else 0%N).
  assert (Hfin : forall sl', length sl' = n -> Forall w64 sl' -> (forall i, bit sl' i = (i <? s_sz st) && v) ->
     wf (mkS sl' (s_sz st)) /\ bits (mkS sl' (s_sz st)) = repeat v (s_sz st)).
  { intros sl' L1 L2 L3. assert (Hwf' : wf (mkS sl' (s_sz st))).
    { constructor; [assumption|assumption|]. cbn [s_sz s_slots]. intros i Hi. rewrite L3. lia. }
    split; [assumption|]. apply list_ext; [rewrite bits_length, repeat_length; reflexivity|]. intros i Hi. rewrite bits_nthb by assumption.
    cbn [s_slots]. rewrite L3, nthb_repeat. reflexivity. }
  assert (Hr : Forall w64 (replicate n w)) by (apply Forall_replicate; unfold w; destruct v; auto with w64).
  assert (Hbr : forall i, bit (replicate n w) i = (i <? 64 * n) && v).
  { intros i. rewrite bit_replicate. f_equal. unfold w. destruct v; [rewrite tb_ones; lia|apply tb_0]. }
  destruct (mask_last (replicate n w) n (s_sz st) eq_refl (replicate_length _ _) Hr) as (sl' & Hm & M1 & M2 & M3).
  assert (Hn : s_sz st <= 64 * n) by (unfold n; rewrite slot_cnt_div; lia).
  destruct v; cbn [andb].
  - destruct (bmod (s_sz st) =? 0) eqn:E; cbn [negb].
    + injection Hm as <-. eexists. split; [reflexivity|]. split; [reflexivity|]. apply Hfin; try assumption. intros i. rewrite M3, Hbr. lia.
    + unfold rd in *. destruct (replicate n w !! (n - 1)); cbn [of_option rbind] in *; [|discriminate]. rewrite Hm. cbn [rbind].
      eexists. split; [reflexivity|]. split; [reflexivity|]. apply Hfin; try assumption. intros i. rewrite M3, Hbr. lia.
  - eexists. split; [reflexivity|]. split; [reflexivity|]. apply Hfin; [apply replicate_length|assumption|]. intros i. rewrite Hbr, !andb_false_r. reflexivity.
Qed.

(** ** resize *)
Lemma resize_ok st n v : wf st -> (v = true -> n <= s_sz st \/ s_sz st mod 64 = 0) ->
  exists st', resize st n v = Ok st' /\ s_sz st' = n /\ wf st' /\ bits st' = resize_spec n v (bits st).
Proof.
  intros Hwf Hv. unfold resize. pose proof (wf_len _ Hwf) as Hl. set (k := slot_cnt n). set (w := if v then ones else 0%N).
  assert (Hk : k = (n + 63) / 64) by apply slot_cnt_div. rewrite slot_cnt_div in Hl.
  set (sl := vresize (s_slots st) k w).
  assert (Hsl : length sl = k) by (unfold sl, vresize; rewrite app_length, take_length, replicate_length; lia).
  assert (Hw : Forall w64 sl).
  { unfold sl, vresize. apply Forall_app. split; [apply Forall_take, (wf_w64 _ Hwf)|apply Forall_replicate; unfold w; destruct v; auto with w64]. }
  destruct (mask_last sl k n eq_refl Hsl Hw) as (sl' & Hm & M1 & M2 & M3). rewrite Hm. cbn [rbind].
  eexists. split; [reflexivity|]. split; [reflexivity|].
  assert (Hwf' : wf (mkS sl' n)).
  { constructor; [assumption|assumption|]. cbn [s_sz s_slots]. intros i Hi. rewrite M3. lia. }
  split; [assumption|]. apply list_ext; [rewrite bits_length, resize_spec_length; reflexivity|].
  rewrite bits_length. cbn [s_sz]. intros i Hi. rewrite bits_nthb by assumption. cbn [s_slots].
  rewrite M3, resize_spec_nth, bits_length. f_equal.
  unfold sl, vresize. unfold bit. destruct (Nat.lt_ge_cases (i / 64) (length (s_slots st))).
  - rewrite lookup_app_l by (rewrite take_length; lia). rewrite lookup_take by lia.
    fold (bit (s_slots st) i). destruct (Nat.ltb_spec i (s_sz st)); [symmetry; apply bits_nthb; assumption|].
    rewrite (wf_zero _ Hwf) by assumption. destruct v; [|reflexivity]. exfalso. destruct (Hv eq_refl); lia.
  - rewrite lookup_app_r by (rewrite take_length; lia). rewrite take_length, lookup_replicate_2 by lia.
    destruct (Nat.ltb_spec i (s_sz st)); [lia|]. unfold w. destruct v; [rewrite tb_ones; lia|apply tb_0].
Qed.
Lemma wf_empty : wf (mkS [] 0).
Proof. constructor; [reflexivity|constructor|]. intros i _. reflexivity. Qed.
Lemma make_ok n v : exists st', make n v = Ok st' /\ s_sz st' = n /\ wf st' /\ bits st' = repeat v n.
Proof.
  unfold make. destruct (resize_ok (mkS [] 0) n v wf_empty) as (st' & H1 & H2 & H3 & H4); [intros; right; reflexivity|].
  exists st'. split; [assumption|]. split; [assumption|]. split; [assumption|]. rewrite H4. unfold resize_spec. cbn.
  rewrite take_nil, Nat.sub_0_r. reflexivity.
Qed.
(** storing a number into a view inside one word *)
Lemma view_store_ok v st first last : w64 v -> wf st -> first < last -> last <= s_sz st -> first / 64 = (last - 1) / 64 ->
  exists st', view_store v first last st = Ok st' /\ s_sz st' = s_sz st /\ wf st' /\ bits st' = splice first last (digits (last - first) v) (bits st).
Proof.
  intros Hv Hwf H1 H2 H3. apply (mutate_forward _ st first last (fun i => tb v (i - first)) _ (fun _ _ => True)); try assumption; [lia| |exact I|apply digits_length|].
  - intros a x sl s A1 A2 A3 _ _ _ _ _. unfold sha. assert (Ha : a / 64 = first / 64) by lia. rewrite Ha, Nat.eqb_refl.
    destruct (Z.leb_spec 0 (Z.of_nat (first mod 64))); [|lia]. eexists _, _. split; [reflexivity|]. split; [auto with w64|]. split; [exact I|].
    intros i I1 I2. replace (Z.to_N (Z.of_nat (first mod 64))) with (N.of_nat (first mod 64)) by lia. rewrite tb_shl.
    assert (nexta last a <= 64 * (first / 64 + 1)) by (unfold nexta; lia).
    destruct (Nat.ltb_spec (i mod 64) 64), (Nat.leb_spec (first mod 64) (i mod 64)); try lia. cbn [andb]. f_equal. lia.
  - intros k Hk. rewrite digits_nth. destruct (Nat.ltb_spec k (last - first)); [|lia]. cbn [andb]. unfold tb. f_equal. lia.
Qed.
