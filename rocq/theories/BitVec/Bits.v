(** Bits of 64-bit words and of word lists, indexed by natural numbers. *)
From stdpp Require Import list.
From Coq Require Import Arith NArith ZArith Lia.
From Coq Require Import ZifyBool ZifyNat ZifyN.
From Verif.Common Require Import Res Word WordFacts.
From Verif.BitVec Require Import Model.
Ltac Zify.zify_post_hook ::= Z.div_mod_to_equations.
Local Open Scope nat_scope.

Definition w64 (w : N) : Prop := (w < 2 ^ 64)%N.
Definition tb (w : N) (j : nat) : bool := N.testbit w (N.of_nat j).

Lemma tb_ext a b : w64 a -> w64 b -> (forall j, j < 64 -> tb a j = tb b j) -> a = b.
Proof.
  intros Ha Hb H. apply N.bits_inj. intros i. destruct (N.lt_ge_cases i 64) as [Hi|Hi].
  - specialize (H (N.to_nat i) ltac:(lia)). unfold tb in H. rewrite N2Nat.id in H. assumption.
  - rewrite (testbit_high a 64 i), (testbit_high b 64 i) by assumption. reflexivity.
Qed.
Lemma tb_high w j : w64 w -> 64 <= j -> tb w j = false.
Proof. intros H Hj. apply (testbit_high w 64); [exact H|lia]. Qed.
Lemma w64_bits w : (forall j, 64 <= j -> tb w j = false) -> w64 w.
Proof.
  intros H. apply (lt_pow2_testbit w 64). intros i Hi. specialize (H (N.to_nat i) ltac:(lia)).
  unfold tb in H. rewrite N2Nat.id in H. assumption.
Qed.
Lemma tb_land a b j : tb (N.land a b) j = tb a j && tb b j.
Proof. apply N.land_spec. Qed.
Lemma tb_lor a b j : tb (N.lor a b) j = tb a j || tb b j.
Proof. apply N.lor_spec. Qed.
Lemma tb_lxor a b j : tb (N.lxor a b) j = xorb (tb a j) (tb b j).
Proof. apply N.lxor_spec. Qed.
Lemma tb_wnot a j : tb (wnot 64 a) j = (j <? 64) && negb (tb a j).
Proof.
  unfold tb. destruct (Nat.ltb_spec j 64); cbn [andb].
  - apply wnot_spec_low. lia.
  - apply wnot_spec_high. lia.
Qed.
Lemma tb_shl a n j : tb (wshl 64 a (N.of_nat n)) j = (j <? 64) && (n <=? j) && tb a (j - n).
Proof.
  unfold tb. rewrite wshl_spec. replace (N.of_nat j - N.of_nat n)%N with (N.of_nat (j - n)) by lia. f_equal. f_equal; lia.
Qed.
Lemma tb_shr a n j : tb (wshr a (N.of_nat n)) j = tb a (j + n).
Proof. unfold tb, wshr. rewrite N.shiftr_spec by lia. f_equal. lia. Qed.
Lemma tb_ones j : tb ones j = (j <? 64).
Proof.
  unfold tb, ones. destruct (Nat.ltb_spec j 64); [apply N.ones_spec_low; lia|apply N.ones_spec_high; lia].
Qed.
Lemma tb_0 j : tb 0 j = false.
Proof. apply N.bits_0. Qed.
Lemma bmod_lt n : bmod n < 64. Proof. unfold bmod. lia. Qed.
Lemma bitmask_pow n : bitmask n = (2 ^ N.of_nat (bmod n))%N.
Proof.
  unfold bitmask, wshl. rewrite N.shiftl_1_l. apply N.mod_small. pose proof (bmod_lt n). apply N.pow_lt_mono_r; lia.
Qed.
Lemma tb_bitmask n j : tb (bitmask n) j = (j =? bmod n).
Proof. unfold tb. rewrite bitmask_pow, N.pow2_bits_eqb. lia. Qed.
Lemma lowmask_ones n : lowmask n = N.ones (N.of_nat (bmod n)).
Proof.
  unfold lowmask. rewrite bitmask_pow. pose proof (bmod_lt n).
  assert (2 ^ N.of_nat (bmod n) < 2 ^ 64)%N by (apply N.pow_lt_mono_r; lia).
  assert (2 ^ N.of_nat (bmod n) <> 0)%N by (apply N.pow_nonzero; lia).
  rewrite wsub_small by lia. rewrite N.ones_equiv. lia.
Qed.
Lemma tb_lowmask n j : tb (lowmask n) j = (j <? bmod n).
Proof.
  unfold tb. rewrite lowmask_ones. destruct (Nat.ltb_spec j (bmod n)); [apply N.ones_spec_low; lia|apply N.ones_spec_high; lia].
Qed.
Lemma tb_himask n j : tb (himask n) j = (j <? 64) && (bmod n <=? j).
Proof. unfold himask. rewrite tb_wnot, tb_lowmask. lia. Qed.

Lemma w64_land_l a b : w64 a -> w64 (N.land a b).
Proof. intros H. apply w64_bits. intros j Hj. rewrite tb_land, (tb_high a) by assumption. reflexivity. Qed.
Lemma w64_land_r a b : w64 b -> w64 (N.land a b).
Proof. rewrite N.land_comm. apply w64_land_l. Qed.
Lemma w64_lor a b : w64 a -> w64 b -> w64 (N.lor a b).
Proof. intros H1 H2. apply w64_bits. intros j Hj. rewrite tb_lor, (tb_high a), (tb_high b) by assumption. reflexivity. Qed.
Lemma w64_lxor a b : w64 a -> w64 b -> w64 (N.lxor a b).
Proof. intros H1 H2. apply w64_bits. intros j Hj. rewrite tb_lxor, (tb_high a), (tb_high b) by assumption. reflexivity. Qed.
Lemma w64_wnot a : w64 (wnot 64 a). Proof. apply wnot_lt. Qed.
Lemma w64_shl a n : w64 (wshl 64 a n). Proof. apply wshl_lt. Qed.
Lemma w64_shr a n : w64 a -> w64 (wshr a n).
Proof.
  intros H. unfold w64, wshr. rewrite N.shiftr_div_pow2.
  assert (2 ^ n <> 0)%N by (apply N.pow_nonzero; lia).
  apply N.le_lt_trans with a; [|assumption]. apply N.div_le_upper_bound; [assumption|]. nia.
Qed.
Lemma w64_ones : w64 ones. Proof. reflexivity. Qed.
Lemma w64_0 : w64 0. Proof. reflexivity. Qed.
Lemma w64_lowmask n : w64 (lowmask n). Proof. apply wsub_lt. Qed.
Lemma w64_himask n : w64 (himask n). Proof. apply wnot_lt. Qed.
Lemma w64_bitmask n : w64 (bitmask n). Proof. apply wshl_lt. Qed.
Global Hint Resolve w64_land_l w64_lor w64_lxor w64_wnot w64_shl w64_shr w64_ones w64_0 w64_lowmask w64_himask w64_bitmask : w64.

(** zero test *)
Lemma word_zero w : w64 w -> (w = 0%N <-> forall j, j < 64 -> tb w j = false).
Proof.
  intros Hw. split; [intros ->; intros; apply tb_0|]. intros H. apply tb_ext; [assumption|apply w64_0|].
  intros j Hj. rewrite tb_0. auto.
Qed.
Lemma word_nonzero w : w64 w -> w <> 0%N -> exists j, j < 64 /\ tb w j = true.
Proof.
  intros Hw Hn. exists (N.to_nat (ctz w)). pose proof (ctz_lt w 64 Hn Hw). split; [lia|].
  unfold tb. rewrite N2Nat.id. apply ctz_bit. assumption.
Qed.

(** ones outside [lo,hi) *)
Definition pm (lo hi : nat) : N := wnot 64 (wshl 64 (N.ones (N.of_nat (hi - lo))) (N.of_nat lo)).
Lemma tb_pm lo hi j : tb (pm lo hi) j = (j <? 64) && negb ((lo <=? j) && (j <? hi)).
Proof.
  unfold pm. rewrite tb_wnot, tb_shl. destruct (Nat.ltb_spec j 64); cbn [andb]; [|reflexivity]. f_equal.
  destruct (Nat.leb_spec lo j); cbn [andb]; [|reflexivity]. unfold tb.
  destruct (Nat.ltb_spec j hi); [apply N.ones_spec_low; lia|apply N.ones_spec_high; lia].
Qed.
Lemma w64_pm lo hi : w64 (pm lo hi). Proof. apply wnot_lt. Qed.
Global Hint Resolve w64_pm : w64.

(** bits of a list of words *)
Definition bit (sl : list N) (i : nat) : bool := match sl !! (i / 64) with Some w => tb w (i mod 64) | None => false end.
Lemma bit_some sl k w j : sl !! k = Some w -> j < 64 -> bit sl (64 * k + j) = tb w j.
Proof.
  intros H Hj. unfold bit. replace ((64 * k + j) / 64) with k by lia. rewrite H. f_equal. lia.
Qed.
Lemma bit_at sl i w : sl !! (i / 64) = Some w -> bit sl i = tb w (i mod 64).
Proof. intros H. unfold bit. rewrite H. reflexivity. Qed.
Lemma bit_beyond sl i : 64 * length sl <= i -> bit sl i = false.
Proof. intros H. unfold bit. rewrite lookup_ge_None_2 by lia. reflexivity. Qed.
Lemma bit_insert sl k x i : k < length sl -> bit (<[k := x]> sl) i = if i / 64 =? k then tb x (i mod 64) else bit sl i.
Proof.
  intros H. unfold bit. destruct (Nat.eqb_spec (i / 64) k) as [->|Hn].
  - rewrite list_lookup_insert by assumption. reflexivity.
  - rewrite list_lookup_insert_ne by congruence. reflexivity.
Qed.
Lemma slots_ext sl1 sl2 : length sl1 = length sl2 -> Forall w64 sl1 -> Forall w64 sl2 ->
  (forall i, bit sl1 i = bit sl2 i) -> sl1 = sl2.
Proof.
  intros Hl H1 H2 H. apply list_eq. intros k.
  destruct (sl1 !! k) as [a|] eqn:Ea, (sl2 !! k) as [b|] eqn:Eb; try reflexivity.
  - f_equal. rewrite Forall_lookup in H1, H2. apply tb_ext; [eauto|eauto|]. intros j Hj.
    rewrite <- (bit_some _ _ _ _ Ea Hj), <- (bit_some _ _ _ _ Eb Hj). apply H.
  - apply lookup_lt_Some in Ea. apply lookup_ge_None in Eb. lia.
  - apply lookup_lt_Some in Eb. apply lookup_ge_None in Ea. lia.
Qed.

(** a well-formed vector: exactly the words it needs, and no bit beyond its size *)
Record wf (st : storage) : Prop := {
  wf_len : length (s_slots st) = slot_cnt (s_sz st);
  wf_w64 : Forall w64 (s_slots st);
  wf_zero : forall i, s_sz st <= i -> bit (s_slots st) i = false
}.
(** what the user sees *)
Definition bits (st : storage) : list bool := map (bit (s_slots st)) (seq 0 (s_sz st)).
Lemma bits_length st : length (bits st) = s_sz st.
Proof. unfold bits. rewrite map_length, seq_length. reflexivity. Qed.
Lemma bits_nth st i : i < s_sz st -> nth i (bits st) false = bit (s_slots st) i.
Proof.
  intros H. unfold bits. rewrite (nth_indep _ false (bit (s_slots st) 0)) by (rewrite map_length, seq_length; lia).
  rewrite (map_nth (bit (s_slots st))), seq_nth by assumption. reflexivity.
Qed.
Lemma bits_ext st1 st2 : wf st1 -> wf st2 -> bits st1 = bits st2 -> st1 = st2.
Proof.
  intros H1 H2 H. assert (Hs : s_sz st1 = s_sz st2) by (rewrite <- (bits_length st1), H; apply bits_length).
  destruct st1 as [l1 n1], st2 as [l2 n2]. cbn in Hs. subst n2. f_equal. apply slots_ext.
  - pose proof (wf_len _ H1). pose proof (wf_len _ H2). cbn in *. congruence.
  - apply (wf_w64 _ H1).
  - apply (wf_w64 _ H2).
  - intros i. destruct (Nat.lt_ge_cases i n1) as [Hi|Hi].
    + pose proof (bits_nth (mkS l1 n1) i Hi) as E1. pose proof (bits_nth (mkS l2 n1) i Hi) as E2. cbn [s_slots] in E1, E2. congruence.
    + pose proof (wf_zero _ H1 i Hi) as E1. pose proof (wf_zero _ H2 i Hi) as E2. cbn [s_slots] in E1, E2. congruence.
Qed.
Lemma slot_cnt_div n : slot_cnt n = (n + 63) / 64. Proof. reflexivity. Qed.
Lemma bits_eq_iff st l : length l = s_sz st -> (forall i, i < s_sz st -> bit (s_slots st) i = nth i l false) -> bits st = l.
Proof.
  intros Hl H. apply (nth_ext _ _ false false); [rewrite bits_length; lia|].
  intros i Hi. rewrite bits_length in Hi. rewrite bits_nth by assumption. auto.
Qed.
