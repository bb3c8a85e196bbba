(** Facts about machine words. *)
From Coq Require Import NArith ZArith Lia Bool List.
From Coq Require Import ZifyBool ZifyNat ZifyN.
From Verif.Common Require Import Word.
Ltac Zify.zify_post_hook ::= Z.div_mod_to_equations.
Open Scope N_scope.
Local Arguments N.pow : simpl never.
Local Arguments N.mul : simpl never.
Local Arguments N.add : simpl never.
Local Arguments N.sub : simpl never.
Local Arguments N.div : simpl never.
Local Arguments N.modulo : simpl never.

Lemma testbit_high (n w i : N) : n < 2 ^ w -> w <= i -> N.testbit n i = false.
Proof.
  intros Hn Hi. destruct (N.eq_dec n 0) as [->|Hz]; [apply N.bits_0|].
  apply N.bits_above_log2. apply N.log2_lt_pow2; [lia|].
  eapply N.lt_le_trans; [exact Hn|]. apply N.pow_le_mono_r; lia.
Qed.
Lemma lt_pow2_testbit (n w : N) : (forall i, w <= i -> N.testbit n i = false) -> n < 2 ^ w.
Proof.
  intros H. destruct (N.eq_dec n 0) as [->|Hz]; [apply N.neq_0_lt_0, N.pow_nonzero; lia|].
  apply N.log2_lt_pow2; [lia|].
  destruct (N.lt_ge_cases (N.log2 n) w) as [?|Hge]; [assumption|].
  specialize (H _ Hge). rewrite N.bit_log2 in H by assumption. discriminate.
Qed.

Lemma wnot_lxor b a : wnot b a = N.lxor (N.ones b) (a mod 2 ^ b).
Proof.
  unfold wnot. rewrite N.ones_equiv, N.pred_sub.
  rewrite N.sub_nocarry_ldiff.
  - apply N.bits_inj. intros i. rewrite N.ldiff_spec, N.lxor_spec, <- N.pred_sub, <- N.ones_equiv.
    destruct (N.lt_ge_cases i b) as [Hi|Hi].
    + rewrite N.ones_spec_low by assumption. destruct (N.testbit _ _); reflexivity.
    + rewrite N.ones_spec_high by assumption. rewrite (testbit_high _ b) by
        (try apply N.mod_lt; try apply N.pow_nonzero; lia). reflexivity.
  - apply N.bits_inj_0. intros i. rewrite N.ldiff_spec, <- N.pred_sub, <- N.ones_equiv.
    destruct (N.lt_ge_cases i b) as [Hi|Hi].
    + rewrite N.ones_spec_low by assumption. apply andb_false_r.
    + rewrite (testbit_high _ b); [reflexivity| |assumption]. apply N.mod_lt, N.pow_nonzero; lia.
Qed.
Lemma wnot_spec_low b a i : i < b -> N.testbit (wnot b a) i = negb (N.testbit a i).
Proof.
  intros Hi. rewrite wnot_lxor, N.lxor_spec, N.ones_spec_low, N.mod_pow2_bits_low by assumption.
  destruct (N.testbit a i); reflexivity.
Qed.
Lemma wnot_spec_high b a i : b <= i -> N.testbit (wnot b a) i = false.
Proof.
  intros Hi. rewrite wnot_lxor, N.lxor_spec, N.ones_spec_high, N.mod_pow2_bits_high by assumption.
  reflexivity.
Qed.
Lemma wnot_lt b a : wnot b a < 2 ^ b.
Proof. unfold wnot. assert (2 ^ b <> 0) by (apply N.pow_nonzero; lia). lia. Qed.
Lemma wadd_lt b x y : wadd b x y < 2 ^ b.
Proof. apply N.mod_lt, N.pow_nonzero; lia. Qed.
Lemma wsub_lt b x y : wsub b x y < 2 ^ b.
Proof. apply N.mod_lt, N.pow_nonzero; lia. Qed.
Lemma wmul_lt b x y : wmul b x y < 2 ^ b.
Proof. apply N.mod_lt, N.pow_nonzero; lia. Qed.
Lemma wshl_lt b x y : wshl b x y < 2 ^ b.
Proof. apply N.mod_lt, N.pow_nonzero; lia. Qed.

Lemma wshl_spec b a n i :
  N.testbit (wshl b a n) i = (i <? b) && (n <=? i) && N.testbit a (i - n).
Proof.
  unfold wshl. destruct (N.ltb_spec i b) as [Hi|Hi].
  - rewrite N.mod_pow2_bits_low by assumption. destruct (N.leb_spec n i) as [Hn|Hn].
    + rewrite N.shiftl_spec_high' by assumption. reflexivity.
    + rewrite N.shiftl_spec_low by assumption. reflexivity.
  - rewrite N.mod_pow2_bits_high by assumption. reflexivity.
Qed.

(** wsub when no borrow occurs *)
Lemma wsub_small b x y : y <= x -> x < 2 ^ b -> wsub b x y = x - y.
Proof.
  intros Hy Hx. unfold wsub. rewrite (N.mod_small y) by lia.
  replace (x + 2 ^ b - y) with (x - y + 1 * 2 ^ b) by lia.
  rewrite N.mod_add by (apply N.pow_nonzero; lia). apply N.mod_small. lia.
Qed.
Lemma wadd_small b x y : x + y < 2 ^ b -> wadd b x y = x + y.
Proof. intros; apply N.mod_small; assumption. Qed.
Lemma wsub_wrap b x y : x < y -> y < 2 ^ b -> wsub b x y = x + 2 ^ b - y.
Proof.
  intros Hy Hx. unfold wsub. rewrite (N.mod_small y) by lia. apply N.mod_small. lia.
Qed.

(** ctz *)
Lemma ctz_pos_shape p : exists q, Npos p = 2 ^ ctz_pos p * (2 * q + 1).
Proof.
  induction p as [p IH|p IH|]; cbn [ctz_pos].
  - exists (Npos p). rewrite N.pow_0_r. lia.
  - destruct IH as [q Hq]. exists q. rewrite N.pow_succ_r'. lia.
  - exists 0. reflexivity.
Qed.
Lemma ctz_shape n : n <> 0 -> exists q, n = 2 ^ ctz n * (2 * q + 1).
Proof. destruct n as [|p]; [congruence|]. intros _. apply ctz_pos_shape. Qed.
Lemma ctz_bit n : n <> 0 -> N.testbit n (ctz n) = true.
Proof.
  intros H. destruct (ctz_shape n H) as [q Hq]. remember (ctz n) as c eqn:E. clear E.
  subst n. replace c with (0 + c) at 2 by lia. rewrite N.mul_pow2_bits_add with (m := 0) || idtac.
  rewrite N.mul_comm, N.mul_pow2_bits_add. rewrite N.testbit_odd_0. reflexivity.
Qed.
Lemma ctz_below n j : j < ctz n -> N.testbit n j = false.
Proof.
  intros Hj. destruct (N.eq_dec n 0) as [->|H]; [apply N.bits_0|].
  destruct (ctz_shape n H) as [q Hq]. remember (ctz n) as c eqn:E. clear E.
  subst n. rewrite N.mul_comm. apply N.mul_pow2_bits_low. assumption.
Qed.
Lemma ctz_unique n c : N.testbit n c = true -> (forall j, j < c -> N.testbit n j = false) -> ctz n = c.
Proof.
  intros H1 H2. assert (n <> 0) by (intros ->; rewrite N.bits_0 in H1; discriminate).
  destruct (N.lt_trichotomy (ctz n) c) as [Hl|[He|Hg]]; [|assumption|].
  - specialize (H2 _ Hl). rewrite ctz_bit in H2 by assumption. discriminate.
  - rewrite (ctz_below n c) in H1 by assumption. discriminate.
Qed.
Lemma land_pred_bits n i :
  n <> 0 -> N.testbit (N.land n (n - 1)) i = N.testbit n i && negb (i =? ctz n).
Proof.
  intros H. rewrite N.land_spec. destruct (ctz_shape n H) as [q Hq].
  destruct (N.lt_trichotomy i (ctz n)) as [Hl|[He|Hg]].
  - rewrite (ctz_below n i) by assumption. reflexivity.
  - subst i. rewrite N.eqb_refl, andb_false_r.
    replace (N.testbit (n - 1) (ctz n)) with false; [apply andb_false_r|].
    remember (ctz n) as c eqn:E; clear E.
    assert (Hp : 2 ^ c <> 0) by (apply N.pow_nonzero; lia).
    replace (n - 1) with ((2 ^ c - 1) + (2 * q) * 2 ^ c) by lia.
    symmetry. replace c with (0 + c) at 3 by lia.
    rewrite <- N.div_pow2_bits. rewrite N.div_add by assumption.
    rewrite N.div_small by lia. rewrite N.add_0_l. apply N.testbit_even_0.
  - destruct (N.eqb_spec i (ctz n)) as [->|Hne]; [lia|]. rewrite andb_true_r.
    remember (ctz n) as c eqn:E; clear E.
    assert (Hp : 2 ^ c <> 0) by (apply N.pow_nonzero; lia).
    replace (N.testbit (n - 1) i) with (N.testbit n i); [destruct (N.testbit n i); reflexivity|].
    assert (Hi : i = (i - c - 1) + (c + 1)) by lia. rewrite Hi.
    assert (Hp2 : 2 ^ (c + 1) = 2 * 2 ^ c) by (rewrite N.add_1_r, N.pow_succ_r'; reflexivity).
    rewrite <- !N.div_pow2_bits. f_equal.
    replace n with (2 ^ c + q * 2 ^ (c + 1)) by lia.
    rewrite N.div_add by (apply N.pow_nonzero; lia).
    replace (2 ^ c + q * 2 ^ (c + 1) - 1) with ((2 ^ c - 1) + q * 2 ^ (c + 1)) by lia.
    rewrite N.div_add by (apply N.pow_nonzero; lia).
    rewrite !N.div_small by lia. reflexivity.
Qed.
Lemma ctz_le_log2 n : n <> 0 -> ctz n <= N.log2 n.
Proof.
  intros H. destruct (N.le_gt_cases (ctz n) (N.log2 n)) as [?|Hg]; [assumption|].
  pose proof (ctz_below n _ Hg) as Hb. rewrite N.bit_log2 in Hb by assumption. discriminate.
Qed.
Lemma ctz_lt n b : n <> 0 -> n < 2 ^ b -> ctz n < b.
Proof.
  intros H Hb. apply N.log2_lt_pow2 in Hb; [|lia]. pose proof (ctz_le_log2 n H). lia.
Qed.

Lemma size_log2 n : n <> 0 -> N.size n = N.succ (N.log2 n).
Proof. intros. apply N.size_log2. assumption. Qed.
