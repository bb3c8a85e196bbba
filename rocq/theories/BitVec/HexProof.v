(** The hexadecimal text of a view is the number whose binary digits are its bits. *)
From stdpp Require Import list.
From Coq Require Import Arith NArith ZArith Lia.
From Coq Require Import ZifyBool ZifyNat ZifyN.
From Verif.Common Require Import Res Word WordFacts.
From Verif.BitVec Require Import Model Bits VisitProof Loops Spec SpecFacts OpsProof Popcount Observe.
Ltac Zify.zify_post_hook ::= Z.div_mod_to_equations.
Local Open Scope nat_scope.
Local Open Scope res_scope.

Lemma to_hex_ok d : (d < 16)%N -> to_hex d = hex_char d.
Proof.
  intros Hd. assert (H : forallb (fun k => (to_hex (N.of_nat k) =? hex_char (N.of_nat k))%N) (seq 0 16) = true) by (vm_compute; reflexivity).
  rewrite forallb_forall in H. specialize (H (N.to_nat d) ltac:(apply in_seq; lia)). rewrite N2Nat.id in H. apply N.eqb_eq in H. assumption.
Qed.
Lemma hex_split a b : forall v w, (v < 16 ^ N.of_nat b)%N -> hex (a + b) (v + 16 ^ N.of_nat b * w)%N = hex a w ++ hex b v.
Proof.
  induction b as [|b IH]; intros v w Hv.
  - change (16 ^ N.of_nat 0)%N with 1%N in *. replace (v + 1 * w)%N with w by lia. rewrite Nat.add_0_r, app_nil_r. reflexivity.
  - replace (N.of_nat (S b)) with (N.succ (N.of_nat b)) in * by lia. rewrite N.pow_succ_r' in *. set (P := (16 ^ N.of_nat b)%N) in *.
    replace (a + S b) with (S (a + b)) by lia. cbn [hex].
    replace ((v + 16 * P * w) / 16)%N with (v / 16 + P * w)%N by lia. rewrite IH by lia.
    replace ((v + 16 * P * w) mod 16)%N with (v mod 16)%N by lia. rewrite app_assoc. reflexivity.
Qed.
Lemma hex_word_ok k : forall n v acc, hex_word k n v acc = (n - Nat.min k n, hex (2 * Nat.min k n) v ++ acc).
Proof.
  induction k as [|k IH]; intros n v acc; cbn [hex_word]; [rewrite Nat.sub_0_r; reflexivity|].
  destruct n as [|n]; [reflexivity|]. rewrite IH. f_equal.
  replace (2 * Nat.min (S k) (S n)) with (S (S (2 * Nat.min k n))) by lia. cbn [hex].
  unfold wshr. rewrite !N.shiftr_div_pow2. change (2 ^ 8)%N with 256%N. change (2 ^ 4)%N with 16%N.
  replace (v / 256)%N with (v / 16 / 16)%N by lia. rewrite <- !app_assoc. cbn [app]. f_equal. f_equal.
  - rewrite to_hex_ok by lia. f_equal. lia.
  - f_equal. change 15%N with (N.ones 4). rewrite N.land_ones. change (2 ^ 4)%N with 16%N. rewrite to_hex_ok by lia. f_equal. lia.
Qed.
Lemma value_lt l : (value l < 2 ^ N.of_nat (length l))%N.
Proof.
  induction l as [|b l IH]; [reflexivity|]. cbn [value length]. replace (N.of_nat (S (length l))) with (N.succ (N.of_nat (length l))) by lia.
  rewrite N.pow_succ_r'. destruct b; lia.
Qed.
Lemma value_app l1 l2 : value (l1 ++ l2) = (value l1 + 2 ^ N.of_nat (length l1) * value l2)%N.
Proof.
  induction l1 as [|b l IH]; [cbn [app value length]; change (2 ^ N.of_nat 0)%N with 1%N; lia|]. cbn [app value length]. rewrite IH.
  replace (N.of_nat (S (length l))) with (N.succ (N.of_nat (length l))) by lia. rewrite N.pow_succ_r'. destruct b; lia.
Qed.
Lemma hex_loop_ok st last : wf st -> last <= s_sz st -> forall fuel cur acc, cur <= last -> (last - cur + 7) / 8 < fuel ->
  hex_loop fuel (s_slots st) (mkC last 0) ((last - cur + 7) / 8) (mkQ cur 0) acc = Ok (hex (2 * ((last - cur + 7) / 8)) (value (sub cur last (bits st))) ++ acc).
Proof.
  intros Hwf Hl. pose proof (wf_cap _ Hwf). induction fuel as [|fuel IH]; intros cur acc Hc Hf; [lia|]. cbn [hex_loop].
  destruct (Nat.eqb_spec ((last - cur + 7) / 8) 0) as [E|E]; [rewrite E; reflexivity|].
  unfold seq_next. cbn [q_init q_cur c_last]. change (0 =? 0) with true. cbn iota.
  destruct (get_next_bits_spec (s_slots st) last cur stride (wf_w64 _ Hwf)) as (v & -> & Hv & Hb); [lia|lia|unfold stride; lia|]. cbn [rbind].
  unfold stride in *. rewrite hex_word_ok.
  assert (Hval : v = value (sub cur (cur + Nat.min 64 (last - cur)) (bits st))).
  { apply N.bits_inj. intros i. rewrite <- (N2Nat.id i). rewrite value_bits, sub_nth, bits_nthb by assumption. fold (tb v (N.to_nat i)). rewrite Hb. f_equal. lia. }
  destruct (Nat.le_gt_cases ((last - cur + 7) / 8) 8) as [Hle|Hgt].
  - replace (Nat.min 8 ((last - cur + 7) / 8)) with ((last - cur + 7) / 8) by lia. rewrite Nat.sub_diag.
    replace (hex_loop fuel _ _ 0 _ _) with (Ok (A := list N) (hex (2 * ((last - cur + 7) / 8)) v ++ acc)) by (destruct fuel; reflexivity).
    rewrite Hval. replace (cur + Nat.min 64 (last - cur)) with last by lia. reflexivity.
  - replace (Nat.min 8 ((last - cur + 7) / 8)) with 8 by lia. replace (Nat.min 64 (last - cur)) with 64 in * by lia.
    replace ((last - cur + 7) / 8 - 8) with ((last - (cur + 64) + 7) / 8) by lia. rewrite IH by lia. f_equal. rewrite app_assoc. f_equal.
    rewrite (sub_split cur (cur + 64) last) by (rewrite ?bits_length; lia). rewrite value_app, <- Hval.
    rewrite sub_length by (rewrite bits_length; lia). replace (cur + 64 - cur) with 64 by lia.
    change (2 ^ N.of_nat 64)%N with (16 ^ N.of_nat 16)%N.
    replace (2 * ((last - cur + 7) / 8)) with (2 * ((last - (cur + 64) + 7) / 8) + 16) by lia.
    rewrite hex_split; [reflexivity|]. exact Hv.
Qed.
Lemma view_string_ok st first last : wf st -> first <= last -> last <= s_sz st ->
  view_string st first last = Ok (string_spec (sub first last (bits st))).
Proof.
  intros Hwf H1 H2. assert (L : length (sub first last (bits st)) = last - first) by (apply sub_length; rewrite bits_length; assumption).
  unfold view_string, string_spec. destruct (Nat.eqb_spec (last - first) 0) as [E|E].
  - destruct (sub first last (bits st)); [reflexivity|]. cbn [length] in L. lia.
  - unfold view_hex. change (seq_const last 0) with (mkC last 0). change (seq_start first 0) with (mkQ first 0).
    rewrite hex_loop_ok by (assumption || lia). cbn [rbind]. rewrite app_nil_r. 
    destruct (sub first last (bits st)) as [|b l] eqn:Es; [cbn [length] in L; lia|]. rewrite L. reflexivity.
Qed.
Lemma value_inj l1 l2 : length l1 = length l2 -> value l1 = value l2 -> l1 = l2.
Proof. intros Hl Hv. apply list_ext; [assumption|]. intros i Hi. rewrite <- !value_bits, Hv. reflexivity. Qed.
