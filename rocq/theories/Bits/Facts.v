(** Lemmas about the bit tricks and the mixing functions. *)
From Coq Require Import NArith ZArith List Lia Bool.
From Coq Require Import ZifyBool ZifyNat ZifyN.
From Verif.Common Require Import Res Word WordFacts.
From Verif.Bits Require Import Model.
Import ListNotations.
Open Scope N_scope.
Local Arguments N.pow : simpl never.
Local Arguments N.mul : simpl never.
Local Arguments N.add : simpl never.
Local Arguments N.sub : simpl never.
Local Arguments N.div : simpl never.
Local Arguments N.modulo : simpl never.

(** ** Leading zeros *)
Lemma size_shiftr n k : N.shiftr n k <> 0 -> N.size (N.shiftr n k) + k = N.size n.
Proof.
  intros H. assert (n <> 0) by (intros ->; rewrite N.shiftr_0_l in H; congruence).
  rewrite !N.size_log2 by assumption. rewrite N.log2_shiftr.
  assert (k <= N.log2 n); [|lia]. destruct (N.le_gt_cases k (N.log2 n)); [assumption|].
  destruct H. apply N.shiftr_eq_0. assumption.
Qed.
Lemma clz_step_ok k z n : n < 2 ^ (2 * k) -> k <= z -> z < 2 ^ 32 ->
  let '(z', n') := clz_step k (z, n) in
  n' < 2 ^ k /\ z' < 2 ^ 32 /\ z - k <= z' /\ z' + N.size n = z + N.size n'.
Proof.
  intros Hn Hk Hz. cbn [clz_step]. unfold wshr. destruct (N.eqb_spec (N.shiftr n k) 0) as [E|E].
  - repeat split; try lia. rewrite N.shiftr_div_pow2 in E.
    apply N.div_small_iff in E; [assumption|]. apply N.pow_nonzero. lia.
  - rewrite wsub_small by assumption. pose proof (size_shiftr n k E). repeat split; try lia.
    rewrite N.shiftr_div_pow2. apply N.div_lt_upper_bound; [apply N.pow_nonzero; lia|].
    rewrite <- N.pow_add_r. replace (k + k) with (2 * k) by lia. assumption.
Qed.
Lemma clz_lookup_ok n : n < 16 -> clz_lookup n = Ok (4 - N.size n).
Proof.
  intros H. assert (forallb (fun i => match clz_lookup (N.of_nat i) with Ok c => c =? 4 - N.size (N.of_nat i) | _ => false end) (seq 0 16) = true) as T by reflexivity.
  rewrite forallb_forall in T. specialize (T (N.to_nat n)). rewrite N2Nat.id in T.
  assert (In (N.to_nat n) (seq 0 16)) as I by (apply in_seq; lia). specialize (T I).
  destruct (clz_lookup n); try discriminate. f_equal. apply N.eqb_eq. assumption.
Qed.
Lemma size_le n w : n < 2 ^ w -> N.size n <= w.
Proof.
  intros H. destruct (N.eq_dec n 0) as [->|Hz]; [cbn; lia|]. rewrite N.size_log2 by assumption.
  apply N.log2_lt_pow2 in H; lia.
Qed.
Lemma clz64_slow_ok n : n < 2 ^ 64 -> clz64_slow n = Ok (64 - N.size n).
Proof.
  intros Hn. unfold clz64_slow.
  pose proof (clz_step_ok 32 60 n Hn) as A. destruct (clz_step 32 (60, n)) as [z1 n1].
  destruct A as (A1 & A2 & A3 & A4); [lia|reflexivity|].
  pose proof (clz_step_ok 16 z1 n1 A1) as B. destruct (clz_step 16 (z1, n1)) as [z2 n2].
  destruct B as (B1 & B2 & B3 & B4); [lia|assumption|].
  pose proof (clz_step_ok 8 z2 n2 B1) as C. destruct (clz_step 8 (z2, n2)) as [z3 n3].
  destruct C as (C1 & C2 & C3 & C4); [lia|assumption|].
  pose proof (clz_step_ok 4 z3 n3 C1) as D. destruct (clz_step 4 (z3, n3)) as [z4 n4].
  destruct D as (D1 & D2 & D3 & D4); [lia|assumption|].
  rewrite clz_lookup_ok by exact D1. cbn [rbind]. f_equal.
  pose proof (size_le _ _ D1). pose proof (size_le _ _ Hn).
  rewrite wadd_small by lia. lia.
Qed.
Lemma clz32_slow_ok n : n < 2 ^ 32 -> clz32_slow n = Ok (32 - N.size n).
Proof.
  intros Hn. unfold clz32_slow.
  pose proof (clz_step_ok 16 28 n Hn) as B. destruct (clz_step 16 (28, n)) as [z2 n2].
  destruct B as (B1 & B2 & B3 & B4); [lia|reflexivity|].
  pose proof (clz_step_ok 8 z2 n2 B1) as C. destruct (clz_step 8 (z2, n2)) as [z3 n3].
  destruct C as (C1 & C2 & C3 & C4); [lia|assumption|].
  pose proof (clz_step_ok 4 z3 n3 C1) as D. destruct (clz_step 4 (z3, n3)) as [z4 n4].
  destruct D as (D1 & D2 & D3 & D4); [lia|assumption|].
  rewrite clz_lookup_ok by exact D1. cbn [rbind]. f_equal.
  pose proof (size_le _ _ D1). pose proof (size_le _ _ Hn).
  rewrite wadd_small by lia. lia.
Qed.

(** ** Trailing zeros *)
Lemma lowest_bit w n : n <> 0 -> n < 2 ^ w -> N.land n (wadd w (wnot w n) 1) = 2 ^ ctz n.
Proof.
  intros Hz Hn.
  assert (E : wadd w (wnot w n) 1 = wnot w (n - 1)).
  { unfold wadd, wnot. rewrite (N.mod_small n), (N.mod_small (n - 1)) by lia. rewrite N.mod_small by lia. lia. }
  rewrite E. apply N.bits_inj. intros i. rewrite N.land_spec, N.pow2_bits_eqb.
  pose proof (land_pred_bits n i Hz) as H. rewrite N.land_spec in H.
  destruct (N.lt_ge_cases i w) as [Hi|Hi].
  - rewrite wnot_spec_low by assumption. pose proof (ctz_bit n Hz) as Hb.
    destruct (N.eqb_spec (ctz n) i) as [<-|Hne].
    + rewrite N.eqb_refl, Hb in H. rewrite Hb. cbn [andb negb] in *. rewrite H. reflexivity.
    + destruct (N.eqb_spec i (ctz n)); [congruence|].
      destruct (N.testbit n i), (N.testbit (n - 1) i); cbn in *; congruence.
  - rewrite wnot_spec_high by assumption. rewrite andb_false_r.
    pose proof (ctz_lt n w Hz Hn). destruct (N.eqb_spec (ctz n) i); [lia|reflexivity].
Qed.
Definition ctz64_steps (n : N) : N :=
  ctz_step n 0x5555555555555555 1
    (ctz_step n 0x3333333333333333 2
      (ctz_step n 0x0F0F0F0F0F0F0F0F 4
        (ctz_step n 0x00FF00FF00FF00FF 8
          (ctz_step n 0x0000FFFF0000FFFF 16
            (ctz_step n 0x00000000FFFFFFFF 32 63))))).
Lemma forall_below (P : N -> bool) m : forallb (fun k => P (N.of_nat k)) (seq 0 m) = true ->
  forall c, c < N.of_nat m -> P c = true.
Proof.
  intros H c Hc. rewrite forallb_forall in H. rewrite <- (N2Nat.id c). apply H, in_seq. lia.
Qed.
Lemma ctz64_slow_ok n : n <> 0 -> n < 2 ^ 64 -> ctz64_slow n = ctz n.
Proof.
  intros Hz Hn. unfold ctz64_slow. rewrite lowest_bit by assumption.
  pose proof (ctz_lt n 64 Hz Hn) as Hc. generalize dependent (ctz n). intros c Hc.
  pose proof (forall_below (fun c => ctz64_steps (2 ^ c) =? c) 64 eq_refl c Hc) as H.
  apply N.eqb_eq in H. exact H.
Qed.
Definition ctz32_steps (n : N) : N :=
  ctz_step n 0x55555555 1
    (ctz_step n 0x33333333 2
      (ctz_step n 0x0F0F0F0F 4
        (ctz_step n 0x00FF00FF 8
          (ctz_step n 0x0000FFFF 16 31)))).
Lemma ctz32_slow_ok n : n <> 0 -> n < 2 ^ 32 -> ctz32_slow n = ctz n.
Proof.
  intros Hz Hn. unfold ctz32_slow. rewrite lowest_bit by assumption.
  pose proof (ctz_lt n 32 Hz Hn) as Hc. generalize dependent (ctz n). intros c Hc.
  pose proof (forall_below (fun c => ctz32_steps (2 ^ c) =? c) 32 eq_refl c Hc) as H.
  apply N.eqb_eq in H. exact H.
Qed.

(** ** Bytes *)
Lemma le_bytes_len n x : length (le_bytes n x) = n.
Proof. revert x. induction n; intros; cbn; [reflexivity|]. rewrite IHn. reflexivity. Qed.
Lemma le_bytes_nth n j x : (j < n)%nat -> nth j (le_bytes n x) 0 = (x / 256 ^ N.of_nat j) mod 256.
Proof.
  revert j x. induction n as [|n IH]; intros j x Hj; [lia|]. destruct j as [|j]; cbn [le_bytes nth].
  - rewrite N.pow_0_r, N.div_1_r. reflexivity.
  - rewrite IH by lia. rewrite N.div_div by (try apply N.pow_nonzero; lia).
    rewrite Nat2N.inj_succ, N.pow_succ_r'. reflexivity.
Qed.
Lemma le_value_bytes n x : x < 256 ^ N.of_nat n -> le_value (le_bytes n x) = x.
Proof.
  revert x. induction n as [|n IH]; intros x Hx; cbn [le_bytes le_value].
  - rewrite N.pow_0_r in Hx. lia.
  - rewrite Nat2N.inj_succ, N.pow_succ_r' in Hx.
    rewrite IH by (apply N.div_lt_upper_bound; lia). pose proof (N.div_mod x 256). lia.
Qed.
Definition isbytes (l : list N) : Prop := Forall (fun b => b < 256) l.
Lemma le_bytes_isbytes n x : isbytes (le_bytes n x).
Proof.
  revert x. induction n; intros; cbn; constructor; [apply N.mod_lt; lia|]. apply IHn.
Qed.
Lemma le_bytes_value l : isbytes l -> le_bytes (length l) (le_value l) = l.
Proof.
  induction 1 as [|b l Hb Hl IH]; cbn [length le_bytes le_value]; [reflexivity|].
  replace (b + 256 * le_value l) with (b + le_value l * 256) by lia.
  rewrite N.mod_add, N.div_add by lia. rewrite N.mod_small, N.div_small by assumption.
  rewrite N.add_0_l, IH. reflexivity.
Qed.
Lemma le_value_lt l : isbytes l -> le_value l < 256 ^ N.of_nat (length l).
Proof.
  induction 1 as [|b l Hb Hl IH]; cbn [length le_value]; [rewrite N.pow_0_r; lia|].
  rewrite Nat2N.inj_succ, N.pow_succ_r'. lia.
Qed.
Lemma byte_bits x j i : i < 8 -> N.testbit ((x / 256 ^ j) mod 256) i = N.testbit x (i + 8 * j).
Proof.
  intros Hi. change 256 with (2 ^ 8) at 2. rewrite N.mod_pow2_bits_low by assumption.
  change 256 with (2 ^ 8). rewrite <- N.pow_mul_r. apply N.div_pow2_bits.
Qed.

Ltac ground_bits :=
  repeat match goal with
  | |- context [N.testbit (Npos ?m) ?i] =>
      let v := eval vm_compute in (N.testbit (Npos m) i) in change (N.testbit (Npos m) i) with v
  | |- context [N.leb ?a ?b] => let v := eval vm_compute in (N.leb a b) in change (N.leb a b) with v
  | |- context [N.ltb ?a ?b] => let v := eval vm_compute in (N.ltb a b) in change (N.ltb a b) with v
  | |- context [N.sub (Npos ?a) ?b] => let v := eval vm_compute in (N.sub (Npos a) b) in change (N.sub (Npos a) b) with v
  | |- context [N.sub 0 ?b] => let v := eval vm_compute in (N.sub 0 b) in change (N.sub 0 b) with v
  | |- context [N.add ?a ?b] => let v := eval vm_compute in (N.add a b) in change (N.add a b) with v
  end.
(** Bit p of the swapped word is bit [8 (n-1-p/8) + p mod 8] of the word. *)
Lemma upto (P : N -> Prop) m : (forall k, (k < m)%nat -> P (N.of_nat k)) -> forall c, c < N.of_nat m -> P c.
Proof. intros H c Hc. rewrite <- (N2Nat.id c). apply H. lia. Qed.
Lemma in_cases (P : nat -> Prop) m : Forall P (seq 0 m) -> forall k, (k < m)%nat -> P k.
Proof. intros H k Hk. rewrite Forall_forall in H. apply H, in_seq. lia. Qed.
Lemma gbswap_64_bits x p : p < 64 -> N.testbit (gbswap_64 x) p = N.testbit x (8 * (7 - p / 8) + p mod 8).
Proof.
  intros Hp. change 64 with (N.of_nat 64) in Hp. revert p Hp. apply upto. apply in_cases. cbn [seq].
  repeat constructor; unfold gbswap_64, wshr;
    rewrite !N.lor_spec, !wshl_spec, !N.shiftr_spec', !N.land_spec;
    match goal with |- _ = N.testbit x ?e => let v := eval vm_compute in e in change e with v end;
    match goal with |- context [N.of_nat ?k] => let v := eval vm_compute in (N.of_nat k) in change (N.of_nat k) with v end;
    ground_bits; rewrite ?andb_true_l, ?andb_true_r, ?andb_false_l, ?andb_false_r, ?orb_false_l, ?orb_false_r; reflexivity.
Qed.
Lemma gbswap_32_bits x p : p < 32 -> N.testbit (gbswap_32 x) p = N.testbit x (8 * (3 - p / 8) + p mod 8).
Proof.
  intros Hp. change 32 with (N.of_nat 32) in Hp. revert p Hp. apply upto. apply in_cases. cbn [seq].
  repeat constructor; unfold gbswap_32, wshr;
    rewrite !N.lor_spec, !wshl_spec, !N.shiftr_spec', !N.land_spec;
    match goal with |- _ = N.testbit x ?e => let v := eval vm_compute in e in change e with v end;
    match goal with |- context [N.of_nat ?k] => let v := eval vm_compute in (N.of_nat k) in change (N.of_nat k) with v end;
    ground_bits; rewrite ?andb_true_l, ?andb_true_r, ?andb_false_l, ?andb_false_r, ?orb_false_l, ?orb_false_r; reflexivity.
Qed.
Lemma gbswap_16_bits x p : p < 16 -> N.testbit (gbswap_16 x) p = N.testbit x (8 * (1 - p / 8) + p mod 8).
Proof.
  intros Hp. unfold gbswap_16, wmod. rewrite N.mod_pow2_bits_low by assumption.
  change 16 with (N.of_nat 16) in Hp. revert p Hp. apply upto. apply in_cases. cbn [seq].
  repeat constructor; unfold wshr;
    rewrite !N.lor_spec, !wshl_spec, !N.shiftr_spec', !N.land_spec;
    match goal with |- _ = N.testbit x ?e => let v := eval vm_compute in e in change e with v end;
    match goal with |- context [N.of_nat ?k] => let v := eval vm_compute in (N.of_nat k) in change (N.of_nat k) with v end;
    ground_bits; rewrite ?andb_true_l, ?andb_true_r, ?andb_false_l, ?andb_false_r, ?orb_false_l, ?orb_false_r; reflexivity.
Qed.
Lemma lor_lt a b w : a < 2 ^ w -> b < 2 ^ w -> N.lor a b < 2 ^ w.
Proof.
  intros. apply lt_pow2_testbit. intros i Hi. rewrite N.lor_spec, !(testbit_high _ w) by assumption. reflexivity.
Qed.
Lemma lxor_lt a b w : a < 2 ^ w -> b < 2 ^ w -> N.lxor a b < 2 ^ w.
Proof.
  intros. apply lt_pow2_testbit. intros i Hi. rewrite N.lxor_spec, !(testbit_high _ w) by assumption. reflexivity.
Qed.
Lemma land_lt a b w : b < 2 ^ w -> N.land a b < 2 ^ w.
Proof.
  intros. apply lt_pow2_testbit. intros i Hi. rewrite N.land_spec, (testbit_high b w) by assumption. apply andb_false_r.
Qed.
Lemma shiftr_lt a k w : a < 2 ^ w -> N.shiftr a k < 2 ^ w.
Proof.
  intros. apply lt_pow2_testbit. intros i Hi. rewrite N.shiftr_spec'. apply (testbit_high _ w); [assumption|lia].
Qed.
Lemma gbswap_lt w x : gbswap w x < 2 ^ wbits w.
Proof.
  destruct w; cbn [gbswap wbits].
  - apply N.mod_lt. discriminate.
  - unfold gbswap_32. repeat apply lor_lt; try apply wshl_lt; unfold wshr; apply shiftr_lt, land_lt; reflexivity.
  - unfold gbswap_64. repeat apply lor_lt; try apply wshl_lt; unfold wshr; apply shiftr_lt, land_lt; reflexivity.
Qed.
Lemma gbswap_bits w x p : p < wbits w ->
  N.testbit (gbswap w x) p = N.testbit x (8 * (N.of_nat (wbytes w) - 1 - p / 8) + p mod 8).
Proof.
  destruct w; intros; cbn [gbswap wbytes].
  - rewrite gbswap_16_bits by assumption. reflexivity.
  - rewrite gbswap_32_bits by assumption. reflexivity.
  - rewrite gbswap_64_bits by assumption. reflexivity.
Qed.
Lemma wbits_bytes w : wbits w = 8 * N.of_nat (wbytes w).
Proof. destruct w; reflexivity. Qed.
Lemma pow256 n : 256 ^ n = 2 ^ (8 * n).
Proof. change 256 with (2 ^ 8). symmetry. apply N.pow_mul_r. Qed.
Lemma gbswap_bytes w x : le_bytes (wbytes w) (gbswap w x) = rev (le_bytes (wbytes w) x).
Proof.
  apply (nth_ext _ _ 0 0); [rewrite rev_length, !le_bytes_len; reflexivity|].
  rewrite le_bytes_len. intros j Hj.
  rewrite rev_nth by (rewrite le_bytes_len; assumption). rewrite le_bytes_len, !le_bytes_nth by lia.
  apply N.bits_inj. intros i. destruct (N.lt_ge_cases i 8) as [Hi|Hi].
  - rewrite !byte_bits by assumption. rewrite gbswap_bits by (rewrite wbits_bytes; lia). f_equal.
    replace (i + 8 * N.of_nat j) with (i + N.of_nat j * 8) by lia.
    rewrite N.div_add, N.mod_add, N.div_small, N.mod_small by lia. lia.
  - change 256 with (2 ^ 8) at 2 4. rewrite !N.mod_pow2_bits_high by assumption. reflexivity.
Qed.
Lemma le_bytes_inj n x y : x < 256 ^ N.of_nat n -> y < 256 ^ N.of_nat n -> le_bytes n x = le_bytes n y -> x = y.
Proof.
  intros Hx Hy E. rewrite <- (le_value_bytes n x Hx), <- (le_value_bytes n y Hy), E. reflexivity.
Qed.

(** ** Injectivity *)
Lemma wmul_inj w m inv x y : (m * inv) mod 2 ^ w = 1 -> x < 2 ^ w -> y < 2 ^ w ->
  wmul w x m = wmul w y m -> x = y.
Proof.
  intros Hm Hx Hy H. unfold wmul in H.
  assert (Hp : 2 ^ w <> 0) by (apply N.pow_nonzero; lia).
  assert (K : forall a, a < 2 ^ w -> (((a * m) mod 2 ^ w) * inv) mod 2 ^ w = a).
  { intros a Ha. rewrite N.mul_mod_idemp_l by assumption. rewrite <- N.mul_assoc.
    rewrite <- N.mul_mod_idemp_r by assumption. rewrite Hm, N.mul_1_r. apply N.mod_small. assumption. }
  rewrite <- (K x Hx), <- (K y Hy), H. reflexivity.
Qed.
Lemma wadd_inj w c x y : x < 2 ^ w -> y < 2 ^ w -> wadd w x c = wadd w y c -> x = y.
Proof.
  intros Hx Hy H. unfold wadd in H. assert (Hp : 2 ^ w <> 0) by (apply N.pow_nonzero; lia).
  assert (K : forall a, a < 2 ^ w -> ((a + c) mod 2 ^ w + (2 ^ w - c mod 2 ^ w)) mod 2 ^ w = a).
  { intros a Ha. rewrite N.add_mod_idemp_l by assumption. rewrite <- N.add_assoc.
    pose proof (N.mod_lt c _ Hp). pose proof (N.div_mod c _ Hp) as D.
    replace (c + (2 ^ w - c mod 2 ^ w)) with ((c / 2 ^ w + 1) * 2 ^ w) by lia.
    rewrite N.mod_add by assumption. apply N.mod_small. assumption. }
  rewrite <- (K x Hx), <- (K y Hy), H. reflexivity.
Qed.
Lemma xorshift_inj w s x y : 0 < s -> x < 2 ^ w -> y < 2 ^ w ->
  N.lxor x (wshr x s) = N.lxor y (wshr y s) -> x = y.
Proof.
  intros Hs Hx Hy H. apply N.bits_inj. intros i.
  remember (N.to_nat (w - i)) as d eqn:Ed. revert i Ed.
  induction d as [d IH] using lt_wf_ind. intros i Ed.
  destruct (N.lt_ge_cases i w) as [Hi|Hi].
  - assert (E : N.testbit (N.lxor x (wshr x s)) i = N.testbit (N.lxor y (wshr y s)) i) by (rewrite H; reflexivity).
    unfold wshr in E. rewrite !N.lxor_spec, !N.shiftr_spec' in E.
    rewrite (IH (N.to_nat (w - (i + s))) ltac:(lia) (i + s) eq_refl) in E.
    destruct (N.testbit x i), (N.testbit y i), (N.testbit y (i + s)); cbn in E; congruence.
  - rewrite !(testbit_high _ w) by assumption. reflexivity.
Qed.
Lemma lxor_inj c x y : N.lxor x c = N.lxor y c -> x = y.
Proof.
  intros H. rewrite <- (N.lxor_0_r x), <- (N.lxor_0_r y), <- (N.lxor_nilpotent c), <- !N.lxor_assoc, H. reflexivity.
Qed.
Lemma rotl32_bits x r i : x < 2 ^ 32 -> 0 < r -> r < 32 -> i < 32 ->
  N.testbit (rotl32 x r) i = if r <=? i then N.testbit x (i - r) else N.testbit x (i + (32 - r)).
Proof.
  intros Hx Hr0 Hr Hi. unfold rotl32, wshr. rewrite N.lor_spec, wshl_spec, N.shiftr_spec'.
  destruct (N.ltb_spec i 32); [|lia]. cbn [andb]. destruct (N.leb_spec r i); cbn [andb]; [|reflexivity].
  rewrite (testbit_high x 32 (i + (32 - r))) by (assumption || lia). apply orb_false_r.
Qed.
Lemma rotl32_inj r x y : 0 < r -> r < 32 -> x < 2 ^ 32 -> y < 2 ^ 32 -> rotl32 x r = rotl32 y r -> x = y.
Proof.
  intros Hr0 Hr Hx Hy H. apply N.bits_inj. intros i. destruct (N.lt_ge_cases i 32) as [Hi|Hi].
  - destruct (N.lt_ge_cases i (32 - r)) as [Hc|Hc].
    + assert (E : N.testbit (rotl32 x r) (i + r) = N.testbit (rotl32 y r) (i + r)) by (rewrite H; reflexivity).
      rewrite !rotl32_bits in E by (assumption || lia). destruct (N.leb_spec r (i + r)); [|lia].
      replace (i + r - r) with i in E by lia. exact E.
    + assert (E : N.testbit (rotl32 x r) (i - (32 - r)) = N.testbit (rotl32 y r) (i - (32 - r))) by (rewrite H; reflexivity).
      rewrite !rotl32_bits in E by (assumption || lia). destruct (N.leb_spec r (i - (32 - r))); [lia|].
      replace (i - (32 - r) + (32 - r)) with i in E by lia. exact E.
  - rewrite !(testbit_high _ 32) by assumption. reflexivity.
Qed.
Lemma rotl32_lt x r : x < 2 ^ 32 -> rotl32 x r < 2 ^ 32.
Proof. intros. unfold rotl32, wshr. apply lor_lt; [apply wshl_lt|]. apply shiftr_lt. assumption. Qed.

Lemma shl_mul w a n : wshl w a n = (a * 2 ^ n) mod 2 ^ w.
Proof. unfold wshl. rewrite N.shiftl_mul_pow2. reflexivity. Qed.
Lemma mix_first a : a < 2 ^ 64 -> wadd 64 (wnot 64 a) (wshl 64 a 21) = wadd 64 (wmul 64 a (2 ^ 21 - 1)) (2 ^ 64 - 1).
Proof.
  intros Ha. unfold wadd, wmul, wnot. rewrite shl_mul, (N.mod_small a) by assumption.
  rewrite N.add_mod_idemp_r, N.add_mod_idemp_l by discriminate.
  replace (2 ^ 64 - 1 - a + a * 2 ^ 21) with (a * (2 ^ 21 - 1) + (2 ^ 64 - 1)); [reflexivity|].
  change (2 ^ 64) with 18446744073709551616 in *. change (2 ^ 21) with 2097152. lia.
Qed.
Lemma mix_mul3 a i j : wadd 64 (wadd 64 a (wshl 64 a i)) (wshl 64 a j) = wmul 64 a (1 + 2 ^ i + 2 ^ j).
Proof.
  unfold wadd, wmul. rewrite !shl_mul. rewrite N.add_mod_idemp_r by discriminate.
  rewrite N.add_mod_idemp_l by discriminate. rewrite (N.add_comm _ (a * 2 ^ j)), N.add_assoc.
  rewrite N.add_mod_idemp_r by discriminate. f_equal. lia.
Qed.
Lemma mix_mul2 a i : wadd 64 a (wshl 64 a i) = wmul 64 a (1 + 2 ^ i).
Proof. unfold wadd, wmul. rewrite shl_mul. rewrite N.add_mod_idemp_r by discriminate. f_equal. lia. Qed.
Lemma xorshift_lt w s x : x < 2 ^ w -> N.lxor x (wshr x s) < 2 ^ w.
Proof. intros. apply lxor_lt; [assumption|]. apply shiftr_lt. assumption. Qed.

Lemma phmap_mix8_inj x y : x < 2 ^ 64 -> y < 2 ^ 64 -> phmap_mix8 x = phmap_mix8 y -> x = y.
Proof.
  intros Hx Hy. unfold phmap_mix8. cbv zeta. rewrite !mix_first by assumption.
  rewrite !mix_mul3, !mix_mul2. intros H.
  apply (wmul_inj 64 _ 0x3fffffff80000001) in H; [|reflexivity|apply xorshift_lt, wmul_lt|apply xorshift_lt, wmul_lt].
  apply (xorshift_inj 64) in H; [|reflexivity|apply wmul_lt|apply wmul_lt].
  apply (wmul_inj 64 _ 0xcf3cf3cf3cf3cf3d) in H; [|reflexivity|apply xorshift_lt, wmul_lt|apply xorshift_lt, wmul_lt].
  apply (xorshift_inj 64) in H; [|reflexivity|apply wmul_lt|apply wmul_lt].
  apply (wmul_inj 64 _ 0xd38ff08b1c03dd39) in H; [|reflexivity|apply xorshift_lt, wadd_lt|apply xorshift_lt, wadd_lt].
  apply (xorshift_inj 64) in H; [|reflexivity|apply wadd_lt|apply wadd_lt].
  apply (wadd_inj 64) in H; [|apply wmul_lt|apply wmul_lt].
  apply (wmul_inj 64 _ 0x7ffffbffffdfffff) in H; [assumption|reflexivity|assumption|assumption].
Qed.

Lemma combiner8_lt h k : combiner8 h k < 2 ^ 64.
Proof. apply wadd_lt. Qed.
Lemma combiner4_lt h k : combiner4 h k < 2 ^ 32.
Proof. apply wadd_lt. Qed.
Lemma combiner_lt s h k : combiner s h k < 2 ^ sbits s.
Proof. destruct s; [apply combiner4_lt|apply combiner8_lt]. Qed.
Lemma combiner8_inj_h k h h' : h < 2 ^ 64 -> h' < 2 ^ 64 -> combiner8 h k = combiner8 h' k -> h = h'.
Proof.
  intros Hh Hh'. unfold combiner8. cbv zeta. change (wadd 64 (wshl 64 0xc6a4a793 32) 0x5bd1e995) with 0xc6a4a7935bd1e995.
  set (kk := wmul 64 (N.lxor (wmul 64 k _) _) _). assert (kk < 2 ^ 64) by apply wmul_lt. clearbody kk. intros H1.
  apply (wadd_inj 64) in H1; [|apply wmul_lt|apply wmul_lt].
  apply (wmul_inj 64 _ 0x5f7a0ea7e59b19bd) in H1; [|reflexivity|apply lxor_lt; assumption|apply lxor_lt; assumption].
  apply lxor_inj in H1. assumption.
Qed.
Lemma combiner8_inj_k h k k' : h < 2 ^ 64 -> k < 2 ^ 64 -> k' < 2 ^ 64 -> combiner8 h k = combiner8 h k' -> k = k'.
Proof.
  intros Hh Hk Hk'. unfold combiner8. cbv zeta. change (wadd 64 (wshl 64 0xc6a4a793 32) 0x5bd1e995) with 0xc6a4a7935bd1e995.
  intros H1.
  apply (wadd_inj 64) in H1; [|apply wmul_lt|apply wmul_lt].
  apply (wmul_inj 64 _ 0x5f7a0ea7e59b19bd) in H1; [|reflexivity| |]; [|apply lxor_lt; [assumption|apply wmul_lt]..].
  rewrite !(N.lxor_comm h) in H1. apply lxor_inj in H1.
  apply (wmul_inj 64 _ 0x5f7a0ea7e59b19bd) in H1; [|reflexivity|apply xorshift_lt, wmul_lt|apply xorshift_lt, wmul_lt].
  apply (xorshift_inj 64) in H1; [|reflexivity|apply wmul_lt|apply wmul_lt].
  apply (wmul_inj 64 _ 0x5f7a0ea7e59b19bd) in H1; [assumption|reflexivity|assumption|assumption].
Qed.
Lemma combiner4_inj_h k h h' : h < 2 ^ 32 -> h' < 2 ^ 32 -> combiner4 h k = combiner4 h' k -> h = h'.
Proof.
  intros Hh Hh'. unfold combiner4. cbv zeta.
  set (kk := wmul 32 (rotl32 (wmul 32 k _) _) _). assert (kk < 2 ^ 32) by apply wmul_lt. clearbody kk. intros H1.
  apply (wadd_inj 32) in H1; [|apply wmul_lt|apply wmul_lt].
  apply (wmul_inj 32 _ 0xcccccccd) in H1; [|reflexivity|apply rotl32_lt, lxor_lt; assumption|apply rotl32_lt, lxor_lt; assumption].
  apply rotl32_inj in H1; [|reflexivity|reflexivity|apply lxor_lt; assumption|apply lxor_lt; assumption].
  apply lxor_inj in H1. assumption.
Qed.
Lemma combiner4_inj_k h k k' : h < 2 ^ 32 -> k < 2 ^ 32 -> k' < 2 ^ 32 -> combiner4 h k = combiner4 h k' -> k = k'.
Proof.
  intros Hh Hk Hk'. unfold combiner4. cbv zeta. intros H1.
  apply (wadd_inj 32) in H1; [|apply wmul_lt|apply wmul_lt].
  apply (wmul_inj 32 _ 0xcccccccd) in H1; [|reflexivity| |]; [|apply rotl32_lt, lxor_lt; [assumption|apply wmul_lt]..].
  apply rotl32_inj in H1; [|reflexivity|reflexivity| |]; [|apply lxor_lt; [assumption|apply wmul_lt]..].
  rewrite !(N.lxor_comm h) in H1. apply lxor_inj in H1.
  apply (wmul_inj 32 _ 0x56ed309b) in H1; [|reflexivity|apply rotl32_lt, wmul_lt|apply rotl32_lt, wmul_lt].
  apply rotl32_inj in H1; [|reflexivity|reflexivity|apply wmul_lt|apply wmul_lt].
  apply (wmul_inj 32 _ 0xdee13bb1) in H1; [assumption|reflexivity|assumption|assumption].
Qed.
Lemma combiner_inj_h s k h h' : h < 2 ^ sbits s -> h' < 2 ^ sbits s -> combiner s h k = combiner s h' k -> h = h'.
Proof. destruct s; [apply combiner4_inj_h|apply combiner8_inj_h]. Qed.
Lemma combiner_inj_k s h k k' : h < 2 ^ sbits s -> k < 2 ^ sbits s -> k' < 2 ^ sbits s -> combiner s h k = combiner s h k' -> k = k'.
Proof. destruct s; [apply combiner4_inj_k|apply combiner8_inj_k]. Qed.
Lemma combine_lt s hs : forall seed, seed < 2 ^ sbits s -> combine s seed hs < 2 ^ sbits s.
Proof. induction hs as [|h hs IH]; intros; cbn [combine]; [assumption|]. apply IH, combiner_lt. Qed.
Lemma combine_inj s hs : forall a b, a < 2 ^ sbits s -> b < 2 ^ sbits s -> combine s a hs = combine s b hs -> a = b.
Proof.
  induction hs as [|h hs IH]; intros a b Ha Hb H; cbn [combine] in H; [assumption|].
  apply IH in H; [|apply combiner_lt|apply combiner_lt]. apply combiner_inj_h in H; assumption.
Qed.
Lemma combine_app s l1 l2 seed : combine s seed (l1 ++ l2) = combine s (combine s seed l1) l2.
Proof. revert seed. induction l1; intros; cbn [app combine]; [reflexivity|]. apply IHl1. Qed.
