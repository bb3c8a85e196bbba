(** Arithmetic of the probe sequence: triangular probing over a power-of-two table. *)
From stdpp Require Import list.
From Coq Require Import Arith NArith Lia.
From Coq Require Import ZifyBool ZifyNat ZifyN.
From Verif.Common Require Import Res Word WordFacts.
From Verif.Swiss Require Import Group Model.
Ltac Zify.zify_post_hook ::= Z.div_mod_to_equations.
Local Open Scope nat_scope.

Fixpoint tri (n : nat) : nat := match n with O => 0 | S m => tri m + S m end.

(** offset of the n-th probe, started at [o], in a table of [M] = capacity + 1 positions *)
Definition poff (W M o n : nat) : nat := (o + W * tri n) mod M.

Lemma pow2_pos k : 0 < 2 ^ k.
Proof. induction k; cbn; lia. Qed.

Lemma land_cap k cap x : S cap = 2 ^ k -> Nat.land x cap = x mod S cap.
Proof.
  intros H. assert (cap = Nat.ones k) as -> by (rewrite Nat.ones_equiv; lia).
  rewrite Nat.land_ones. rewrite Nat.ones_equiv, Nat.succ_pred; [reflexivity|]. pose proof (pow2_pos k). lia.
Qed.

Lemma tri2 n : 2 * tri n = n * (n + 1).
Proof. induction n as [|n IH]; [reflexivity|]. cbn [tri]. lia. Qed.

Lemma gcd_pow2_odd j x : Nat.gcd (2 ^ j) (2 * x + 1) = 1.
Proof.
  assert (Hodd : forall d y, Nat.divide d (2 ^ j) -> Nat.divide d (2 * y + 1) -> d = 1).
  { induction j as [|j IH]; intros d y Hd Hy.
    - apply Nat.divide_1_r. exact Hd.
    - assert (Hg : Nat.gcd d 2 = 1).
      { pose proof (Nat.gcd_divide_r d 2) as Hr. pose proof (Nat.gcd_divide_l d 2) as Hl.
        assert (Hle : Nat.gcd d 2 <= 2) by (apply Nat.divide_pos_le; [lia|assumption]).
        destruct (Nat.eq_dec (Nat.gcd d 2) 2) as [E|E].
        - rewrite E in Hl. pose proof (Nat.divide_trans _ _ _ Hl Hy) as [q Hq]. lia.
        - destruct (Nat.eq_dec (Nat.gcd d 2) 0) as [E0|E0]; [|lia].
          apply Nat.gcd_eq_0_r in E0. lia. }
      apply (IH d y); [|assumption]. cbn [Nat.pow] in Hd.
      replace (2 ^ j + (2 ^ j + 0)) with (2 * 2 ^ j) in Hd by lia.
      eapply Nat.gauss; eassumption. }
  apply (Hodd _ x); [apply Nat.gcd_divide_l|apply Nat.gcd_divide_r].
Qed.

Lemma tri_inj_aux j a b : a < b -> b < 2 ^ j -> tri a mod 2 ^ j = tri b mod 2 ^ j -> False.
Proof.
  intros Hab Hb He.
  assert (Hp := pow2_pos j).
  assert (Hdiv : Nat.divide (2 ^ S j) ((b - a) * (b + a + 1))).
  { assert (Hab2 : tri b >= tri a).
    { clear -Hab. induction Hab; cbn [tri]; lia. }
    assert (Hd : exists q, tri b = tri a + q * 2 ^ j).
    { exists (tri b / 2 ^ j - tri a / 2 ^ j).
      assert (tri a / 2 ^ j <= tri b / 2 ^ j) by (apply Nat.div_le_mono; lia).
      pose proof (Nat.div_mod (tri a) (2 ^ j) ltac:(lia)). pose proof (Nat.div_mod (tri b) (2 ^ j) ltac:(lia)).
      rewrite Nat.mul_sub_distr_r. nia. }
    destruct Hd as [q Hq]. exists q.
    pose proof (tri2 a). pose proof (tri2 b). cbn [Nat.pow].
    assert ((b - a) * (b + a + 1) = 2 * tri b - 2 * tri a) as -> by nia. nia. }
  assert (Hcase : Nat.divide (2 ^ S j) (b - a) \/ Nat.divide (2 ^ S j) (b + a + 1)).
  { destruct (Nat.Even_or_Odd (b - a)) as [[x Hx]|[x Hx]].
    - left. rewrite Nat.mul_comm in Hdiv. eapply Nat.gauss; [exact Hdiv|].
      replace (b + a + 1) with (2 * (a + x) + 1) by lia. apply gcd_pow2_odd.
    - right. eapply Nat.gauss; [exact Hdiv|]. rewrite Hx. apply gcd_pow2_odd. }
  cbn [Nat.pow] in Hcase.
  destruct Hcase as [Hd|Hd]; apply Nat.divide_pos_le in Hd; lia.
Qed.

Lemma tri_surj j r : r < 2 ^ j -> exists n, n < 2 ^ j /\ tri n mod 2 ^ j = r.
Proof.
  intros Hr. assert (Hp := pow2_pos j).
  set (l := map (fun n => tri n mod 2 ^ j) (seq 0 (2 ^ j))).
  assert (Hnd : List.NoDup l).
  { assert (G : forall s n, s + n <= 2 ^ j -> List.NoDup (map (fun n => tri n mod 2 ^ j) (seq s n))).
    { intros s n. revert s. induction n as [|n IH]; intros s Hs; cbn [seq map]; constructor.
      - intros Hin. apply in_map_iff in Hin. destruct Hin as (m & Hm & Hin). apply in_seq in Hin.
        eapply (tri_inj_aux j s m); [lia|lia|congruence].
      - apply IH. lia. }
    apply G. lia. }
  assert (Hincl : incl l (seq 0 (2 ^ j))).
  { intros x Hx. apply in_map_iff in Hx. destruct Hx as (m & <- & _). apply in_seq.
    pose proof (Nat.mod_upper_bound (tri m) (2 ^ j) ltac:(lia)). lia. }
  assert (Hincl2 : incl (seq 0 (2 ^ j)) l).
  { apply NoDup_length_incl; [assumption| |assumption]. unfold l. rewrite map_length. lia. }
  assert (Hin : In r l) by (apply Hincl2, in_seq; lia).
  apply in_map_iff in Hin. destruct Hin as (n & Hn & Hin). apply in_seq in Hin. exists n. split; [lia|assumption].
Qed.

(** The windows of the first M/W probes cover every position, each exactly once. *)
Lemma poff_lt W M o n : 0 < M -> poff W M o n < M.
Proof. intros. unfold poff. apply Nat.mod_upper_bound. lia. Qed.

Lemma poff_0 W M o : o < M -> poff W M o 0 = o.
Proof. intros. unfold poff. cbn. rewrite Nat.mul_0_r, Nat.add_0_r. apply Nat.mod_small. assumption. Qed.
Lemma poff_S W M o n : 0 < M -> poff W M o (S n) = (poff W M o n + (n * W + W)) mod M.
Proof.
  intros. unfold poff. cbn [tri]. rewrite Nat.add_mod_idemp_l by lia. f_equal. lia.
Qed.

Lemma probe_cover w k o r : w <= k -> o < 2 ^ k -> r < 2 ^ k ->
  exists n d, n < 2 ^ (k - w) /\ d < 2 ^ w /\ (poff (2 ^ w) (2 ^ k) o n + d) mod 2 ^ k = r.
Proof.
  intros Hw Ho Hr. set (P := 2 ^ (k - w)). set (W := 2 ^ w). set (M := 2 ^ k).
  assert (HM : M = W * P) by (unfold M, W, P; rewrite <- Nat.pow_add_r; f_equal; lia).
  assert (HW : 0 < W) by apply pow2_pos. assert (HP : 0 < P) by apply pow2_pos.
  assert (HMp : 0 < M) by apply pow2_pos.
  set (x := (r + M - o) mod M).
  assert (Hx : x < M) by (apply Nat.mod_upper_bound; lia).
  assert (Hxo : (o + x) mod M = r).
  { unfold x. rewrite Nat.add_mod_idemp_r by lia. replace (o + (r + M - o)) with (r + 1 * M) by lia.
    rewrite Nat.mod_add by lia. apply Nat.mod_small. assumption. }
  assert (Hq : x / W < P) by (apply Nat.div_lt_upper_bound; lia).
  destruct (tri_surj (k - w) (x / W) Hq) as (n & Hn & Ht). fold P in Hn, Ht.
  exists n, (x mod W). split; [assumption|]. split; [apply Nat.mod_upper_bound; lia|].
  unfold poff. fold W M. rewrite Nat.add_mod_idemp_l by lia.
  pose proof (Nat.div_mod (tri n) P ltac:(lia)) as Hd. rewrite Ht in Hd.
  pose proof (Nat.div_mod x W ltac:(lia)) as Hdx.
  rewrite <- Hxo.
  replace (o + W * tri n + x mod W) with (o + x + (tri n / P) * M).
  - rewrite Nat.mod_add by lia. reflexivity.
  - rewrite HM. nia.
Qed.

Lemma probe_unique w k o n1 d1 n2 d2 : w <= k -> o < 2 ^ k ->
  n1 < 2 ^ (k - w) -> n2 < 2 ^ (k - w) -> d1 < 2 ^ w -> d2 < 2 ^ w ->
  (poff (2 ^ w) (2 ^ k) o n1 + d1) mod 2 ^ k = (poff (2 ^ w) (2 ^ k) o n2 + d2) mod 2 ^ k ->
  n1 = n2 /\ d1 = d2.
Proof.
  intros Hw Ho Hn1 Hn2 Hd1 Hd2 He.
  set (P := 2 ^ (k - w)) in *. set (W := 2 ^ w) in *. set (M := 2 ^ k) in *.
  assert (HM : M = W * P) by (unfold M, W, P; rewrite <- Nat.pow_add_r; f_equal; lia).
  assert (HW : 0 < W) by apply pow2_pos. assert (HP : 0 < P) by apply pow2_pos.
  assert (HMp : 0 < M) by apply pow2_pos.
  unfold poff in He. rewrite !Nat.add_mod_idemp_l in He by lia.
  (* cancel o *)
  assert (He2 : (W * tri n1 + d1) mod M = (W * tri n2 + d2) mod M).
  { assert (G : forall y, (y mod M) = ((o + y) mod M + (M - o)) mod M).
    { intros y. rewrite Nat.add_mod_idemp_l by lia. replace (o + y + (M - o)) with (y + 1 * M) by lia.
      rewrite Nat.mod_add by lia. reflexivity. }
    rewrite (G (W * tri n1 + d1)), (G (W * tri n2 + d2)), !Nat.add_assoc, He. reflexivity. }
  assert (G : forall n d, d < W -> ((W * tri n + d) mod M) / W = tri n mod P /\ ((W * tri n + d) mod M) mod W = d).
  { intros n d Hd. rewrite HM, Nat.mod_mul_r by lia.
    rewrite (Nat.mul_comm W (tri n)), (Nat.add_comm _ d), Nat.mod_add, Nat.div_add by lia.
    rewrite (Nat.mod_small d), (Nat.div_small d) by lia. rewrite Nat.add_0_l.
    rewrite (Nat.mul_comm W), Nat.div_add, Nat.mod_add by lia. rewrite (Nat.div_small d), (Nat.mod_small d) by lia. split; [apply Nat.add_0_l|reflexivity]. }
  destruct (G n1 d1 Hd1) as [G1 G2]. destruct (G n2 d2 Hd2) as [G3 G4].
  rewrite He2 in G1, G2. split; [|congruence].
  assert (Ht : tri n1 mod P = tri n2 mod P) by congruence.
  destruct (Nat.lt_trichotomy n1 n2) as [Hl|[?|Hl]]; [|assumption|].
  - exfalso. eapply (tri_inj_aux (k - w) n1 n2); [assumption|assumption|exact Ht].
  - exfalso. eapply (tri_inj_aux (k - w) n2 n1); [assumption|assumption|symmetry; exact Ht].
Qed.

(** Masks *)
Lemma probe_start_lt h cap k : S cap = 2 ^ k -> probe_start h cap < S cap.
Proof.
  intros H. unfold probe_start.
  assert (Hc : N.of_nat cap = N.ones (N.of_nat k)).
  { rewrite N.ones_equiv. apply (f_equal N.of_nat) in H. rewrite Nat2N.inj_succ, Nat2N.inj_pow in H.
    change (N.of_nat 2) with 2%N in H. lia. }
  rewrite Hc, N.land_ones.
  apply (f_equal N.of_nat) in H. rewrite Nat2N.inj_pow in H. change (N.of_nat 2) with 2%N in H.
  pose proof (N.mod_lt (H1 h) (2 ^ N.of_nat k) ltac:(apply N.pow_nonzero; lia)). lia.
Qed.

Lemma sub_and_spec a b cap k : S cap = 2 ^ k -> k <= 64 -> (N.of_nat b < 2 ^ 64)%N -> 
  sub_and a b cap < S cap /\ (sub_and a b cap + b) mod S cap = a mod S cap.
Proof.
  intros H Hk Hb. unfold sub_and.
  assert (HM : N.of_nat (S cap) = (2 ^ N.of_nat k)%N).
  { rewrite H, Nat2N.inj_pow. reflexivity. }
  assert (Hc : N.of_nat cap = N.ones (N.of_nat k)).
  { rewrite N.ones_equiv. rewrite <- HM. lia. }
  rewrite Hc, N.land_ones, <- HM.
  assert (HMp : N.of_nat (S cap) <> 0%N) by lia.
  pose proof (N.mod_lt (wsub 64 (N.of_nat a) (N.of_nat b)) (N.of_nat (S cap)) HMp) as Hlt.
  split; [lia|].
  unfold wsub in *. rewrite (N.mod_small (N.of_nat b)) in * by assumption.
  assert (H64 : (2 ^ 64 = 2 ^ (64 - N.of_nat k) * N.of_nat (S cap))%N).
  { rewrite HM, <- N.pow_add_r. f_equal. lia. }
  set (X := (2 ^ 64)%N) in *. set (q := (2 ^ (64 - N.of_nat k))%N) in *.
  assert (Hq : (q <> 0)%N) by (unfold q; apply N.pow_nonzero; lia).
  set (M := N.of_nat (S cap)) in *. 
  assert (Hmm : ((N.of_nat a + X - N.of_nat b) mod X mod M = (N.of_nat a + X - N.of_nat b) mod M)%N).
  { generalize (N.of_nat a + X - N.of_nat b)%N as y. intros y. rewrite H64.
    rewrite (N.mul_comm q M). rewrite N.mod_mul_r by assumption.
    rewrite (N.mul_comm M (_ mod q)%N), N.mod_add by assumption. apply N.mod_mod. assumption. }
  rewrite Hmm. apply Nat2N.inj. rewrite !Nat2N.inj_mod, Nat2N.inj_add, N2Nat.id. fold M.
  rewrite N.add_mod_idemp_l by assumption.
  replace (N.of_nat a + X - N.of_nat b + N.of_nat b)%N with (N.of_nat a + q * M)%N by lia.
  apply N.mod_add. assumption.
Qed.
