(** Probe coverage in terms of the model's probe_start / probe_next. *)
From stdpp Require Import list.
From Coq Require Import Arith NArith ZArith Lia.
From Verif.Common Require Import Res Word.
From Verif.Swiss Require Import Group GroupSpec Model Probe Inv.
Local Open Scope nat_scope.

(** State (offset, index) of the probe sequence after [n] calls of next(), and the offset of the group
    inspected by the [n]-th probe for hash [h]. *)
Fixpoint probe_state (E : env) (cap : nat) (h : N) (n : nat) : nat * nat :=
  match n with
  | O => (probe_start h cap, 0)
  | S m => let '(off, idx) := probe_state E cap h m in probe_next E cap off idx
  end.
Definition probe_group (E : env) (cap : nat) (h : N) (n : nat) : nat := fst (probe_state E cap h n).

Lemma probe_iter (E : env) cap h n : (exists k, 1 <= k <= 63 /\ S cap = 2 ^ k) ->
  probe_state E cap h n = (poffh E cap h n, n * g_width (e_group E)).
Proof.
  intros Hc. induction n as [|n IH]; cbn [probe_state].
  - rewrite (poffh_0 E) by assumption. reflexivity.
  - rewrite IH. apply probe_next_off. assumption.
Qed.

Lemma probe_partition (E : env) cap h k r : GroupOK (e_group E) -> 1 <= k <= 63 -> S cap = 2 ^ k ->
  g_width (e_group E) <= S cap -> r < S cap ->
  exists! nd : nat * nat, 
    fst nd < S cap / g_width (e_group E) /\ snd nd < g_width (e_group E) /\
    probe_at cap (probe_group E cap h (fst nd)) (snd nd) = r.
Proof.
  intros HG Hk HM HWM Hr. destruct (W_pow E HG) as (w & HW & Hw).
  assert (Hwk : w <= k).
  { destruct (Nat.le_gt_cases w k); [assumption|].
    assert (2 ^ k < 2 ^ w) by (apply Nat.pow_lt_mono_r; lia). lia. }
  assert (Hcap : exists k, 1 <= k <= 63 /\ S cap = 2 ^ k) by eauto.
  assert (HP : S cap / g_width (e_group E) = 2 ^ (k - w)).
  { rewrite HM, HW. symmetry. apply Nat.pow_sub_r; lia. }
  assert (Hpg : forall n d, probe_at cap (probe_group E cap h n) d = (poff (2 ^ w) (2 ^ k) (probe_start h cap) n + d) mod 2 ^ k).
  { intros n d. unfold probe_group. rewrite probe_iter by assumption. cbn [fst].
    rewrite probe_at_mod by assumption. unfold poffh. rewrite HW, HM. reflexivity. }
  pose proof (probe_start_lt h cap k HM) as Hs.
  rewrite HP. destruct (probe_cover w k (probe_start h cap) r Hwk) as (n & d & Hn & Hd & He); [lia|lia|].
  exists (n, d). cbn [fst snd]. split.
  - rewrite Hpg, HW. auto.
  - intros [n' d']. cbn [fst snd]. rewrite Hpg, HW. intros (Hn' & Hd' & He').
    destruct (probe_unique w k (probe_start h cap) n d n' d') as [-> ->]; [assumption|lia|assumption..|congruence|reflexivity].
Qed.
