(** Property theorems C08 (group scans) and C09 (probe coverage). *)
From stdpp Require Import list.
From Coq Require Import NArith ZArith Lia.
From Verif.Common Require Import Res Word.
From Verif.Swiss Require Import Group GroupSpec GroupProof GroupPortableProof Model Probe Inv ProbeProof.
Local Open Scope nat_scope.

(** C08: on every window of control bytes, the SSE2 (and SSSE3) scans compute what the
    mask-free specification [GroupOK] says. *)
Theorem C08_sse2_group_scans : forall ssse3 : bool, GroupOK (group_sse2 ssse3).
Proof. exact sse2_ok. Qed.
Print Assumptions C08_sse2_group_scans.

(** C08: the portable 64-bit scans satisfy the same specification. *)
Theorem C08_portable_group_scans : GroupOK group_portable.
Proof. exact portable_ok. Qed.
Print Assumptions C08_portable_group_scans.

(** A window mixing every kind of byte, at the widths of both implementations. *)
Example C08_window16 : let l := [5; -128; -2; 4; 5; -1; 0; 127; 5; -128; -2; 4; 5; -1; 0; 127]%Z in
  length l = g_width (group_sse2 true) /\ Forall valid_ctrl l /\
  g_match (group_sse2 true) l 5 = [0; 4; 8; 12]%nat /\ g_first_nonfull (group_sse2 true) l = Some 1%nat.
Proof. cbv zeta. split; [reflexivity|]. split; [|vm_compute; split; reflexivity].
  repeat (apply Forall_cons_2; [unfold valid_ctrl; lia|]). apply Forall_nil_2. Qed.
(** The portable match may report extra full slots (here 4 follows 5), never an empty one. *)
Example C08_window8 : let l := [5; 4; -128; -2; -1; 0; 127; 5]%Z in
  length l = g_width group_portable /\ Forall valid_ctrl l /\
  g_match group_portable l 5 = [0; 1; 7]%nat /\ g_first_nonfull group_portable l = Some 2%nat.
Proof. cbv zeta. split; [reflexivity|]. split; [|vm_compute; split; reflexivity].
  repeat (apply Forall_cons_2; [unfold valid_ctrl; lia|]). apply Forall_nil_2. Qed.

(** C09: for every capacity 2^k-1 at least one group wide and every hash, every position of the table
    (the sentinel position included) is inspected by exactly one of the first (capacity+1)/width
    probes, at exactly one place in the group. *)
Theorem C09_probe_covers_once : forall (E : env) (cap : nat) (h : N) (k r : nat),
  GroupOK (e_group E) -> 1 <= k <= 63 -> S cap = 2 ^ k -> g_width (e_group E) <= S cap -> r < S cap ->
  exists! nd : nat * nat,
    fst nd < S cap / g_width (e_group E) /\ snd nd < g_width (e_group E) /\
    probe_at cap (probe_group E cap h (fst nd)) (snd nd) = r.
Proof. exact probe_partition. Qed.
Print Assumptions C09_probe_covers_once.

Example C09_example : let E := Build_env group_portable 1000 8 3 0%Z in
  GroupOK (e_group E) /\ S 31 = 2 ^ 5 /\ g_width (e_group E) <= S 31 /\
  map (probe_group E 31 (7 * 128)%N) [0; 1; 2; 3] = [7; 15; 31; 23].
Proof. cbv zeta. split; [apply portable_ok|]. split; [reflexivity|]. split; [cbn; lia|vm_compute; reflexivity]. Qed.
