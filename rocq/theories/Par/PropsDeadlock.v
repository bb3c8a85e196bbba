(** Property theorems about deadlocks between calls on parallel containers (C16). *)
From stdpp Require Import list list_numbers.
From Coq Require Import Arith Lia.
From Verif.Common Require Import Res.
From Verif.Par Require Import Conc ConcMap Deadlock.
Local Open Scope nat_scope.

(** C16.  Any number of containers with [num] submaps each, any number of threads with any calls; std::mutex or
    std::shared_mutex, with or without writer preference.  If some numbering [rk] of the containers goes up in
    every swap(a, b), and also in every a == b with std::shared_mutex (with std::mutex, a <> b is enough), then
    no call locks a mutex its thread already holds, some thread can always go on, and every state can be continued until all calls have
    returned.  merge and == with std::mutex use std::lock, modelled with its retries.
    Missing: swap and shared == without such a numbering, and self-comparison; these are refuted below. *)
Theorem C16_no_deadlock_partial : forall (dc : disc) (pref : bool) (num : nat) (rk : nat -> nat) (progs : list (list call)) s,
  1 <= num -> Forall (Forall (call_fine dc num rk)) progs -> dreach pref (dstart (map (prog dc num) progs)) s ->
  (forall i, dstep pref s i <> Some UB) /\
  (~ dfinished s -> exists i s', dstep pref s i = Some (Ok s')) /\
  exists s', dreach pref s s' /\ dfinished s'.
Proof.
  intros dc pref num rk progs s Hn Hp Hr. pose proof (start_ok dc num rk Hn progs Hp) as H0.
  destruct (deadlock_free pref (mrank num rk) _ s H0 Hr) as [H1 H2]. split; [assumption|]. split; [assumption|].
  apply (can_finish pref (mrank num rk)). eapply dreach_ok; eassumption.
Qed.
Print Assumptions C16_no_deadlock_partial.

(** C16: calls that take one lock at a time, and merge of different containers in both directions, need no numbering. *)
Definition no_nesting (dc : disc) (num : nat) (c : call) : Prop :=
  match c with
  | KeyX _ i | KeyS _ i | KeyErase _ i _ => i < num
  | SweepX _ | SweepS _ | Merge _ _ => True
  | Swap _ _ => False
  | Eq a b _ => dc = Mutex /\ a <> b
  end.
Theorem C16_merge_and_single_locks : forall (dc : disc) (pref : bool) (num : nat) (progs : list (list call)) s,
  1 <= num -> Forall (Forall (no_nesting dc num)) progs -> dreach pref (dstart (map (prog dc num) progs)) s ->
  (forall i, dstep pref s i <> Some UB) /\
  (~ dfinished s -> exists i s', dstep pref s i = Some (Ok s')) /\
  exists s', dreach pref s s' /\ dfinished s'.
Proof.
  intros dc pref num progs s Hn Hp Hr. apply (C16_no_deadlock_partial dc pref num (fun _ => 0) progs); [assumption| |assumption].
  eapply Forall_impl; [exact Hp|]. intros cs Hcs. eapply Forall_impl; [exact Hcs|]. intros [| | | | | | |a b n]; cbn; try tauto.
  intros [-> Hne]. assumption.
Qed.
Print Assumptions C16_merge_and_single_locks.

(** Threads that do not use std::lock finish whatever the schedule. *)
Theorem C16_every_schedule_ends : forall (dc : disc) (pref : bool) (num : nat) (progs : list (list call)),
  Forall (Forall (fun c => match c, dc with Merge a b, _ => a = b | Eq _ _ _, Mutex => False | _, _ => True end)) progs ->
  Acc (fun s' s => exists i, dstep pref s i = Some (Ok s')) (dstart (map (prog dc num) progs)).
Proof.
  intros dc pref num progs Hp. apply plain_terminates. unfold dstart. rewrite map_map. apply Forall_forall. intros t Ht.
  apply elem_of_list_fmap in Ht. destruct Ht as (cs & -> & Hcs). rewrite Forall_forall in Hp. specialize (Hp cs Hcs). cbn [t_todo]. unfold prog.
  assert (Heach : forall n f, (forall i, forallb plain (f i) = true) -> forallb plain (each n f) = true).
  { intros n f Hf. unfold each. generalize 0. induction n as [|n IH]; intros j; [reflexivity|]. cbn. rewrite forallb_app, Hf, IH. reflexivity. }
  clear Hcs. induction Hp as [|c cs Hc _ IH]; [reflexivity|]. cbn. rewrite forallb_app, IH, andb_true_r. clear IH.
  destruct c as [c i|c i|c i found|c|c|a b|a b|a b n]; cbn [acts].
  - reflexivity.
  - reflexivity.
  - destruct dc; [reflexivity|]. destruct found; reflexivity.
  - apply Heach. reflexivity.
  - apply Heach. reflexivity.
  - subst. rewrite Nat.eqb_refl. reflexivity.
  - apply Heach. reflexivity.
  - destruct dc; [destruct Hc|]. apply Heach. reflexivity.
Qed.
Print Assumptions C16_every_schedule_ends.

(** schedules *)
Fixpoint dsched (pref : bool) (s : sys) (l : list nat) : option sys :=
  match l with
  | [] => Some s
  | i :: l' => match dstep pref s i with Some (Ok s') => dsched pref s' l' | _ => None end
  end.
Lemma dsched_reach pref s0 l : forall s s', dreach pref s0 s -> dsched pref s l = Some s' -> dreach pref s0 s'.
Proof.
  induction l as [|i l IH]; intros s s' Hr H; cbn in H; [injection H as <-; assumption|].
  destruct (dstep pref s i) as [[s1| | | |]|] eqn:E; try discriminate. eapply IH; [|exact H]. econstructor; eassumption.
Qed.
Lemma dsched_at pref s0 l s' : dsched pref s0 l = Some s' -> dreach pref s0 s'.
Proof. apply dsched_reach. constructor. Qed.

(** C16 is not vacuous: three threads merging, comparing and swapping three containers; the state shown is one
    where a merge waits and a retry happened. *)
Example C16_example : Forall (Forall (call_fine Mutex 2 (fun c => c))) [[Merge 0 1; KeyX 2 1]; [Merge 1 0; Eq 1 0 2]; [Swap 0 1; SweepX 2]] /\
  exists s, dreach false (dstart (map (prog Mutex 2) [[Merge 0 1; KeyX 2 1]; [Merge 1 0; Eq 1 0 2]; [Swap 0 1; SweepX 2]])) s /\
    map t_held s = [[(0, Excl)]; []; []].
Proof.
  split; [repeat (constructor; cbn; try lia)|]. eexists. split; [apply (dsched_at _ _ [0; 1; 1]); vm_compute; reflexivity|]. reflexivity.
Qed.

(** C16 is false of swap: a.swap(b) in one thread and b.swap(a) in another, each holding its first lock. *)
Definition dead (pref : bool) (s : sys) : Prop := ~ dfinished s /\ forall i, dstep pref s i = None.
Lemma dead_dec pref s : existsb (fun t => match t_todo t with [] => false | _ => true end) s = true ->
  forallb (fun i => match dstep pref s i with None => true | _ => false end) (seq 0 (length s)) = true -> dead pref s.
Proof.
  intros H1 H2. split.
  - intros Hf. unfold dfinished in Hf. rewrite Forall_forall in Hf. apply existsb_exists in H1. destruct H1 as (t & Ht & Hn).
    rewrite (Hf t) in Hn; [discriminate|]. apply elem_of_list_In. assumption.
  - intros i. rewrite forallb_forall in H2. destruct (decide (i < length s)) as [Hi|Hi].
    + specialize (H2 i). rewrite in_seq in H2. specialize (H2 ltac:(lia)). destruct (dstep pref s i); [discriminate|reflexivity].
    + unfold dstep. rewrite (proj2 (lookup_ge_None s i)) by lia. reflexivity.
Qed.
Theorem C16_swap_deadlock_refuted : forall dc, exists s, dreach false (dstart (map (prog dc 4) [[Swap 0 1]; [Swap 1 0]])) s /\ dead false s.
Proof.
  intros dc. eexists. split; [apply (dsched_at _ _ [0; 1]); destruct dc; vm_compute; reflexivity|]. apply dead_dec; destruct dc; vm_compute; reflexivity.
Qed.
Print Assumptions C16_swap_deadlock_refuted.
(** a.swap(a) locks a mutex its thread holds. *)
Theorem C16_self_swap_refuted : forall dc, exists s, dreach false (dstart (map (prog dc 4) [[Swap 0 0]])) s /\ dstep false s 0 = Some UB.
Proof. intros dc. eexists. split; [apply (dsched_at _ _ [0]); destruct dc; vm_compute; reflexivity|]. destruct dc; vm_compute; reflexivity. Qed.
Print Assumptions C16_self_swap_refuted.
(** So does a == a, with either kind of mutex (the code has no shortcut for it). *)
Theorem C16_self_comparison_refuted : forall dc, exists s, dreach false (dstart (map (prog dc 4) [[Eq 0 0 4]])) s /\ dstep false s 0 = Some UB.
Proof. intros dc; destruct dc; eexists; (split; [apply (dsched_at _ _ [0]); vm_compute; reflexivity|]); vm_compute; reflexivity. Qed.
Print Assumptions C16_self_comparison_refuted.
(** a == b and b == a with std::shared_mutex, while two other threads insert: the comparisons hold one shared lock
    each and wait behind the writers when the mutex prefers writers. *)
Theorem C16_shared_comparison_deadlock_refuted : exists s,
  dreach true (dstart (map (prog SharedMutex 4) [[Eq 0 1 4]; [Eq 1 0 4]; [KeyS 2 0; KeyX 0 0]; [KeyS 2 0; KeyX 1 0]])) s /\ dead true s.
Proof.
  eexists. split; [apply (dsched_at _ _ [0; 1; 2; 3; 2; 3]); vm_compute; reflexivity|]. apply dead_dec; vm_compute; reflexivity.
Qed.
Print Assumptions C16_shared_comparison_deadlock_refuted.
