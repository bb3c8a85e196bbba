(** Property theorems about callbacks that call parallel containers again (C80). *)
From stdpp Require Import list list_numbers.
From Coq Require Import Arith Lia.
From Verif.Common Require Import Res.
From Verif.Par Require Import Conc ConcMap Deadlock PropsDeadlock Nested.
Local Open Scope nat_scope.

(** C80.  Any number of containers with [num] submaps each, any number of threads, any calls with callbacks nested to
    any depth; std::mutex or std::shared_mutex, with or without writer preference.  If containers can be numbered by
    [rk] so that every call made in a callback only locks submaps of containers with a higher number than those whose
    callbacks it runs in, or later submaps of the same container ([nfine]), then no call locks a mutex its thread
    holds, some thread can always go on, and every state can be continued until all calls have returned. *)
Theorem C80_callbacks : forall (dc : disc) (pref : bool) (num : nat) (rk : nat -> nat) (progs : list (list ncall)) s,
  1 <= num -> Forall (Forall (nfine dc num rk [])) progs -> dreach pref (dstart (map (nprog dc num) progs)) s ->
  (forall i, dstep pref s i <> Some UB) /\
  (~ dfinished s -> exists i s', dstep pref s i = Some (Ok s')) /\
  exists s', dreach pref s s' /\ dfinished s'.
Proof.
  intros dc pref num rk progs s Hn Hp Hr. pose proof (nstart_ok dc num rk Hn progs Hp) as H0.
  destruct (deadlock_free pref (lrank num rk) _ s H0 Hr) as [H1 H2]. split; [assumption|]. split; [assumption|].
  apply (can_finish pref (lrank num rk)). eapply dreach_ok; eassumption.
Qed.
Print Assumptions C80_callbacks.

(** C80: when moreover no call uses std::lock (merge of different containers, == with std::mutex), every schedule
    is finite, and one that cannot be continued has returned from all calls. *)
Theorem C80_every_schedule_ends : forall (dc : disc) (pref : bool) (num : nat) (rk : nat -> nat) (progs : list (list ncall)),
  1 <= num -> Forall (Forall (nfine dc num rk [])) progs -> Forall (Forall (nplain dc)) progs ->
  Acc (fun s' s => exists i, dstep pref s i = Some (Ok s')) (dstart (map (nprog dc num) progs)) /\
  forall s, dreach pref (dstart (map (nprog dc num) progs)) s -> (forall i s', dstep pref s i <> Some (Ok s')) -> dfinished s.
Proof.
  intros dc pref num rk progs Hn Hf Hp. split.
  - apply plain_terminates. unfold dstart. rewrite map_map. apply Forall_forall. intros t Ht.
    apply elem_of_list_fmap in Ht. destruct Ht as (cs & -> & Hcs). rewrite Forall_forall in Hp. specialize (Hp cs Hcs). cbn [t_todo]. unfold nprog.
    clear Hcs. induction Hp as [|c cs Hc _ IH]; [reflexivity|]. cbn [flat_map]. rewrite forallb_app, (plain_nacts dc num c Hc), IH. reflexivity.
  - intros s Hr Hno. destruct (C80_callbacks dc pref num rk progs s Hn Hf Hr) as (_ & H & _).
    destruct (forallb (fun t => match t_todo t with [] => true | _ => false end) s) eqn:E.
    + apply Forall_forall. intros t Ht. rewrite forallb_forall in E. specialize (E t (proj1 (elem_of_list_In _ _) Ht)). destruct (t_todo t); [reflexivity|discriminate].
    + exfalso. destruct H as (i & s' & Hs); [|exact (Hno i s' Hs)]. intros Hfin. assert (forallb (fun t => match t_todo t with [] => true | _ => false end) s = true); [|congruence].
      apply forallb_forall. intros t Ht. unfold dfinished in Hfin. rewrite Forall_forall in Hfin. rewrite (Hfin t) by (apply elem_of_list_In; assumption). reflexivity.
Qed.
Print Assumptions C80_every_schedule_ends.

(** Not vacuous: two threads, three containers; the first moves entries of container 0 under its lock into containers 1 and
    2 (which are merged and swapped inside a callback; in the state shown that merge waits), the second walks container 1 and looks up container 2. *)
Definition moving : list (list ncall) :=
  [[HoldX 0 0 [Do (Merge 2 1); HoldErase 0 1 [Do (Swap 1 2)]; Do (KeyX 2 1)]; Do (Merge 1 2)];
   [EachS 1 (fun i => [HoldS 2 i [Do (KeyS 3 0)]]); EachX 0 (fun i => [Do (SweepX 3)])]].
Example C80_example : forall dc, Forall (Forall (nfine dc 2 (fun c => c) [])) moving /\
  exists s, dreach false (dstart (map (nprog dc 2) moving)) s /\ map (fun t => length (t_held t)) s = [1; 2] /\ dstep false s 0 = None.
Proof.
  intros dc. split.
  - unfold moving. repeat first [apply Forall_cons_2 | apply Forall_nil_2]; cbn [nfine call_fine touches]; unfold after; cbn [In];
      repeat match goal with
      | |- _ /\ _ => split
      | |- True => exact I
      | |- forall _, _ => intros
      | H : _ \/ _ |- _ => destruct H
      | H : _ /\ _ |- _ => destruct H
      | H : (_, _) = (_, _) |- _ => injection H as <- <-
      | H : False |- _ => destruct H
      end; subst; try lia.
  - destruct dc; eexists; (split; [apply (dsched_at _ _ [0; 1; 1]); vm_compute; reflexivity|]); split; vm_compute; reflexivity.
Qed.
Example C80_plain_example : forall dc,
  Forall (Forall (nplain dc)) [[HoldX 0 0 [HoldErase 0 1 [Do (Swap 1 2)]]]; [EachS 1 (fun i => [HoldS 2 i [Do (KeyS 3 0)]])]].
Proof. intros dc. repeat constructor. Qed.

(** Without the numbering C80 is false.  A callback that calls its own container with the same key (or one in the same
    submap) locks a mutex its thread holds; so do callbacks that only read. *)
Theorem C80_same_key_refuted : forall dc x, x ∈ [HoldX 0 3 [Do (KeyX 0 3)]; HoldX 0 3 [Do (KeyS 0 3)]; HoldS 0 3 [Do (KeyS 0 3)]; EachS 0 (fun i => [Do (KeyS 0 i)]); EachX 0 (fun i => [Do (SweepS 0)])] ->
  exists s, dreach false (dstart (map (nprog dc 4) [[x]])) s /\ dstep false s 0 = Some UB.
Proof.
  intros dc x Hx. repeat (apply elem_of_cons in Hx; destruct Hx as [->|Hx]); [..|inversion Hx];
    (destruct dc; eexists; (split; [apply (dsched_at _ _ [0]); vm_compute; reflexivity|]); vm_compute; reflexivity).
Qed.
Print Assumptions C80_same_key_refuted.
(** Two threads whose modify_if callbacks use the other's container, in opposite directions. *)
Theorem C80_two_containers_refuted : forall dc, exists s,
  dreach false (dstart (map (nprog dc 4) [[HoldX 0 0 [Do (KeyX 1 0)]]; [HoldX 1 0 [Do (KeyX 0 0)]]])) s /\ dead false s.
Proof. intros dc. destruct dc; eexists; (split; [apply (dsched_at _ _ [0; 1]); vm_compute; reflexivity|]); apply dead_dec; vm_compute; reflexivity. Qed.
Print Assumptions C80_two_containers_refuted.
(** Two threads, one container, two keys in different submaps: each callback looks up the other key. *)
Theorem C80_two_keys_refuted : forall dc, exists s,
  dreach false (dstart (map (nprog dc 4) [[HoldX 0 1 [Do (KeyS 0 2)]]; [HoldX 0 2 [Do (KeyS 0 1)]]])) s /\ dead false s.
Proof. intros dc. destruct dc; eexists; (split; [apply (dsched_at _ _ [0; 1]); vm_compute; reflexivity|]); apply dead_dec; vm_compute; reflexivity. Qed.
Print Assumptions C80_two_keys_refuted.
(** for_each on one container with a lookup of the same keys in another, in opposite directions, while others insert: read
    locks alone are not enough when the mutex prefers writers. *)
Theorem C80_readers_refuted : exists s,
  dreach true (dstart (map (nprog SharedMutex 2) [[EachS 0 (fun i => [Do (KeyS 1 i)])]; [EachS 1 (fun i => [Do (KeyS 0 i)])];
    [Do (KeyS 2 0); Do (KeyX 0 0)]; [Do (KeyS 2 0); Do (KeyX 1 0)]])) s /\ dead true s.
Proof. eexists. split; [apply (dsched_at _ _ [0; 1; 2; 3; 2; 3]); vm_compute; reflexivity|]. apply dead_dec; vm_compute; reflexivity. Qed.
Print Assumptions C80_readers_refuted.
