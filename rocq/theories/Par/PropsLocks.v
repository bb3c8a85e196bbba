(** C17: the lock guards tell the truth and release what they own. *)
From stdpp Require Import list.
From Coq Require Import Arith Lia.
From Verif.Common Require Import Res.
From Verif.Par Require Import Locks.
Local Open Scope nat_scope.

(** Any program over any number of guards of the three kinds and any number of mutexes (default, blocking, adopting
    and deferred construction, moves, swaps, lock, unlock, try_lock, lock_shared, unlock_shared, switch_to_unique,
    destruction) and any outcomes of the tries, without the try_to_lock constructors: the thread holds exactly
    what the observers of its guards report, plus what it locked by itself. *)
Theorem C17_guards_report_ownership_partial : forall n os s,
  Forall no_try_ctor os -> grun (gstart n) os = Ok s ->
  gs_held s ≡ₚ all_reported (gs_guards s) ++ gs_raw s.
Proof. intros n os s Ho H. exact (proj2 (wf_run os _ _ (wf_start n) Ho H)). Qed.
Print Assumptions C17_guards_report_ownership_partial.

(** per guard: it owns its mutex iff owns_lock() (or owns_shared_lock()) says so, as long as the thread does not also
    lock mutexes by itself *)
Theorem C17_owns_iff_held_partial : forall n os s m,
  Forall no_try_ctor os -> grun (gstart n) os = Ok s -> gs_raw s = [] ->
  (exists d, In (m, d) (gs_held s)) <->
  (exists i g, gs_guards s !! i = Some (Some g) /\ g_m g = Some m /\ (owns_lock g = true \/ owns_shared_lock g = true)).
Proof.
  intros n os s m Ho H Hr. pose proof (wf_run os _ _ (wf_start n) Ho H) as [Hw Hp]. rewrite Hr, app_nil_r in Hp. split.
  - intros [d Hin]. rewrite Hp in Hin. unfold all_reported in Hin. apply in_flat_map in Hin. destruct Hin as (o & Ho' & Hin).
    destruct o as [g|]; [|destruct Hin]. apply elem_of_list_In, elem_of_list_lookup in Ho'. destruct Ho' as [i Hi].
    exists i, g. split; [assumption|]. destruct (Hw _ _ Hi) as [W1 _]. unfold reported in Hin.
    destruct (g_m g) as [m'|] eqn:Hm.
    + apply in_app_or in Hin. destruct Hin as [Hin|Hin].
      * destruct (owns_shared_lock g); [|destruct Hin]. destruct Hin as [E|[]]. injection E as -> _. auto.
      * destruct (owns_lock g); [|destruct Hin]. destruct Hin as [E|[]]. injection E as -> _. auto.
    + destruct (W1 eq_refl) as [E1 E2]. unfold owns_lock, owns_shared_lock in Hin. rewrite E1, E2 in Hin. destruct Hin.
  - intros (i & g & Hi & Hm & Ho'). assert (Hin : exists d, In (m, d) (reported g)).
    { unfold reported. rewrite Hm. destruct Ho' as [-> | ->].
      - exists (lock_mode (g_kind g)). apply in_or_app. right. left. reflexivity.
      - exists Shared. left. reflexivity. }
    destruct Hin as [d Hin]. exists d. rewrite Hp. apply in_flat_map. exists (Some g). split; [|assumption].
    apply elem_of_list_In, elem_of_list_lookup. eauto.
Qed.
Print Assumptions C17_owns_iff_held_partial.

(** A guard can always be unlocked, moved, swapped and destroyed: it never unlocks what it does not own. *)
Lemma destroy_ok s i g : wf s -> gs_guards s !! i = Some (Some g) -> exists s', gexec s (GDestroy i) = Ok s' /\
  gs_guards s' = <[i := None]> (gs_guards s) /\ gs_raw s' = gs_raw s.
Proof.
  intros [Hw Hp] Hi. cbn [gexec]. unfold get. rewrite Hi. cbn [rbind]. destruct (reported_focus _ _ _ Hi) as (rest & H1 & _).
  destruct (g_dtor_ok (gs_held s) g (Hw _ _ Hi) (rest ++ gs_raw s)) as (h' & Hd & _); [rewrite Hp, H1, app_assoc; reflexivity|].
  rewrite Hd. cbn. eauto.
Qed.
Theorem C17_release_is_safe_partial : forall n os s i g,
  Forall no_try_ctor os -> grun (gstart n) os = Ok s -> gs_guards s !! i = Some (Some g) ->
  (exists s', gexec s (GUnlock i) = Ok s') /\ (exists s', gexec s (GDestroy i) = Ok s') /\
  (forall j g', gs_guards s !! j = Some (Some g') -> g_kind g = g_kind g' ->
     (exists s', gexec s (GSwap i j) = Ok s') /\ (exists s', gexec s (GMoveAssign i j) = Ok s')).
Proof.
  intros n os s i g Ho H Hi. pose proof (wf_run os _ _ (wf_start n) Ho H) as Hwf. pose proof Hwf as [Hw Hp].
  destruct (reported_focus _ _ _ Hi) as (rest & H1 & H1').
  split; [|split].
  - cbn [gexec]. unfold get. rewrite Hi. cbn [rbind].
    destruct (g_unlock_ok (gs_held s) g (Hw _ _ Hi) (rest ++ gs_raw s)) as (h' & g' & Hd & _); [rewrite Hp, H1, app_assoc; reflexivity|].
    rewrite Hd. cbn. eauto.
  - destruct (destroy_ok _ _ _ Hwf Hi) as (s' & E & _). eauto.
  - intros j g' Hj Hk. split; cbn [gexec]; unfold get; rewrite Hi, Hj; cbn [rbind]; rewrite decide_True by assumption; [eauto|].
    cbn [g_move]. destruct (Nat.eq_dec j i) as [->|Hne].
    + rewrite list_lookup_insert by (eapply lookup_lt_Some; eassumption). cbn. eauto.
    + rewrite list_lookup_insert_ne, Hi by assumption.
      destruct (g_dtor_ok (gs_held s) g (Hw _ _ Hi) (rest ++ gs_raw s)) as (h' & Hd & _); [rewrite Hp, H1, app_assoc; reflexivity|].
      rewrite Hd. cbn. eauto.
Qed.
Print Assumptions C17_release_is_safe_partial.

(** When all guards are destroyed, the thread holds only what it locked by itself. *)
Fixpoint destroy_from (k : nat) (gs : list (option lguard)) : list gop :=
  match gs with
  | [] => []
  | Some _ :: gs' => GDestroy k :: destroy_from (S k) gs'
  | None :: gs' => destroy_from (S k) gs'
  end.
Lemma destroy_from_ok gs : forall k s, wf s -> drop k (gs_guards s) = gs -> Forall (fun o => o = None) (take k (gs_guards s)) ->
  exists s', grun s (destroy_from k gs) = Ok s' /\ wf s' /\ Forall (fun o => o = None) (gs_guards s') /\ gs_raw s' = gs_raw s.
Proof.
  induction gs as [|o gs IH]; intros k s Hwf Hd Ht.
  - exists s. split; [reflexivity|]. split; [assumption|]. split; [|reflexivity]. rewrite <- (take_drop k (gs_guards s)), Hd, app_nil_r. assumption.
  - assert (Hk : gs_guards s !! k = Some o).
    { rewrite <- (take_drop k (gs_guards s)), Hd. rewrite lookup_app_r by (rewrite take_length; lia).
      rewrite take_length. assert (k < length (gs_guards s)) by (apply (f_equal length) in Hd; rewrite drop_length in Hd; cbn in Hd; lia).
      replace (k - k `min` length (gs_guards s)) with 0 by lia. reflexivity. }
    assert (Hd' : drop (S k) (gs_guards s) = gs) by (replace (S k) with (k + 1) by lia; rewrite <- drop_drop, Hd; reflexivity).
    destruct o as [g|]; cbn [destroy_from].
    + destruct (destroy_ok s k g Hwf Hk) as (s1 & E & Hg & Hr). cbn [grun]. rewrite E. cbn [rbind].
      destruct (IH (S k) s1) as (s' & H1 & H2 & H3 & H4).
      * eapply wf_step; [exact Hwf| |exact E]. exact I.
      * rewrite Hg, drop_insert_gt by lia. assumption.
      * rewrite Hg. rewrite take_S_r with (x := None) by (apply list_lookup_insert; eapply lookup_lt_Some; eassumption).
        rewrite take_insert by lia. apply Forall_app. split; [assumption|]. constructor; [reflexivity|constructor].
      * exists s'. rewrite H4. auto.
    + destruct (IH (S k) s Hwf Hd') as (s' & H1 & H2 & H3 & H4); [|eauto].
      rewrite take_S_r with (x := None) by assumption. apply Forall_app. split; [assumption|]. constructor; [reflexivity|constructor].
Qed.
Theorem C17_destroying_releases_partial : forall n os s,
  Forall no_try_ctor os -> grun (gstart n) os = Ok s ->
  exists s', grun s (destroy_from 0 (gs_guards s)) = Ok s' /\ gs_held s' ≡ₚ gs_raw s.
Proof.
  intros n os s Ho H. pose proof (wf_run os _ _ (wf_start n) Ho H) as Hwf.
  destruct (destroy_from_ok (gs_guards s) 0 s Hwf) as (s' & E & [_ Hp] & Hn & Hr); [reflexivity|constructor|].
  exists s'. split; [exact E|]. rewrite Hp, Hr. assert (Hz : all_reported (gs_guards s') = []); [|rewrite Hz; reflexivity].
  clear Hp. induction Hn as [|o l -> _ IH]; [reflexivity|]. exact IH.
Qed.
Print Assumptions C17_destroying_releases_partial.

Example C17_example :
  exists s, grun (gstart 4)
    [GCtor 0 KWrite 7; GDefer 1 KRead 8; GTryLock 1 true; GCtor 2 KReadWrite 9; GSwitch 2; GMoveCtor 3 2; GUnlock 0; GRawLock 7 Excl;
     GDestroy 0; GAdopt 0 KWrite 7; GMoveAssign 2 3] = Ok s /\
    gs_held s ≡ₚ [(7, Excl); (8, Shared); (9, Excl)] /\ gs_raw s = [] /\ map (option_map owns_lock) (gs_guards s) = [Some true; Some true; Some true; Some false].
Proof.
  eexists. split; [vm_compute; reflexivity|]. split; [|split; reflexivity].
  cbn. apply perm_skip, perm_swap.
Qed.

(** The try_to_lock constructors of WriteLock and ReadLock drop the result of the try: the guard says it owns nothing,
    while the thread holds the mutex, and destroying the guard does not release it. *)
Theorem C17_try_to_lock_refuted : forall k, k = KWrite \/ k = KRead -> exists s s' g,
  grun (gstart 1) [GTryCtor 0 k 5 true] = Ok s /\ gs_guards s !! 0 = Some (Some g) /\
  owns_lock g = false /\ owns_shared_lock g = false /\ gs_held s = [(5, lock_mode k)] /\
  gexec s (GDestroy 0) = Ok s' /\ gs_held s' = [(5, lock_mode k)] /\ gs_guards s' = [None].
Proof. intros k [-> | ->]; do 3 eexists; (split; [reflexivity|]); (split; [reflexivity|]); repeat split. Qed.
Print Assumptions C17_try_to_lock_refuted.
(** ... and locking such a guard locks the mutex a second time *)
Theorem C17_try_to_lock_then_lock_refuted : grun (gstart 1) [GTryCtor 0 KWrite 5 true; GLock 0] = UB.
Proof. reflexivity. Qed.
Print Assumptions C17_try_to_lock_then_lock_refuted.
