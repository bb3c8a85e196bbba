(** The locks taken by the member functions of parallel containers (include/gtl/phmap.hpp), and when threads that
    call them can always go on (C16).  Only locking is modelled here; what is done under the locks is in Conc. *)
From stdpp Require Import list list_numbers.
From Coq Require Import Arith Lia.
From Verif.Common Require Import Res.
From Verif.Par Require Import Conc ConcMap.
Local Open Scope nat_scope.

(** ** Locking steps of a thread *)
Inductive act :=
| Lock (m : nat) (d : mode)      (* lock() / lock_shared() *)
| Unlock (m : nat) (d : mode)
| Lock2 (a b : nat)              (* std::lock(a, b): blocks on a, then *)
| Try2 (a b : nat).              (* tries b; if it is taken, releases a and starts again with b *)
Notation held := (list (nat * mode)).
Record thr := mkThr { t_held : held; t_todo : list act }.
Notation sys := (list thr).

Definition conflict (d d' : mode) : bool := match d, d' with Shared, Shared => false | _, _ => true end.
Definition holds (m : nat) (h : held) : bool := existsb (fun x => m =? fst x) h.
Definition blocks (m : nat) (d : mode) (h : held) : bool := existsb (fun x => (m =? fst x) && conflict d (snd x)) h.
Definition waits_excl (m : nat) (t : thr) : bool :=
  match t_todo t with Lock m' Excl :: _ => m =? m' | Lock2 m' _ :: _ => m =? m' | _ => false end.
(** [pref]: shared locking waits for threads that wait for exclusive locking *)
Definition free (pref : bool) (s : sys) (m : nat) (d : mode) : bool :=
  negb (existsb (fun t => blocks m d (t_held t)) s) &&
  match d with Excl => true | Shared => negb (pref && existsb (waits_excl m) s) end.
Fixpoint drop_held (m : nat) (d : mode) (h : held) : held :=
  match h with [] => [] | x :: h' => if bool_decide (x = (m, d)) then h' else x :: drop_held m d h' end.

(** one step of thread i; [None]: finished or waiting; [UB]: locks a mutex it holds, unlocks one it does not hold *)
Definition dstep (pref : bool) (s : sys) (i : nat) : option (res sys) :=
  match s !! i with
  | None => None
  | Some t =>
    let h := t_held t in
    match t_todo t with
    | [] => None
    | Lock m d :: k =>
        if holds m h then Some UB
        else if free pref s m d then Some (Ok (<[i := mkThr ((m, d) :: h) k]> s)) else None
    | Unlock m d :: k =>
        if bool_decide ((m, d) ∈ h) then Some (Ok (<[i := mkThr (drop_held m d h) k]> s)) else Some UB
    | Lock2 a b :: k =>
        if holds a h then Some UB
        else if free pref s a Excl then Some (Ok (<[i := mkThr ((a, Excl) :: h) (Try2 a b :: k)]> s)) else None
    | Try2 a b :: k =>
        if holds b h then Some UB
        else if free pref s b Excl then Some (Ok (<[i := mkThr ((b, Excl) :: h) k]> s))
        else Some (Ok (<[i := mkThr (drop_held a Excl h) (Lock2 b a :: k)]> s))
    end
  end.
Inductive dreach (pref : bool) (s0 : sys) : sys -> Prop :=
| dreach_start : dreach pref s0 s0
| dreach_step s i s' : dreach pref s0 s -> dstep pref s i = Some (Ok s') -> dreach pref s0 s'.
Definition dfinished (s : sys) : Prop := Forall (fun t => t_todo t = []) s.
Definition dstart (progs : list (list act)) : sys := map (mkThr []) progs.

(** ** The member functions.  Containers are numbered, each has [num] submaps *)
Inductive call :=
| KeyX (c i : nat)             (* insert.., modify_if, lazy_emplace_l, try_emplace_l, insert_or_assign, with_submap_m (UniqueLock of submap i) *)
| KeyS (c i : nat)             (* find, contains, count, if_contains, with_submap (SharedLock) *)
| KeyErase (c i : nat) (found : bool)   (* erase, erase_if (ReadWriteLock; unique only if found under the shared lock) *)
| SweepX (c : nat)             (* clear, rehash, reserve, for_each_m *)
| SweepS (c : nat)             (* for_each, bucket_count, load_factor *)
| Merge (a b : nat)            (* a.merge(b) *)
| Swap (a b : nat)             (* a.swap(b) *)
| Eq (a b n : nat).            (* a == b, deciding after n submaps *)

Section Calls.
Context (dc : disc) (num : nat).
Definition mx (c i : nat) : nat := c * num + i.
Definition sm : mode := smode dc.
Definition each (n : nat) (f : nat -> list act) : list act := flat_map f (seq 0 n).
Definition acts (c : call) : list act :=
  match c with
  | KeyX c i => [Lock (mx c i) Excl; Unlock (mx c i) Excl]      (* e.g. 3673, 3747, 3801, 3945, 4031, 4623, 4677, 4695 *)
  | KeyS c i => [Lock (mx c i) sm; Unlock (mx c i) sm]          (* 3864, 4023, 4178, 4197, 4230 *)
  | KeyErase c i found =>                                         (* 3914-3934 *)
      match dc with
      | Mutex => [Lock (mx c i) Excl; Unlock (mx c i) Excl]
      | SharedMutex =>
          [Lock (mx c i) Shared; Unlock (mx c i) Shared] ++
          if found then [Lock (mx c i) Excl; Unlock (mx c i) Excl] else []
      end
  | SweepX c => each num (fun i => [Lock (mx c i) Excl; Unlock (mx c i) Excl])   (* 3578, 3589, 3991, 4008, 4143 *)
  | SweepS c => each num (fun i => [Lock (mx c i) sm; Unlock (mx c i) sm])       (* 3982, 4000, 4253 *)
  | Merge a b =>                                                  (* 4101-4109: UniqueLocks, 463-489 *)
      if a =? b then [] else each num (fun i => [Lock2 (mx a i) (mx b i); Unlock (mx a i) Excl; Unlock (mx b i) Excl])
  | Swap a b =>                                                   (* 4127-4138: l2 is destroyed first *)
      each num (fun i => [Lock (mx a i) Excl; Lock (mx b i) Excl; Unlock (mx b i) Excl; Unlock (mx a i) Excl])
  | Eq a b n =>                                                   (* 4275-4277, 3247-3251 *)
      each (n `min` num) (fun i =>
        match dc with
        | Mutex => [Lock2 (mx a i) (mx b i); Unlock (mx a i) Excl; Unlock (mx b i) Excl]            (* WriteLocks 463-489 *)
        | SharedMutex => [Lock (mx a i) Shared; Lock (mx b i) Shared; Unlock (mx a i) Shared; Unlock (mx b i) Shared]   (* ReadLocks 492-517 *)
        end)
  end.
Definition prog (cs : list call) : list act := flat_map acts cs.
End Calls.

(** ** No deadlock when nested locks are taken in increasing rank *)
Section NoDeadlock.
Context (pref : bool) (rank : nat -> nat).

(** what is left to do, given what is held *)
Fixpoint wf (h : held) (l : list act) : Prop :=
  match l with
  | [] => h = []
  | Lock m d :: k => (forall x, In x h -> rank (fst x) < rank m) /\ wf ((m, d) :: h) k
  | Unlock m d :: k => In (m, d) h /\ wf (drop_held m d h) k
  | Lock2 a b :: k => (forall x, In x h -> rank (fst x) < rank a /\ rank (fst x) < rank b) /\ a <> b /\ wf ((b, Excl) :: (a, Excl) :: h) k /\ wf ((a, Excl) :: (b, Excl) :: h) k
  | Try2 a b :: k => exists h', h = (a, Excl) :: h' /\ (forall x, In x h' -> rank (fst x) < rank a /\ rank (fst x) < rank b) /\ a <> b /\
      wf ((b, Excl) :: (a, Excl) :: h') k /\ wf ((a, Excl) :: (b, Excl) :: h') k
  end.
Definition ok (s : sys) : Prop := Forall (fun t => wf (t_held t) (t_todo t)) s.

Lemma holds_in m h : holds m h = true <-> exists d, In (m, d) h.
Proof using.
  unfold holds. rewrite existsb_exists. split.
  - intros ([m' d] & H1 & H2). apply Nat.eqb_eq in H2. cbn in H2. subst. eauto.
  - intros (d & H). exists (m, d). split; [assumption|]. apply Nat.eqb_refl.
Qed.
Lemma holds_rank m h : (forall x, In x h -> rank (fst x) < rank m) -> holds m h = false.
Proof using.
  intros H. destruct (holds m h) eqn:E; [|reflexivity]. apply holds_in in E. destruct E as (d & Hd). specialize (H _ Hd). cbn in H. lia.
Qed.
Lemma holds_two a b h : (forall x, In x h -> rank (fst x) < rank a /\ rank (fst x) < rank b) -> a <> b -> holds b ((a, Excl) :: h) = false.
Proof using. intros Hr Hne. unfold holds. cbn [existsb fst]. destruct (Nat.eqb_spec b a); [congruence|]. cbn [orb]. apply (holds_rank b h). intros x Hx. apply Hr, Hx. Qed.
Lemma dstep_ok s i : ok s -> match dstep pref s i with Some (Ok s') => ok s' | Some _ => False | None => True end.
Proof using.
  intros Hok. unfold dstep. destruct (s !! i) as [t|] eqn:Hi; [|exact I]. pose proof (Forall_lookup_1 _ _ _ _ Hok Hi) as Hw. cbv beta in Hw.
  destruct t as [h l]. cbn [t_held t_todo] in *. destruct l as [|[m d|m d|a b|a b] k]; cbn [wf] in Hw; [exact I| | | |].
  - destruct Hw as [Hr Hw]. rewrite (holds_rank m h Hr). destruct (free pref s m d); [|exact I]. apply Forall_insert; [assumption|exact Hw].
  - destruct Hw as [Hin Hw]. rewrite bool_decide_eq_true_2 by (apply elem_of_list_In; assumption). apply Forall_insert; [assumption|exact Hw].
  - destruct Hw as (Hrk & Hne & H1 & H2). rewrite (holds_rank a h) by (intros x Hx; apply Hrk, Hx). destruct (free pref s a Excl); [|exact I]. apply Forall_insert; [assumption|]. cbn [t_held t_todo wf]. exists h. auto.
  - destruct Hw as (h' & -> & Hrk & Hne & H1 & H2). rewrite (holds_two a b h' Hrk Hne).
    destruct (free pref s b Excl); apply Forall_insert; try assumption; cbn [t_held t_todo].
    cbn [drop_held]. rewrite bool_decide_eq_true_2 by reflexivity. cbn [wf]. split; [intros x Hx; destruct (Hrk x Hx); auto|]. split; [congruence|]. auto.
Qed.
Lemma dreach_ok s0 s : ok s0 -> dreach pref s0 s -> ok s.
Proof using. intros H0. induction 1 as [|s i s' _ IH Hs]; [assumption|]. pose proof (dstep_ok s i IH) as H. rewrite Hs in H. assumption. Qed.

Lemma not_free_excl s m d : negb (existsb (fun t => blocks m d (t_held t)) s) = false ->
  exists j t, s !! j = Some t /\ holds m (t_held t) = true.
Proof using.
  intros H. apply negb_false_iff in H. apply existsb_exists in H. destruct H as (t & Ht & Hb).
  apply elem_of_list_In, elem_of_list_lookup in Ht. destruct Ht as [j Hj]. exists j, t. split; [assumption|].
  unfold blocks in Hb. apply existsb_exists in Hb. destruct Hb as ([m' d'] & Hx & Hb). apply andb_true_iff in Hb. destruct Hb as [Hb _].
  apply Nat.eqb_eq in Hb. cbn in Hb. subst. apply holds_in. eauto.
Qed.
Definition can (s : sys) (i : nat) : Prop := exists s', dstep pref s i = Some (Ok s').
(** a mutex that cannot be had is held by someone, or someone can go on *)
Lemma not_free s m d : ok s -> free pref s m d = false ->
  (exists j t, s !! j = Some t /\ holds m (t_held t) = true) \/ exists i, can s i.
Proof using.
  intros Hok H. unfold free in H. apply andb_false_iff in H. destruct H as [H|H]; [left; eapply not_free_excl; exact H|].
  destruct d; [discriminate|]. apply negb_false_iff, andb_true_iff in H. destruct H as [_ H].
  apply existsb_exists in H. destruct H as (t & Ht & Hb). apply elem_of_list_In, elem_of_list_lookup in Ht. destruct Ht as [j Hj].
  destruct (free pref s m Excl) eqn:Hf.
  - right. exists j. pose proof (Forall_lookup_1 _ _ _ _ Hok Hj) as Hw. cbv beta in Hw. unfold can, dstep. rewrite Hj.
    destruct t as [h l]. unfold waits_excl in Hb. cbn [t_held t_todo] in *.
    destruct l as [|[m' [|]|m' d'|a b|a b] k]; try discriminate; apply Nat.eqb_eq in Hb; subst; cbn [wf] in Hw.
    + rewrite (holds_rank m' h (proj1 Hw)), Hf. eauto.
    + rewrite (holds_rank a h) by (intros x Hx; apply (proj1 Hw), Hx). rewrite Hf. eauto.
  - left. unfold free in Hf. rewrite andb_true_r in Hf. eapply not_free_excl. exact Hf.
Qed.
(** the mutex a thread that cannot go on waits for *)
Lemma stuck s i t : ok s -> s !! i = Some t -> t_todo t <> [] ->
  can s i \/ exists m d, free pref s m d = false /\ (forall x, In x (t_held t) -> rank (fst x) < rank m).
Proof using.
  intros Hok Hi Hne. pose proof (Forall_lookup_1 _ _ _ _ Hok Hi) as Hw. cbv beta in Hw. pose proof (dstep_ok s i Hok) as Hs.
  unfold can. unfold dstep in *. rewrite Hi in *. destruct t as [h l]. cbn [t_held t_todo] in *.
  destruct l as [|[m d|m d|a b|a b] k]; cbn [wf] in Hw; [congruence| | | |].
  - destruct Hw as [Hr Hw]. rewrite (holds_rank m h Hr) in *. destruct (free pref s m d) eqn:Hf; [left; eauto|]. right. exists m, d. auto.
  - left. rewrite bool_decide_eq_true_2 by (apply elem_of_list_In; apply Hw). eauto.
  - destruct Hw as (Hrk & _). rewrite (holds_rank a h) in * by (intros x Hx; apply Hrk, Hx). destruct (free pref s a Excl) eqn:Hf; [left; eauto|]. right. exists a, Excl.
    split; [assumption|]. intros x Hx. apply Hrk, Hx.
  - left. destruct (holds b h); [destruct Hs|]. destruct (free pref s b Excl); eauto.
Qed.
(** the holder of a mutex can go on, or a holder of a mutex of higher rank can *)
Lemma climb s n : ok s -> forall m j t, (forall j t x, s !! j = Some t -> In x (t_held t) -> rank (fst x) < rank m + n) ->
  s !! j = Some t -> holds m (t_held t) = true -> exists i, can s i.
Proof using.
  intros Hok. induction n as [|n IH]; intros m j t Hmax Hj Hm.
  - apply holds_in in Hm. destruct Hm as (d & Hd). specialize (Hmax j t (m, d) Hj Hd). cbn in Hmax. lia.
  - assert (Hne : t_todo t <> []).
    { intros Hn. pose proof (Forall_lookup_1 _ _ _ _ Hok Hj) as Hw. cbv beta in Hw. rewrite Hn in Hw. cbn in Hw. rewrite Hw in Hm. discriminate. }
    destruct (stuck s j t Hok Hj Hne) as [Hc|(m' & d & Hf & Hr)]; [eauto|].
    apply holds_in in Hm. destruct Hm as (dm & Hm). specialize (Hr _ Hm). cbn in Hr.
    destruct (not_free s m' d Hok Hf) as [(j1 & t1 & Hj1 & Hh1)|Hc]; [|assumption].
    apply (IH m' j1 t1); [|assumption|assumption]. intros j' t' x Hj' Hx. specialize (Hmax j' t' x Hj' Hx). lia.
Qed.
Lemma max_rank (s : sys) : exists b, forall j t x, s !! j = Some t -> In x (t_held t) -> rank (fst x) < b.
Proof using.
  assert (Hl : forall h : held, exists b, forall x, In x h -> rank (fst x) < b).
  { induction h as [|y h (b & Hb)]; [exists 0; intros x []|]. exists (S (b + rank (fst y))). intros x [<-|Hx]; [lia|]. specialize (Hb x Hx). lia. }
  induction s as [|t s (b & Hb)]; [exists 0; intros j t x Hj; destruct j; discriminate|].
  destruct (Hl (t_held t)) as (b' & Hb'). exists (b + b'). intros [|j] t' x Hj Hx; cbn in Hj.
  - injection Hj as <-. specialize (Hb' x Hx). lia.
  - specialize (Hb j t' x Hj Hx). lia.
Qed.
Theorem deadlock_free s0 s : ok s0 -> dreach pref s0 s ->
  (forall i, dstep pref s i <> Some UB) /\ (~ dfinished s -> exists i s', dstep pref s i = Some (Ok s')).
Proof using.
  intros H0 Hr. pose proof (dreach_ok _ _ H0 Hr) as Hok. split.
  - intros i Hs. pose proof (dstep_ok s i Hok) as H. rewrite Hs in H. assumption.
  - intros Hnf. assert (exists i t, s !! i = Some t /\ t_todo t <> []) as (i & t & Hi & Hne).
    { clear -Hnf. unfold dfinished in Hnf. induction s as [|t s IH]; [destruct Hnf; constructor|]. destruct (t_todo t) eqn:Ht.
      - destruct IH as (i & t' & Hi & Hn); [|exists (S i), t'; auto]. intros HF. apply Hnf. constructor; auto.
      - exists 0, t. split; [reflexivity|]. congruence. }
    destruct (stuck s i t Hok Hi Hne) as [(s' & Hs)|(m & d & Hf & _)]; [eauto|].
    destruct (not_free s m d Hok Hf) as [(j & t' & Hj & Hh)|(k & s' & Hs)]; [|eauto].
    destruct (max_rank s) as (b & Hb). destruct (climb s b Hok m j t') as (k & s' & Hs); try assumption; [|eauto].
    intros j' t'' x Hj' Hx. specialize (Hb j' t'' x Hj' Hx). lia.
Qed.
End NoDeadlock.

(** ** The programs of calls *)
Section CallsOk.
Context (dc : disc) (num : nat) (rk : nat -> nat) (Hnum : 1 <= num).
(** calls whose nested locks go up in the rank of the containers *)
Definition call_fine (c : call) : Prop :=
  match c with
  | KeyX _ i | KeyS _ i | KeyErase _ i _ => i < num
  | SweepX _ | SweepS _ | Merge _ _ => True
  | Swap a b => rk a < rk b
  | Eq a b _ => match dc with Mutex => a <> b | SharedMutex => rk a < rk b end
  end.
Definition mrank (m : nat) : nat := rk (m / num).
Lemma mrank_mx c i : i < num -> mrank (mx num c i) = rk c.
Proof using Hnum. intros Hi. unfold mrank, mx. rewrite Nat.div_add_l by lia. rewrite Nat.div_small by assumption. f_equal. lia. Qed.
Lemma mx_ne a b i : i < num -> a <> b -> mx num a i <> mx num b i.
Proof using Hnum. clear rk. unfold mx. intros Hi Hne H. apply Hne. assert (H0 : a * num = b * num) by lia. apply Nat.mul_cancel_r in H0; lia. Qed.
Lemma wf_each n f k : n <= num -> (forall i k, i < num -> wf mrank [] k -> wf mrank [] (f i ++ k)) -> wf mrank [] k -> wf mrank [] (each n f ++ k).
Proof using Hnum.
  intros Hn Hf Hk. unfold each. assert (G : forall l, Forall (fun i => i < num) l -> wf mrank [] (flat_map f l ++ k)).
  { induction 1 as [|i l Hi _ IH]; [assumption|]. cbn. rewrite <- app_assoc. apply Hf; assumption. }
  apply G. apply Forall_forall. intros i Hi. apply elem_of_seq in Hi. lia.
Qed.
Lemma drop_hd m d h : drop_held m d ((m, d) :: h) = h.
Proof using. cbn. rewrite bool_decide_eq_true_2 by reflexivity. reflexivity. Qed.
Lemma drop_ne m m' d d' h : m <> m' -> drop_held m d ((m', d') :: h) = (m', d') :: drop_held m d h.
Proof using. intros H. cbn. rewrite bool_decide_eq_false_2 by congruence. reflexivity. Qed.
Lemma wf_one m d k : wf mrank [] k -> wf mrank [] (Lock m d :: Unlock m d :: k).
Proof using. intros H. cbn [wf]. split; [intros x []|]. split; [left; reflexivity|]. rewrite drop_hd. assumption. Qed.
Lemma wf_two a b k : a <> b -> wf mrank [] k -> wf mrank [] (Lock2 a b :: Unlock a Excl :: Unlock b Excl :: k).
Proof using.
  intros Hne H. cbn [wf]. split; [intros x []|]. split; [assumption|]. split.
  - split; [cbn; auto|]. rewrite drop_ne, drop_hd by assumption. split; [cbn; auto|]. rewrite drop_hd. assumption.
  - split; [cbn; auto|]. rewrite drop_hd. split; [cbn; auto|]. rewrite drop_hd. assumption.
Qed.
Lemma wf_acts c k : call_fine c -> wf mrank [] k -> wf mrank [] (acts dc num c ++ k).
Proof using Hnum.
  intros Hc Hk. destruct c as [c i|c i|c i found|c|c|a b|a b|a b n]; cbn [acts call_fine] in *.
  - apply wf_one. assumption.
  - apply wf_one. assumption.
  - destruct dc; [apply wf_one; assumption|]. destruct found; cbn [app]; repeat apply wf_one; assumption.
  - apply wf_each; [lia| |assumption]. intros. apply wf_one. assumption.
  - apply wf_each; [lia| |assumption]. intros. apply wf_one. assumption.
  - destruct (Nat.eqb_spec a b); [assumption|]. apply wf_each; [lia| |assumption]. intros i k' Hi Hk'. apply wf_two; [|assumption]. apply mx_ne; assumption.
  - apply wf_each; [lia| |assumption]. intros i k' Hi Hk'. cbn [app wf].
    split; [intros x []|]. split; [intros x [<-|[]]; cbn [fst]; rewrite !mrank_mx by assumption; assumption|].
    split; [left; reflexivity|]. rewrite drop_hd. split; [left; reflexivity|]. rewrite drop_hd. assumption.
  - apply wf_each; [lia| |assumption]. intros i k' Hi Hk'. destruct dc.
    + apply wf_two; [|assumption]. apply mx_ne; assumption.
    + assert (mx num a i <> mx num b i) by (apply mx_ne; [assumption|intros ->; lia]). cbn [app wf].
      split; [intros x []|]. split; [intros x [<-|[]]; cbn [fst]; rewrite !mrank_mx by assumption; assumption|].
      split; [right; left; reflexivity|]. rewrite drop_ne, drop_hd by assumption. split; [left; reflexivity|]. rewrite drop_hd. assumption.
Qed.
Lemma start_ok (progs : list (list call)) : Forall (Forall call_fine) progs -> ok mrank (dstart (map (prog dc num) progs)).
Proof using Hnum.
  intros H. unfold dstart. rewrite map_map. apply Forall_forall. intros t Ht. apply elem_of_list_fmap in Ht. destruct Ht as (cs & -> & Hcs).
  rewrite Forall_forall in H. specialize (H cs Hcs). cbn [t_held t_todo]. unfold prog. clear Hcs.
  induction H as [|c cs Hc _ IH]; [reflexivity|]. cbn [flat_map]. apply wf_acts; assumption.
Qed.
End CallsOk.

(** ** Executions without std::lock are finite *)
Definition plain (a : act) : bool := match a with Lock2 _ _ | Try2 _ _ => false | _ => true end.
Definition total (s : sys) : nat := sum_list_with (fun t => length (t_todo t)) s.
Lemma total_insert (s : sys) i t t' : s !! i = Some t -> length (t_todo t') < length (t_todo t) -> total (<[i := t']> s) < total s.
Proof.
  revert i. induction s as [|x s IH]; intros [|i] Hi Hl; cbn in Hi; try discriminate.
  - injection Hi as ->. unfold total. cbn. lia.
  - specialize (IH i Hi Hl). unfold total in *. cbn. apply Nat.add_lt_mono_l. exact IH.
Qed.
Lemma plain_step pref (s s' : sys) i : Forall (fun t => forallb plain (t_todo t) = true) s -> dstep pref s i = Some (Ok s') ->
  Forall (fun t => forallb plain (t_todo t) = true) s' /\ total s' < total s.
Proof.
  intros Hp Hs. unfold dstep in Hs. destruct (s !! i) as [t|] eqn:Hi; [|discriminate]. pose proof (Forall_lookup_1 _ _ _ _ Hp Hi) as Ht. cbv beta in Ht.
  destruct t as [h l]. cbn [t_held t_todo] in *. destruct l as [|[m d|m d|a b|a b] k]; try discriminate; cbn in Ht.
  - destruct (holds m h); [discriminate|]. destruct (free pref s m d); [|discriminate]. injection Hs as <-.
    split; [apply Forall_insert; assumption|]. eapply total_insert; [exact Hi|]. cbn. lia.
  - destruct (bool_decide _); [|discriminate]. injection Hs as <-. split; [apply Forall_insert; assumption|]. eapply total_insert; [exact Hi|]. cbn. lia.
Qed.
Lemma plain_terminates pref (s : sys) : Forall (fun t => forallb plain (t_todo t) = true) s ->
  Acc (fun s' s => exists i, dstep pref s i = Some (Ok s')) s.
Proof.
  remember (total s) as n eqn:Hn. revert s Hn. induction n as [n IH] using lt_wf_ind. intros s -> Hp. constructor. intros s' (i & Hs).
  destruct (plain_step pref s s' i Hp Hs) as [Hp' Hlt]. eapply IH; [exact Hlt|reflexivity|exact Hp'].
Qed.

(** ** From every state the threads can all finish *)
Section Finish.
Context (pref : bool) (rank : nat -> nat).
Notation dreach := (dreach pref).
Notation ok := (ok rank).
Lemma sum_insert (w : thr -> nat) (s : sys) i t t' : s !! i = Some t ->
  sum_list_with w (<[i := t']> s) + w t = sum_list_with w s + w t'.
Proof.
  revert i. induction s as [|x s IH]; intros [|i] Hi; cbn in Hi; try discriminate.
  - injection Hi as ->. change (sum_list_with w (<[0 := t']> (t :: s))) with (w t' + sum_list_with w s). cbn. lia.
  - specialize (IH i Hi). change (sum_list_with w (<[S i := t']> (x :: s))) with (w x + sum_list_with w (<[i := t']> s)). cbn. lia.
Qed.
Lemma sum_zero (w : thr -> nat) (s : sys) i t : sum_list_with w s = 0 -> s !! i = Some t -> w t = 0.
Proof.
  revert i. induction s as [|x s IH]; intros [|i] H Hi; cbn in *; try discriminate; [injection Hi as ->; lia|]. eapply IH; [lia|exact Hi].
Qed.
Lemma sum_pos (w : thr -> nat) (s : sys) n : sum_list_with w s = S n -> exists i t, s !! i = Some t /\ w t <> 0.
Proof.
  revert n. induction s as [|x s IH]; intros n H; cbn in H; [discriminate|]. destruct (w x) eqn:Hx.
  - cbn in H. destruct (IH _ H) as (i & t & Hi & Hw). exists (S i), t. auto.
  - exists 0, x. split; [reflexivity|]. congruence.
Qed.
Lemma map_insert (s : sys) i t t' : s !! i = Some t -> t_held t' = t_held t -> map t_held (<[i := t']> s) = map t_held s.
Proof.
  revert i. induction s as [|x s IH]; intros [|i] Hi Ht; cbn in Hi; try discriminate.
  - injection Hi as ->. change (t_held t' :: map t_held s = t_held t :: map t_held s). congruence.
  - change (t_held x :: map t_held (<[i := t']> s) = t_held x :: map t_held s). f_equal. auto.
Qed.
Lemma dreach_trans s1 s2 s3 : dreach s1 s2 -> dreach s2 s3 -> dreach s1 s3.
Proof. intros H1. induction 1 as [|s i s' _ IH Hs]; [assumption|]. econstructor; eassumption. Qed.
Lemma dreach_one s i s' : dstep pref s i = Some (Ok s') -> dreach s s'.
Proof. intros H. econstructor; [constructor|exact H]. Qed.
Lemma dstep_keep s i s' : ok s -> dstep pref s i = Some (Ok s') -> ok s'.
Proof. intros H Hs. pose proof (dstep_ok pref rank s i H) as G. rewrite Hs in G. assumption. Qed.

Definition is_try (t : thr) : nat := match t_todo t with Try2 _ _ :: _ => 1 | _ => 0 end.
Definition smaller (s : sys) : Prop := exists s', dreach s s' /\ ok s' /\ total s' < total s.
(** threads in the middle of std::lock go on or start again *)
Lemma backoff n : forall s, ok s -> sum_list_with is_try s = n ->
  smaller s \/ exists s', dreach s s' /\ ok s' /\ total s' = total s /\ sum_list_with is_try s' = 0.
Proof.
  induction n as [|n IH]; intros s Hok Hn; [right; exists s; split; [constructor|auto]|].
  destruct (sum_pos _ _ _ Hn) as (i & t & Hi & Ht). pose proof (Forall_lookup_1 _ _ _ _ Hok Hi) as Hw. cbv beta in Hw.
  destruct t as [h l]. unfold is_try in Ht. cbn [t_held t_todo] in *. destruct l as [|[m d|m d|a b|a b] k]; try congruence.
  cbn [wf] in Hw. destruct Hw as (h' & Hh & Hrk & Hne & _). pose proof (dstep_ok pref rank s i Hok) as Hs.
  assert (Hhb : holds b h = false) by (subst h; apply (holds_two rank); assumption).
  destruct (free pref s b Excl) eqn:Hf.
  - left. assert (E : dstep pref s i = Some (Ok (<[i := mkThr ((b, Excl) :: h) k]> s))) by (unfold dstep; rewrite Hi; cbn [t_held t_todo]; rewrite Hhb, Hf; reflexivity).
    eexists. split; [eapply dreach_one; exact E|]. split; [eapply dstep_keep; eassumption|]. eapply total_insert; [exact Hi|]. cbn. lia.
  - assert (E : dstep pref s i = Some (Ok (<[i := mkThr (drop_held a Excl h) (Lock2 b a :: k)]> s))) by (unfold dstep; rewrite Hi; cbn [t_held t_todo]; rewrite Hhb, Hf; reflexivity).
    set (s1 := <[i := mkThr (drop_held a Excl h) (Lock2 b a :: k)]> s) in *.
    assert (Ht1 : total s1 = total s).
    { pose proof (sum_insert (fun t => length (t_todo t)) s i _ (mkThr (drop_held a Excl h) (Lock2 b a :: k)) Hi) as Q. fold s1 in Q. unfold total. cbn in Q. lia. }
    destruct (IH s1) as [(s' & H1 & H2 & H3)|(s' & H1 & H2 & H3 & H4)].
    + eapply dstep_keep; eassumption.
    + pose proof (sum_insert is_try s i _ (mkThr (drop_held a Excl h) (Lock2 b a :: k)) Hi) as Q. fold s1 in Q. unfold is_try at 2 4 in Q. cbn in Q. lia.
    + left. exists s'. split; [eapply dreach_trans; [eapply dreach_one; exact E|exact H1]|]. split; [assumption|]. lia.
    + right. exists s'. split; [eapply dreach_trans; [eapply dreach_one; exact E|exact H1]|]. split; [assumption|]. split; [lia|assumption].
Qed.
Definition heldby (hs : list held) (m : nat) : bool := existsb (holds m) hs.
Definition early (hs : list held) (t : thr) : nat := match t_todo t with Lock2 a _ :: _ => if heldby hs a then 0 else 1 | _ => 0 end.
Lemma heldby_true (s : sys) m : heldby (map t_held s) m = true <-> exists j t, s !! j = Some t /\ holds m (t_held t) = true.
Proof.
  unfold heldby. rewrite existsb_exists. split.
  - intros (h & Hh & Hm). apply in_map_iff in Hh. destruct Hh as (t & <- & Ht). apply elem_of_list_In, elem_of_list_lookup in Ht. destruct Ht as [j Hj]. eauto.
  - intros (j & t & Hj & Hm). exists (t_held t). split; [|assumption]. apply in_map. apply elem_of_list_In, elem_of_list_lookup. eauto.
Qed.
Lemma heldby_free (s : sys) m : heldby (map t_held s) m = false -> free pref s m Excl = true.
Proof.
  intros H. destruct (free pref s m Excl) eqn:E; [reflexivity|]. unfold free in E. rewrite andb_true_r in E.
  apply not_free_excl in E. apply heldby_true in E. congruence.
Qed.
Lemma free_heldby (s : sys) m : free pref s m Excl = false -> heldby (map t_held s) m = true.
Proof. intros H. destruct (heldby (map t_held s) m) eqn:E; [reflexivity|]. apply heldby_free in E. congruence. Qed.
(** std::lock calls that could take their first mutex take both, or come to wait for one that is held *)
Lemma flush n : forall s, ok s -> sum_list_with is_try s = 0 -> sum_list_with (early (map t_held s)) s = n ->
  smaller s \/ exists s', dreach s s' /\ ok s' /\ total s' = total s /\ sum_list_with is_try s' = 0 /\ sum_list_with (early (map t_held s')) s' = 0.
Proof.
  induction n as [|n IH]; intros s Hok Htry Hn; [right; exists s; split; [constructor|auto]|].
  destruct (sum_pos _ _ _ Hn) as (i & t & Hi & Ht). pose proof (Forall_lookup_1 _ _ _ _ Hok Hi) as Hw. cbv beta in Hw.
  destruct t as [h l]. unfold early in Ht. cbn [t_held t_todo] in *. destruct l as [|[m d|m d|a b|a b] k]; try congruence.
  destruct (heldby (map t_held s) a) eqn:Ha; [congruence|]. clear Ht. cbn [wf] in Hw. destruct Hw as (Hrk & Hne & Hw).
  pose proof (lookup_lt_Some _ _ _ Hi) as Hlt.
  assert (E1 : dstep pref s i = Some (Ok (<[i := mkThr ((a, Excl) :: h) (Try2 a b :: k)]> s))).
  { unfold dstep. rewrite Hi. cbn [t_held t_todo]. rewrite (holds_rank rank a h) by (intros x Hx; apply Hrk, Hx). rewrite (heldby_free s a Ha). reflexivity. }
  set (s1 := <[i := mkThr ((a, Excl) :: h) (Try2 a b :: k)]> s) in *. pose proof (dstep_keep _ _ _ Hok E1) as Hok1.
  assert (Hi1 : s1 !! i = Some (mkThr ((a, Excl) :: h) (Try2 a b :: k))) by (apply list_lookup_insert; assumption).
  assert (Hhb : holds b ((a, Excl) :: h) = false) by (apply (holds_two rank); assumption).
  assert (T1 : total s1 = total s).
  { pose proof (sum_insert (fun t => length (t_todo t)) s i _ (mkThr ((a, Excl) :: h) (Try2 a b :: k)) Hi) as Q. fold s1 in Q. unfold total. cbn in Q. lia. }
  destruct (free pref s1 b Excl) eqn:Hf.
  - left. assert (E2 : dstep pref s1 i = Some (Ok (<[i := mkThr ((b, Excl) :: (a, Excl) :: h) k]> s1))) by (unfold dstep; rewrite Hi1; cbn [t_held t_todo]; rewrite Hhb, Hf; reflexivity).
    eexists. split; [eapply dreach_trans; [eapply dreach_one; exact E1|eapply dreach_one; exact E2]|]. split; [eapply dstep_keep; eassumption|].
    rewrite <- T1. eapply total_insert; [exact Hi1|]. cbn. lia.
  - assert (E2 : dstep pref s1 i = Some (Ok (<[i := mkThr h (Lock2 b a :: k)]> s1))).
    { unfold dstep. rewrite Hi1. cbn [t_held t_todo]. rewrite Hhb, Hf. cbn [drop_held]. rewrite bool_decide_eq_true_2 by reflexivity. reflexivity. }
    unfold s1 in E2 at 2. rewrite list_insert_insert in E2. set (s2 := <[i := mkThr h (Lock2 b a :: k)]> s) in *.
    assert (Hheld : map t_held s2 = map t_held s).
    { unfold s2. apply (map_insert s i _ _ Hi). reflexivity. }
    assert (Hb : heldby (map t_held s) b = true).
    { apply free_heldby, heldby_true in Hf. destruct Hf as (j & tj & Hj & Hm). apply heldby_true. destruct (Nat.eq_dec i j) as [<-|Hij].
      - rewrite Hi1 in Hj. injection Hj as <-. cbn [t_held] in Hm. congruence.
      - unfold s1 in Hj. rewrite list_lookup_insert_ne in Hj by assumption. eauto. }
    pose proof (dstep_keep _ _ _ Hok1 E2) as Hok2.
    assert (T2 : total s2 = total s).
    { pose proof (sum_insert (fun t => length (t_todo t)) s i _ (mkThr h (Lock2 b a :: k)) Hi) as Q. fold s2 in Q. unfold total. cbn in Q. lia. }
    assert (R2 : dreach s s2) by (eapply dreach_trans; [eapply dreach_one; exact E1|eapply dreach_one; exact E2]).
    destruct (IH s2 Hok2) as [(s' & H1 & H2 & H3)|(s' & H1 & H2 & H3 & H4 & H5)].
    + pose proof (sum_insert is_try s i _ (mkThr h (Lock2 b a :: k)) Hi) as Q. fold s2 in Q. unfold is_try at 2 4 in Q. cbn in Q. lia.
    + rewrite Hheld. pose proof (sum_insert (early (map t_held s)) s i _ (mkThr h (Lock2 b a :: k)) Hi) as Q. fold s2 in Q.
      unfold early at 2 4 in Q. cbn [t_todo] in Q. rewrite Ha, Hb in Q. lia.
    + left. exists s'. split; [eapply dreach_trans; eassumption|]. split; [assumption|]. lia.
    + right. exists s'. split; [eapply dreach_trans; eassumption|]. split; [assumption|]. split; [lia|]. auto.
Qed.
(** a thread about to lock a mutex nobody holds *)
Lemma unheld_lock s i h m d k : ok s -> sum_list_with (early (map t_held s)) s = 0 -> s !! i = Some (mkThr h (Lock m d :: k)) ->
  heldby (map t_held s) m = false -> smaller s.
Proof.
  intros Hok He Hi Hm.
  assert (Hgo : forall j hj dj kj, s !! j = Some (mkThr hj (Lock m dj :: kj)) -> free pref s m dj = true -> smaller s).
  { intros j hj dj kj Hj Hf. pose proof (Forall_lookup_1 _ _ _ _ Hok Hj) as Hw. cbn in Hw.
    assert (E : dstep pref s j = Some (Ok (<[j := mkThr ((m, dj) :: hj) kj]> s))) by (unfold dstep; rewrite Hj; cbn [t_held t_todo]; rewrite (holds_rank rank m hj (proj1 Hw)), Hf; reflexivity).
    eexists. split; [eapply dreach_one; exact E|]. split; [eapply dstep_keep; eassumption|]. eapply total_insert; [exact Hj|]. cbn. lia. }
  destruct (free pref s m d) eqn:Hf; [eapply Hgo; eassumption|].
  unfold free in Hf. apply andb_false_iff in Hf. destruct Hf as [Hf|Hf].
  - apply not_free_excl, heldby_true in Hf. congruence.
  - destruct d; [discriminate|]. apply negb_false_iff, andb_true_iff in Hf. destruct Hf as [_ Hf].
    apply existsb_exists in Hf. destruct Hf as ([hj lj] & Hj & Hw). apply elem_of_list_In, elem_of_list_lookup in Hj. destruct Hj as [j Hj].
    unfold waits_excl in Hw. cbn in Hw. destruct lj as [|[m' [|]|m' d'|a b|a b] kj]; try discriminate; apply Nat.eqb_eq in Hw; subst.
    + eapply Hgo; [exact Hj|]. apply heldby_free. assumption.
    + pose proof (sum_zero _ _ _ _ He Hj) as Q. unfold early in Q. cbn in Q. rewrite Hm in Q. discriminate.
Qed.
Lemma max_held (s : sys) : (forall m, heldby (map t_held s) m = false) \/
  exists m, heldby (map t_held s) m = true /\ forall m', rank m < rank m' -> heldby (map t_held s) m' = false.
Proof.
  destruct (max_rank rank s) as (b & Hb).
  assert (Hb' : forall m, heldby (map t_held s) m = true -> rank m < b).
  { intros m Hm. apply heldby_true in Hm. destruct Hm as (j & t & Hj & Hm). apply holds_in in Hm. destruct Hm as (d & Hd). exact (Hb j t _ Hj Hd). }
  clear Hb. assert (G : forall n, (forall m, rank m >= n -> heldby (map t_held s) m = false) \/
    exists m, heldby (map t_held s) m = true /\ forall m', rank m < rank m' -> heldby (map t_held s) m' = false).
  { intros n. remember (b - n) as q eqn:Hq. revert n Hq. induction q as [|q IH]; intros n Hq.
    - left. intros m Hm. destruct (heldby _ m) eqn:E; [|reflexivity]. specialize (Hb' m E). lia.
    - destruct (IH (S n) ltac:(lia)) as [H|H]; [|auto].
      assert (Hex : (exists t x, In t s /\ In x (t_held t) /\ rank (fst x) = n) \/ forall t x, In t s -> In x (t_held t) -> rank (fst x) <> n).
      { clear. induction s as [|t s IH]; [right; intros t x []|].
        assert (Hh : (exists x, In x (t_held t) /\ rank (fst x) = n) \/ forall x, In x (t_held t) -> rank (fst x) <> n).
        { induction (t_held t) as [|x h [(y & Hy)|IHh]]; [right; intros x []|left; exists y; destruct Hy; cbn; auto|].
          destruct (Nat.eq_dec (rank (fst x)) n); [left; exists x; cbn; auto|right]. intros y [<-|Hy]; auto. }
        destruct Hh as [(x & Hx & Hr)|Hh]; [left; exists t, x; cbn; auto|].
        destruct IH as [(t' & x & Ht & Hx & Hr)|IH]; [left; exists t', x; cbn; auto|right]. intros t' x [<-|Ht]; eauto. }
      destruct Hex as [(t & [m d] & Ht & Hx & Hr)|Hex].
      + right. exists m. apply elem_of_list_In, elem_of_list_lookup in Ht. destruct Ht as [j Hj]. split.
        * apply heldby_true. exists j, t. split; [assumption|]. apply holds_in. eauto.
        * intros m' Hm'. cbn in Hr. apply H. lia.
      + left. intros m Hm. destruct (heldby _ m) eqn:E; [|reflexivity]. apply heldby_true in E. destruct E as (j & t & Hj & E).
        apply holds_in in E. destruct E as (d & Hd). destruct (Nat.eq_dec (rank m) n) as [Hr|Hr].
        * exfalso. eapply (Hex t (m, d)); [|exact Hd|exact Hr]. apply elem_of_list_In, elem_of_list_lookup. eauto.
        * rewrite <- (H m) by lia. symmetry. apply heldby_true. exists j, t. split; [assumption|]. apply holds_in. eauto. }
  destruct (G 0) as [H|H]; [left; intros m; apply H; lia|auto].
Qed.
Lemma flushed s : ok s -> sum_list_with is_try s = 0 -> sum_list_with (early (map t_held s)) s = 0 -> ~ dfinished s -> smaller s.
Proof.
  intros Hok Htry He Hnf.
  assert (Hunlock : forall i h m d k, s !! i = Some (mkThr h (Unlock m d :: k)) -> smaller s).
  { intros i h m d k Hi. pose proof (Forall_lookup_1 _ _ _ _ Hok Hi) as Hw. cbn in Hw.
    assert (E : dstep pref s i = Some (Ok (<[i := mkThr (drop_held m d h) k]> s))) by (unfold dstep; rewrite Hi; cbn [t_held t_todo]; rewrite bool_decide_eq_true_2 by (apply elem_of_list_In; apply Hw); reflexivity).
    eexists. split; [eapply dreach_one; exact E|]. split; [eapply dstep_keep; eassumption|]. eapply total_insert; [exact Hi|]. cbn. lia. }
  destruct (max_held s) as [Hnone|(m & Hm & Hmax)].
  - assert (exists i t, s !! i = Some t /\ t_todo t <> []) as (i & t & Hi & Hne).
    { clear -Hnf. unfold dfinished in Hnf. induction s as [|t s IH]; [destruct Hnf; constructor|]. destruct (t_todo t) eqn:Ht.
      - destruct IH as (i & t' & Hi & Hn); [|exists (S i), t'; auto]. intros HF. apply Hnf. constructor; auto.
      - exists 0, t. split; [reflexivity|]. congruence. }
    destruct t as [h l]. cbn in Hne. destruct l as [|[m d|m d|a b|a b] k]; [congruence| | | |].
    + eapply unheld_lock; eauto.
    + eauto.
    + pose proof (sum_zero _ _ _ _ He Hi) as Q. unfold early in Q. cbn in Q. rewrite Hnone in Q. discriminate.
    + pose proof (sum_zero _ _ _ _ Htry Hi) as Q. discriminate.
  - apply heldby_true in Hm. destruct Hm as (i & [h l] & Hi & Hm). cbn in Hm. apply holds_in in Hm. destruct Hm as (dm & Hm).
    pose proof (Forall_lookup_1 _ _ _ _ Hok Hi) as Hw. cbn [t_held t_todo] in Hw. destruct l as [|[m' d|m' d|a b|a b] k]; cbn [wf] in Hw.
    + rewrite Hw in Hm. destruct Hm.
    + eapply unheld_lock; [assumption|assumption|exact Hi|]. apply Hmax. exact (proj1 Hw _ Hm).
    + eauto.
    + pose proof (sum_zero _ _ _ _ He Hi) as Q. unfold early in Q. cbn [t_todo] in Q. rewrite (Hmax a) in Q by exact (proj1 (proj1 Hw _ Hm)). discriminate.
    + pose proof (sum_zero _ _ _ _ Htry Hi) as Q. discriminate.
Qed.
Lemma dfinished_dec s : dfinished s \/ ~ dfinished s.
Proof.
  unfold dfinished. induction s as [|t s [IH|IH]]; [left; constructor| |right; intros H; inversion H; auto].
  destruct (t_todo t) eqn:Ht; [left; constructor; assumption|right; intros H; inversion H; congruence].
Qed.
Theorem can_finish s : ok s -> exists s', dreach s s' /\ dfinished s'.
Proof.
  remember (total s) as n eqn:Hn. revert s Hn. induction n as [n IH] using lt_wf_ind. intros s -> Hok.
  destruct (dfinished_dec s) as [Hf|Hf]; [exists s; split; [constructor|assumption]|].
  assert (Hsm : smaller s).
  { destruct (backoff _ s Hok eq_refl) as [H|(s1 & R1 & O1 & T1 & Y1)]; [assumption|].
    destruct (flush _ s1 O1 Y1 eq_refl) as [(s' & H1 & H2 & H3)|(s2 & R2 & O2 & T2 & Y2 & E2)].
    - exists s'. split; [eapply dreach_trans; eassumption|]. split; [assumption|]. lia.
    - destruct (flushed s2 O2 Y2 E2) as (s' & H1 & H2 & H3).
      + intros Hf2. apply Hf. unfold dfinished in *. assert (Z : total s = 0).
        { rewrite <- T1, <- T2. unfold total. clear -Hf2. induction Hf2 as [|t l Ht _ IHl]; cbn; [reflexivity|]. rewrite Ht. exact IHl. }
        apply Forall_forall. intros t Ht. apply elem_of_list_lookup in Ht. destruct Ht as [j Hj].
        pose proof (sum_zero _ _ _ _ Z Hj) as Q. cbn in Q. destruct (t_todo t); [reflexivity|discriminate].
      + exists s'. split; [eapply dreach_trans; [exact R1|]; eapply dreach_trans; eassumption|]. split; [assumption|]. lia. }
  destruct Hsm as (s' & H1 & H2 & H3). destruct (IH _ H3 s' eq_refl H2) as (s2 & H4 & H5). exists s2. split; [eapply dreach_trans; eassumption|assumption].
Qed.
End Finish.
