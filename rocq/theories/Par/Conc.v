(** Threads calling operations of a sharded container: interleaving semantics, linearizability, and the general
    theorem that calls made of critical sections on one shard are linearizable.
    The container has shards (submaps), each with its own reader-writer mutex; a call is a [cmd]: lock and unlock
    steps and accesses to shards.  Every lock, unlock and access is one step; threads interleave arbitrarily. *)
From stdpp Require Import list.
From Coq Require Import Arith Lia.
From Verif.Common Require Import Res.
Local Open Scope nat_scope.

Inductive mode := Excl | Shared.
Global Instance mode_eq_dec : EqDecision mode.
Proof. solve_decision. Defined.

Section Conc.
Context {T O R : Type}.

(** ** Code of a call *)
Inductive cmd :=
| CDone (r : R)                                          (* the call returns r *)
| CLock (m : nat) (d : mode) (k : cmd)                   (* lock() / lock_shared() of the mutex of shard m *)
| CUnlock (m : nat) (d : mode) (k : cmd)                 (* unlock() / unlock_shared() *)
| CRead (m : nat) (k : T -> cmd)                         (* reads shard m *)
| CWrite (m : nat) (g : T -> T) (k : T -> cmd)           (* replaces the content t of shard m by g t, goes on with k t *)
| CFail.                                                 (* undefined behaviour or an endless loop *)

(** ** States *)
Record lockst := mkLock { lw : option nat; lr : list nat }.
Record thread := mkThread { th_todo : list O; th_cur : option (O * cmd); th_n : nat }.
Record state := mkState { st_shards : list T; st_locks : list lockst; st_threads : list thread }.
(** a call is identified by its thread and its number in the thread *)
Definition cid := (nat * nat)%type.
Inductive event := EInv (id : cid) (o : O) | ERes (id : cid) (r : R).

Context (code : O -> cmd).
(** [pref]: the mutexes refuse new readers while a writer waits (an implementation may or may not) *)
Context (pref : bool).

Definition wants_write (m : nat) (th : thread) : bool :=
  match th_cur th with Some (_, CLock m' Excl _) => m =? m' | _ => false end.
Definition free_for (s : state) (m : nat) (l : lockst) (d : mode) : bool :=
  match lw l, d with
  | Some _, _ => false
  | None, Excl => match lr l with [] => true | _ => false end
  | None, Shared => negb (pref && existsb (wants_write m) (st_threads s))
  end.
Definition owns (l : lockst) (i : nat) : bool :=
  match lw l with Some j => i =? j | None => existsb (Nat.eqb i) (lr l) end.
Definition acquire (l : lockst) (i : nat) (d : mode) : lockst :=
  match d with Excl => mkLock (Some i) (lr l) | Shared => mkLock (lw l) (i :: lr l) end.
Fixpoint remove_nat (i : nat) (l : list nat) : list nat :=
  match l with [] => [] | x :: l' => if i =? x then l' else x :: remove_nat i l' end.
Definition release (l : lockst) (i : nat) (d : mode) : option lockst :=
  match d with
  | Excl => match lw l with Some j => if i =? j then Some (mkLock None (lr l)) else None | None => None end
  | Shared => if existsb (Nat.eqb i) (lr l) then Some (mkLock (lw l) (remove_nat i (lr l))) else None
  end.
Definition set_thread (s : state) (i : nat) (th : thread) : state :=
  mkState (st_shards s) (st_locks s) (<[i := th]> (st_threads s)).
Definition set_lock (s : state) (m : nat) (l : lockst) : state :=
  mkState (st_shards s) (<[m := l]> (st_locks s)) (st_threads s).
Definition set_shard (s : state) (m : nat) (t : T) : state :=
  mkState (<[m := t]> (st_shards s)) (st_locks s) (st_threads s).
Definition go (th : thread) (o : O) (c : cmd) : thread := mkThread (th_todo th) (Some (o, c)) (th_n th).

(** One step of thread i: [None] when it is finished or must wait; [Some UB] when it locks a mutex it already
    owns, unlocks one it does not own, or reaches [CFail]. *)
Definition step (s : state) (i : nat) : option (res (state * list event)) :=
  match st_threads s !! i with
  | None => None
  | Some th =>
    match th_cur th with
    | None =>
        match th_todo th with
        | [] => None
        | o :: os => Some (Ok (set_thread s i (mkThread os (Some (o, code o)) (th_n th)), [EInv (i, th_n th) o]))
        end
    | Some (o, c) =>
        match c with
        | CDone r => Some (Ok (set_thread s i (mkThread (th_todo th) None (S (th_n th))), [ERes (i, th_n th) r]))
        | CLock m d k =>
            match st_locks s !! m with
            | None => Some UB
            | Some l =>
                if owns l i then Some UB
                else if free_for s m l d then Some (Ok (set_lock (set_thread s i (go th o k)) m (acquire l i d), []))
                else None
            end
        | CUnlock m d k =>
            match st_locks s !! m with
            | None => Some UB
            | Some l =>
                match release l i d with
                | None => Some UB
                | Some l' => Some (Ok (set_lock (set_thread s i (go th o k)) m l', []))
                end
            end
        | CRead m k =>
            match st_shards s !! m with
            | None => Some UB
            | Some t => Some (Ok (set_thread s i (go th o (k t)), []))
            end
        | CWrite m g k =>
            match st_shards s !! m with
            | None => Some UB
            | Some t => Some (Ok (set_shard (set_thread s i (go th o (k t))) m (g t), []))
            end
        | CFail => Some UB
        end
    end
  end.

Definition start (ts : list T) (progs : list (list O)) : state :=
  mkState ts (replicate (length ts) (mkLock None [])) (map (fun os => mkThread os None 0) progs).
(** every interleaving of the threads *)
Inductive reach (s0 : state) : state -> list event -> Prop :=
| reach_start : reach s0 s0 []
| reach_step s tr i s' ev : reach s0 s tr -> step s i = Some (Ok (s', ev)) -> reach s0 s' (tr ++ ev).

(** ** Linearizability (Herlihy and Wing): the calls that took effect, in one order *)
Definition entry := (cid * O * R)%type.
Definition e_id (e : entry) : cid := fst (fst e).
Definition precedes (L : list entry) (a b : cid) : Prop :=
  exists i j x y, i < j /\ L !! i = Some x /\ L !! j = Some y /\ e_id x = a /\ e_id y = b.
Definition returned_before (tr : list event) (a b : cid) : Prop :=
  exists tr1 tr2 r o, tr = tr1 ++ ERes a r :: tr2 /\ In (EInv b o) tr2.
Record linearization (tr : list event) (L : list entry) : Prop := {
  lin_once : NoDup (map e_id L);
  lin_complete : forall id r, In (ERes id r) tr -> exists o, In (id, o, r) L;
  lin_called : forall id o r, In (id, o, r) L -> In (EInv id o) tr;
  lin_result : forall id o r r', In (id, o, r) L -> In (ERes id r') tr -> r' = r;
  lin_order : forall a b, returned_before tr a b -> In b (map e_id L) -> precedes L a b
}.
(** the calls one at a time, each acting on its shard by [spec] *)
Inductive seqrun (shard : O -> nat) (spec : O -> T -> R -> T -> Prop) : list T -> list entry -> list T -> Prop :=
| seq_nil ts : seqrun shard spec ts [] ts
| seq_snoc ts L ts' id o r t t' : seqrun shard spec ts L ts' -> ts' !! shard o = Some t -> spec o t r t' ->
    seqrun shard spec ts (L ++ [(id, o, r)]) (<[shard o := t']> ts').
Definition idle (s : state) : Prop := Forall (fun th => th_cur th = None) (st_threads s).

(** ** Critical sections *)
(** what a thread alone does from inside a section on shard m, up to and including the unlock *)
Fixpoint sec (m : nat) (d : mode) (c : cmd) (t : T) : option (T * cmd) :=
  match c with
  | CRead m' k => if m =? m' then sec m d (k t) t else None
  | CWrite m' g k =>
      match d with
      | Excl => if m =? m' then sec m d (k t) (g t) else None
      | Shared => None
      end
  | CUnlock m' d' k => if (m =? m') && bool_decide (d = d') then Some (t, k) else None
  | _ => None
  end.

Context (shard : O -> nat) (spec : O -> T -> R -> T -> Prop) (good : nat -> T -> Prop).

(** a section of call o: it ends the call, having acted by [spec], or has done nothing and another section comes *)
Inductive section_ok (o : O) (d : mode) (c : cmd) : Prop :=
| section_intro :
    (forall t, good (shard o) t -> exists t' c', sec (shard o) d c t = Some (t', c') /\
      ((exists r, c' = CDone r /\ spec o t r t' /\ good (shard o) t' /\ (d = Shared -> t' = t)) \/
       (t' = t /\ exists d' c'', c' = CLock (shard o) d' c'' /\ section_ok o d' c''))) ->
    section_ok o d c.
Definition call_ok (o : O) : Prop := exists d c, code o = CLock (shard o) d c /\ section_ok o d c.

(** ** The invariant *)
Inductive phase :=
| PIdle
| PWait                        (* before a section; has not taken effect *)
| PIn (m : nat) (d : mode)     (* in a section *)
| PDone.                       (* after the last section *)

Definition thread_inv (s : state) (vs : list T) (L : list entry) (tr : list event) (i : nat) (th : thread) (p : phase) : Prop :=
  (forall n o r, In ((i, n), o, r) L -> n < th_n th \/ (n = th_n th /\ exists o c, th_cur th = Some (o, c))) /\
  (forall n r, In (ERes (i, n) r) tr -> n < th_n th) /\
  (forall n o, In (EInv (i, n) o) tr -> n < th_n th \/ (n = th_n th /\ exists c, th_cur th = Some (o, c))) /\
  match p with
  | PIdle => th_cur th = None
  | PWait => exists o d c, th_cur th = Some (o, CLock (shard o) d c) /\ section_ok o d c /\ In (EInv (i, th_n th) o) tr /\
      ~ In (i, th_n th) (map e_id L)
  | PIn m d => exists o c t t' c', th_cur th = Some (o, c) /\ m = shard o /\ In (EInv (i, th_n th) o) tr /\
      st_shards s !! m = Some t /\ vs !! m = Some t' /\ sec m d c t = Some (t', c') /\
      ((exists r, c' = CDone r /\ In ((i, th_n th), o, r) L) \/
       (~ In (i, th_n th) (map e_id L) /\ exists d' c'', c' = CLock m d' c'' /\ section_ok o d' c''))
  | PDone => exists o r, th_cur th = Some (o, CDone r) /\ In ((i, th_n th), o, r) L
  end.
Record inv (s0s : list T) (s : state) (vs : list T) (L : list entry) (tr : list event) (ph : list phase) : Prop := {
  i_len : length ph = length (st_threads s);
  i_lens : length (st_shards s) = length vs;
  i_lenl : length (st_locks s) = length vs;
  i_good : forall m t, vs !! m = Some t -> good m t;
  i_seq : seqrun shard spec s0s L vs;
  i_lin : linearization tr L;
  i_threads : forall i th p, st_threads s !! i = Some th -> ph !! i = Some p -> thread_inv s vs L tr i th p;
  i_ids : forall i n o r, In ((i, n), o, r) L -> i < length (st_threads s);
  i_evs : forall i n, (exists o, In (EInv (i, n) o) tr) \/ (exists r, In (ERes (i, n) r) tr) -> i < length (st_threads s);
  i_locks : forall m l, st_locks s !! m = Some l ->
    (forall i, lw l = Some i <-> ph !! i = Some (PIn m Excl)) /\
    (forall i, In i (lr l) <-> ph !! i = Some (PIn m Shared)) /\ NoDup (lr l) /\ (lw l <> None -> lr l = []);
  i_stable : forall m l, st_locks s !! m = Some l -> lw l = None -> st_shards s !! m = vs !! m
}.
End Conc.
Arguments cmd : clear implicits.
Arguments thread : clear implicits.
Arguments state : clear implicits.
Arguments event : clear implicits.
Arguments entry : clear implicits.
