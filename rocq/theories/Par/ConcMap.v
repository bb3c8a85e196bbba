(** The calls of parallel_hash_set / parallel_hash_map that threads may make concurrently
    (include/gtl/phmap.hpp:3744-3969, 4051-4054, 4216-4232, 4621-4706), as lock, unlock and access steps on submaps. *)
From stdpp Require Import list.
From Coq Require Import Arith NArith ZArith.
From Verif.Common Require Import Res Word.
From Verif.Swiss Require Import Group Model MapSpec History.
From Verif.Par Require Import Seq Conc.
Local Open Scope nat_scope.
Local Open Scope res_scope.

(** ** What a user sees *)
Inductive cop (K V : Type) :=
| CInsert (k : K) (v : V)                       (* insert, emplace, try_emplace, lazy_emplace, operator[] *)
| CAssign (k : K) (v : V)                       (* insert_or_assign *)
| CTryL (k : K) (f : V -> V) (v : V)            (* try_emplace_l(k, f, v), lazy_emplace_l(k, f, construct (k, v)) *)
| CIf (k : K)                                   (* if_contains(k, f): the value given to f *)
| CModify (k : K) (f : V -> V)                  (* modify_if(k, f) *)
| CContains (k : K)                             (* contains, count, find *)
| CErase (k : K)                                (* erase(k) *)
| CEraseIf (k : K) (p : K * V -> bool).         (* erase_if(k, p) *)
Arguments CInsert {K V}.  Arguments CAssign {K V}.  Arguments CTryL {K V}.  Arguments CIf {K V}.
Arguments CModify {K V}.  Arguments CContains {K V}.  Arguments CErase {K V}.  Arguments CEraseIf {K V}.
(** the bool (or size_type) returned, and the value given to the function argument, if it was called *)
Inductive cout (V : Type) := CRes (b : bool) (seen : option V) | CThrow.
Arguments CRes {V}.  Arguments CThrow {V}.
Definition c_key {K V} (o : cop K V) : K :=
  match o with
  | CInsert k _ | CAssign k _ | CTryL k _ _ | CIf k | CModify k _ | CContains k | CErase k | CEraseIf k _ => k
  end.

Section Spec.
Context {K V : Type} (eqb : K -> K -> bool).
(** one call on a map: insertions may also throw std::bad_alloc and do nothing *)
Definition c_step (m : list (K * V)) (o : cop K V) (r : cout V) (m' : list (K * V)) : Prop :=
  match o, s_find eqb m (c_key o) with
  | (CInsert k v | CAssign k v | CTryL k _ v), None => (r = CRes true None /\ m' = (k, v) :: m) \/ (r = CThrow /\ m' = m)
  | CInsert k v, Some e => r = CRes false None /\ m' = m
  | CAssign k v, Some e => r = CRes false None /\ m' = s_update eqb m k v
  | CTryL k f v, Some e => r = CRes false (Some (snd e)) /\ m' = s_update eqb m k (f (snd e))
  | CIf k, Some e => r = CRes true (Some (snd e)) /\ m' = m
  | CModify k f, Some e => r = CRes true (Some (snd e)) /\ m' = s_update eqb m k (f (snd e))
  | CContains k, Some e => r = CRes true None /\ m' = m
  | CErase k, Some e => r = CRes true None /\ m' = s_erase eqb m k
  | CEraseIf k p, Some e => if p e then r = CRes true (Some (snd e)) /\ m' = s_erase eqb m k else r = CRes false (Some (snd e)) /\ m' = m
  | (CIf _ | CModify _ _ | CContains _ | CErase _ | CEraseIf _ _), None => r = CRes false None /\ m' = m
  end.
(** the same, except that erase and erase_if of an absent key may claim success *)
Definition c_step_weak (m : list (K * V)) (o : cop K V) (r : cout V) (m' : list (K * V)) : Prop :=
  c_step m o r m' \/
  match o with
  | CErase k | CEraseIf k _ => s_find eqb m k = None /\ r = CRes true None /\ m' = m
  | _ => False
  end.
(** a sequence of calls, one at a time *)
Inductive c_run (st : list (K * V) -> cop K V -> cout V -> list (K * V) -> Prop) : list (K * V) -> list (entry (cop K V) (cout V)) -> list (K * V) -> Prop :=
| c_run_nil m : c_run st m [] m
| c_run_snoc m L m1 id o r m2 : c_run st m L m1 -> st m1 o r m2 -> c_run st m (L ++ [(id, o, r)]) m2.
End Spec.

(** ** The code *)
(** [Mutex]: std::mutex and other lockables without shared mode, where all guards are WriteLock (phmap.hpp:560-590);
    [SharedMutex]: std::shared_mutex, where SharedLock locks shared and ReadWriteLock starts shared (600-640). *)
Inductive disc := Mutex | SharedMutex.

Section Code.
Context {K V : Type} (hash : K -> N) (eqb : K -> K -> bool) (E : env) (lg : nat) (dc : disc).
Notation table := (table K V).
Notation cmd := (cmd table (cout V)).

Definition smode : mode := match dc with Mutex => Excl | SharedMutex => Shared end.
(** a read-only step, a writing step; std::bad_alloc leaves the table as it was and unwinds to [thr] *)
Definition rd {A} (m : nat) (f : table -> res A) (k : A -> cmd) : cmd :=
  CRead m (fun t => match f t with Ok a => k a | _ => CFail end).
Definition wr {A} (m : nat) (f : table -> res (table * A)) (k : A -> cmd) (thr : cmd) : cmd :=
  CWrite m (fun t => match f t with Ok (t', _) => t' | _ => t end)
           (fun t => match f t with Ok (_, a) => k a | BadAlloc => thr | _ => CFail end).
Definition void (f : table -> res table) (t : table) : res (table * unit) := let* t' := f t in Ok (t', tt).

(* emplace_at / lazy_emplace_at: constructs the element in its slot *)
Definition construct_at (p : nat) (e : K * V) (t : table) : res table :=
  let* sl := construct (t_slots t) p e in Ok (mkTable (t_ctrl t) sl (t_size t) (t_cap t) (t_growth t)).
(* set_ctrl(offset, H2(hashval)) *)
Definition publish_at (p : nat) (h : N) (t : table) : res table :=
  let* c := set_ctrl E (t_ctrl t) (t_cap t) p (H2 h) in Ok (mkTable c (t_slots t) (t_size t) (t_cap t) (t_growth t)).
(* prepare_insert, emplace_at, set_ctrl (3750-3753, 4627-4632, 4699-4703) *)
Definition new_elt (m : nat) (k : K) (v : V) (fin thr : cmd) : cmd :=
  wr m (fun t => prepare_insert hash E t (hash k)) (fun p =>
  wr m (void (construct_at p (k, v))) (fun _ =>
  wr m (void (publish_at p (hash k))) (fun _ => fin) CFail) CFail) thr.
Definition find_in (m : nat) (k : K) (c : option nat -> cmd) : cmd := rd m (fun t => find_key hash eqb E t k) c.
(* *it, given to the function argument *)
Definition see (m : nat) (p : nat) (c : K * V -> cmd) : cmd := rd m (fun t => deref t p) c.
Definition ret (m : nat) (d : mode) (r : cout V) : cmd := CUnlock m d (CDone r).

(* the rest of erase_if_impl (3929-3933) once the element is found under the unique lock; [call]: the predicate is
   the user's (its argument is an observation) *)
Definition erase_found (m : nat) (p : nat) (call : bool) (pr : K * V -> bool) : cmd :=
  see m p (fun e =>
    let seen := if call then Some (snd e) else None in
    if pr e then wr m (fun t => let* (_, t') := erase_at E t p in Ok (t', tt)) (fun _ => ret m Excl (CRes true seen)) CFail
    else ret m Excl (CRes false seen)).
(* erase_if_impl (3914-3934) with L = ReadWriteLock *)
Definition erase_code (k : K) (call : bool) (pr : K * V -> bool) : cmd :=
  let m := subidx lg (hash k) in
  match dc with
  | Mutex =>
      CLock m Excl (find_in m k (fun r =>
        match r with None => ret m Excl (CRes false None) | Some p => erase_found m p call pr end))
  | SharedMutex =>
      CLock m Shared (find_in m k (fun r =>
        match r with
        | None => ret m Shared (CRes false None)
        | Some _ =>   (* switch_to_unique: unlock_shared, lock, and find again; "if (it == set.end()) return 1" *)
            CUnlock m Shared (CLock m Excl (find_in m k (fun r2 =>
              match r2 with None => ret m Excl (CRes true None) | Some p => erase_found m p call pr end)))
        end))
  end.

Definition code (o : cop K V) : cmd :=
  let m := subidx lg (hash (c_key o)) in
  match o with
  | CInsert k v =>   (* emplace_decomposable_with_hash (3744-3757), try_emplace_impl_with_hash (4694-4706) *)
      CLock m Excl (find_in m k (fun r =>
        match r with
        | Some _ => ret m Excl (CRes false None)
        | None => new_elt m k v (ret m Excl (CRes true None)) (ret m Excl CThrow)
        end))
  | CAssign k v =>   (* insert_or_assign_impl (4675-4686) *)
      CLock m Excl (find_in m k (fun r =>
        match r with
        | Some p => wr m (void (fun t => assign_at t p v)) (fun _ => ret m Excl (CRes false None)) CFail
        | None => new_elt m k v (ret m Excl (CRes true None)) (ret m Excl CThrow)
        end))
  | CTryL k f v =>   (* try_emplace_l (4621-4639), lazy_emplace_l (3943-3969) without auxiliary container *)
      CLock m Excl (find_in m k (fun r =>
        match r with
        | Some p => see m p (fun e => wr m (void (fun t => assign_at t p (f (snd e)))) (fun _ => ret m Excl (CRes false (Some (snd e)))) CFail)
        | None => new_elt m k v (ret m Excl (CRes true None)) (ret m Excl CThrow)
        end))
  | CIf k =>   (* if_contains (3861-3863, 3889-3901) *)
      CLock m smode (find_in m k (fun r =>
        match r with
        | Some p => see m p (fun e => ret m smode (CRes true (Some (snd e))))
        | None => ret m smode (CRes false None)
        end))
  | CModify k f =>   (* modify_if (3883-3901) *)
      CLock m Excl (find_in m k (fun r =>
        match r with
        | Some p => see m p (fun e => wr m (void (fun t => assign_at t p (f (snd e)))) (fun _ => ret m Excl (CRes true (Some (snd e)))) CFail)
        | None => ret m Excl (CRes false None)
        end))
  | CContains k =>   (* contains_impl (4226-4232) *)
      CLock m smode (find_in m k (fun r => ret m smode (CRes (match r with Some _ => true | None => false end) None)))
  | CErase k => erase_code k false (fun _ => true)   (* erase (4051-4054) *)
  | CEraseIf k p => erase_code k true p              (* erase_if (3908-3911) *)
  end.
End Code.
