(** What a user of a hash map sees: an association list with pairwise different keys, and the outcomes each
    operation may have on it.  Nothing here mentions control bytes, probing or capacities. *)
From Coq Require Import List NArith Bool Permutation.
Import ListNotations.

Inductive op (K V : Type) :=
| OEmplace (k : K) (v : V)      (* insert / emplace / try_emplace / operator[] with the default value *)
| OAssign (k : K) (v : V)       (* insert_or_assign *)
| OFind (k : K)                 (* find, contains, count, at *)
| OErase (k : K)                (* erase(key), extract(key) *)
| OClear
| ORehash (n : N)
| OReserve (n : N)
| OSize
| OTraverse.                    (* for (auto& e : map) *)
Arguments OEmplace {K V} k v.  Arguments OAssign {K V} k v.  Arguments OFind {K V} k.
Arguments OErase {K V} k.  Arguments OClear {K V}.  Arguments ORehash {K V} n.
Arguments OReserve {K V} n.  Arguments OSize {K V}.  Arguments OTraverse {K V}.

(** What the caller observes. *)
Inductive out (K V : Type) :=
| RInserted (inserted : bool) (e : K * V)   (* the bool, and the element the returned iterator designates *)
| RFound (e : option (K * V))
| RErased (e : option (K * V))              (* the element removed, if any *)
| RUnit
| RSize (n : nat)
| RElems (l : list (K * V))
| RThrow.                                   (* std::bad_alloc *)
Arguments RInserted {K V} inserted e.  Arguments RFound {K V} e.  Arguments RErased {K V} e.
Arguments RUnit {K V}.  Arguments RSize {K V} n.  Arguments RElems {K V} l.  Arguments RThrow {K V}.

Section MapSpec.
Context {K V : Type} (eqb : K -> K -> bool).

Fixpoint s_find (m : list (K * V)) (k : K) : option (K * V) :=
  match m with
  | [] => None
  | e :: m' => if eqb k (fst e) then Some e else s_find m' k
  end.
Definition s_erase (m : list (K * V)) (k : K) : list (K * V) := filter (fun e => negb (eqb k (fst e))) m.
Definition s_update (m : list (K * V)) (k : K) (v : V) : list (K * V) :=
  map (fun e => if eqb k (fst e) then (fst e, v) else e) m.

(** [s_step m o r m']: operation [o] on the map [m] may answer [r] and leave the map [m'].
    Only operations that may have to allocate may answer [RThrow], and then the map is unchanged. *)
Definition s_step (m : list (K * V)) (o : op K V) (r : out K V) (m' : list (K * V)) : Prop :=
  match o with
  | OEmplace k v =>
      match s_find m k with
      | Some e => r = RInserted false e /\ m' = m
      | None => (r = RInserted true (k, v) /\ m' = (k, v) :: m) \/ (r = RThrow /\ m' = m)
      end
  | OAssign k v =>
      match s_find m k with
      | Some e => r = RInserted false (fst e, v) /\ m' = s_update m k v
      | None => (r = RInserted true (k, v) /\ m' = (k, v) :: m) \/ (r = RThrow /\ m' = m)
      end
  | OFind k => r = RFound (s_find m k) /\ m' = m
  | OErase k => r = RErased (s_find m k) /\ m' = s_erase m k
  | OClear => r = RUnit /\ m' = []
  | ORehash _ | OReserve _ => (r = RUnit \/ r = RThrow) /\ m' = m
  | OSize => r = RSize (length m) /\ m' = m
  | OTraverse => (exists l, r = RElems l /\ Permutation l m) /\ m' = m
  end.

Inductive s_run : list (K * V) -> list (op K V) -> list (out K V) -> list (K * V) -> Prop :=
| s_run_nil m : s_run m [] [] m
| s_run_cons m o r m1 os rs m2 : s_step m o r m1 -> s_run m1 os rs m2 -> s_run m (o :: os) (r :: rs) m2.
End MapSpec.
