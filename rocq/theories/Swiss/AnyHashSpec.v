(** What a user of a hash table can rely on when the hash and equality objects may answer anything.
    The content is the list of elements in the order a traversal gives them.  Nothing here mentions control
    bytes, probing, capacities or hashes. *)
From Coq Require Import List NArith Permutation.
Import ListNotations.

Inductive call (K V : Type) :=
| CEmplace (k : K) (v : V)      (* insert / emplace / try_emplace *)
| CAssign (k : K) (v : V)       (* insert_or_assign *)
| CFind (k : K)                 (* find, contains, count *)
| CErase (k : K)                (* erase(key) *)
| CEraseNth (j : nat)           (* erase(it), it designating the j-th element of the traversal *)
| CClear
| CRehash (n : N)
| CReserve (n : N)
| CCopy                         (* go on with a copy of the container *)
| CSize
| CTraverse.
Arguments CEmplace {K V} k v.  Arguments CAssign {K V} k v.  Arguments CFind {K V} k.
Arguments CErase {K V} k.  Arguments CEraseNth {K V} j.  Arguments CClear {K V}.  Arguments CRehash {K V} n.
Arguments CReserve {K V} n.  Arguments CCopy {K V}.  Arguments CSize {K V}.  Arguments CTraverse {K V}.

Inductive answer (K V : Type) :=
| AInserted (inserted : bool) (e : K * V)   (* the bool, and the element the returned iterator designates *)
| AFound (e : option (K * V))
| ACount (n : nat)
| AUnit
| AElems (l : list (K * V))
| AThrow.                                   (* std::bad_alloc *)
Arguments AInserted {K V} inserted e.  Arguments AFound {K V} e.  Arguments ACount {K V} n.
Arguments AUnit {K V}.  Arguments AElems {K V} l.  Arguments AThrow {K V}.

Section Spec.
Context {K V : Type}.
Notation elt := (K * V)%type.

(** [legal said c o r c']: call [o] on the content [c] may answer [r] and leave the content [c'];
    [said a b] when the equality object answered, during the call, that [a] equals [b]. *)
Definition legal (said : K -> K -> Prop) (c : list elt) (o : call K V) (r : answer K V) (c' : list elt) : Prop :=
  match o with
  | CEmplace k v =>
      (r = AInserted true (k, v) /\ Permutation c' ((k, v) :: c)) \/
      (exists e, r = AInserted false e /\ In e c /\ said k (fst e) /\ c' = c) \/
      (r = AThrow /\ c' = c)
  | CAssign k v =>
      (r = AInserted true (k, v) /\ Permutation c' ((k, v) :: c)) \/
      (exists l1 e l2, c = l1 ++ e :: l2 /\ said k (fst e) /\
         r = AInserted false (fst e, v) /\ c' = l1 ++ (fst e, v) :: l2) \/
      (r = AThrow /\ c' = c)
  | CFind k => c' = c /\ (r = AFound None \/ exists e, r = AFound (Some e) /\ In e c /\ said k (fst e))
  | CErase k =>
      (r = ACount 0 /\ c' = c) \/
      (r = ACount 1 /\ exists l1 e l2, c = l1 ++ e :: l2 /\ said k (fst e) /\ c' = l1 ++ l2)
  | CEraseNth j => r = AUnit /\ exists l1 e l2, c = l1 ++ e :: l2 /\ length l1 = j /\ c' = l1 ++ l2
  | CClear => r = AUnit /\ c' = []
  | CRehash _ | CReserve _ | CCopy => (r = AUnit /\ Permutation c' c) \/ (r = AThrow /\ c' = c)
  | CSize => r = ACount (length c) /\ c' = c
  | CTraverse => r = AElems c /\ c' = c
  end.
(** an iterator passed to erase designates an element *)
Definition usable (c : list elt) (o : call K V) : Prop :=
  match o with CEraseNth j => j < length c | _ => True end.
End Spec.
