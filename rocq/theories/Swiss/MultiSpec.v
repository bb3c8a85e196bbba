(** What a user sees of several hash maps used together: a list of association lists (the maps) and a list of
    node handles, each empty or holding one element. *)
From Coq Require Import List NArith Bool Permutation.
From Verif.Swiss Require Import MapSpec.
Import ListNotations.

Inductive mop (K V : Type) :=
| MOne (i : nat) (o : op K V)              (* an operation on one map *)
| MCopy (i j : nat)                        (* map i = map j (copy) *)
| MMove (i j : nat)                        (* map i = std::move(map j) *)
| MSwap (i j : nat)
| MMerge (i j : nat)                       (* map i .merge(map j) *)
| MExtract (i : nat) (k : K) (n : nat)     (* node n = map i .extract(k) *)
| MInsertNode (i n : nat)                  (* map i .insert(std::move(node n)) *)
| MEq (i j : nat)                          (* map i == map j *)
| MEraseIf (i : nat) (p : K * V -> bool).
Arguments MOne {K V} i o.  Arguments MCopy {K V} i j.  Arguments MMove {K V} i j.  Arguments MSwap {K V} i j.
Arguments MMerge {K V} i j.  Arguments MExtract {K V} i k n.  Arguments MInsertNode {K V} i n.
Arguments MEq {K V} i j.  Arguments MEraseIf {K V} i p.

Inductive mout (K V : Type) :=
| MR (r : out K V)
| MDone
| MThrew
| MBool (b : bool)
| MNode (n : option (K * V))               (* the node handle returned *)
| MErased (n : nat) (seen : list (K * V)). (* the count returned, and the elements the predicate was called on *)
Arguments MR {K V} r.  Arguments MDone {K V}.  Arguments MThrew {K V}.  Arguments MBool {K V} b.
Arguments MNode {K V} n.  Arguments MErased {K V} n seen.

Section MultiSpec.
Context {K V : Type} (eqb : K -> K -> bool) (eeq : K * V -> K * V -> bool).
Notation elt := (K * V)%type.

Fixpoint upd {A} (l : list A) (i : nat) (x : A) : list A :=
  match l, i with
  | [], _ => []
  | _ :: l', O => x :: l'
  | a :: l', S i' => a :: upd l' i' x
  end.
Definition mget (ms : list (list elt)) (i : nat) : list elt := nth i ms [].
Definition nget (ns : list (option elt)) (i : nat) : option elt := nth i ns None.
Definition has_key (m : list elt) (e : elt) : bool := match s_find eqb m (fst e) with Some _ => true | None => false end.
(** two maps hold the same associations *)
Definition same_assocs (m1 m2 : list elt) : Prop :=
  forall e, (exists x, In x m1 /\ eeq x e = true) <-> (exists x, In x m2 /\ eeq x e = true).

Definition state := (list (list elt) * list (option elt))%type.
Definition s_mstep (s : state) (o : mop K V) (r : mout K V) (s' : state) : Prop :=
  let '(ms, ns) := s in
  match o with
  | MOne i op => exists r0 m', r = MR r0 /\ s_step eqb (mget ms i) op r0 m' /\ s' = (upd ms i m', ns)
  | MCopy i j => (r = MDone /\ s' = (upd ms i (mget ms j), ns)) \/ (r = MThrew /\ s' = s)
  | MMove i j => r = MDone /\ s' = if Nat.eqb i j then s else (upd (upd ms i (mget ms j)) j [], ns)
  | MSwap i j => r = MDone /\ s' = (upd (upd ms i (mget ms j)) j (mget ms i), ns)
  | MMerge i j =>
      (* the elements of j whose key is absent from i move to i, the others stay in j *)
      (r = MDone /\ s' = (upd (upd ms i (filter (fun e => negb (has_key (mget ms i) e)) (mget ms j) ++ mget ms i))
                              j (filter (has_key (mget ms i)) (mget ms j)), ns)) \/
      (* out of memory: only some of them have moved, none is lost *)
      (r = MThrew /\ exists moved rest, Permutation (mget ms j) (moved ++ rest) /\
         (forall e, In e moved -> has_key (mget ms i) e = false) /\
         s' = (upd (upd ms i (moved ++ mget ms i)) j rest, ns))
  | MExtract i k n =>
      r = MNode (s_find eqb (mget ms i) k) /\
      s' = (upd ms i (s_erase eqb (mget ms i) k), upd ns n (s_find eqb (mget ms i) k))
  | MInsertNode i n =>
      match nget ns n with
      | None => r = MBool false /\ s' = s
      | Some e =>
          if has_key (mget ms i) e then r = MBool false /\ s' = s
          else (r = MBool true /\ s' = (upd ms i (e :: mget ms i), upd ns n None)) \/ (r = MThrew /\ s' = s)
      end
  | MEq i j => exists b, r = MBool b /\ s' = s /\ (b = true <-> same_assocs (mget ms i) (mget ms j))
  | MEraseIf i p =>
      exists seen, r = MErased (length (filter p (mget ms i))) seen /\ Permutation seen (mget ms i) /\
        s' = (upd ms i (filter (fun e => negb (p e)) (mget ms i)), ns)
  end.
Inductive s_mrun : state -> list (mop K V) -> list (mout K V) -> state -> Prop :=
| s_mrun_nil s : s_mrun s [] [] s
| s_mrun_cons s o r s1 os rs s2 : s_mstep s o r s1 -> s_mrun s1 os rs s2 -> s_mrun s (o :: os) (r :: rs) s2.
End MultiSpec.
