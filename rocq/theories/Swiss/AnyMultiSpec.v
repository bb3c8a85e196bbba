(** What a user of several hash containers and node handles can rely on when the hash objects, the equality
    objects and operator== of the elements may answer anything.  The state is the list of the contents, in
    the order of a traversal, and the list of what the node handles hold.  Nothing here mentions control
    bytes, probing, capacities or hashes. *)
From stdpp Require Import list.
From Verif.Swiss Require Import AnyHashSpec.
Local Open Scope nat_scope.

Inductive mcall (K V : Type) :=
| MOn (r : nat) (o : call K V)            (* one of the calls on one container *)
| MMerge (d s : nat)                      (* d.merge(s) *)
| MSwap (a b : nat)                       (* swap(a, b) *)
| MMove (d s : nat)                       (* d = std::move(s) *)
| MCopy (d s : nat)                       (* d = s *)
| MEqual (a b : nat)                      (* a == b *)
| MEraseIf (r : nat) (p : nat -> K * V -> bool)  (* erase_if(r, p); [p j e] is the answer of the (j+1)-th call *)
| MExtract (r : nat) (k : K) (m : nat)    (* node m = r.extract(k) *)
| MExtractNth (r j m : nat)               (* node m = r.extract(it), it designating the j-th element *)
| MInsertNode (r m : nat).                (* node m goes to r.insert(std::move(m)), and what comes back to m *)
Arguments MOn {K V} r o.  Arguments MMerge {K V} d s.  Arguments MSwap {K V} a b.  Arguments MMove {K V} d s.
Arguments MCopy {K V} d s.  Arguments MEqual {K V} a b.  Arguments MEraseIf {K V} r p.
Arguments MExtract {K V} r k m.  Arguments MExtractNth {K V} r j m.  Arguments MInsertNode {K V} r m.

Inductive manswer (K V : Type) :=
| RCall (a : answer K V)
| RUnit
| RBool (b : bool)
| RCount (n : nat)
| RNode (full : bool)
| RInserted (inserted : bool) (at_ : option (K * V))   (* the element the returned iterator designates, unless end() *)
| RThrow.                                               (* std::bad_alloc *)
Arguments RCall {K V} a.  Arguments RUnit {K V}.  Arguments RBool {K V} b.  Arguments RCount {K V} n.
Arguments RNode {K V} full.  Arguments RInserted {K V} inserted at_.  Arguments RThrow {K V}.

Section Spec.
Context {K V : Type}.
Notation elt := (K * V)%type.

(** [l] is made of [a] and [b], both in their order in [l] *)
Inductive parted : list elt -> list elt -> list elt -> Prop :=
| parted_nil : parted [] [] []
| parted_left x l a b : parted l a b -> parted (x :: l) (x :: a) b
| parted_right x l a b : parted l a b -> parted (x :: l) a (x :: b).
(** what a predicate leaves that is asked for each element once, in order *)
Fixpoint left_by (p : nat -> elt -> bool) (j : nat) (l : list elt) : list elt :=
  match l with [] => [] | e :: l' => (if p j e then [] else [e]) ++ left_by p (S j) l' end.

Definition state : Type := list (list elt) * list (option elt).

(** [said a b] when the equality object answered, during the call, that [a] equals [b]; [same x y] when
    operator== did for two elements. *)
Definition mlegal (said : K -> K -> Prop) (same : elt -> elt -> Prop) (w : state) (o : mcall K V) (r : manswer K V) (w' : state) : Prop :=
  let '(cs, ns) := w in let '(cs', ns') := w' in
  match o with
  | MOn i o => exists c a c', cs !! i = Some c /\ r = RCall a /\ legal said c o a c' /\ cs' = <[i := c']> cs /\ ns' = ns
  | MMerge d s => exists cd csrc gone kept cd',
      cs !! d = Some cd /\ cs !! s = Some csrc /\ parted csrc gone kept /\ cd' ≡ₚ gone ++ cd /\
      cs' = <[s := kept]> (<[d := cd']> cs) /\ ns' = ns /\
      (r = RThrow \/ r = RUnit /\ forall e, In e kept -> exists x, In x cd' /\ said (fst e) (fst x))
  | MSwap a b => exists ca cb, cs !! a = Some ca /\ cs !! b = Some cb /\ r = RUnit /\ cs' = <[b := ca]> (<[a := cb]> cs) /\ ns' = ns
  | MMove d s => exists c, cs !! s = Some c /\ r = RUnit /\ cs' = <[s := []]> (<[d := c]> cs) /\ ns' = ns
  | MCopy d s => exists c, cs !! s = Some c /\ ns' = ns /\
      ((r = RUnit /\ exists c', c' ≡ₚ c /\ cs' = <[d := c']> cs) \/ (r = RThrow /\ cs' = cs))
  | MEqual a b => exists ca cb ans, cs !! a = Some ca /\ cs !! b = Some cb /\ cs' = cs /\ ns' = ns /\ r = RBool ans /\
      (ans = true -> length ca = length cb /\
         ((forall x, In x ca -> exists y, In y cb /\ same y x) \/ (forall x, In x cb -> exists y, In y ca /\ same y x)))
  | MEraseIf i p => exists c, cs !! i = Some c /\ cs' = <[i := left_by p 0 c]> cs /\ ns' = ns /\
      r = RCount (length c - length (left_by p 0 c))
  | MExtract i k m => exists c, cs !! i = Some c /\
      ((r = RNode false /\ cs' = cs /\ ns' = <[m := None]> ns) \/
       (exists l1 e l2, c = l1 ++ e :: l2 /\ said k (fst e) /\ r = RNode true /\ cs' = <[i := l1 ++ l2]> cs /\ ns' = <[m := Some e]> ns))
  | MExtractNth i j m => exists l1 e l2, cs !! i = Some (l1 ++ e :: l2) /\ length l1 = j /\ r = RNode true /\
      cs' = <[i := l1 ++ l2]> cs /\ ns' = <[m := Some e]> ns
  | MInsertNode i m => exists c, cs !! i = Some c /\
      ((ns !! m = Some None /\ r = RInserted false None /\ cs' = cs /\ ns' = ns) \/
       (exists e, ns !! m = Some (Some e) /\
          ((r = RInserted true (Some e) /\ exists c', c' ≡ₚ e :: c /\ cs' = <[i := c']> cs /\ ns' = <[m := None]> ns) \/
           (exists x, r = RInserted false (Some x) /\ In x c /\ said (fst e) (fst x) /\ cs' = cs /\ ns' = ns) \/
           (r = RThrow /\ cs' = cs /\ ns' = ns))))
  end.
(** the containers and nodes exist, iterators designate elements, a container is not merged into itself or
    move-assigned to itself *)
Definition musable (w : state) (o : mcall K V) : Prop :=
  let '(cs, ns) := w in
  match o with
  | MOn i o => exists c, cs !! i = Some c /\ usable c o
  | MMerge d s | MMove d s => d <> s /\ d < length cs /\ s < length cs
  | MSwap a b | MCopy a b | MEqual a b => a < length cs /\ b < length cs
  | MEraseIf i _ => i < length cs
  | MExtract i _ m | MInsertNode i m => i < length cs /\ m < length ns
  | MExtractNth i j m => (exists c, cs !! i = Some c /\ j < length c) /\ m < length ns
  end.

(** Calls that only move elements about: what is overwritten is empty. *)
Definition moves_only (w : state) (o : mcall K V) : Prop :=
  match o with
  | MMerge _ _ | MSwap _ _ | MEqual _ _ | MInsertNode _ _ => True
  | MMove d _ => fst w !! d = Some []
  | MExtract _ _ m | MExtractNth _ _ m => snd w !! m = Some None
  | MOn _ (CFind _) | MOn _ (CRehash _) | MOn _ (CReserve _) | MOn _ CCopy | MOn _ CSize | MOn _ CTraverse => True
  | _ => False
  end.
(** all elements, in containers and in nodes *)
Definition everything (w : state) : list elt := concat (fst w) ++ omap id (snd w).
End Spec.
