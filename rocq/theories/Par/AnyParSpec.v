(** What one thread that uses several parallel hash containers and node handles can rely on when the hash
    objects, the equality objects and operator== of the elements may answer anything.  The state is that of
    [AnyMultiSpec]: contents in the order of a traversal, and nodes.  The calls differ from those of the other
    hash containers only where submaps show through: what a call that threw has already done, what
    operator== compares, and the count erase answers under a read-write lock. *)
From stdpp Require Import list.
From Verif.Swiss Require Import AnyHashSpec AnyMultiSpec.
Local Open Scope nat_scope.

Section Spec.
Context {K V : Type} (rw : bool).
Notation elt := (K * V)%type.

(** [rw] when the mutex can be locked shared, so that erase looks a second time after it has locked again *)
Definition plegal1 (said : K -> K -> Prop) (c : list elt) (o : call K V) (r : answer K V) (c' : list elt) : Prop :=
  match o with
  | CErase k =>
      legal said c o r c' \/
      (rw = true /\ r = ACount 1 /\ c' = c /\ exists e, In e c /\ said k (fst e))
  | CRehash _ | CReserve _ => (r = AUnit \/ r = AThrow) /\ c' ≡ₚ c
  | _ => legal said c o r c'
  end.
Definition plegal (said : K -> K -> Prop) (same : elt -> elt -> Prop) (w : state) (o : mcall K V) (r : manswer K V) (w' : state) : Prop :=
  let '(cs, ns) := w in let '(cs', ns') := w' in
  match o with
  | MOn i o => exists c a c', cs !! i = Some c /\ r = RCall a /\ plegal1 said c o a c' /\ cs' = <[i := c']> cs /\ ns' = ns
  (* a copy that throws leaves a copy of the beginning of the source and the end of what was there *)
  | MCopy d s => exists cd csrc, cs !! d = Some cd /\ cs !! s = Some csrc /\ ns' = ns /\
      ((r = RUnit /\ exists c', c' ≡ₚ csrc /\ cs' = <[d := c']> cs) \/
       (r = RThrow /\ exists s1 s2 d1 d2 c1, csrc = s1 ++ s2 /\ cd = d1 ++ d2 /\ c1 ≡ₚ s1 /\ cs' = <[d := c1 ++ d2]> cs))
  (* the parts of the two containers are compared one by one *)
  | MEqual a b => exists ca cb ans, cs !! a = Some ca /\ cs !! b = Some cb /\ cs' = cs /\ ns' = ns /\ r = RBool ans /\
      (ans = true -> exists cas cbs, ca = concat cas /\ cb = concat cbs /\
         Forall2 (fun x y : list elt => length x = length y /\
           ((forall u, In u x -> exists v, In v y /\ same v u) \/ (forall u, In u y -> exists v, In v x /\ same v u))) cas cbs)
  | _ => mlegal said same w o r w'
  end.
End Spec.
