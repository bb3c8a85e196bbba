(** What a user of several node containers relies on about addresses.  An element in an answer comes with the address
    of its node: (key, (address, value)). *)
From Coq Require Import List NArith Bool Arith.
From Verif.Swiss Require Import MapSpec MultiSpec Node.
Import ListNotations.

Section NodeSpec.
Context {K V : Type} (eqb : K -> K -> bool).

(** the same program on flat maps, and the answers without the addresses *)
Definition flat (o : nop K V) : mop K V := match o with NOp o => o | NArgs i k v => MOne i (OEmplace k v) end.
Definition strip (y : K * (nat * V)) : K * V := (fst y, snd (snd y)).
Definition plain_out (r : out K (nat * V)) : out K V :=
  match r with
  | RInserted b y => RInserted b (strip y)
  | RFound y => RFound (option_map strip y)
  | RErased y => RErased (option_map strip y)
  | RUnit => RUnit | RSize n => RSize n | RElems ys => RElems (map strip ys) | RThrow => RThrow
  end.
Definition plain (r : mout K (nat * V)) : mout K V :=
  match r with
  | MR r => MR (plain_out r) | MDone => MDone | MThrew => MThrew | MBool b => MBool b
  | MNode y => MNode (option_map strip y)
  | MErased n ys => MErased n (map strip ys)
  end.

(** Where an element [e] that is at [pl] is after the call [o] answered [r]; [None]: it was destroyed.
    Insertions, rehash, reserve, lookups and traversals leave every element where it is. *)
Inductive place := InMap (i : nat) | InHandle (n : nat).
Definition goes (o : nop K V) (e : K * V) (r : mout K (nat * V)) (pl : place) (pl' : option place) : Prop :=
  match o, pl with
  | NOp (MOne i' (OErase k')), InMap i => pl' = if (i =? i') && eqb k' (fst e) then None else Some pl
  | NOp (MOne i' OClear), InMap i => pl' = if i =? i' then None else Some pl
  | NOp (MCopy i' _), InMap i => pl' = if (i =? i') && (match r with MDone => true | _ => false end) then None else Some pl
  | NOp (MMove i' j), InMap i =>
      pl' = if i' =? j then Some pl else if i =? j then Some (InMap i') else if i =? i' then None else Some pl
  | NOp (MSwap i' j), InMap i => pl' = if i =? i' then Some (InMap j) else if i =? j then Some (InMap i') else Some pl
  | NOp (MMerge i' j), InMap i => pl' = Some pl \/ (i = j /\ pl' = Some (InMap i'))
  | NOp (MExtract i' k' n), InMap i => pl' = if (i =? i') && eqb k' (fst e) then Some (InHandle n) else Some pl
  | NOp (MExtract _ _ n), InHandle m => pl' = if m =? n then None else Some pl
  | NOp (MInsertNode i' n), InHandle m =>
      pl' = if (m =? n) && (match r with MBool b => b | _ => false end) then Some (InMap i') else Some pl
  | NOp (MEraseIf i' p), InMap i => pl' = if (i =? i') && p e then None else Some pl
  | _, _ => pl' = Some pl
  end.
(** the only call that changes an element is insert_or_assign of its key *)
Definition becomes (o : nop K V) (e : K * V) (pl : place) : K * V :=
  match o, pl with
  | NOp (MOne i' (OAssign k' v)), InMap i => if (i =? i') && eqb k' (fst e) then (fst e, v) else e
  | _, _ => e
  end.
(** the nodes nobody can reach any more: one for each emplace of an element built first that threw *)
Fixpoint lost (os : list (nop K V)) (rs : list (mout K (nat * V))) : nat :=
  match os, rs with
  | NArgs _ _ _ :: os', MR RThrow :: rs' => S (lost os' rs')
  | _ :: os', _ :: rs' => lost os' rs'
  | _, _ => 0
  end.
End NodeSpec.
