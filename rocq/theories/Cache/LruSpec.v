(** What a user sees of lru_cache and memoize_lru: a list of entries, most recently used first. *)
From Coq Require Import List Arith Bool.
From Verif.Swiss Require Import MapSpec.
From Verif.Cache Require Import Lru.
Import ListNotations.

Section LruSpec.
Context {K V : Type} (eqb : K -> K -> bool) (sub : K -> nat).   (* sub k: the submap that k belongs to *)
Notation entries := (list (K * V)).
Definition part (i : nat) (m : entries) : entries := filter (fun e => sub (fst e) =? i) m.
(** removes the last entry that belongs to submap i *)
Fixpoint evict (i : nat) (m : entries) : entries :=
  match m with
  | [] => []
  | e :: m' => if (sub (fst e) =? i) && (length (part i m') =? 0) then m' else e :: evict i m'
  end.
(** a new entry in front; then the oldest of its submap goes if there are more than [cap] *)
Definition put_new (cap : nat) (m : entries) (k : K) (v : V) : entries :=
  let m1 := (k, v) :: m in if cap <? length (part (sub k) m1) then evict (sub k) m1 else m1.

(** [max]: entries per submap *)
Definition l_step (f : K -> V) (max : nat) (m : entries) (o : lop K V) (r : lout V) (m' : entries) : Prop :=
  match o with
  | LGet k =>
      match s_find eqb m k with
      | Some e => r = LVal (Some (snd e)) /\ m' = e :: s_erase eqb m k
      | None => r = LVal None /\ m' = m
      end
  | LInsert k v =>
      match s_find eqb m k with
      | Some e => r = LUnit /\ m' = (fst e, v) :: s_erase eqb m k
      | None => (r = LUnit /\ m' = put_new max m k v) \/ (r = LThrow /\ m' = m)
      end
  | LExists k => r = LBool (match s_find eqb m k with Some _ => true | None => false end) /\ m' = m
  | LCall k =>
      match s_find eqb m k with
      | Some e => r = LResult (snd e) false /\ m' = e :: s_erase eqb m k
      | None => (r = LResult (f k) true /\ m' = put_new (max - 1) m k (f k)) \/ (r = LThrow /\ m' = m)
      end
  | LContains k => r = LVal (option_map snd (s_find eqb m k)) /\ m' = m
  | LSetSize _ => r = LUnit /\ m' = m
  | LSize => r = LNum (length m) /\ m' = m
  | LReserve _ => (r = LUnit \/ r = LThrow) /\ m' = m
  end.
Definition l_max (num max : nat) (o : lop K V) : nat := match o with LSetSize n => n / num | _ => max end.

(** histories: calls with what they returned, oldest first *)
Notation call := (lop K V * lout V)%type.
Inductive l_run (f : K -> V) (num : nat) : nat -> entries -> list call -> nat -> entries -> Prop :=
| l_run_nil max m : l_run f num max m [] max m
| l_run_snoc max m h max1 m1 o r m2 : l_run f num max m h max1 m1 -> l_step f max1 m1 o r m2 ->
    l_run f num max m (h ++ [(o, r)]) (l_max num max1 o) m2.

(** the call used k: a successful get, an insert, a call of the memoized function *)
Definition uses (c : call) (k : K) : bool :=
  match c with
  | (LGet k', LVal (Some _)) | (LInsert k' _, LUnit) | (LCall k', LResult _ _) => eqb k k'
  | _ => false
  end.
(** the call made v the value of k *)
Definition sets (c : call) (k : K) : option V :=
  match c with
  | (LInsert k' v, LUnit) | (LCall k', LResult v true) => if eqb k k' then Some v else None
  | _ => None
  end.
(** y was used, and x not since *)
Definition used_after (h : list call) (x y : K) : Prop :=
  exists h1 c h2, h = h1 ++ c :: h2 /\ uses c y = true /\ uses c x = false /\ forall c', In c' h2 -> uses c' x = false.
(** v is the value most recently given to k *)
Definition latest (h : list call) (k : K) (v : V) : Prop :=
  exists h1 c h2, h = h1 ++ c :: h2 /\ sets c k = Some v /\ forall c', In c' h2 -> sets c' k = None.
(** the cache size was not set *)
Definition fixed_size (h : list call) : Prop := forall c, In c h -> match fst c with LSetSize _ => False | _ => True end.
End LruSpec.
