(** Searching the keys of one node (include/gtl/btree.hpp, 1006-1133).  [three] is is_key_compare_to: the comparator
    returns an ordering and not a bool.  [linear] is use_linear_search, [multi] is is_multi_container. *)
From stdpp Require Import list.
From Coq Require Import Arith Lia.
Local Open Scope nat_scope.

Section Search.
Context {K : Type} (lt : K -> K -> bool).
(** a comparator that returns an ordering, and do_three_way_comparison (503-518) *)
Definition cmp3 (a b : K) : comparison := if lt a b then Lt else if lt b a then Gt else Eq.
(* linear_search_impl with a bool (1036-1050); comp is key_comp or upper_bound_adapter *)
Fixpoint linear_bool (comp : K -> K -> bool) (k : K) (ks : list K) : nat :=
  match ks with [] => 0 | x :: ks' => if comp x k then S (linear_bool comp k ks') else 0 end.
(* with an ordering (1055-1069) *)
Fixpoint linear_three (k : K) (ks : list K) : nat * bool :=
  match ks with
  | [] => (0, false)
  | x :: ks' => match cmp3 x k with
                | Eq => (0, true)
                | Gt => (0, false)
                | Lt => let '(i, e) := linear_three k ks' in (S i, e)
                end
  end.
(* binary_search_impl with a bool (1075-1090); fuel: e - s.  key(mid) is read inside the node: [None] is past its keys *)
Fixpoint binary_bool (comp : K -> K -> bool) (k : K) (ks : list K) (fuel s e : nat) : nat :=
  match fuel with
  | O => s
  | S fuel' => if s =? e then s
               else let mid := (s + e) / 2 in
                    match ks !! mid with
                    | Some x => if comp x k then binary_bool comp k ks fuel' (mid + 1) e else binary_bool comp k ks fuel' s mid
                    | None => s
                    end
  end.
(* with an ordering (1096-1133) *)
Fixpoint binary_three (multi : bool) (k : K) (ks : list K) (fuel s e : nat) (exact : bool) : nat * bool :=
  match fuel with
  | O => (s, exact)
  | S fuel' => if s =? e then (s, exact)
               else let mid := (s + e) / 2 in
                    match ks !! mid with
                    | Some x => match cmp3 x k with
                                | Lt => binary_three multi k ks fuel' (mid + 1) e exact
                                | Gt => binary_three multi k ks fuel' s mid exact
                                | Eq => if multi then binary_three multi k ks fuel' s mid true else (mid, true)
                                end
                    | None => (s, exact)
                    end
  end.
Record mode := mkMode { three : bool; linear : bool; multi : bool }.
Context (m : mode).
(* lower_bound (1008-1011): the position and whether it is known to be an exact match *)
Definition node_lower (k : K) (ks : list K) : nat * bool :=
  match three m, linear m with
  | false, true => (linear_bool lt k ks, false)
  | false, false => (binary_bool lt k ks (length ks) 0 (length ks), false)
  | true, true => linear_three k ks
  | true, false => binary_three (multi m) k ks (length ks) 0 (length ks) false
  end.
(* upper_bound_adapter (768-779) *)
Definition upper_adapter (a b : K) : bool := negb (lt b a).
(* upper_bound (1014-1018) *)
Definition node_upper (k : K) (ks : list K) : nat * bool :=
  (if linear m then linear_bool upper_adapter k ks else binary_bool upper_adapter k ks (length ks) 0 (length ks), false).
End Search.
