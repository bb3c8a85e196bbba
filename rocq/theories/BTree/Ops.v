(** The operations of btree (include/gtl/btree.hpp, 2298-3080), over the tree of Tree.v. *)
From stdpp Require Import list.
From Coq Require Import Arith Lia.
From Verif.Common Require Import Res.
From Verif.BTree Require Import Tree Search.
Local Open Scope nat_scope.
Local Open Scope res_scope.

(** root_, rightmost_ and leftmost are in the tree, size_ (1934-1941), and the max_count of the leaves *)
Record btree (V : Type) := mkBt { b_root : node V; b_size : nat; b_cap : nat }.
Arguments mkBt {V}. Arguments b_root {V}. Arguments b_size {V}. Arguments b_cap {V}.

Section Ops.
(** a value, its key (params_type::key), the order of the keys, kNodeValues and the kind of container *)
Context {V K : Type} (key : V -> K) (lt : K -> K -> bool) (kN : nat) (m : mode).
Implicit Types (b : btree V) (c d : cursor V) (v : V) (k : K).

Definition new_btree : btree V := mkBt Nil 0 0.                       (* (2340-2344) *)
Definition empty b : bool := b_size b =? 0.                           (* (1682) *)
(* the tree that an iterator points into *)
Definition root_of c : node V := close_all (c_path c) (c_sub c).
Definition is_first c : bool := match c_path c with f :: _ => m_first (f_mark f) | [] => true end.
Definition is_last c : bool := match c_path c with f :: _ => m_last (f_mark f) | [] => true end.
(* begin() (1521), end() (1523): leftmost and rightmost_ have to point to these leaves *)
Definition begin_ b : res (cursor V) := let c := go_left (b_root b) [] in if is_first c then Ok c else UB.
Definition end_ b : res (cursor V) := let* c := go_right (height (b_root b)) (b_root b) [] in if is_last c then Ok c else UB.

(** ** searching *)
(* the descents of internal_locate (2989-3026), internal_lower_bound (3030-3041) and internal_upper_bound (3044-3056);
   [stop]: return at an exact match *)
Fixpoint descend (fuel : nat) (stop : bool) (pick : list K -> nat * bool) (t : node V) (ps : list (frame V)) : res (cursor V * bool) :=
  match t with
  | Nil => Ok (mkCur ps Nil, false)
  | Node _ _ rest =>
      match fuel with
      | O => Loop
      | S fuel' =>
          let '(i, e) := pick (map (fun x => key (fst x)) rest) in
          let* (f, t') := child_at i t in
          if stop && e then Ok (mkCur (f :: ps) t', true) else descend fuel' stop pick t' (f :: ps)
      end
  end.
(* internal_last (2936-2949); None is the null node *)
Definition internal_last c : option (cursor V) := match c_path c with f :: ps => climb f (c_sub c) ps | [] => None end.
Definition internal_locate b k : res (cursor V * bool) := descend (height (b_root b)) (three m) (node_lower lt m k) (b_root b) [].
Definition internal_lower_bound b k : res (option (cursor V)) :=
  let* (c, _) := descend (height (b_root b)) false (node_lower lt m k) (b_root b) [] in Ok (internal_last c).
Definition internal_upper_bound b k : res (option (cursor V)) :=
  let* (c, _) := descend (height (b_root b)) false (node_upper lt m k) (b_root b) [] in Ok (internal_last c).
(* internal_find (3059-3071) *)
Definition internal_find b k : res (option (cursor V)) :=
  let* (c, e) := internal_locate b k in
  if three m then Ok (if e then Some c else None)
  else match internal_last c with
       | Some c' => let* v := value c' in Ok (if lt k (key v) then None else Some c')
       | None => Ok None
       end.
Definition internal_end b (o : option (cursor V)) : res (cursor V) := match o with Some c => Ok c | None => end_ b end.   (* (1842-1843) *)
Definition lower_bound b k := let* o := internal_lower_bound b k in internal_end b o.     (* (1532-1539) *)
Definition upper_bound b k := let* o := internal_upper_bound b k in internal_end b o.     (* (1543-1550) *)
Definition find b k := let* o := internal_find b k in internal_end b o.                   (* (1631-1638) *)

(* std::distance (for bidirectional iterators: ++ until equal) and std::next(begin(), i) *)
Fixpoint distance (fuel : nat) c d : res nat :=
  if same c d then Ok 0
  else match fuel with O => Loop | S fuel' => let* c' := next c in let* n := distance fuel' c' d in Ok (S n) end.
Fixpoint advance (i : nat) c : res (cursor V) := match i with O => Ok c | S i' => let* c' := next c in advance i' c' end.
(* count_unique (1642-1650), count_multi (1654-1658) *)
Definition count_unique b k : res nat := let* o := internal_find b k in Ok (match o with Some _ => 1 | None => 0 end).
Definition count_multi b k : res nat := let* c := lower_bound b k in let* d := upper_bound b k in distance (b_size b) c d.

(** ** insertion *)
(* internal_emplace (2951-2981) *)
Definition both : mark := mkMark true true.
Definition internal_emplace b c v : res (btree V * cursor V) :=
  let* c := (if leaf (c_sub c) then Ok c else let* c1 := prev c in shift c1) in
  match c_path c with
  | [] => UB                                                          (* EmptyNode *)
  | f :: ps =>
      let* (cap, fs) :=
        (if count f =? b_cap b then
           if b_cap b <? kN
           then match ps with [] => Ok (Nat.min kN (2 * b_cap b), [mkFrame both (f_l f) (f_r f)]) | _ :: _ => UB end
           else let* fs := rebalance_or_split kN true f ps in Ok (b_cap b, fs)
         else Ok (b_cap b, f :: ps)) in
      match fs with
      | f' :: ps' =>
          if count f' <? cap then                                     (* emplace_value (1946-1968) *)
            let c' := mkCur (mkFrame (f_mark f') (f_l f') ((v, Nil) :: f_r f') :: ps') Nil in
            Ok (mkBt (root_of c') (S (b_size b)) cap, c')
          else UB
      | [] => UB
      end
  end.
(* "if (empty()) mutable_root() = rightmost_ = new_leaf_root_node(1)" (2364-2366, 2426-2428) *)
Definition with_root b : btree V := if empty b then mkBt (Node both Nil []) 0 1 else b.
(* insert_unique (2361-2385) *)
Definition insert_unique b v : res (btree V * cursor V * bool) :=
  let k := key v in
  let b := with_root b in
  let* (c, e) := internal_locate b k in
  let* found := (if three m then Ok (if e then Some c else None)
                 else match internal_last c with
                      | Some c' => let* w := value c' in Ok (if lt k (key w) then None else Some c')
                      | None => Ok None
                      end) in
  match found with
  | Some c' => Ok (b, c', false)
  | None => let* (b', c') := internal_emplace b c v in Ok (b', c', true)
  end.
(* insert_hint_unique (2387-2413) *)
Definition insert_hint_unique b c v : res (btree V * cursor V * bool) :=
  let k := key v in
  if empty b then insert_unique b v
  else
    let* e := end_ b in
    let* before := (if same c e then Ok true else let* w := value c in Ok (lt k (key w))) in
    if before then
      let* g := begin_ b in
      let* fits := (if same c g then Ok true else let* p := prev c in let* w := value p in Ok (lt (key w) k)) in
      if fits then let* (b', c') := internal_emplace b c v in Ok (b', c', true) else insert_unique b v
    else
      let* w := value c in
      if lt (key w) k then
        let* c1 := next c in
        let* fits := (if same c1 e then Ok true else let* w := value c1 in Ok (lt k (key w))) in
        if fits then let* (b', c') := internal_emplace b c1 v in Ok (b', c', true) else insert_unique b v
      else Ok (b, c, false).
(* insert_multi (2423-2435) *)
Definition insert_multi b v : res (btree V * cursor V) :=
  let b := with_root b in
  let* o := internal_upper_bound b (key v) in
  let* c := internal_end b o in
  internal_emplace b c v.
(* insert_hint_multi (2437-2460) *)
Definition insert_hint_multi b c v : res (btree V * cursor V) :=
  let k := key v in
  if empty b then insert_multi b v
  else
    let* e := end_ b in
    let* before := (if same c e then Ok true else let* w := value c in Ok (negb (lt (key w) k))) in
    if before then
      let* g := begin_ b in
      let* fits := (if same c g then Ok true else let* p := prev c in let* w := value p in Ok (negb (lt k (key w)))) in
      if fits then internal_emplace b c v else insert_multi b v
    else
      let* c1 := next c in
      let* fits := (if same c1 e then Ok true else let* w := value c1 in Ok (negb (lt (key w) k))) in
      if fits then internal_emplace b c1 v else insert_multi b v.
(* insert_iterator_unique (2415-2421), insert_iterator_multi (2462-2468), of values that are outside the container *)
Fixpoint insert_iterator_unique b (vs : list V) : res (btree V) :=
  match vs with
  | [] => Ok b
  | v :: vs' => let* e := end_ b in let* (b', _, _) := insert_hint_unique b e v in insert_iterator_unique b' vs'
  end.
Fixpoint insert_iterator_multi b (vs : list V) : res (btree V) :=
  match vs with
  | [] => Ok b
  | v :: vs' => let* e := end_ b in let* (b', _) := insert_hint_multi b e v in insert_iterator_multi b' vs'
  end.
(* writing through an iterator: the mapped part of a map's value *)
Definition assign b c v : res (btree V * cursor V) :=
  match c_path c with
  | f :: ps => match f_r f with
               | (_, t) :: r => let c' := mkCur (mkFrame (f_mark f) (f_l f) ((v, t) :: r) :: ps) (c_sub c) in
                                Ok (mkBt (root_of c') (b_size b) (b_cap b), c')
               | [] => UB
               end
  | [] => UB
  end.

(** ** erasing *)
Definition clear : btree V := new_btree.                              (* (2702-2709) *)
(* remove_value of a leaf (1970-1981) and remove_values_ignore_children (1983-1988): n values at the position *)
Definition remove_values (n : nat) c : res (cursor V) :=
  match c_path c with
  | f :: ps => if n <=? length (f_r f) then Ok (mkCur (mkFrame (f_mark f) (f_l f) (drop n (f_r f)) :: ps) (c_sub c)) else UB
  | [] => UB
  end.
Definition after_delete b (n : nat) c : res (btree V * cursor V) :=
  let* c' := rebalance_after_delete kN c in Ok (mkBt (root_of c') (b_size b - n) (b_cap b), c').
(* erase(iterator) (2515-2552).  In an internal node the value of the predecessor is moved into the slot *)
Definition erase b c : res (btree V * cursor V) :=
  if leaf (c_sub c) then let* c1 := remove_values 1 c in after_delete b 1 c1
  else match c_path c with
       | f :: ps =>
           match f_r f with
           | (_, t) :: r =>
               let* c1 := prev c in
               let* pv := value c1 in
               let* c2 := prev (mkCur (mkFrame (f_mark f) (f_l f) ((pv, t) :: r) :: ps) (c_sub c)) in
               let* c3 := remove_values 1 c2 in
               let* (b', c4) := after_delete b 1 c3 in
               let* c5 := next c4 in
               Ok (b', c5)
           | [] => UB
           end
       | [] => UB
       end.
(* the loop of erase(begin, end) (2616-2625), with erase_from_leaf_node (2660-2672); [n]: size_ - target_size *)
Fixpoint erase_loop (fuel : nat) b c (n : nat) : res (btree V * cursor V) :=
  match n with
  | O => Ok (b, c)
  | S _ =>
      match fuel with
      | O => Loop
      | S fuel' =>
          if leaf (c_sub c) then
            let in_node := match c_path c with f :: _ => length (f_r f) | [] => 0 end in
            let to_erase := Nat.min n in_node in
            let* c1 := remove_values to_erase c in
            let* (b', c') := after_delete b to_erase c1 in
            erase_loop fuel' b' c' (n - to_erase)
          else let* (b', c') := erase b c in erase_loop fuel' b' c' (n - 1)
      end
  end.
Definition position c : nat := match c_path c with f :: _ => length (f_l f) | [] => 0 end.
(* erase(begin, end) (2596-2627) and erase_same_node (2629-2658): the children between are deleted with their values *)
Definition erase_range b c d : res (btree V * nat * cursor V) :=
  let* n := distance (b_size b) c d in
  if n =? 0 then Ok (b, 0, c)
  else if n =? b_size b then let b' := clear in let* e := end_ b' in Ok (b', n, e)
  else if same_node c d then
    let* c1 := remove_values (position d - position c) c in
    let* (b', c') := after_delete b n c1 in Ok (b', n, c')
  else let* (b', c') := erase_loop n b c n in Ok (b', n, c').
(* erase_unique (2674-2685), erase_multi (2687-2700) *)
Definition erase_unique b k : res (btree V * nat) :=
  let* o := internal_find b k in
  match o with Some c => let* (b', _) := erase b c in Ok (b', 1) | None => Ok (b, 0) end.
Definition erase_multi b k : res (btree V * nat) :=
  let* o := internal_lower_bound b k in
  match o with
  | None => Ok (b, 0)
  | Some c => let* d := upper_bound b k in let* (b', n, _) := erase_range b c d in Ok (b', n)
  end.
(* erase_if (3726-3735, 3784-3793, 3844-3853, 3902-3911); fuel: one step for each element *)
(* the predicate is a function object with a state *)
Fixpoint erase_if_loop {S} (fuel : nat) (pred : S -> V -> S * bool) (s : S) b c : res (btree V * S) :=
  let* e := end_ b in
  if same c e then Ok (b, s)
  else match fuel with
       | O => Loop
       | Datatypes.S fuel' => let* v := value c in
                    let '(s', yes) := pred s v in
                    if yes then let* (b', c') := erase b c in erase_if_loop fuel' pred s' b' c'
                    else let* c' := next c in erase_if_loop fuel' pred s' b c'
       end.
Definition erase_if {S} (pred : S -> V -> S * bool) (s : S) b : res (btree V * S) := let* c := begin_ b in erase_if_loop (b_size b) pred s b c.

(** ** whole containers *)
(* the values from c to e, ++ after ++ *)
Fixpoint values_from (fuel : nat) c d : res (list V) :=
  if same c d then Ok []
  else match fuel with
       | O => Loop
       | S fuel' => let* v := value c in let* c' := next c in let* vs := values_from fuel' c' d in Ok (v :: vs)
       end.
Definition values b : res (list V) := let* g := begin_ b in let* e := end_ b in values_from (b_size b) g e.
(* from rbegin() to rend(): -- before every value *)
Fixpoint rvalues_from (fuel : nat) c d : res (list V) :=
  if same c d then Ok []
  else match fuel with
       | O => Loop
       | S fuel' => let* c' := prev c in let* v := value c' in let* vs := rvalues_from fuel' c' d in Ok (v :: vs)
       end.
Definition rvalues b : res (list V) := let* g := begin_ b in let* e := end_ b in rvalues_from (b_size b) e g.
(* copy_or_move_values_in_order (2300-2321) into an empty tree *)
Fixpoint append_all b (vs : list V) : res (btree V) :=
  match vs with [] => Ok b | v :: vs' => let* e := end_ b in let* (b', _) := internal_emplace b e v in append_all b' vs' end.
Definition copy b : res (btree V) :=
  let* vs := values b in
  match vs with [] => Ok new_btree | v :: vs' => let* (b', _) := insert_multi new_btree v in append_all b' vs' end.
(* merge of btree_set and btree_map (3371-3396): (this, src) *)
Fixpoint merge_loop (fuel : nat) b (src : btree V) c : res (btree V * btree V) :=
  let* e := end_ src in
  if same c e then Ok (b, src)
  else match fuel with
       | O => Loop
       | S fuel' => let* v := value c in
                    let* (b', _, ins) := insert_unique b v in
                    if (ins : bool) then let* (src', c') := erase src c in merge_loop fuel' b' src' c'
                    else let* c' := next c in merge_loop fuel' b' src c'
       end.
Definition merge_unique b src : res (btree V * btree V) := let* c := begin_ src in merge_loop (b_size src) b src c.
(* merge of btree_multiset and btree_multimap (3625-3640) *)
Definition merge_multi b src : res (btree V * btree V) :=
  let* vs := values src in let* b' := insert_iterator_multi b vs in Ok (b', clear).
(* extract (3228-3236): the value, and the tree without it *)
Definition extract b c : res (btree V * V) := let* v := value c in let* (b', _) := erase b c in Ok (b', v).
(* operator== (3250-3252), operator< (3256-3258), with == and < of the values *)
Definition equals (eqv : V -> V -> bool) (x y : btree V) : res bool :=
  if b_size x =? b_size y
  then let* xs := values x in let* ys := values y in Ok (forallb (fun p => eqv (fst p) (snd p)) (combine xs ys))
  else Ok false.
Fixpoint lexless (ltv : V -> V -> bool) (xs ys : list V) : bool :=
  match xs, ys with
  | _, [] => false
  | [], _ :: _ => true
  | x :: xs', y :: ys' => if ltv x y then true else if ltv y x then false else lexless ltv xs' ys'
  end.
Definition less (ltv : V -> V -> bool) (x y : btree V) : res bool := let* xs := values x in let* ys := values y in Ok (lexless ltv xs ys).
(* height() (1686-1702): the parents from the leftmost leaf to the root *)
Definition height_ b : res nat := if empty b then Ok 0 else let* c := begin_ b in Ok (length (c_path c)).
End Ops.
Arguments new_btree {V}.
Arguments clear {V}.
