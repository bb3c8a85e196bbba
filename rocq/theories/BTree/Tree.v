(** The B-tree behind btree_set, btree_map, btree_multiset and btree_multimap (include/gtl/btree.hpp).

    Representation.  A node is its child 0 and its values, each with the child to its right: a node with count()
    values has count() + 1 children (internal_verify, 3086-3111).  The children of a leaf are [Nil].  Parent pointers
    and position fields (908-946) are the nesting of the tree: an iterator (node, position) (1141-1395) is the path from
    the root, a list of frames, innermost first, of which the first one is iter.node opened at iter.position.
    The slot arrays inside a node, their construction and destruction are modelled in Slots.v.
    leftmost (the parent pointer of the root, 926-932, 1774-1777) and rightmost_ (1938) are marks on the leaf that they
    point to, so that a mark is lost with its node.  The static EmptyNode is [Nil].
    max_count of a leaf (913-920) is kept for the tree: new_leaf_node makes leaves of kNodeValues, and only a root that
    is a leaf can have less (internal_emplace, 2953-2981).
    Here allocation never fails, and constructing, copying and moving values does not throw; Throw.v has insertions that do. *)
From stdpp Require Import list.
From Coq Require Import Arith Lia.
From Verif.Common Require Import Res.
Local Open Scope nat_scope.
Local Open Scope res_scope.

Record mark := mkMark { m_first : bool; m_last : bool }.   (* leftmost / rightmost_ points here *)

Section Tree.
Context {V : Type}.
Inductive node := Nil | Node (a : mark) (k0 : node) (rest : list (V * node)).
(** a node opened at a child: what is left and right of it *)
Record frame := mkFrame { f_mark : mark; f_l : list (node * V); f_r : list (V * node) }.
(** an iterator: the child at its position is [c_sub] (Nil in a leaf), the value at its position the first on the
    right of the first frame *)
Record cursor := mkCur { c_path : list frame; c_sub : node }.
Definition leaf (t : node) : bool := match t with Nil => true | _ => false end.
Definition count (f : frame) : nat := length (f_l f) + length (f_r f).

(** ** opening and closing nodes *)
(* the children and values with a child in the hole *)
Fixpoint glue (l : list (node * V)) (t : node) (r : list (V * node)) : node * list (V * node) :=
  match l with
  | [] => (t, r)
  | (k, v) :: l' => let '(t', r') := glue l' t r in (k, (v, t') :: r')
  end.
Definition close (f : frame) (t : node) : node := let '(k, rest) := glue (f_l f) t (f_r f) in Node (f_mark f) k rest.
Fixpoint close_all (fs : list frame) (t : node) : node := match fs with [] => t | f :: ps => close_all ps (close f t) end.
(* open at child i *)
Fixpoint walk (i : nat) (k : node) (rest : list (V * node)) : option (list (node * V) * node * list (V * node)) :=
  match i, rest with
  | 0, _ => Some ([], k, rest)
  | S i', (v, k1) :: rest' => match walk i' k1 rest' with Some (l, t, r) => Some ((k, v) :: l, t, r) | None => None end
  | S _, [] => None
  end.
(* child(i), i <= count(), of a node *)
Definition child_at (i : nat) (t : node) : res (frame * node) :=
  match t with
  | Nil => UB
  | Node a k0 rest => match walk i k0 rest with Some (l, t', r) => Ok (mkFrame a l r, t') | None => UB end
  end.
Definition ncount (t : node) : nat := match t with Nil => 0 | Node _ _ rest => length rest end.
(* a node and the value that follows it in the parent, as the left part of an opened node *)
Fixpoint row (k : node) (rest : list (V * node)) (v : V) : list (node * V) :=
  match rest with [] => [(k, v)] | (v1, k1) :: rest' => (k, v1) :: row k1 rest' v end.
Fixpoint unsnoc {A} (l : list A) : option (list A * A) :=
  match l with
  | [] => None
  | x :: l' => match unsnoc l' with None => Some ([], x) | Some (i, y) => Some (x :: i, y) end
  end.
Fixpoint height (t : node) : nat := match t with Nil => 0 | Node _ k0 _ => S (height k0) end.

(** ** iterators *)
(* operator* (1336-1337) *)
Definition value (c : cursor) : res V :=
  match c_path c with f :: _ => match f_r f with (v, _) :: _ => Ok v | [] => UB end | [] => UB end.
(* the loop "while (position == node->count() && !node->is_root())" of increment_slow (2256-2260), and internal_last
   (2938-2949): None at the end of the root *)
Fixpoint climb (f : frame) (t : node) (ps : list frame) : option cursor :=
  match f_r f with
  | _ :: _ => Some (mkCur (f :: ps) t)
  | [] => match ps with [] => None | p :: gs => climb p (close f t) gs end
  end.
(* to the leaf below, always child(0) (2266-2270) *)
Fixpoint go_left (t : node) (ps : list frame) : cursor :=
  match t with
  | Nil => mkCur ps Nil
  | Node a k0 rest => go_left k0 (mkFrame a [] rest :: ps)
  end.
(* position + 1 within the node *)
Definition shift (c : cursor) : res cursor :=
  match c_path c with
  | f :: ps => match f_r f with (v, k) :: r => Ok (mkCur (mkFrame (f_mark f) (f_l f ++ [(c_sub c, v)]) r :: ps) k) | [] => UB end
  | [] => UB
  end.
(* position - 1 within the node *)
Definition shift_back (c : cursor) : res cursor :=
  match c_path c with
  | f :: ps => match unsnoc (f_l f) with Some (l, (k, v)) => Ok (mkCur (mkFrame (f_mark f) l ((v, c_sub c) :: f_r f) :: ps) k) | None => UB end
  | [] => UB
  end.
(* operator++ (1378-1383, 2252-2272); incrementing end() is UB *)
Definition next (c : cursor) : res cursor :=
  let* c1 := shift c in
  if leaf (c_sub c)
  then match c_path c1 with
       | f :: ps => match climb f (c_sub c1) ps with Some c2 => Ok c2 | None => Ok c1 end   (* *this = save *)
       | [] => UB
       end
  else Ok (go_left (c_sub c1) (c_path c1)).
(* child(count()) down to a leaf, position count() there (2287-2292); [h]: fuel *)
Fixpoint go_right (h : nat) (t : node) (ps : list frame) : res cursor :=
  match t with
  | Nil => Ok (mkCur ps Nil)
  | Node _ _ _ => match h with
                  | O => Loop
                  | S h' => let* (f, t') := child_at (ncount t) t in go_right h' t' (f :: ps)
                  end
  end.
(* the loop "while (position < 0 && !node->is_root())" (2279-2283) *)
Fixpoint climb_back (f : frame) (t : node) (ps : list frame) : res cursor :=
  match f_l f with
  | _ :: _ => shift_back (mkCur (f :: ps) t)
  | [] => match ps with [] => UB | p :: gs => climb_back p (close f t) gs end
  end.
(* operator-- (1386-1391, 2275-2295); decrementing begin() is UB *)
Definition prev (c : cursor) : res cursor :=
  match c_path c with
  | f :: ps => if leaf (c_sub c) then climb_back f (c_sub c) ps
               else let* c1 := go_right (height (c_sub c)) (c_sub c) (c_path c) in shift_back c1
  | [] => UB
  end.
(* operator== (1327-1331): the same node and the same position *)
Definition pos_of (c : cursor) : list nat := map (fun f => length (f_l f)) (c_path c).
Definition same (c d : cursor) : bool := bool_decide (pos_of c = pos_of d).
Definition same_node (c d : cursor) : bool := bool_decide (tail (pos_of c) = tail (pos_of d)).

(** ** rebalancing and splitting nodes.  kN is kNodeValues (879-893, at least 3), kMin kMinNodeValues *)
Context (kN : nat).
Definition kMin : nat := kN / 2.
Definition plain : mark := mkMark false false.

(** A row of nodes with its separators, L left and R right of the hole, cut at its value number n: the left node, the
    separator, the right node.  The hole is in one of them. *)
Inductive cut := HoleRight (lk : node) (lrest : list (V * node)) (v : V) (l : list (node * V)) (r : list (V * node))
               | HoleLeft (l : list (node * V)) (r : list (V * node)) (v : V) (rk : node) (rrest : list (V * node)).
Definition cut_at (n : nat) (L : list (node * V)) (R : list (V * node)) : option cut :=
  match drop n L with
  | (k, v) :: L2 => let '(lk, lrest) := glue (take n L) k [] in Some (HoleRight lk lrest v L2 R)
  | [] => match drop (n - length L) R with
          | (v, k) :: R2 => Some (HoleLeft L (take (n - length L) R) v k R2)
          | [] => None
          end
  end.
(* put the two nodes, with marks ml and mr, in the place of the child of frame p that has [pl] and [pr] beside it *)
Definition put_cut (x : cut) (ml mr : mark) (pm : mark) (pl : list (node * V)) (pr : list (V * node)) : frame * frame :=
  match x with
  | HoleRight lk lrest v l r => (mkFrame mr l r, mkFrame pm (pl ++ [(Node ml lk lrest, v)]) pr)
  | HoleLeft l r v rk rrest => (mkFrame ml l r, mkFrame pm pl ((v, Node mr rk rrest) :: pr))
  end.
(* rebalance_right_to_left (1991-2028) and rebalance_left_to_right (2031-2115) of the node f and a sibling: afterwards
   the left node has n values *)
Definition rebalance_with_left (n : nat) (sm : mark) (sk : node) (srest : list (V * node)) (v : V) (f : frame) (pm : mark) pl pr : option (frame * frame) :=
  match cut_at n (row sk srest v ++ f_l f) (f_r f) with Some x => Some (put_cut x sm (f_mark f) pm pl pr) | None => None end.
Definition rebalance_with_right (n : nat) (f : frame) (v : V) (sm : mark) (sk : node) (srest : list (V * node)) (pm : mark) pl pr : option (frame * frame) :=
  match cut_at n (f_l f) (f_r f ++ (v, sk) :: srest) with Some x => Some (put_cut x (f_mark f) sm pm pl pr) | None => None end.
(* split (2118-2159), with the update of rightmost_ (2831-2834); p is the parent opened at the node *)
Definition split (is_leaf : bool) (f p : frame) : option (frame * frame) :=
  let pos := length (f_l f) in
  let dest := if pos =? 0 then count f - 1 else if pos =? kN then 0 else count f / 2 in
  let ml := if is_leaf then mkMark (m_first (f_mark f)) false else f_mark f in
  let mr := if is_leaf then mkMark false (m_last (f_mark f)) else plain in
  match cut_at (count f - dest - 1) (f_l f) (f_r f) with Some x => Some (put_cut x ml mr (f_mark p) (f_l p) (f_r p)) | None => None end.

(* the siblings of the child at which p is opened *)
Definition left_of (p : frame) : option (list (node * V) * (mark * node * list (V * node)) * V) :=
  match unsnoc (f_l p) with Some (pl, (Node a k rest, v)) => Some (pl, (a, k, rest), v) | _ => None end.
Definition right_of (p : frame) : option (V * (mark * node * list (V * node)) * list (V * node)) :=
  match f_r p with (v, Node a k rest) :: pr => Some (v, (a, k, rest), pr) | _ => None end.

(* rebalance_or_split, the attempts to rebalance (2755-2806): the frames of the node and of its parent afterwards *)
Definition try_left (f p : frame) : option (frame * frame) :=
  match left_of p with
  | Some (pl, (sm, sk, srest), v) =>
      let pos := length (f_l f) in
      if length srest <? kN then
        let to_move := Nat.max 1 ((kN - length srest) / (if pos <? kN then 2 else 1)) in
        if (to_move <=? pos) || (length srest + to_move <? kN)
        then rebalance_with_left (length srest + to_move) sm sk srest v f (f_mark p) pl (f_r p)
        else None
      else None
  | None => None
  end.
Definition try_right (f p : frame) : option (frame * frame) :=
  match right_of p with
  | Some (v, (sm, sk, srest), pr) =>
      let pos := length (f_l f) in
      if length srest <? kN then
        let to_move := Nat.max 1 ((kN - length srest) / (if 0 <? pos then 2 else 1)) in
        if (pos <=? count f - to_move) || (length srest + to_move <? kN)
        then rebalance_with_right (count f - to_move) f v sm sk srest (f_mark p) (f_l p) pr
        else None
      else None
  | None => None
  end.
(* rebalance_or_split (2743-2847) of the node f with parents ps *)
Fixpoint rebalance_or_split (is_leaf : bool) (f : frame) (ps : list frame) : res (list frame) :=
  match ps with
  | [] => let* (f', p') := of_option (split is_leaf f (mkFrame plain [] [])) in Ok [f'; p']   (* a new root (2816-2826) *)
  | p :: gs =>
      match try_left f p with
      | Some (f', p') => Ok (f' :: p' :: gs)
      | None =>
          match try_right f p with
          | Some (f', p') => Ok (f' :: p' :: gs)
          | None =>
              let* ps' := (if count p =? kN then rebalance_or_split false p gs else Ok ps) in   (* (2811-2815) *)
              match ps' with
              | p2 :: gs2 => let* (f', p') := of_option (split is_leaf f p2) in Ok (f' :: p' :: gs2)
              | [] => UB
              end
          end
      end
  end.

(* merge_nodes (2850-2859): rightmost_ goes from the right node to the left one, if they are leaves *)
Definition merged_mark (is_leaf : bool) (ml mr : mark) : mark := if is_leaf then mkMark (m_first ml) (m_last ml || m_last mr) else ml.
(* try_merge_or_rebalance (2862-2914) of the node f opened at iter.position, in its four attempts: whether merged, the
   frames of the node and of its parent *)
Definition merge_left (is_leaf : bool) (f p : frame) : option (frame * frame) :=      (* (2864-2876) *)
  match left_of p with
  | Some (pl, (sm, sk, srest), v) =>
      if 1 + length srest + count f <=? kN
      then Some (mkFrame (merged_mark is_leaf sm (f_mark f)) (row sk srest v ++ f_l f) (f_r f), mkFrame (f_mark p) pl (f_r p))
      else None
  | None => None
  end.
Definition merge_right (is_leaf : bool) (f p : frame) : option (frame * frame) :=     (* (2877-2885) *)
  match right_of p with
  | Some (v, (sm, sk, srest), pr) =>
      if 1 + count f + length srest <=? kN
      then Some (mkFrame (merged_mark is_leaf (f_mark f) sm) (f_l f) (f_r f ++ (v, sk) :: srest), mkFrame (f_mark p) (f_l p) pr)
      else None
  | None => None
  end.
Definition take_right (f p : frame) : option (frame * frame) :=                       (* (2886-2896) *)
  match right_of p with
  | Some (v, (sm, sk, srest), pr) =>
      if (kMin <? length srest) && ((count f =? 0) || (0 <? length (f_l f)))
      then let to_move := Nat.min ((length srest - count f) / 2) (length srest - 1) in
           rebalance_with_right (count f + to_move) f v sm sk srest (f_mark p) (f_l p) pr
      else None
  | None => None
  end.
Definition take_left (f p : frame) : option (frame * frame) :=                        (* (2898-2912) *)
  match left_of p with
  | Some (pl, (sm, sk, srest), v) =>
      if (kMin <? length srest) && ((count f =? 0) || (length (f_l f) <? count f))
      then let to_move := Nat.min ((length srest - count f) / 2) (length srest - 1) in
           rebalance_with_left (length srest - to_move) sm sk srest v f (f_mark p) pl (f_r p)
      else None
  | None => None
  end.
Definition try_merge_or_rebalance (is_leaf : bool) (f p : frame) : bool * (frame * frame) :=
  match merge_left is_leaf f p with
  | Some x => (true, x)
  | None =>
      match merge_right is_leaf f p with
      | Some x => (true, x)
      | None =>
          match take_right f p with
          | Some x => (false, x)
          | None => match take_left f p with Some x => (false, x) | None => (false, (f, p)) end
          end
      end
  end.
(* the loop of rebalance_after_delete (2558-2585); at the root try_shrink (2917-2934) *)
Fixpoint rebalance_up (is_leaf : bool) (f : frame) (ps : list frame) : list frame :=
  match ps with
  | [] => if count f =? 0 then [] else [f]
  | p :: gs =>
      if kMin <=? count f then f :: p :: gs
      else let '(merged, (f', p')) := try_merge_or_rebalance is_leaf f p in
           if merged then f' :: rebalance_up false p' gs else f' :: p' :: gs
  end.
(* rebalance_after_delete (2555-2594), with the adjustment of the returned iterator (2587-2593) *)
Definition rebalance_after_delete (c : cursor) : res cursor :=
  match c_path c with
  | f :: ps =>
      match rebalance_up (leaf (c_sub c)) f ps with
      | [] => if leaf (c_sub c) then Ok (mkCur [] Nil) else UB      (* empty: end() *)
      | f' :: ps' => match f_r f' with
                     | [] => match f_l f' with
                             | [] => if leaf (c_sub c)        (* a leaf without values: from position -1 to 0, then increment_slow *)
                                     then match climb f' (c_sub c) ps' with Some c2 => Ok c2 | None => Ok (mkCur (f' :: ps') (c_sub c)) end
                                     else UB
                             | _ :: _ => let* c1 := shift_back (mkCur (f' :: ps') (c_sub c)) in next c1
                             end
                     | _ :: _ => Ok (mkCur (f' :: ps') (c_sub c))
                     end
      end
  | [] => UB
  end.
End Tree.
Arguments node : clear implicits.
Arguments frame : clear implicits.
Arguments cursor : clear implicits.
Arguments cut : clear implicits.
