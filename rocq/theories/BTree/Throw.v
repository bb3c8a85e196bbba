(** Insertion into a B-tree when allocating a node or constructing the element throws (include/gtl/btree.hpp,
    internal_emplace 2951-2981, rebalance_or_split 2743-2847, insert_unique 2361-2385, insert_multi 2423-2435).
    [n]: the number of allocations that succeed from now on; [ok]: the constructor of the element does not throw.
    What a constructor that throws leaves in the slots of a leaf is modelled in Slots.v. *)
From stdpp Require Import list.
From Coq Require Import Arith Lia.
From Verif.Common Require Import Res.
From Verif.BTree Require Import Tree Search Ops.
Local Open Scope nat_scope.
Local Open Scope res_scope.

Section Throw.
Context {V K : Type} (key : V -> K) (lt : K -> K -> bool) (kN : nat) (m : mode).
Implicit Types (b : btree V) (c : cursor V) (v : V) (f p : frame V) (ps : list (frame V)).

(* rebalance_or_split (2743-2847): the node with its parents, and the allocations left; None: std::bad_alloc was thrown *)
Fixpoint rebalance_or_split_x (n : nat) (is_leaf : bool) f ps : res (list (frame V) * option nat) :=
  match ps with
  | [] => match n with
          | 0 => Ok ([f], None)                                       (* new_internal_node (2816) *)
          | 1 => Ok ([f; mkFrame plain [] []], None)                  (* the new root has its child (2817-2818); new_leaf_node or new_internal_node (2831, 2836) *)
          | S (S n2) => let* (f', p') := of_option (split kN is_leaf f (mkFrame plain [] [])) in Ok ([f'; p'], Some n2)
          end
  | p :: gs =>
      match try_left kN f p with
      | Some (f', p') => Ok (f' :: p' :: gs, Some n)
      | None =>
          match try_right kN f p with
          | Some (f', p') => Ok (f' :: p' :: gs, Some n)
          | None =>
              let* (ps', o) := (if count p =? kN then rebalance_or_split_x n false p gs else Ok (ps, Some n)) in
              match o with
              | None | Some 0 => Ok (f :: ps', None)
              | Some (S n') =>
                  match ps' with
                  | p2 :: gs2 => let* (f', p') := of_option (split kN is_leaf f p2) in Ok (f' :: p' :: gs2, Some n')
                  | [] => UB
                  end
              end
          end
      end
  end.

(** what comes out of an insertion: the element, std::bad_alloc, or the exception of the constructor; [hole]: it was thrown
    after values of the leaf had been moved to make room *)
Inductive outcome := Inserted (c : cursor V) | NoMemory | Threw (hole : bool).
(* internal_emplace (2951-2981) *)
Definition internal_emplace_x (n : nat) (ok : bool) b c v : res (btree V * outcome) :=
  let* c := (if leaf (c_sub c) then Ok c else let* c1 := prev c in shift c1) in
  match c_path c with
  | [] => UB
  | f :: ps =>
      let* (cap, fs, o) :=
        (if count f =? b_cap b then
           if b_cap b <? kN
           then match ps with
                | [] => match n with
                        | 0 => Ok (b_cap b, [f], None)                (* new_leaf_root_node (2966) *)
                        | S n' => Ok (Nat.min kN (2 * b_cap b), [mkFrame both (f_l f) (f_r f)], Some n')
                        end
                | _ :: _ => UB
                end
           else let* (fs, o) := rebalance_or_split_x n true f ps in Ok (b_cap b, fs, o)
         else Ok (b_cap b, f :: ps, Some n)) in
      match o, fs with
      | None, _ => Ok (mkBt (root_of (mkCur fs Nil)) (b_size b) cap, NoMemory)
      | Some _, f' :: ps' =>
          if count f' <? cap then
            if ok then
              let c' := mkCur (mkFrame (f_mark f') (f_l f') ((v, Nil) :: f_r f') :: ps') Nil in
              Ok (mkBt (root_of c') (S (b_size b)) cap, Inserted c')
            else Ok (mkBt (root_of (mkCur fs Nil)) (b_size b) cap, Threw (negb (bool_decide (length (f_r f') = 0))))
          else UB
      | Some _, [] => UB
      end
  end.
(* "if (empty()) mutable_root() = rightmost_ = new_leaf_root_node(1)" (2364-2366, 2426-2428) *)
Definition with_root_x (n : nat) b : btree V * option nat :=
  if empty b then match n with 0 => (b, None) | S n' => (mkBt (Node both Nil []) 0 1, Some n') end else (b, Some n).
(* insert_unique (2361-2385); the flag: the key was new *)
Definition insert_unique_x (n : nat) (ok : bool) b v : res (btree V * outcome * bool) :=
  let k := key v in
  match with_root_x n b with
  | (b, None) => Ok (b, NoMemory, true)
  | (b, Some n) =>
      let* (c, e) := internal_locate key lt m b k in
      let* found := (if three m then Ok (if e then Some c else None)
                     else match internal_last c with
                          | Some c' => let* w := value c' in Ok (if lt k (key w) then None else Some c')
                          | None => Ok None
                          end) in
      match found with
      | Some c' => Ok (b, Inserted c', false)
      | None => let* (b', o) := internal_emplace_x n ok b c v in Ok (b', o, true)
      end
  end.
(* insert_multi (2423-2435) *)
Definition insert_multi_x (n : nat) (ok : bool) b v : res (btree V * outcome) :=
  match with_root_x n b with
  | (b, None) => Ok (b, NoMemory)
  | (b, Some n) =>
      let* o := internal_upper_bound key lt m b (key v) in
      let* c := internal_end b o in
      internal_emplace_x n ok b c v
  end.

(** the nodes of a tree, and those that the destructor gives back: clear (2702-2709) frees them unless size_ is 0 *)
Fixpoint blocks (t : node V) : nat :=
  match t with
  | Nil => 0
  | Node _ k0 rest => S (blocks k0 + list_sum (map (fun x => blocks (snd x)) rest))
  end.
Definition freed b : nat := if empty b then 0 else blocks (b_root b).
End Throw.
Arguments outcome : clear implicits.
