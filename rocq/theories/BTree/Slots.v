(** The nodes of the B-tree as arrays (include/gtl/btree.hpp, btree_node 860-1240 and 1943-2246): slots that are raw
    memory or hold a value, child pointers, and the parent and position fields of the children.  The functions of a
    node touch at most a node L, its right sibling R and their parent P, so a state is these three nodes.
    Simplified: a value that was moved from is [gone]; moving, assigning and destroying values does not throw;
    constructing over a value, and reading a child pointer that was cleared (clear_child 992, a poisoning that only
    sanitizers see), are UB. *)
From stdpp Require Import list.
From Coq Require Import Arith Lia.
From Verif.Common Require Import Res.
Local Open Scope nat_scope.
Local Open Scope res_scope.

Inductive role := L | P | R.
Global Instance role_eq : EqDecision role. Proof. solve_decision. Defined.

Section Slots.
(** values, node addresses, the value of an object that was moved from, kNodeValues *)
Context {V C : Type} `{EqDecision C} (gone : V) (kN : nat).

Inductive cell := Raw | Live (v : V).
(* slots (974-978), children (989-990), parent and position of each node (908-946), count (905), max_count (913-920),
   leaf (903), whether the node is allocated, and the address of each of the three nodes *)
Record st := mkSt { cells : role -> nat -> cell; kids : role -> nat -> option C; par : C -> role; pos : C -> nat;
                    cnt : role -> nat; cap : role -> nat; inner : role -> bool; alive : role -> bool; nid : role -> C }.
Implicit Types (s : st) (a b r : role) (i j k n : nat) (v : V) (c : C).

Definition upd {A} (f : role -> A) r (x : A) : role -> A := fun r' => if bool_decide (r' = r) then x else f r'.
Definition updn {A} (f : nat -> A) k (x : A) : nat -> A := fun k' => if k' =? k then x else f k'.
Definition updc {A} (f : C -> A) c (x : A) : C -> A := fun c' => if bool_decide (c' = c) then x else f c'.
Definition with_cells s x := mkSt x (kids s) (par s) (pos s) (cnt s) (cap s) (inner s) (alive s) (nid s).
Definition with_links s x y z := mkSt (cells s) x y z (cnt s) (cap s) (inner s) (alive s) (nid s).
Definition set_cell s r k (x : cell) := with_cells s (upd (cells s) r (updn (cells s r) k x)).
Definition set_cnt s r n := mkSt (cells s) (kids s) (par s) (pos s) (upd (cnt s) r n) (cap s) (inner s) (alive s) (nid s).

(** ** slots *)
Definition get s r k : res V := if alive s r then match cells s r k with Live v => Ok v | Raw => UB end else UB.
(* value_init (1199-1202) *)
Definition construct s r k v : res st :=
  if alive s r && (k <? cap s r) then match cells s r k with Raw => Ok (set_cell s r k (Live v)) | Live _ => UB end else UB.
(* value_destroy (1203-1206) *)
Definition destroy s r k : res st := let* _ := get s r k in Ok (set_cell s r k Raw).
(* params_type::construct(alloc, slot, other) (652-654, 721-723): move construction *)
Definition move_init s a i b j : res st := let* v := get s a i in let* s := construct s b j v in Ok (set_cell s a i (Live gone)).
(* params_type::move(alloc, src, dest) (661, 737-739) *)
Definition move_assign s a i b j : res st :=
  let* v := get s a i in let* _ := get s b j in Ok (set_cell (set_cell s b j (Live v)) a i (Live gone)).
(* uninitialized_move_n (1211-1222) *)
Fixpoint uninit_move n s a i b j : res st :=
  match n with 0 => Ok s | S n' => let* s := move_init s a i b j in uninit_move n' s a (S i) b (S j) end.
(* params_type::move(alloc, first, last, result) (662-664, 742-745) *)
Fixpoint move_fwd n s a i b j : res st :=
  match n with 0 => Ok s | S n' => let* s := move_assign s a i b j in move_fwd n' s a (S i) b (S j) end.
(* the loops that move from the end (1954-1955, 2054-2061) *)
Fixpoint move_back n s a i b j : res st :=
  match n with 0 => Ok s | S n' => let* s := move_assign s a (i + n') b (j + n') in move_back n' s a i b j end.
(* value_destroy_n (1226-1230), destroy (1184-1188) *)
Fixpoint destroy_n n s r i : res st :=
  match n with 0 => Ok s | S n' => let* s := destroy s r i in destroy_n n' s r (S i) end.

(** ** children *)
Definition child s r k : res C := if alive s r then of_option (kids s r k) else UB.                 (* (989) *)
Definition set_child s r k c : res st :=                                                               (* (993-997) *)
  if alive s r && (k <=? kN) then Ok (with_links s (upd (kids s) r (updn (kids s r) k (Some c))) (par s) (updc (pos s) c k)) else UB.
Definition init_child s r k c : res st :=                                                              (* (1001-1004) *)
  let* s := set_child s r k c in Ok (with_links s (kids s) (updc (par s) c r) (pos s)).
Definition clear_child s r k : st := with_links s (upd (kids s) r (updn (kids s r) k None)) (par s) (pos s).   (* (991) *)
(* one step of the loops over children: [init]: init_child or set_child; [clr]: clear_child of the source *)
Definition move_child (init clr : bool) s a i b j : res st :=
  let* c := child s a i in
  let* s := (if init then init_child s b j c else set_child s b j c) in
  Ok (if clr then clear_child s a i else s).
Fixpoint kids_fwd (init clr : bool) n s a i b j : res st :=
  match n with 0 => Ok s | S n' => let* s := move_child init clr s a i b j in kids_fwd init clr n' s a (S i) b (S j) end.
Fixpoint kids_back (init clr : bool) n s a i b j : res st :=
  match n with 0 => Ok s | S n' => let* s := move_child init clr s a (i + n') b (j + n') in kids_back init clr n' s a i b j end.

(** ** the functions of btree_node *)
(** the arguments of a constructor: a value from outside the container, a slot to move from (slot_type* ), a reference to
    a value of the container, or arguments with which the constructor throws *)
Inductive arg := Val (v : V) | From (r : role) (k : nat) | Ref (r : role) (k : nat) | Boom.
(* None: the constructor throws *)
Definition value_init s r k (x : arg) : res (option st) :=
  match x with
  | Val v => rmap Some (construct s r k v)
  | From r' k' => rmap Some (move_init s r' k' r k)
  | Ref r' k' => let* v := get s r' k' in rmap Some (construct s r k v)
  | Boom => if alive s r && (k <? cap s r) then Ok None else UB
  end.
(* emplace_value (1946-1968); the flag: it has thrown *)
Definition emplace_value s r i (x : arg) : res (st * bool) :=
  let n := cnt s r in
  if n <? i then UB else
  let* s := (if i <? n then
               let* s := move_init s r (n - 1) r n in
               let* s := move_back (n - 1 - i) s r i r (i + 1) in
               destroy s r i
             else Ok s) in
  let* o := value_init s r i x in
  match o with
  | None => Ok (s, true)
  | Some s =>
      let s := set_cnt s r (n + 1) in
      if inner s r && (i + 1 <? cnt s r)
      then let* s := kids_back false false (n - i) s r (i + 1) r (i + 2) in Ok (clear_child s r (i + 1), false)
      else Ok (s, false)
  end.
(* remove_values_ignore_children (1983-1988) *)
Definition remove_values_ignore_children s r i n : res st :=
  let m := cnt s r in
  let* s := move_fwd (m - (i + n)) s r (i + n) r i in
  let* s := destroy_n n s r (m - n) in
  Ok (set_cnt s r (m - n)).
(* remove_value (1971-1981) *)
Definition remove_value s r i : res st :=
  let m := cnt s r in
  let* s := (if inner s r && (i + 1 <? m)
             then let* s := kids_fwd false false (m - (i + 1)) s r (i + 2) r (i + 1) in Ok (clear_child s r m)
             else Ok s) in
  remove_values_ignore_children s r i 1.
(* the slot of the parent between L and R: parent()->slot(position()) *)
Definition sep s : nat := pos s (nid s L).
(* rebalance_right_to_left (1991-2028); this is L *)
Definition rebalance_right_to_left s n : res st :=
  let cl := cnt s L in let cr := cnt s R in
  let* s := move_init s P (sep s) L cl in
  let* s := uninit_move (n - 1) s R 0 L (cl + 1) in
  let* s := move_assign s R (n - 1) P (sep s) in
  let* s := move_fwd (cr - n) s R n R 0 in
  let* s := destroy_n n s R (cr - n) in
  let* s := (if inner s L then
               let* s := kids_fwd true false n s R 0 L (cl + 1) in
               kids_fwd true true (cr - n + 1) s R n R 0
             else Ok s) in
  Ok (set_cnt (set_cnt s L (cl + n)) R (cr - n)).
(* rebalance_left_to_right (2031-2115) *)
Definition rebalance_left_to_right s n : res st :=
  let cl := cnt s L in let cr := cnt s R in
  let* s := (if n <=? cr then
               let* s := uninit_move n s R (cr - n) R cr in
               let* s := move_back (cr - n) s R 0 R n in
               let* s := move_assign s P (sep s) R (n - 1) in
               move_fwd (n - 1) s L (cl - (n - 1)) R 0
             else
               let* s := uninit_move cr s R 0 R n in
               let* s := move_init s P (sep s) R (n - 1) in
               let u := n - cr - 1 in
               let* s := uninit_move u s L (cl - u) R cr in
               move_fwd ((n - 1) - u) s L (cl - (n - 1)) R 0) in
  let* s := move_assign s L (cl - n) P (sep s) in
  let* s := destroy_n n s L (cl - n) in
  let* s := (if inner s L then
               let* s := kids_back true true (cr + 1) s R 0 R n in
               kids_fwd true true n s L (cl - n + 1) R 0
             else Ok s) in
  Ok (set_cnt (set_cnt s L (cl - n)) R (cr + n)).
(* split (2118-2159); dest is R *)
Definition split s ip : res st :=
  let n := cnt s L in
  let d := if ip =? 0 then n - 1 else if ip =? kN then 0 else n / 2 in
  let s := set_cnt s R d in
  let s := set_cnt s L (n - d) in
  let* s := uninit_move d s L (n - d) R 0 in
  let* s := destroy_n d s L (n - d) in
  let m := n - d - 1 in
  let s := set_cnt s L m in
  let* (s, _) := emplace_value s P (sep s) (From L m) in
  let* s := destroy s L m in
  let* s := init_child s P (sep s + 1) (nid s R) in
  if inner s L then kids_fwd true true (d + 1) s L (m + 1) R 0 else Ok s.
(* merge (2162-2195); src is R *)
Definition merge s : res st :=
  let cl := cnt s L in let cr := cnt s R in
  let* s := move_init s P (sep s) L cl in
  let* s := uninit_move cr s R 0 L (cl + 1) in
  let* s := destroy_n cr s R 0 in
  let* s := (if inner s L then kids_fwd true true (cr + 1) s R 0 L (cl + 1) else Ok s) in
  let s := set_cnt (set_cnt s L (1 + cl + cr)) R 0 in
  remove_value s P (sep s).
(* swap (2198-2246) of two leaves; its only caller is internal_emplace, with leaves, so its last part, for internal nodes
   (2225-2241), is not modelled *)
Fixpoint swap_slots n s a b i : res st :=
  match n with
  | 0 => Ok s
  | S n' => let* x := get s a i in let* y := get s b i in swap_slots n' (set_cell (set_cell s a i (Live y)) b i (Live x)) a b (S i)
  end.
Definition swap s a b : res st :=
  let ca := cnt s a in let cb := cnt s b in
  let '(small, large) := if cb <? ca then (b, a) else (a, b) in
  let ns := cnt s small in
  let n := cnt s large - ns in
  let* s := swap_slots ns s small large 0 in
  let* s := uninit_move n s large ns small ns in
  let* s := destroy_n n s large ns in
  Ok (set_cnt (set_cnt s a cb) b ca).

(* erase_same_node (2629-2658): the children that are deleted, and the node afterwards *)
Fixpoint read_kids n s r k : res (list C) :=
  match n with 0 => Ok [] | S n' => let* c := child s r k in let* cs := read_kids n' s r (S k) in Ok (c :: cs) end.
Definition erase_same_node s r i n : res (st * list C) :=
  let* (s, cs) := (if inner s r then
                     let* cs := read_kids n s r (i + 1) in
                     let* s := kids_fwd false true (cnt s r - (i + n)) s r (i + n + 1) r (i + 1) in Ok (s, cs)
                   else Ok (s, [])) in
  let* s := remove_values_ignore_children s r i n in Ok (s, cs).

(** ** making room in a full leaf and emplacing at position i of it (internal_emplace 2951-2981, rebalance_or_split 2743-2847) *)
(* the leaf is R, n values go to its left sibling L (2755-2783) *)
Definition left_emplace s n i (x : arg) : res (st * bool) :=
  let* s := rebalance_right_to_left s n in
  if n <=? i then emplace_value s R (i - n) x else emplace_value s L (i + cnt s L + 1 - n) x.
(* the leaf is L, n values go to its right sibling R (2785-2806) *)
Definition right_emplace s n i (x : arg) : res (st * bool) :=
  let* s := rebalance_left_to_right s n in
  if cnt s L <? i then emplace_value s R (i - cnt s L - 1) x else emplace_value s L i x.
(* the leaf is L, R is new (2828-2846) *)
Definition split_emplace s i (x : arg) : res (st * bool) :=
  let* s := split s i in
  if cnt s L <? i then emplace_value s R (i - cnt s L - 1) x else emplace_value s L i x.

(** ** a container whose root is a leaf *)
(* delete_leaf_node (1827-1830) *)
Definition free s r : res st :=
  let* s := destroy_n (cnt s r) s r 0 in
  Ok (mkSt (cells s) (kids s) (par s) (pos s) (cnt s) (cap s) (inner s) (upd (alive s) r false) (nid s)).
(* new_leaf_root_node (1806-1809, 1172-1181) *)
Definition new_leaf s r n : st :=
  mkSt (upd (cells s) r (fun _ => Raw)) (kids s) (par s) (pos s) (upd (cnt s) r 0) (upd (cap s) r n) (upd (inner s) r false) (upd (alive s) r true) (nid s).
(* internal_emplace (2951-2981) at position i of a root that is the leaf L with less than kNodeValues values; a new root is
   R: the state, the root, and whether the constructor has thrown.  A root with kNodeValues values has to be split: not here *)
Definition emplace_root s i (x : arg) : res (st * role * bool) :=
  if cnt s L =? cap s L then
    if cap s L <? kN then
      let s := new_leaf s R (Nat.min kN (2 * cap s L)) in
      let* s := swap s R L in
      let* s := free s L in
      let* (s, t) := emplace_value s R i x in Ok (s, R, t)
    else UB
  else let* (s, t) := emplace_value s L i x in Ok (s, L, t).
End Slots.
Arguments cell : clear implicits.
Arguments st : clear implicits.
Arguments arg : clear implicits.
