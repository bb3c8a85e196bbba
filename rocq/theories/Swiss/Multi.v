(** Executable model of the raw_hash_set operations that involve two tables or a whole traversal:
    copy / move / swap / operator== / merge / extract + node insertion / erase_if
    (include/gtl/phmap.hpp).  Same conventions as [Model]. *)
From stdpp Require Import list.
From Coq Require Import NArith ZArith.
From Verif.Common Require Import Res Word.
From Verif.Swiss Require Import Group Model.
Local Open Scope nat_scope.
Local Open Scope res_scope.

Section Multi.
Context {K V : Type} (hash : K -> N) (eqb : K -> K -> bool) (E : env).
Notation elt := (K * V)%type.
Notation g := (e_group E).
Notation table := (table K V).

(** ** Copy constructor (phmap.hpp:1817-1830), copy assignment (1871-1876: copy, then swap)
    The range-for over [that] is the list of its elements ([that] is const). *)
Fixpoint copy_loop (l : list elt) (t : table) : res table :=
  match l with
  | [] => Ok t
  | e :: l' =>
      let h := hash (fst e) in
      let* p := find_first_non_full E (t_ctrl t) (t_cap t) h in
      let* ctrl' := set_ctrl E (t_ctrl t) (t_cap t) p (H2 h) in
      let* slots' := construct (t_slots t) p e in
      copy_loop l' (mkTable ctrl' slots' (t_size t) (t_cap t) (t_growth t))
  end.
Definition copy (that : table) : res table :=
  let* t0 := rehash hash E empty_table (N.of_nat (t_cap that)) in
  let* l := to_list E that in
  let* t1 := copy_loop l t0 in
  Ok (mkTable (t_ctrl t1) (t_slots t1) (t_size that) (t_cap t1)
              (wsub 64 (t_growth t1) (N.of_nat (t_size that)))).

(** ** Move constructor (1832-1847): steals every field and leaves [that] default-constructed;
    returns (new table, what is left in the source).  Move assignment (1878-1884, 2825-2829) move-constructs
    a temporary and swaps. *)
Definition move_out (that : table) : table * table := (that, empty_table).

(** ** has_element (2771-2795) and operator== (2464-2475); [eeq] is operator== of value_type *)
Context (eeq : elt -> elt -> bool).
Fixpoint has_match (t : table) (x : elt) (off : nat) (is : list nat) : res bool :=
  match is with
  | [] => Ok false
  | i :: is' =>
      let* s := load (t_slots t) (probe_at (t_cap t) off i) in
      let* e := of_option s in
      if eeq e x then Ok true else has_match t x off is'
  end.
Fixpoint has_loop (fuel : nat) (t : table) (x : elt) (h : N) (off idx : nat) : res bool :=
  match fuel with
  | O => Loop
  | S f =>
      let* w := window E (t_ctrl t) off in
      let* b := has_match t x off (g_match g w (H2 h)) in
      if b then Ok true
      else if g_any_empty g w then Ok false
      else let '(off', idx') := probe_next E (t_cap t) off idx in
           has_loop f t x h off' idx'
  end.
Definition has_element (t : table) (x : elt) : res bool :=
  let h := hash (fst x) in
  has_loop (S (t_cap t)) t x h (probe_start h (t_cap t)) 0.
Fixpoint all_in (l : list elt) (t : table) : res bool :=
  match l with
  | [] => Ok true
  | x :: l' => let* b := has_element t x in if b then all_in l' t else Ok false
  end.
Definition table_eq (a b : table) : res bool :=
  if t_size a =? t_size b then
    let '(outer, inner) := if t_cap b <? t_cap a then (b, a) else (a, b) in
    let* l := to_list E outer in
    all_in l inner
  else Ok false.

(** ** merge (2283-2291) with InsertSlot<false> (2571-2588).
    The end iterator of [src] is computed once; [src] is never resized.  The result carries the two tables
    as they are when the call ends, normally ([false]) or with std::bad_alloc ([true]): an insertion that
    throws has not changed [dst] and has not moved the element. *)
Fixpoint merge_loop (fuel : nat) (dst src : table) (i : nat) : res (table * table * bool) :=
  match fuel with
  | O => Loop
  | S f =>
      if i =? t_cap src then Ok (dst, src, false)
      else
        let* e := deref src i in
        match emplace hash eqb E dst (fst e) (snd e) with
        | BadAlloc => Ok (dst, src, true)
        | Ok (dst', _, inserted) =>
            let* src' := (if inserted then let* (_, s') := erase_at E src i in Ok s' else Ok src) in
            let* j := next_it E src' i in
            merge_loop f dst' src' j
        | UB => UB | Loop => Loop | Throw => Throw
        end
  end.
Definition merge (dst src : table) : res (table * table * bool) :=
  let* i := begin_it E src in merge_loop (S (t_cap src)) dst src i.

(** ** Node handles: extract(key) (2305-2308) is [erase_key] (the element is moved to the node);
    insert(node_type&&) (2027-2038).  Returns the table, what is left in the node, and the flag. *)
Definition insert_node (t : table) (n : option elt) : res (table * option elt * bool) :=
  match n with
  | None => Ok (t, None, false)
  | Some e =>
      let* (t', _, inserted) := emplace hash eqb E t (fst e) (snd e) in
      Ok (t', if inserted then None else Some e, inserted)
  end.

(** ** erase_if (5597-5608) with erase(iterator) (2264-2269): the successor is computed before the element
    is destroyed.  Also returns the elements passed to the predicate, in order. *)
Fixpoint erase_if_loop (fuel : nat) (p : elt -> bool) (t : table) (i : nat) : res (table * list elt) :=
  match fuel with
  | O => Loop
  | S f =>
      if i =? t_cap t then Ok (t, [])
      else
        let* e := deref t i in
        let* j := next_it E t i in
        let* t' := (if p e then let* (_, t') := erase_at E t i in Ok t' else Ok t) in
        let* (t2, seen) := erase_if_loop f p t' j in
        Ok (t2, e :: seen)
  end.
Definition erase_if (p : elt -> bool) (t : table) : res (table * nat * list elt) :=
  let* i := begin_it E t in
  let* (t', seen) := erase_if_loop (S (t_cap t)) p t i in
  Ok (t', t_size t - t_size t', seen).
End Multi.
