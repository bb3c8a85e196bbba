(** Hash containers with an allocator other than the default one (std_alloc_t false, phmap.hpp:1537): a container without
    memory has a null control pointer instead of a pointer to the static empty group (EmptyGroup, 822-833), and several
    functions test for it.  Here the control bytes of such a container are the empty list, so that any read through the
    null pointer is undefined behaviour. *)
From stdpp Require Import list.
From Coq Require Import NArith ZArith.
From Verif.Common Require Import Res Word.
From Verif.Swiss Require Import Group Model MapSpec History Multi MultiSpec MultiHistory.
Local Open Scope nat_scope.
Local Open Scope res_scope.

Section Null.
Context {K V : Type} (hash : K -> N) (eqb : K -> K -> bool) (E : env).
Notation elt := (K * V)%type.
Notation table := (table K V).
Notation W := (g_width (e_group E)).

(* the fields of a default-constructed container (1700-1702, 2992-2995) and of one that destroy_slots emptied (2663-2667) *)
Definition null_table : table := mkTable [] [] 0 0 0%N.
Definition is_null (t : table) : bool := match t_ctrl t with [] => true | _ => false end.   (* !ctrl_ *)

(* find_impl (2491-2510), _find_key (2838-2857) *)
Definition find_key_a (t : table) (k : K) : res (option nat) :=
  if is_null t then Ok None else find_key hash eqb E t k.
(* prepare_insert (2867-2881) *)
Definition prepare_insert_a (t : table) (h : N) : res (table * nat) :=
  let* t0 := (if is_null t then rehash_and_grow_if_necessary hash E t else Ok t) in
  prepare_insert hash E t0 h.
(* the callers: emplace_decomposable (2543-2552) and the like, insert_or_assign_impl (3139-3151), erase(key) (2232-2238) *)
Definition emplace_a (t : table) (k : K) (v : V) : res (table * nat * bool) :=
  let* r := find_key_a t k in
  match r with
  | Some p => Ok (t, p, false)
  | None =>
      let* (t1, p) := prepare_insert_a t (hash k) in
      let* t2 := finish_insert hash E t1 p (k, v) in
      Ok (t2, p, true)
  end.
Definition insert_or_assign_a (t : table) (k : K) (v : V) : res (table * nat * bool) :=
  let* (t1, p, ins) := emplace_a t k v in
  if ins then Ok (t1, p, true) else let* t2 := assign_at t1 p v in Ok (t2, p, false).
Definition erase_key_a (t : table) (k : K) : res (option elt * table) :=
  let* r := find_key_a t k in
  match r with
  | None => Ok (None, t)
  | Some p => let* (e, t') := erase_at E t p in Ok (Some e, t')
  end.
(* rehash (2338-2353): destroy_slots leaves a null pointer *)
Definition rehash_a (t : table) (n : N) : res table :=
  if (n =? 0)%N && (t_cap t =? 0) then Ok t
  else if (n =? 0)%N && (t_size t =? 0) then Ok null_table
  else
    let m := NormalizeCapacity (N.max n (N.of_nat (t_size t))) in
    if (n =? 0)%N || (N.of_nat (t_cap t) <? m)%N then resize hash E t m else Ok t.
Definition reserve_a (t : table) (n : N) : res table :=
  let* m := GrowthToLowerboundCapacity W n in rehash_a t m.
(* begin (1888-1892) with skip_empty_or_deleted (1640-1656); operator++ is only applied to an iterator at an element *)
Definition begin_a (t : table) : res nat := if is_null t then Ok 0 else begin_it E t.
Definition to_list_a (t : table) : res (list elt) :=
  let* i := begin_a t in let* is := iterate_from E (S (t_cap t)) t i in deref_all t is.

Definition exec_a (t : table) (o : op K V) : res (table * out K V) :=
  match o with
  | OEmplace k v =>
      catch t (let* (t', p, b) := emplace_a t k v in let* e := deref t' p in Ok (t', RInserted b e))
  | OAssign k v =>
      catch t (let* (t', p, b) := insert_or_assign_a t k v in let* e := deref t' p in Ok (t', RInserted b e))
  | OFind k =>
      let* r := find_key_a t k in
      match r with None => Ok (t, RFound None) | Some p => let* e := deref t p in Ok (t, RFound (Some e)) end
  | OErase k => let* (e, t') := erase_key_a t k in Ok (t', RErased e)
  | OClear => let* t' := clear E t in Ok (t', RUnit)
  | ORehash n => catch t (let* t' := rehash_a t n in Ok (t', RUnit))
  | OReserve n => catch t (let* t' := reserve_a t n in Ok (t', RUnit))
  | OSize => Ok (t, RSize (t_size t))
  | OTraverse => let* l := to_list_a t in Ok (t, RElems l)
  end.

(* copy constructor (1817-1830), move constructor (1832-1847) *)
Definition copy_a (that : table) : res table :=
  let* t0 := rehash_a null_table (N.of_nat (t_cap that)) in
  let* l := to_list_a that in
  let* t1 := copy_loop hash E l t0 in
  Ok (mkTable (t_ctrl t1) (t_slots t1) (t_size that) (t_cap t1)
              (wsub 64 (t_growth t1) (N.of_nat (t_size that)))).
Definition move_out_a (that : table) : table * table := (that, null_table).
(* has_element (2771-2795), operator== (2464-2475) *)
Context (eeq : elt -> elt -> bool).
Definition has_element_a (t : table) (x : elt) : res bool :=
  if is_null t then Ok false else has_element hash E eeq t x.
Fixpoint all_in_a (l : list elt) (t : table) : res bool :=
  match l with
  | [] => Ok true
  | x :: l' => let* b := has_element_a t x in if b then all_in_a l' t else Ok false
  end.
Definition table_eq_a (a b : table) : res bool :=
  if t_size a =? t_size b then
    let '(outer, inner) := if t_cap b <? t_cap a then (b, a) else (a, b) in
    let* l := to_list_a outer in
    all_in_a l inner
  else Ok false.
(* merge (2283-2291) *)
Fixpoint merge_loop_a (fuel : nat) (dst src : table) (i : nat) : res (table * table * bool) :=
  match fuel with
  | O => Loop
  | S f =>
      if i =? t_cap src then Ok (dst, src, false)
      else
        let* e := deref src i in
        match emplace_a dst (fst e) (snd e) with
        | BadAlloc => Ok (dst, src, true)
        | Ok (dst', _, inserted) =>
            let* src' := (if inserted then let* (_, s') := erase_at E src i in Ok s' else Ok src) in
            let* j := next_it E src' i in
            merge_loop_a f dst' src' j
        | UB => UB | Loop => Loop | Throw => Throw
        end
  end.
Definition merge_a (dst src : table) : res (table * table * bool) :=
  let* i := begin_a src in merge_loop_a (S (t_cap src)) dst src i.
(* insert(node_type&&) (2027-2038), erase_if (5597-5608) *)
Definition insert_node_a (t : table) (n : option elt) : res (table * option elt * bool) :=
  match n with
  | None => Ok (t, None, false)
  | Some e =>
      let* (t', _, inserted) := emplace_a t (fst e) (snd e) in
      Ok (t', if inserted then None else Some e, inserted)
  end.
Definition erase_if_a (p : elt -> bool) (t : table) : res (table * nat * list elt) :=
  let* i := begin_a t in
  let* (t', seen) := erase_if_loop E (S (t_cap t)) p t i in
  Ok (t', t_size t - t_size t', seen).

(** programs over several containers, as in MultiHistory *)
Definition mexec_a (ts : list table) (ns : list (option elt)) (o : mop K V)
  : res (list table * list (option elt) * mout K V) :=
  match o with
  | MOne i o1 =>
      let* t := load ts i in
      let* (t', r) := exec_a t o1 in Ok (<[i := t']> ts, ns, MR r)
  | MCopy i j =>
      let* _ := load ts i in
      let* t := load ts j in
      match copy_a t with
      | BadAlloc => Ok (ts, ns, MThrew)
      | r => let* t' := r in Ok (<[i := t']> ts, ns, MDone)
      end
  | MMove i j =>
      let* _ := load ts i in
      let* t := load ts j in
      let '(new, rest) := move_out_a t in Ok (<[i := new]> (<[j := rest]> ts), ns, MDone)
  | MSwap i j =>
      let* ti := load ts i in
      let* tj := load ts j in Ok (<[i := tj]> (<[j := ti]> ts), ns, MDone)
  | MMerge i j =>
      if i =? j then UB
      else
        let* ti := load ts i in
        let* tj := load ts j in
        let* (ti', tj', threw) := merge_a ti tj in
        Ok (<[i := ti']> (<[j := tj']> ts), ns, if threw then MThrew else MDone)
  | MExtract i k n =>
      let* t := load ts i in
      let* _ := load ns n in
      let* (e, t') := erase_key_a t k in
      Ok (<[i := t']> ts, <[n := e]> ns, MNode e)
  | MInsertNode i n =>
      let* t := load ts i in
      let* nd := load ns n in
      match insert_node_a t nd with
      | BadAlloc => Ok (ts, ns, MThrew)
      | r => let* (t', nd', b) := r in Ok (<[i := t']> ts, <[n := nd']> ns, MBool b)
      end
  | MEq i j =>
      let* ti := load ts i in
      let* tj := load ts j in
      let* b := table_eq_a ti tj in Ok (ts, ns, MBool b)
  | MEraseIf i p =>
      let* t := load ts i in
      let* (t', c, seen) := erase_if_a p t in Ok (<[i := t']> ts, ns, MErased c seen)
  end.
Fixpoint mrun_a (ts : list table) (ns : list (option elt)) (os : list (mop K V))
  : res (list table * list (option elt) * list (mout K V)) :=
  match os with
  | [] => Ok (ts, ns, [])
  | o :: os' =>
      let* (ts1, ns1, r) := mexec_a ts ns o in
      let* (ts2, ns2, rs) := mrun_a ts1 ns1 os' in Ok (ts2, ns2, r :: rs)
  end.

(** Move construction and assignment between containers whose allocators are not equal (1849-1869, 2830-2834): the new
    table is built by reserve and insert(std::move(element)), which copies the key and moves the mapped value; the source
    keeps its keys.  [mv] is what moving leaves of a mapped value.  The result is the new table, or nothing if the
    allocation failed, and the source; the elements are moved in the order of iteration. *)
Context (mv : V -> V).
Fixpoint move_all (fuel : nat) (dst src : table) (i : nat) : res (option table * table) :=
  match fuel with
  | O => Loop
  | S f =>
      if i =? t_cap src then Ok (Some dst, src)
      else
        let* e := deref src i in
        match emplace_a dst (fst e) (snd e) with
        | BadAlloc => Ok (None, src)
        | Ok (dst', _, inserted) =>
            let* src' := (if inserted then assign_at src i (mv (snd e)) else Ok src) in
            let* j := next_it E src' i in
            move_all f dst' src' j
        | UB => UB | Loop => Loop | Throw => Throw
        end
  end.
Definition move_unequal (src : table) : res (option table * table) :=
  match reserve_a null_table (N.of_nat (t_size src)) with
  | BadAlloc => Ok (None, src)
  | Ok dst => let* i := begin_a src in move_all (S (t_cap src)) dst src i
  | UB => UB | Loop => Loop | Throw => Throw
  end.
End Null.
