(** Model of the calls of gtl::priv::raw_hash_set (include/gtl/phmap.hpp) that involve two containers or node
    handles, when the hash and equality objects and operator== of the elements may answer anything.
    Answers are numbered as in [AnyHash]; [eeq n a b] is what operator== of value_type answers if it is
    the [n]-th call.  An object that throws is not modelled here. *)
From stdpp Require Import list.
From Coq Require Import NArith ZArith.
From Verif.Common Require Import Res Word.
From Verif.Swiss Require Import Group Model AnyHashSpec AnyHash AnyMultiSpec.
Local Open Scope nat_scope.
Local Open Scope res_scope.

Section AnyMulti.
Context {K V : Type} (hash : nat -> K -> N) (eqb : nat -> K -> K -> bool) (eeq : nat -> K * V -> K * V -> bool) (E : env).
Notation elt := (K * V)%type.
Notation g := (e_group E).
Notation table := (table K V).

(** ** has_element (2771-2795) and operator== (2464-2475) *)
Fixpoint has_match_any (n : nat) (t : table) (x : elt) (off : nat) (is : list nat) : res (bool * nat) :=
  match is with
  | [] => Ok (false, n)
  | i :: is' =>
      let* s := load (t_slots t) (probe_at (t_cap t) off i) in
      let* e := of_option s in
      if eeq n e x then Ok (true, S n) else has_match_any (S n) t x off is'
  end.
Fixpoint has_loop_any (fuel : nat) (n : nat) (t : table) (x : elt) (h : N) (off idx : nat) : res (bool * nat) :=
  match fuel with
  | O => Loop
  | S f =>
      let* w := window E (t_ctrl t) off in
      let* (b, n1) := has_match_any n t x off (g_match g w (H2 h)) in
      if b then Ok (true, n1)
      else if g_any_empty g w then Ok (false, n1)
      else let '(off', idx') := probe_next E (t_cap t) off idx in
           has_loop_any f n1 t x h off' idx'
  end.
Definition has_element_any (n : nat) (t : table) (x : elt) : res (bool * nat) :=
  let h := hash n (fst x) in
  has_loop_any (S (t_cap t)) (S n) t x h (probe_start h (t_cap t)) 0.
Fixpoint all_in_any (n : nat) (l : list elt) (t : table) : res (bool * nat) :=
  match l with
  | [] => Ok (true, n)
  | x :: l' => let* (b, n1) := has_element_any n t x in if b then all_in_any n1 l' t else Ok (false, n1)
  end.
Definition table_eq_any (n : nat) (a b : table) : res (bool * nat) :=
  if t_size a =? t_size b then
    let '(outer, inner) := if t_cap b <? t_cap a then (b, a) else (a, b) in
    let* l := to_list E outer in
    all_in_any n l inner
  else Ok (false, n).

(** ** merge (2283-2291) with InsertSlot<false> (2571-2588); as in [Multi], the flag tells whether the call
    ended with std::bad_alloc.  The numbering then goes on after the lookup, as in [AnyHash.caught]. *)
Fixpoint merge_loop_any (fuel : nat) (n : nat) (dst src : table) (i : nat) : res (table * table * bool * nat) :=
  match fuel with
  | O => Loop
  | S f =>
      if i =? t_cap src then Ok (dst, src, false, n)
      else
        let* e := deref src i in
        match emplace_any hash eqb E n dst (fst e) (snd e) with
        | BadAlloc => let* (_, n1) := find_key_any hash eqb E n dst (fst e) in Ok (dst, src, true, n1)
        | Ok (dst', _, inserted, n') =>
            let* src' := (if inserted then let* (_, s') := erase_at E src i in Ok s' else Ok src) in
            let* j := next_it E src' i in
            merge_loop_any f n' dst' src' j
        | UB => UB | Loop => Loop | Throw => Throw
        end
  end.
Definition merge_any (n : nat) (dst src : table) : res (table * table * bool * nat) :=
  let* i := begin_it E src in merge_loop_any (S (t_cap src)) n dst src i.

(** ** erase_if (5597-5608), erase(iterator) (2264-2269): the successor is computed first *)
Fixpoint erase_if_any (fuel : nat) (p : nat -> elt -> bool) (j : nat) (t : table) (i : nat) : res table :=
  match fuel with
  | O => Loop
  | S f =>
      if i =? t_cap t then Ok t
      else
        let* e := deref t i in
        let* i' := next_it E t i in
        let* t' := (if p j e then let* (_, t') := erase_at E t i in Ok t' else Ok t) in
        erase_if_any f p (S j) t' i'
  end.

(** ** One public call on the containers [ts] and the node handles [ns] *)
Definition mstate : Type := list table * list (option elt).
Definition exec_multi (n : nat) (w : mstate) (o : mcall K V) : res (mstate * manswer K V * nat) :=
  let '(ts, ns) := w in
  match o with
  | MOn i o =>
      let* t := of_option (ts !! i) in
      let* (t', a, n') := exec_any hash eqb E n t o in
      Ok ((<[i := t']> ts, ns), RCall a, n')
  (* merge; the assertion that the containers differ is a precondition *)
  | MMerge d s =>
      let* td := of_option (ts !! d) in
      let* tsrc := of_option (ts !! s) in
      let* (td', ts', thrown, n') := merge_any n td tsrc in
      Ok ((<[s := ts']> (<[d := td']> ts), ns), (if thrown then RThrow else RUnit), n')
  (* swap (2310-2327): all the fields *)
  | MSwap a b =>
      let* ta := of_option (ts !! a) in
      let* tb := of_option (ts !! b) in
      Ok ((<[b := ta]> (<[a := tb]> ts), ns), RUnit, n)
  (* operator=(raw_hash_set&&) (1878-1884), move_assign (2825-2829): a temporary is move-constructed
     (1832-1847) and swapped with the destination; with it goes what the destination held *)
  | MMove d s =>
      let* _ := of_option (ts !! d) in
      let* t := of_option (ts !! s) in
      Ok ((<[s := empty_table]> (<[d := t]> ts), ns), RUnit, n)
  (* operator=(const raw_hash_set&) (1871-1876): a temporary is copy-constructed and swapped *)
  | MCopy d s =>
      let* t := of_option (ts !! s) in
      match copy_any hash E n t with
      | BadAlloc => Ok ((ts, ns), RThrow, n)
      | Ok (t', n') => Ok ((<[d := t']> ts, ns), RUnit, n')
      | UB => UB | Loop => Loop | Throw => Throw
      end
  | MEqual a b =>
      let* ta := of_option (ts !! a) in
      let* tb := of_option (ts !! b) in
      let* (r, n') := table_eq_any n ta tb in
      Ok ((ts, ns), RBool r, n')
  | MEraseIf i p =>
      let* t := of_option (ts !! i) in
      let* b := begin_it E t in
      let* t' := erase_if_any (S (t_cap t)) p 0 t b in
      Ok ((<[i := t']> ts, ns), RCount (t_size t - t_size t'), n)
  (* extract(key) (2305-2308); the node handle that is assigned to destroys what it held *)
  | MExtract i k m =>
      let* t := of_option (ts !! i) in
      let* (e, t', n') := erase_key_any hash eqb E n t k in
      Ok ((<[i := t']> ts, <[m := e]> ns), RNode (match e with Some _ => true | None => false end), n')
  (* extract(iterator) (2298-2302) *)
  | MExtractNth i j m =>
      let* t := of_option (ts !! i) in
      let* (e, t') := erase_nth E t j in
      Ok ((<[i := t']> ts, <[m := Some e]> ns), RNode true, n)
  (* insert(node_type&&) (2027-2038) *)
  | MInsertNode i m =>
      let* t := of_option (ts !! i) in
      let* nd := of_option (ns !! m) in
      match nd with
      | None => Ok ((ts, ns), RInserted false None, n)
      | Some e =>
          match emplace_any hash eqb E n t (fst e) (snd e) with
          | BadAlloc => let* (_, n1) := find_key_any hash eqb E n t (fst e) in Ok ((ts, ns), RThrow, n1)
          | Ok (t', p, inserted, n') =>
              let* x := deref t' p in
              Ok ((<[i := t']> ts, <[m := if inserted then None else Some e]> ns), RInserted inserted (Some x), n')
          | UB => UB | Loop => Loop | Throw => Throw
          end
      end
  end.
End AnyMulti.
