(** Model of gtl::priv::parallel_hash_set / parallel_hash_map (include/gtl/phmap.hpp:3190-4706) used from one
    thread, when the hash and equality objects and operator== of the elements may answer anything.  Answers
    are numbered as in [AnyHash]; the submaps are tables of [AnyHash] and [AnyMulti]; what calls no object is
    in [Seq].  The container holds 2^lg submaps.  Locks are not in this file (a thread alone never waits),
    except that erase depends on whether the mutex can be locked shared. *)
From stdpp Require Import list list_numbers.
From Coq Require Import NArith ZArith.
From Verif.Common Require Import Res Word.
From Verif.Swiss Require Import Group Model AnyHashSpec AnyHash AnyMultiSpec AnyMulti.
From Verif.Par Require Import Seq.
Local Open Scope nat_scope.
Local Open Scope res_scope.

Section AnyPar.
Context {K V : Type} (hash : nat -> K -> N) (eqb : nat -> K -> K -> bool) (eeq : nat -> K * V -> K * V -> bool)
  (E : env) (lg : nat) (rw : bool).
Notation elt := (K * V)%type.
Notation table := (table K V).
Notation ptable := (list table).
Notation subidx := (subidx lg).

(** emplace_decomposable (3744-3763), try_emplace_impl (4688-4706), find (4196-4208, 4388-4394),
    contains_impl (4227-4232): the hash object is called once; the same hash chooses the submap and serves in it *)
Definition on_key_any (n : nat) (ps : ptable) (k : K) (o : call K V) : res (ptable * answer K V * nat) :=
  let i := subidx (hash n k) in
  let* t := load ps i in
  let* (t', r, n') := exec_any hash eqb E n t o in
  Ok (<[i := t']> ps, r, n').
(** insert_or_assign_impl (4675-4686): the hash object is called twice.  The second answer chooses the submap and
    the slot (find_or_prepare_insert 4413-4416, 4397-4411), the first becomes the control byte. *)
Definition p_assign_any (n : nat) (ps : ptable) (k : K) (v : V) : res (ptable * answer K V * nat) :=
  let h1 := hash n k in
  let h2 := hash (S n) k in
  let i := subidx h2 in
  let* t := load ps i in
  let* (r, n1) := find_hash eqb E (S (S n)) t k h2 in
  match r with
  | Some p =>
      let* t' := assign_at t p v in
      let* e := deref t' p in
      Ok (<[i := t']> ps, AInserted false e, n1)
  | None =>
      match prepare_any hash E n1 t h2 with
      | BadAlloc => Ok (ps, AThrow, n1)
      | Ok (t1, p, n2) =>
          let* t' := finish_any E t1 p (k, v) h1 in
          let* e := deref t' p in
          Ok (<[i := t']> ps, AInserted true e, n2)
      | UB => UB | Loop => Loop | Throw => Throw
      end
  end.
(** erase(key) (4050-4054), erase_if_impl (3914-3934) with a predicate that always answers yes.
    switch_to_unique answers true for a read-write lock (449-454), false for the others (193, 273). *)
Definition p_erase_any (n : nat) (ps : ptable) (k : K) : res (ptable * answer K V * nat) :=
  let h := hash n k in
  let i := subidx h in
  let* t := load ps i in
  let* (r, n1) := find_hash eqb E (S n) t k h in
  match r with
  | None => Ok (ps, ACount 0, n1)
  | Some p =>
      let* (r2, n2) := (if rw then find_hash eqb E n1 t k h else Ok (Some p, n1)) in
      match r2 with
      | None => Ok (ps, ACount 1, n2)
      | Some p2 => let* (_, t') := erase_at E t p2 in Ok (<[i := t']> ps, ACount 1, n2)
      end
  end.
(* the iterator that designates the j-th element: begin(), incremented j times; end() must not be reached *)
Fixpoint p_advance (j : nat) (ps : ptable) (it : pit) : res (nat * nat) :=
  match it with
  | None => UB
  | Some ij => match j with O => Ok ij | S j' => let* it' := p_next E ps ij in p_advance j' ps it' end
  end.
Definition p_nth (ps : ptable) (j : nat) : res (nat * nat) :=
  let* it := p_begin E ps in p_advance j ps it.
(* erase(iterator) (4088-4092): the iterator is incremented first (its value is not used here) *)
Definition p_erase_nth (ps : ptable) (j : nat) : res (elt * ptable) :=
  let* ij := p_nth ps j in
  let* _ := p_next E ps ij in
  let* t := load ps (fst ij) in
  let* (e, t') := erase_at E t (snd ij) in
  Ok (e, <[fst ij := t']> ps).
(* extract(iterator) (4116-4118) *)
Definition p_extract_nth (ps : ptable) (j : nat) : res (elt * ptable) :=
  let* ij := p_nth ps j in
  let* t := load ps (fst ij) in
  let* (e, t') := erase_at E t (snd ij) in
  Ok (e, <[fst ij := t']> ps).
(** rehash (4140-4146), reserve (4148-4152); the flag tells whether a submap threw *)
Fixpoint p_rehash_any (nn : N) (n : nat) (ps : ptable) : res (ptable * bool * nat) :=
  match ps with
  | [] => Ok ([], false, n)
  | t :: ps' =>
      match rehash_any hash E n t nn with
      | BadAlloc => Ok (t :: ps', true, n)
      | Ok (t', n1) => let* (r, b, n2) := p_rehash_any nn n1 ps' in Ok (t' :: r, b, n2)
      | UB => UB | Loop => Loop | Throw => Throw
      end
  end.
(** operator=(const&) (3531-3535) and the copy constructor (3514-3518), submap by submap *)
Fixpoint p_copy_any (n : nat) (dst src : ptable) : res (ptable * bool * nat) :=
  match dst, src with
  | d :: dst', s :: src' =>
      match copy_any hash E n s with
      | BadAlloc => Ok (d :: dst', true, n)
      | Ok (d', n1) => let* (r, b, n2) := p_copy_any n1 dst' src' in Ok (d' :: r, b, n2)
      | UB => UB | Loop => Loop | Throw => Throw
      end
  | [], [] => Ok ([], false, n)
  | _, _ => UB
  end.
(** one call on one container *)
Definition p_exec_any (n : nat) (ps : ptable) (o : call K V) : res (ptable * answer K V * nat) :=
  match o with
  | CEmplace k _ | CFind k => on_key_any n ps k o
  | CAssign k v => p_assign_any n ps k v
  | CErase k => p_erase_any n ps k
  | CEraseNth j => let* (_, ps') := p_erase_nth ps j in Ok (ps', AUnit, n)
  | CClear => let* ps' := p_clear E ps in Ok (ps', AUnit, n)
  | CRehash m =>
      let* (ps', b, n') := p_rehash_any (m / N.of_nat (num_tables lg))%N n ps in
      Ok (ps', (if b then AThrow else AUnit), n')
  | CReserve m =>
      let* q := p_reserve_arg E lg m in
      let* (ps', b, n') := p_rehash_any (q / N.of_nat (num_tables lg))%N n ps in
      Ok (ps', (if b then AThrow else AUnit), n')
  (* the copy constructor throws: there is no copy, and the program goes on with the original *)
  | CCopy =>
      let* (ps', b, n') := p_copy_any n (p_empty lg) ps in
      Ok (if b then (ps, AThrow, n') else (ps', AUnit, n'))
  | CSize => Ok (ps, ACount (p_size ps), n)
  | CTraverse => let* l := p_to_list E ps in Ok (ps, AElems l, n)
  end.

(** operator== (4275-4277) through Inner::operator== (3248-3251); std::equal stops at the first difference *)
Fixpoint p_eq_any (n : nat) (a b : ptable) : res (bool * nat) :=
  match a, b with
  | x :: a', y :: b' =>
      let* (r, n1) := table_eq_any hash eeq E n x y in
      if r then p_eq_any n1 a' b' else Ok (false, n1)
  | [], [] => Ok (true, n)
  | _, _ => UB
  end.
(** merge (4101-4109): each submap into the submap of the same index, wherever its keys would be looked for now *)
Fixpoint p_merge_any (n : nat) (dst src : ptable) : res (ptable * ptable * bool * nat) :=
  match dst, src with
  | d :: dst', s :: src' =>
      let* (d', s', b, n1) := merge_any hash eqb E n d s in
      if b then Ok (d' :: dst', s' :: src', true, n1)
      else
        let* (dr, sr, b', n2) := p_merge_any n1 dst' src' in
        Ok (d' :: dr, s' :: sr, b', n2)
  | [], [] => Ok ([], [], false, n)
  | _, _ => UB
  end.
(** erase_if (5597-5608), erase(iterator) (4088-4092): the iterator is incremented before the erasure *)
Fixpoint p_erase_if_any (fuel : nat) (p : nat -> elt -> bool) (j : nat) (ps : ptable) (it : pit) : res ptable :=
  match fuel with
  | O => Loop
  | S f =>
      match it with
      | None => Ok ps
      | Some ij =>
          let* e := p_deref ps ij in
          let* it' := p_next E ps ij in
          let* ps' := (if p j e then p_erase_at E ps ij else Ok ps) in
          p_erase_if_any f p (S j) ps' it'
      end
  end.

(** One public call on the containers [cs] and the node handles [ns] *)
Definition pstate : Type := list ptable * list (option elt).
Definition p_exec_multi (n : nat) (w : pstate) (o : mcall K V) : res (pstate * manswer K V * nat) :=
  let '(cs, ns) := w in
  match o with
  | MOn i o =>
      let* c := of_option (cs !! i) in
      let* (c', a, n') := p_exec_any n c o in
      Ok ((<[i := c']> cs, ns), RCall a, n')
  | MMerge d s =>
      let* cd := of_option (cs !! d) in
      let* c := of_option (cs !! s) in
      let* (cd', c', b, n') := p_merge_any n cd c in
      Ok ((<[s := c']> (<[d := cd']> cs), ns), (if b then RThrow else RUnit), n')
  (* swap (4126-4138): every pair of submaps *)
  | MSwap a b =>
      let* ca := of_option (cs !! a) in
      let* cb := of_option (cs !! b) in
      Ok ((<[b := ca]> (<[a := cb]> cs), ns), RUnit, n)
  (* operator=(parallel_hash_set&&) (3537-3543): every submap is moved *)
  | MMove d s =>
      let* _ := of_option (cs !! d) in
      let* c := of_option (cs !! s) in
      Ok ((<[s := map (fun _ => empty_table) c]> (<[d := c]> cs), ns), RUnit, n)
  | MCopy d s =>
      let* cd := of_option (cs !! d) in
      let* c := of_option (cs !! s) in
      let* (cd', b, n') := p_copy_any n cd c in
      Ok ((<[d := cd']> cs, ns), (if b then RThrow else RUnit), n')
  | MEqual a b =>
      let* ca := of_option (cs !! a) in
      let* cb := of_option (cs !! b) in
      let* (r, n') := p_eq_any n ca cb in
      Ok ((cs, ns), RBool r, n')
  | MEraseIf i p =>
      let* c := of_option (cs !! i) in
      let* it := p_begin E c in
      let* c' := p_erase_if_any (S (total_cap c)) p 0 c it in
      Ok ((<[i := c']> cs, ns), RCount (p_size c - p_size c'), n)
  (* extract(key) (4120-4124): find, then extract from the submap of the iterator *)
  | MExtract i k m =>
      let* c := of_option (cs !! i) in
      let j := subidx (hash n k) in
      let* t := load c j in
      let* (e, t', n') := erase_key_any hash eqb E n t k in
      Ok ((<[i := <[j := t']> c]> cs, <[m := e]> ns), RNode (match e with Some _ => true | None => false end), n')
  | MExtractNth i j m =>
      let* c := of_option (cs !! i) in
      let* (e, c') := p_extract_nth c j in
      Ok ((<[i := c']> cs, <[m := Some e]> ns), RNode true, n)
  (* insert(node_type&&) (3665-3676), insert(node, hashval) of the submap (2039-2051) *)
  | MInsertNode i m =>
      let* c := of_option (cs !! i) in
      let* nd := of_option (ns !! m) in
      match nd with
      | None => Ok ((cs, ns), RInserted false None, n)
      | Some e =>
          let j := subidx (hash n (fst e)) in
          let* t := load c j in
          match emplace_any hash eqb E n t (fst e) (snd e) with
          | BadAlloc => let* (_, n1) := find_key_any hash eqb E n t (fst e) in Ok ((cs, ns), RThrow, n1)
          | Ok (t', p, inserted, n') =>
              let* x := deref t' p in
              Ok ((<[i := <[j := t']> c]> cs, <[m := if inserted then None else Some e]> ns), RInserted inserted (Some x), n')
          | UB => UB | Loop => Loop | Throw => Throw
          end
      end
  end.
End AnyPar.
