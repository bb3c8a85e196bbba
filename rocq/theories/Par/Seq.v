(** Executable model of parallel_hash_set / parallel_hash_map (include/gtl/phmap.hpp:3190-4706) used from one
    thread: an array of 2^lg tables of [Swiss.Model] and the routing of keys to them.  Locks are not in this
    file (see Locks, Conc): a thread alone never waits.  The auxiliary container of a submap is in Lru. *)
From stdpp Require Import list list_numbers.
From Coq Require Import NArith ZArith.
From Verif.Common Require Import Res Word.
From Verif.Swiss Require Import Group Model MapSpec History Multi MultiSpec.
Local Open Scope nat_scope.
Local Open Scope res_scope.

Section Par.
Context {K V : Type} (hash : K -> N) (eqb : K -> K -> bool) (eeq : K * V -> K * V -> bool) (E : env) (lg : nat).
Notation elt := (K * V)%type.
Notation table := (table K V).
Notation W := (g_width (e_group E)).

(* num_tables, mask (phmap.hpp:3213-3216); the template parameter N is [lg] *)
Definition num_tables : nat := 2 ^ lg.
Definition mask : N := (2 ^ N.of_nat lg - 1)%N.
(* subidx (4421) *)
Definition subidx (h : N) : nat :=
  N.to_nat (N.land (N.lxor (N.lxor (N.shiftr h 8) (N.shiftr h 16)) (N.shiftr h 24)) mask).

(* std::array<Inner, num_tables> sets_ (4443), default constructed *)
Notation ptable := (list table).
Definition p_empty : ptable := replicate num_tables empty_table.

(** ** Iterators (3290-3357): the submap index and the iterator in it; [None] is end() (inner_ == nullptr).
    The cached it_end_ is the end of the current submap; it is recomputed here (it changes only when the
    submap is rehashed, which invalidates the iterator anyway). *)
Definition pit := option (nat * nat).
(* skip_empty (3339-3350); the fuel bounds the number of submaps crossed *)
Fixpoint p_skip (fuel : nat) (ps : ptable) (i j : nat) : res pit :=
  match fuel with
  | O => Loop
  | S f =>
      let* t := load ps i in
      if j =? t_cap t then
        if S i =? length ps then Ok None
        else
          let* t' := load ps (S i) in
          let* j' := begin_it E t' in
          p_skip f ps (S i) j'
      else Ok (Some (i, j))
  end.
(* begin (3545-3549) *)
Definition p_begin (ps : ptable) : res pit :=
  let* t := load ps 0 in
  let* j := begin_it E t in
  p_skip (length ps) ps 0 j.
(* operator++ (3311-3316) *)
Definition p_next (ps : ptable) (it : nat * nat) : res pit :=
  let '(i, j) := it in
  let* t := load ps i in
  let* j' := next_it E t j in
  p_skip (length ps) ps i j'.
(* operator* (3307) *)
Definition p_deref (ps : ptable) (it : nat * nat) : res elt :=
  let* t := load ps (fst it) in deref t (snd it).
(* for (auto& e : map) *)
Fixpoint p_iterate_from (fuel : nat) (ps : ptable) (it : pit) : res (list elt) :=
  match fuel with
  | O => Loop
  | S f =>
      match it with
      | None => Ok []
      | Some ij =>
          let* e := p_deref ps ij in
          let* it' := p_next ps ij in
          let* r := p_iterate_from f ps it' in
          Ok (e :: r)
      end
  end.
Definition total_cap (ps : ptable) : nat := sum_list_with t_cap ps.
Definition p_to_list (ps : ptable) : res (list elt) :=
  let* it := p_begin ps in p_iterate_from (S (total_cap ps)) ps it.

(** size (3560-3565).  The sum is not reduced modulo 2^64: every element occupies memory. *)
Definition p_size (ps : ptable) : nat := sum_list_with t_size ps.

(* clear (3576-3583), without auxiliary container *)
Fixpoint p_clear (ps : ptable) : res ptable :=
  match ps with
  | [] => Ok []
  | t :: ps' => let* t' := clear E t in let* r := p_clear ps' in Ok (t' :: r)
  end.
(** rehash (4140-4146): the flag is [true] when a submap threw; the submaps before it are already rehashed. *)
Fixpoint p_rehash_loop (nn : N) (ps : ptable) : res (ptable * bool) :=
  match ps with
  | [] => Ok ([], false)
  | t :: ps' =>
      match rehash hash E t nn with
      | BadAlloc => Ok (t :: ps', true)
      | Ok t' => let* (r, b) := p_rehash_loop nn ps' in Ok (t' :: r, b)
      | UB => UB | Loop => Loop | Throw => Throw
      end
  end.
Definition p_rehash (n : N) (ps : ptable) : res (ptable * bool) :=
  p_rehash_loop (n / N.of_nat num_tables)%N ps.
(* reserve (4148-4152) *)
Definition p_reserve_arg (n : N) : res N :=
  let* target := GrowthToLowerboundCapacity W n in
  let normalized := wmul 64 (N.of_nat num_tables) (NormalizeCapacity (n / N.of_nat num_tables)) in
  Ok (if (target <? normalized)%N then normalized else target).
Definition p_reserve (n : N) (ps : ptable) : res (ptable * bool) :=
  let* m := p_reserve_arg n in p_rehash m ps.

(** Operations on one key go to one submap, where they are those of the embedded table:
    emplace_decomposable_with_hash (3744-3757), insert_or_assign_impl (4675-4686),
    try_emplace_impl_with_hash (4694-4706), find (4196-4203, 4369-4378), contains (4216-4232),
    erase(key) (4051-4054) which is erase_if_impl (3914-3934) with an always-true predicate. *)
Definition on_key (ps : ptable) (k : K) (o : op K V) : res (ptable * out K V) :=
  let i := subidx (hash k) in
  let* t := load ps i in
  let* (t', r) := exec hash eqb E t o in
  Ok (<[i := t']> ps, r).
Definition threw (b : bool) : out K V := if b then RThrow else RUnit.
Definition p_exec (ps : ptable) (o : op K V) : res (ptable * out K V) :=
  match o with
  | OEmplace k _ | OAssign k _ | OFind k | OErase k => on_key ps k o
  | OClear => let* ps' := p_clear ps in Ok (ps', RUnit)
  | ORehash n => let* (ps', b) := p_rehash n ps in Ok (ps', threw b)
  | OReserve n => let* (ps', b) := p_reserve n ps in Ok (ps', threw b)
  | OSize => Ok (ps, RSize (p_size ps))
  | OTraverse => let* l := p_to_list ps in Ok (ps, RElems l)
  end.

(** ** Two containers *)
(** operator=(const&) (3531-3535), and the copy constructor (3511-3515) from an empty [dst]: submap by submap.
    When a submap throws, the earlier ones have been assigned and the later ones have not. *)
Fixpoint p_copy (dst src : ptable) : res (ptable * bool) :=
  match dst, src with
  | d :: dst', s :: src' =>
      match copy hash E s with
      | BadAlloc => Ok (d :: dst', true)
      | Ok d' => let* (r, b) := p_copy dst' src' in Ok (d' :: r, b)
      | UB => UB | Loop => Loop | Throw => Throw
      end
  | [], [] => Ok ([], false)
  | _, _ => UB
  end.
(* operator=(parallel_hash_set&&) (3537-3543): every submap is moved *)
Definition p_move_out (src : ptable) : ptable * ptable :=
  (map (fun t => fst (move_out t)) src, map (fun t => snd (move_out t)) src).
(* swap (4127-4138): every pair of submaps is swapped *)
Definition p_swap (a b : ptable) : ptable * ptable := (b, a).
(* operator== (4275-4277) through Inner::operator== (3245-3249); std::equal stops at the first difference *)
Fixpoint p_eq (a b : ptable) : res bool :=
  match a, b with
  | x :: a', y :: b' => let* r := table_eq hash E eeq x y in if r then p_eq a' b' else Ok false
  | [], [] => Ok true
  | _, _ => UB
  end.
(* merge (4101-4109); an exception leaves the loop *)
Fixpoint p_merge (dst src : ptable) : res (ptable * ptable * bool) :=
  match dst, src with
  | d :: dst', s :: src' =>
      let* (d', s', b) := merge hash eqb E d s in
      if b then Ok (d' :: dst', s' :: src', true)
      else
        let* (dr, sr, b') := p_merge dst' src' in
        Ok (d' :: dr, s' :: sr, b')
  | [], [] => Ok ([], [], false)
  | _, _ => UB
  end.
(* _erase(iterator) (4078-4081) *)
Definition p_erase_at (ps : ptable) (ij : nat * nat) : res ptable :=
  let* t := load ps (fst ij) in
  let* (_, t') := erase_at E t (snd ij) in
  Ok (<[fst ij := t']> ps).
(* erase_if (5597-5608) with erase(iterator) (4088-4092): the iterator is incremented before the erasure *)
Fixpoint p_erase_if_loop (fuel : nat) (p : elt -> bool) (ps : ptable) (it : pit) : res (ptable * list elt) :=
  match fuel with
  | O => Loop
  | S f =>
      match it with
      | None => Ok (ps, [])
      | Some ij =>
          let* e := p_deref ps ij in
          let* it' := p_next ps ij in
          let* ps' := (if p e then p_erase_at ps ij else Ok ps) in
          let* (ps2, seen) := p_erase_if_loop f p ps' it' in
          Ok (ps2, e :: seen)
      end
  end.
Definition p_erase_if (p : elt -> bool) (ps : ptable) : res (ptable * nat * list elt) :=
  let* it := p_begin ps in
  let* (ps', seen) := p_erase_if_loop (S (total_cap ps)) p ps it in
  Ok (ps', p_size ps - p_size ps', seen).
(* insert(node_type&&) (3665-3676) *)
Definition p_insert_node (ps : ptable) (nd : option elt) : res (ptable * option elt * bool) :=
  match nd with
  | None => Ok (ps, None, false)
  | Some e =>
      let i := subidx (hash (fst e)) in
      let* t := load ps i in
      let* (t', nd', b) := insert_node hash eqb E t nd in
      Ok (<[i := t']> ps, nd', b)
  end.
(* extract(key) (4120-4124): find, then extract from the submap of the iterator *)
Definition p_extract (ps : ptable) (k : K) : res (option elt * ptable) :=
  let i := subidx (hash k) in
  let* t := load ps i in
  let* (e, t') := erase_key hash eqb E t k in
  Ok (e, <[i := t']> ps).

Definition mthrew (b : bool) : mout K V := if b then MThrew else MDone.
(** One call of a program over several parallel containers and node handles. *)
Definition pm_exec (cs : list ptable) (ns : list (option elt)) (o : mop K V)
  : res (list ptable * list (option elt) * mout K V) :=
  match o with
  | MOne i o1 =>
      let* c := load cs i in
      let* (c', r) := p_exec c o1 in Ok (<[i := c']> cs, ns, MR r)
  | MCopy i j =>
      let* d := load cs i in
      let* s := load cs j in
      let* (d', b) := p_copy d s in Ok (<[i := d']> cs, ns, mthrew b)
  | MMove i j =>
      let* _ := load cs i in
      let* s := load cs j in
      let '(new, rest) := p_move_out s in Ok (<[i := new]> (<[j := rest]> cs), ns, MDone)
  | MSwap i j =>
      let* a := load cs i in
      let* b := load cs j in
      let '(a', b') := p_swap a b in Ok (<[i := a']> (<[j := b']> cs), ns, MDone)
  | MMerge i j =>
      if i =? j then UB (* assert(this != &src); ignored when NDEBUG *)
      else
        let* d := load cs i in
        let* s := load cs j in
        let* (d', s', b) := p_merge d s in Ok (<[i := d']> (<[j := s']> cs), ns, mthrew b)
  | MExtract i k n =>
      let* c := load cs i in
      let* _ := load ns n in
      let* (e, c') := p_extract c k in Ok (<[i := c']> cs, <[n := e]> ns, MNode e)
  | MInsertNode i n =>
      let* c := load cs i in
      let* nd := load ns n in
      match p_insert_node c nd with
      | BadAlloc => Ok (cs, ns, MThrew)
      | r => let* (c', nd', b) := r in Ok (<[i := c']> cs, <[n := nd']> ns, MBool b)
      end
  | MEq i j =>
      let* a := load cs i in
      let* b := load cs j in
      let* r := p_eq a b in Ok (cs, ns, MBool r)
  | MEraseIf i p =>
      let* c := load cs i in
      let* (c', n, seen) := p_erase_if p c in Ok (<[i := c']> cs, ns, MErased n seen)
  end.
Fixpoint pm_run (cs : list ptable) (ns : list (option elt)) (os : list (mop K V))
  : res (list ptable * list (option elt) * list (mout K V)) :=
  match os with
  | [] => Ok (cs, ns, [])
  | o :: os' =>
      let* (cs1, ns1, r) := pm_exec cs ns o in
      let* (cs2, ns2, rs) := pm_run cs1 ns1 os' in Ok (cs2, ns2, r :: rs)
  end.
End Par.
