(** gtl::lru_cache_impl (include/gtl/lru_cache.hpp) and gtl::mt_memoize_lru (include/gtl/memoize.hpp:177-256): a
    parallel_flat_hash_map from keys to std::list iterators, each submap with the std::list as auxiliary container. *)
From stdpp Require Import list list_numbers.
From Coq Require Import Arith NArith ZArith.
From Verif.Common Require Import Res Word.
From Verif.Swiss Require Import Group Model History.
From Verif.Par Require Import Seq Conc ConcMap.
Local Open Scope nat_scope.
Local Open Scope res_scope.

(** A node of a std::list is named by the list that allocated it and a serial number; an iterator is the name of
    its node, and stays valid while the node is in a list.  Allocation of list nodes does not fail here (see C12
    for what happens when it does). *)
Definition nid := (nat * nat)%type.
Global Instance nid_eq_dec : EqDecision nid.
Proof. solve_decision. Defined.

Section Lru.
Context {K V : Type} (hash : K -> N) (eqb : K -> K -> bool) (E : env) (lg : nat).
Notation node := (nid * (K * V))%type.
Notation dlist := (list node).
Notation table := (table K nid).
(** struct Inner (phmap.hpp:3235-3255): set_, aux_; [s_own] and [s_next] name the nodes aux_ will allocate *)
Record shard := mkShard { s_tab : table; s_list : dlist; s_own : nat; s_next : nat }.

(** *it *)
Fixpoint node_at (l : dlist) (i : nid) : res (K * V) :=
  match l with
  | [] => UB
  | n :: l' => if bool_decide (fst n = i) then Ok (snd n) else node_at l' i
  end.
Definition without (l : dlist) (i : nid) : dlist := List.filter (fun n => negb (bool_decide (fst n = i))) l.
(* l.splice(l.begin(), l, it): it must be an iterator of l *)
Definition splice_front (l : dlist) (i : nid) : res dlist :=
  let* e := node_at l i in Ok ((i, e) :: without l i).
(* it->second = v *)
Definition set_node (l : dlist) (i : nid) (v : V) : res dlist :=
  let* e := node_at l i in
  Ok (map (fun n => if bool_decide (fst n = i) then (i, (fst (snd n), v)) else n) l).
(* last = --l.end(); to_delete = last->first; l.pop_back() *)
Definition pop_back (l : dlist) : res (K * dlist) :=
  match last l with
  | Some n => Ok (fst (snd n), removelast l)
  | None => UB
  end.

Definition with_list (s : shard) (l : dlist) : shard := mkShard (s_tab s) l (s_own s) (s_next s).

(** ** lru_cache_impl *)
(* the part of lazy_emplace_l (phmap.hpp:3951-3956) and of the second lambda (lru_cache.hpp:81-95, memoize.hpp:229-243)
   that adds a new key; [over l] tells whether the list is too long after push_front *)
Definition add_new (over : nat -> bool) (s : shard) (k : K) (v : V) : res shard :=
  let* (t1, p) := prepare_insert hash E (s_tab s) (hash k) in          (* find_or_prepare_insert (4397-4409) *)
  let i : nid := (s_own s, s_next s) in
  let l1 := (i, (k, v)) :: s_list s in                                  (* l.push_front *)
  let* t2 := construct_at p (k, i) t1 in                                (* ctor(key, l.begin()) *)
  let* (del, l2) := (if over (length l1) then let* (dk, l') := pop_back l1 in Ok (Some dk, l') else Ok (None, l1)) in
  let* t3 := publish_at E p (hash k) t2 in                              (* set_ctrl *)
  let* t4 := (match del with None => Ok t3 | Some dk => let* (_, t') := erase_key hash eqb E t3 dk in Ok t' end) in
  Ok (mkShard t4 l2 (s_own s) (S (s_next s))).

(* exists (59-61) *)
Definition lru_exists (s : shard) (k : K) : res bool :=
  let* r := find_key hash eqb E (s_tab s) k in Ok (match r with Some _ => true | None => false end).
(* get (63-70) *)
Definition lru_get (s : shard) (k : K) : res (shard * option V) :=
  let* r := find_key hash eqb E (s_tab s) k in
  match r with
  | None => Ok (s, None)
  | Some p =>
      let* kv := deref (s_tab s) p in
      let* e := node_at (s_list s) (snd kv) in
      let* l := splice_front (s_list s) (snd kv) in
      Ok (with_list s l, Some (snd e))
  end.
(* insert (72-96) *)
Definition lru_insert (max : nat) (s : shard) (k : K) (v : V) : res shard :=
  let* r := find_key hash eqb E (s_tab s) k in
  match r with
  | Some p =>
      let* kv := deref (s_tab s) p in
      let* l1 := set_node (s_list s) (snd kv) v in
      let* l2 := splice_front l1 (snd kv) in
      Ok (with_list s l2)
  | None => add_new (fun n => max <? n) s k v                           (* l.size() > _max_size (85) *)
  end.

(** ** mt_memoize_lru *)
(* contains (212-217): the value, not touching the order *)
Definition ml_contains (s : shard) (k : K) : res (option V) :=
  let* r := find_key hash eqb E (s_tab s) k in
  match r with
  | None => Ok None
  | Some p => let* kv := deref (s_tab s) p in let* e := node_at (s_list s) (snd kv) in Ok (Some (snd e))
  end.
(* operator() (219-245): the value, and whether f was evaluated *)
Definition ml_call (f : K -> V) (max : nat) (s : shard) (k : K) : res (shard * (V * bool)) :=
  let* r := find_key hash eqb E (s_tab s) k in
  match r with
  | Some p =>
      let* kv := deref (s_tab s) p in
      let* e := node_at (s_list s) (snd kv) in
      let* l := splice_front (s_list s) (snd kv) in
      Ok (with_list s l, (snd e, false))
  | None =>
      let* s' := add_new (fun n => max <=? n) s k (f k) in              (* l.size() >= _max_size (234) *)
      Ok (s', (f k, true))
  end.

(** ** Whole caches *)
Record cache := mkCache { c_shards : list shard; c_max : nat }.
(* the constructor (lru_cache.hpp:53-57, memoize.hpp:198-210): reserve(max_size) reserves [r] = size_t(max_size * 1.1f) in the map;
   the value of r, a float computation, is a parameter.  [None]: std::bad_alloc *)
Definition cache_new (own : nat) (r : N) (max_size : nat) : res (option cache) :=
  let* (ps, threw) := p_reserve hash E lg r (p_empty lg : list table) in
  if threw then Ok None
  else Ok (Some (mkCache (map (fun t => mkShard t [] own 0) ps) (max_size / num_tables lg))).
(* set_cache_size (99) *)
Definition set_cache_size (c : cache) (n : nat) : cache := mkCache (c_shards c) (n / num_tables lg).
(* size (100) *)
Definition cache_size (c : cache) : nat := sum_list_with (fun s => t_size (s_tab s)) (c_shards c).

(* reserve (98): rehashes the submaps, one after the other, until std::bad_alloc ([true]) *)
Definition with_tab (t : table) (s : shard) : shard := mkShard t (s_list s) (s_own s) (s_next s).
Definition cache_reserve (c : cache) (r : N) : res (cache * bool) :=
  let* (ps, threw) := p_reserve hash E lg r (map s_tab (c_shards c)) in
  Ok (mkCache (zip_with with_tab ps (c_shards c)) (c_max c), threw).

Inductive lop :=
| LGet (k : K) | LInsert (k : K) (v : V) | LExists (k : K) | LSetSize (n : nat) | LSize
| LReserve (r : N)       (* reserve(n), with r = size_t(n * 1.1f) *)
| LCall (k : K)          (* memoize_lru: operator() *)
| LContains (k : K).     (* memoize_lru: contains *)
Inductive lout := LVal (v : option V) | LBool (b : bool) | LUnit | LNum (n : nat) | LResult (v : V) (evaluated : bool) | LThrow.
Definition lop_key (o : lop) : option K :=
  match o with LGet k | LInsert k _ | LExists k | LCall k | LContains k => Some k | LSetSize _ | LSize | LReserve _ => None end.
(* one call on its shard; std::bad_alloc of prepare_insert leaves the shard as it was *)
Definition shard_exec (f : K -> V) (max : nat) (s : shard) (o : lop) : res (shard * lout) :=
  match o with
  | LGet k => let* (s', v) := lru_get s k in Ok (s', LVal v)
  | LInsert k v =>
      match lru_insert max s k v with BadAlloc => Ok (s, LThrow) | r => let* s' := r in Ok (s', LUnit) end
  | LExists k => let* b := lru_exists s k in Ok (s, LBool b)
  | LCall k =>
      match ml_call f max s k with BadAlloc => Ok (s, LThrow) | r => let* (s', (v, e)) := r in Ok (s', LResult v e) end
  | LContains k => let* v := ml_contains s k in Ok (s, LVal v)
  | LSetSize _ | LSize | LReserve _ => UB
  end.
Definition cache_exec (f : K -> V) (c : cache) (o : lop) : res (cache * lout) :=
  match lop_key o with
  | Some k =>
      let i := subidx lg (hash k) in
      let* s := load (c_shards c) i in
      let* (s', r) := shard_exec f (c_max c) s o in
      Ok (mkCache (<[i := s']> (c_shards c)) (c_max c), r)
  | None =>
      match o with
      | LSetSize n => Ok (set_cache_size c n, LUnit)
      | LReserve r => let* (c', threw) := cache_reserve c r in Ok (c', if threw then LThrow else LUnit)
      | _ => Ok (c, LNum (cache_size c))
      end
  end.
Fixpoint cache_run (f : K -> V) (c : cache) (os : list lop) : res (cache * list lout) :=
  match os with
  | [] => Ok (c, [])
  | o :: os' => let* (c1, r) := cache_exec f c o in let* (c2, rs) := cache_run f c1 os' in Ok (c2, r :: rs)
  end.

(** The implicit copy constructor of lru_cache_impl: parallel_hash_set's (phmap.hpp:3511-3518) copies set_ of every
    submap and nothing else; aux_ of the copy is a default-constructed list, and the iterators in the copied map
    are those of the source's lists.  [None]: std::bad_alloc *)
Definition cache_copy (own : nat) (c : cache) : res (option cache) :=
  let* (ps, threw) := p_copy hash E (p_empty lg) (map s_tab (c_shards c)) in
  if threw then Ok None else Ok (Some (mkCache (map (fun t => mkShard t [] own 0) ps) (c_max c))).
(* the implicit move constructor: parallel_hash_set's (3520-3528) moves set_ of every submap; aux_ stays behind *)
Definition cache_move (own : nat) (c : cache) : cache * cache :=
  (mkCache (map (fun s => mkShard (s_tab s) [] own 0) (c_shards c)) (c_max c),
   mkCache (map (fun s => mkShard empty_table (s_list s) (s_own s) (s_next s)) (c_shards c)) (c_max c)).
End Lru.
Arguments LGet {K V}.  Arguments LInsert {K V}.  Arguments LExists {K V}.  Arguments LSetSize {K V}.  Arguments LSize {K V}.
Arguments LCall {K V}.  Arguments LReserve {K V}.  Arguments LContains {K V}.  Arguments lop : clear implicits.
Arguments LVal {V}.  Arguments LBool {V}.  Arguments LUnit {V}.  Arguments LNum {V}.  Arguments LResult {V}.  Arguments LThrow {V}.
Arguments lout : clear implicits.  Arguments shard : clear implicits.  Arguments cache : clear implicits.
