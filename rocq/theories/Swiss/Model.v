(** Executable model of gtl::priv::raw_hash_set (include/gtl/phmap.hpp:1507-3000) and of the
    map layer on top (3005-3168).

    Simplifications (all of them, for this file):
    - keys/values are immutable Gallina values; a slot is [None] when no object lives in it and
      [Some (k,v)] when a constructed element does; constructing over a live object, or reading,
      moving or destroying a slot without an object is [UB];
    - size_/capacity_/indices are [nat] (unbounded) but growth_left is a wrapping 64-bit number, the
      masks/wrapping subtractions are written with their 64-bit wrap-around, and the allocation size is
      computed modulo 2^64 as in the code;
    - the allocator throws iff asked for more than [max_bytes] bytes; std::allocator is assumed (the
      [!std_alloc_t] branches are not modelled) and GTL_NON_DETERMINISTIC is off;
    - hash and equality are pure total functions. *)
From stdpp Require Import list.
From Coq Require Import NArith ZArith.
From Verif.Common Require Import Res Word.
From Verif.Swiss Require Import Group.
Local Open Scope nat_scope.
Local Open Scope res_scope.

(** Build-time / environment parameters. *)
Record env := {
  e_group : group;        (* GroupSse2Impl or GroupPortableImpl *)
  e_max_bytes : N;        (* largest request the allocator can satisfy *)
  e_slot_size : N;        (* sizeof(slot_type) *)
  e_align_log : N;        (* log2 alignof(slot_type) *)
  e_junk : Z              (* content of uninitialised control memory *)
}.

(** ** Memory accesses *)
Definition store {A} (l : list A) (i : nat) (x : A) : res (list A) :=
  if i <? length l then Ok (<[i := x]> l) else UB.
Definition load {A} (l : list A) (i : nat) : res A := of_option (l !! i).

(** ** Capacity arithmetic *)
(* NormalizeCapacity (phmap.hpp:1049) *)
Definition NormalizeCapacity (n : N) : N :=
  if (n =? 0)%N then 1%N else N.shiftr (2 ^ 64 - 1) (clz 64 n).
(* CapacityToGrowth (phmap.hpp:1055-1065) *)
Definition CapacityToGrowth (W cap : nat) : nat :=
  if (W =? 8) && (cap =? 7) then 6 else cap - cap / 8.
(* GrowthToLowerboundCapacity (phmap.hpp:1071-1080); int64 overflow of (int64)growth - 1 is UB *)
Definition GrowthToLowerboundCapacity (W : nat) (growth : N) : res N :=
  if (W =? 8) && (growth =? 7)%N then Ok 8%N
  else
    let s := if (growth <? 2 ^ 63)%N then Z.of_N growth else (Z.of_N growth - 2 ^ 64)%Z in
    if (s =? - 2 ^ 63)%Z then UB
    else Ok (Z.to_N ((Z.of_N growth + Z.quot (s - 1) 7) mod 2 ^ 64)).

Section Table.
Context {K V : Type} (hash : K -> N) (eqb : K -> K -> bool) (E : env).
Notation elt := (K * V)%type.
Notation g := (e_group E).
Notation W := (g_width (e_group E)).

(* fields: phmap.hpp:2992-2999 *)
Record table := mkTable {
  t_ctrl : list Z;
  t_slots : list (option elt);
  t_size : nat;
  t_cap : nat;
  t_growth : N
}.

(* EmptyGroup (phmap.hpp:822-832), default member initialisers (2992-2999) *)
Definition empty_table : table :=
  mkTable (kSentinel :: replicate 15 kEmpty) [] 0 0 0%N.

(* Group{ctrl_ + pos}: reads kWidth control bytes *)
Definition window (ctrl : list Z) (pos : nat) : res (list Z) :=
  if pos + W <=? length ctrl then Ok (take W (drop pos ctrl)) else UB.

(** ** Probing: probe (2925-2927) and probe_seq (666-688) *)
Definition probe_start (h : N) (cap : nat) : nat := N.to_nat (N.land (H1 h) (N.of_nat cap)).
Definition probe_next (cap off idx : nat) : nat * nat :=
  (Nat.land (off + (idx + W)) cap, idx + W).
Definition probe_at (cap off i : nat) : nat := Nat.land (off + i) cap.

(** ** Lookup *)
(* the inner for loop of find_impl / _find_key (2500-2505, 2847-2851) *)
Fixpoint match_loop (t : table) (k : K) (off : nat) (is : list nat) : res (option nat) :=
  match is with
  | [] => Ok None
  | i :: is' =>
      let p := probe_at (t_cap t) off i in
      let* s := load (t_slots t) p in
      let* e := of_option s in
      if eqb k (fst e) then Ok (Some p) else match_loop t k off is'
  end.
(* find_impl (2491-2510) and _find_key (2838-2857); the two differ only in how the result is returned *)
Fixpoint find_loop (fuel : nat) (t : table) (k : K) (h : N) (off idx : nat) : res (option nat) :=
  match fuel with
  | O => Loop
  | S f =>
      let* w := window (t_ctrl t) off in
      let* r := match_loop t k off (g_match g w (H2 h)) in
      match r with
      | Some p => Ok (Some p)
      | None =>
          if g_any_empty g w then Ok None
          else let '(off', idx') := probe_next (t_cap t) off idx in
               find_loop f t k h off' idx'
      end
  end.
Definition find_fuel (fuel : nat) (t : table) (k : K) : res (option nat) :=
  find_loop fuel t k (hash k) (probe_start (hash k) (t_cap t)) 0.
Definition find_key (t : table) (k : K) : res (option nat) := find_fuel (S (t_cap t)) t k.

(* find_first_non_full (2811-2822) *)
Fixpoint ffnf_loop (fuel : nat) (ctrl : list Z) (cap off idx : nat) : res nat :=
  match fuel with
  | O => Loop
  | S f =>
      let* w := window ctrl off in
      match g_first_nonfull g w with
      | Some i => Ok (probe_at cap off i)
      | None => let '(off', idx') := probe_next cap off idx in ffnf_loop f ctrl cap off' idx'
      end
  end.
Definition find_first_non_full (ctrl : list Z) (cap : nat) (h : N) : res nat :=
  ffnf_loop (S cap) ctrl cap (probe_start h cap) 0.

(** ** Control bytes *)
(* x & mask with x = a - b in size_t arithmetic *)
Definition sub_and (a b cap : nat) : nat :=
  N.to_nat (N.land (wsub 64 (N.of_nat a) (N.of_nat b)) (N.of_nat cap)).
(* set_ctrl (2909-2920); the assert i < capacity_ is taken as a precondition *)
Definition clone_pos (i cap : nat) : nat := sub_and i W cap + 1 + Nat.land (W - 1) cap.
Definition set_ctrl (ctrl : list Z) (cap i : nat) (h : Z) : res (list Z) :=
  if i <? cap then
    let* c1 := store ctrl i h in
    store c1 (clone_pos i cap) h
  else UB.
(* reset_ctrl (2930-2934): memset of capacity + kWidth bytes, the last byte of the array is not written *)
Definition reset_ctrl (last : Z) (cap : nat) : list Z :=
  <[cap := kSentinel]> (replicate (cap + W) kEmpty) ++ [last].
(* reset_growth_left (2936) *)
Definition growth_left_for (cap size : nat) : N :=
  wsub 64 (N.of_nat (CapacityToGrowth W cap)) (N.of_nat size).

(** ** Allocation *)
(* MakeLayout(capacity).AllocSize() (1546-1549, gtl_base.hpp:335, 427-446, 563): arithmetic in size_t *)
Definition align_up (n : N) : N :=
  let a := (2 ^ e_align_log E)%N in
  N.land (wadd 64 n (a - 1)) (wnot 64 (a - 1)).
Definition alloc_size (cap : N) : N :=
  wadd 64 (align_up (wmod 64 (cap + N.of_nat W + 1))) (wmul 64 cap (e_slot_size E)).
(* bytes actually touched by the table: control bytes plus slots *)
Definition needed_bytes (cap : N) : N := (cap + N.of_nat W + 1 + cap * e_slot_size E)%N.
(* initialize_slots (2634-2644) for a table holding [size] elements: Allocate throws first, then the
   control bytes and slots are written; if the wrapped size is too small the writes are out of bounds *)
Definition initialize_slots (cap : N) (size : nat) : res table :=
  if (e_max_bytes E <? alloc_size cap)%N then BadAlloc
  else if (alloc_size cap <? needed_bytes cap)%N then UB
  else
    let c := N.to_nat cap in
    Ok (mkTable (reset_ctrl (e_junk E) c) (replicate c None) size c (growth_left_for c size)).

(** ** Slots: construct / destroy / transfer *)
Definition construct (slots : list (option elt)) (i : nat) (e : elt) : res (list (option elt)) :=
  let* s := load slots i in
  match s with None => store slots i (Some e) | Some _ => UB end.
(* destroy, or move out of the slot: returns the element and leaves the slot without object *)
Definition take_slot (slots : list (option elt)) (i : nat) : res (elt * list (option elt)) :=
  let* s := load slots i in
  match s with
  | Some e => let* sl := store slots i None in Ok (e, sl)
  | None => UB
  end.

(** ** resize (2670-2692) *)
Fixpoint resize_loop (is : list nat) (old_ctrl : list Z) (old_slots : list (option elt)) (t : table)
  : res table :=
  match is with
  | [] => Ok t
  | i :: is' =>
      let* c := load old_ctrl i in
      if IsFull c then
        let* s := load old_slots i in
        let* e := of_option s in
        let h := hash (fst e) in
        let* p := find_first_non_full (t_ctrl t) (t_cap t) h in
        let* ctrl' := set_ctrl (t_ctrl t) (t_cap t) p (H2 h) in
        let* slots' := construct (t_slots t) p e in
        resize_loop is' old_ctrl old_slots (mkTable ctrl' slots' (t_size t) (t_cap t) (t_growth t))
      else resize_loop is' old_ctrl old_slots t
  end.
Definition resize (t : table) (new_cap : N) : res table :=
  let* t' := initialize_slots new_cap (t_size t) in
  resize_loop (seq 0 (t_cap t)) (t_ctrl t) (t_slots t) t'.

(** ** drop_deletes_without_resize (2694-2757) *)
(* ConvertDeletedToEmptyAndFullToDeleted (1035-1044): the loop steps by kWidth until it meets exactly
   ctrl + capacity + 1; when kWidth does not divide capacity + 1 it runs off the array. *)
Fixpoint convert_groups (n : nat) (ctrl : list Z) : list Z :=
  match n with
  | O => []
  | S m => g_convert g (take W ctrl) ++ convert_groups m (drop W ctrl)
  end.
Definition convert_ctrl (ctrl : list Z) (cap : nat) : res (list Z) :=
  if (S cap) mod W =? 0 then
    let pref := convert_groups (S cap / W) ctrl in
    store (pref ++ take W pref) cap kSentinel
  else UB.
(* the lambda probe_index (2729-2731) *)
Definition probe_index (cap : nat) (h : N) (pos : nat) : nat :=
  sub_and pos (probe_start h cap) cap / W.
(* the for loop (2718-2755); [i] is the loop variable *)
Fixpoint drop_loop (fuel : nat) (t : table) (i : nat) : res table :=
  match fuel with
  | O => Loop
  | S f =>
      if i =? t_cap t then Ok t
      else
        let* c := load (t_ctrl t) i in
        if negb (IsDeleted c) then drop_loop f t (S i)
        else
          let* s := load (t_slots t) i in
          let* e := of_option s in
          let h := hash (fst e) in
          let* new_i := find_first_non_full (t_ctrl t) (t_cap t) h in
          if probe_index (t_cap t) h new_i =? probe_index (t_cap t) h i then
            let* ctrl' := set_ctrl (t_ctrl t) (t_cap t) i (H2 h) in
            drop_loop f (mkTable ctrl' (t_slots t) (t_size t) (t_cap t) (t_growth t)) (S i)
          else
            let* cn := load (t_ctrl t) new_i in
            if IsEmpty cn then
              let* c1 := set_ctrl (t_ctrl t) (t_cap t) new_i (H2 h) in
              let* (e1, s1) := take_slot (t_slots t) i in
              let* s2 := construct s1 new_i e1 in
              let* c2 := set_ctrl c1 (t_cap t) i kEmpty in
              drop_loop f (mkTable c2 s2 (t_size t) (t_cap t) (t_growth t)) (S i)
            else
              (* swap the two elements through a temporary, then repeat with the same i *)
              let* c1 := set_ctrl (t_ctrl t) (t_cap t) new_i (H2 h) in
              let* (e1, s1) := take_slot (t_slots t) i in
              let* (e2, s2) := take_slot s1 new_i in
              let* s3 := construct s2 i e2 in
              let* s4 := construct s3 new_i e1 in
              drop_loop f (mkTable c1 s4 (t_size t) (t_cap t) (t_growth t)) i
  end.
(* the assert(!is_small()) (2696) is a precondition *)
Definition drop_deletes_without_resize (t : table) : res table :=
  if t_cap t <? W - 1 then UB
  else
    let* c := convert_ctrl (t_ctrl t) (t_cap t) in
    let* t' := drop_loop (S (2 * t_cap t)) (mkTable c (t_slots t) (t_size t) (t_cap t) (t_growth t)) 0 in
    Ok (mkTable (t_ctrl t') (t_slots t') (t_size t') (t_cap t') (growth_left_for (t_cap t') (t_size t'))).

(** ** rehash_and_grow_if_necessary (2759-2769) *)
Definition rehash_and_grow_if_necessary (t : table) : res table :=
  if t_cap t =? 0 then resize t 1
  else if t_size t <=? CapacityToGrowth W (t_cap t) / 2 then drop_deletes_without_resize t
  else resize t (wadd 64 (wmul 64 (N.of_nat (t_cap t)) 2) 1).

(** ** prepare_insert (2867-2881): returns the table with size and growth updated, and the slot *)
Definition prepare_insert (t : table) (h : N) : res (table * nat) :=
  let* p0 := find_first_non_full (t_ctrl t) (t_cap t) h in
  let* c0 := load (t_ctrl t) p0 in
  let* (t1, p) :=
    (if (t_growth t =? 0)%N && negb (IsDeleted c0) then
       let* t1 := rehash_and_grow_if_necessary t in
       let* p1 := find_first_non_full (t_ctrl t1) (t_cap t1) h in
       Ok (t1, p1)
     else Ok (t, p0)) in
  let* c := load (t_ctrl t1) p in
  Ok (mkTable (t_ctrl t1) (t_slots t1) (S (t_size t1)) (t_cap t1)
              (wsub 64 (t_growth t1) (if IsEmpty c then 1%N else 0%N)), p).

(* emplace_at + set_ctrl after a successful prepare_insert *)
Definition finish_insert (t : table) (p : nat) (e : elt) : res table :=
  let* slots' := construct (t_slots t) p e in
  let* ctrl' := set_ctrl (t_ctrl t) (t_cap t) p (H2 (hash (fst e))) in
  Ok (mkTable ctrl' slots' (t_size t) (t_cap t) (t_growth t)).

(** insert / emplace / try_emplace / lazy_emplace of a new element: emplace_decomposable (2543-2552),
    lazy_emplace_with_hash (2187-2195), raw_hash_map::try_emplace_impl (phmap.hpp 3153-3167).
    Returns the table, the slot of the element and whether it was inserted. *)
Definition emplace (t : table) (k : K) (v : V) : res (table * nat * bool) :=
  let* r := find_key t k in
  match r with
  | Some p => Ok (t, p, false)
  | None =>
      let* (t1, p) := prepare_insert t (hash k) in
      let* t2 := finish_insert t1 p (k, v) in
      Ok (t2, p, true)
  end.

(** insert_or_assign (raw_hash_map::insert_or_assign_impl, phmap.hpp 3139-3151) *)
Definition assign_at (t : table) (p : nat) (v : V) : res table :=
  let* s := load (t_slots t) p in
  let* e := of_option s in
  let* sl := store (t_slots t) p (Some (fst e, v)) in
  Ok (mkTable (t_ctrl t) sl (t_size t) (t_cap t) (t_growth t)).
Definition insert_or_assign (t : table) (k : K) (v : V) : res (table * nat * bool) :=
  let* (t1, p, ins) := emplace t k v in
  if ins then Ok (t1, p, true)
  else let* t2 := assign_at t1 p v in Ok (t2, p, false).

(** Reading the element at a slot (operator*, operator->). *)
Definition deref (t : table) (p : nat) : res elt :=
  let* s := load (t_slots t) p in of_option s.

(** ** erase *)
(* erase_meta_only (2614-2632); assert(IsFull) is a precondition. size_ is nat: the decrement of 0 does
   not arise with a full slot. *)
Definition erase_meta_only (t : table) (i : nat) : res table :=
  let* c := load (t_ctrl t) i in
  if IsFull c then
    let before := sub_and i W (t_cap t) in
    let* wa := window (t_ctrl t) i in
    let* wb := window (t_ctrl t) before in
    let was_never_full :=
      g_any_empty g wb && g_any_empty g wa && (g_empty_tz g wa + g_empty_lz g wb <? W) in
    let* ctrl' := set_ctrl (t_ctrl t) (t_cap t) i (if was_never_full then kEmpty else kDeleted) in
    Ok (mkTable ctrl' (t_slots t) (t_size t - 1) (t_cap t)
                (wadd 64 (t_growth t) (if was_never_full then 1%N else 0%N)))
  else UB.
(* _erase (2255-2260): destroy, then metadata. Also extract(const_iterator) (2298-2302), which moves the
   element out instead of destroying it: the element is returned. *)
Definition erase_at (t : table) (i : nat) : res (elt * table) :=
  let* (e, sl) := take_slot (t_slots t) i in
  let* t' := erase_meta_only (mkTable (t_ctrl t) sl (t_size t) (t_cap t) (t_growth t)) i in
  Ok (e, t').
(* erase(key) (2232-2238), extract(key) (2305-2308) *)
Definition erase_key (t : table) (k : K) : res (option elt * table) :=
  let* r := find_key t k in
  match r with
  | None => Ok (None, t)
  | Some p => let* (e, t') := erase_at t p in Ok (Some e, t')
  end.

(** ** clear (1911-1929), destroy_slots (2646-2668) *)
Definition clear (t : table) : res table :=
  if t_size t =? 0 then Ok t
  else if t_cap t =? 0 then Ok t
  else
    let* last := load (t_ctrl t) (t_cap t + W) in
    Ok (mkTable (reset_ctrl last (t_cap t)) (replicate (t_cap t) None) 0 (t_cap t)
                (growth_left_for (t_cap t) 0)).

(** ** rehash (2338-2353), reserve (2355) *)
Definition rehash (t : table) (n : N) : res table :=
  if (n =? 0)%N && (t_cap t =? 0) then Ok t
  else if (n =? 0)%N && (t_size t =? 0) then Ok empty_table
  else
    let m := NormalizeCapacity (N.max n (N.of_nat (t_size t))) in
    if (n =? 0)%N || (N.of_nat (t_cap t) <? m)%N then resize t m else Ok t.
Definition reserve (t : table) (n : N) : res table :=
  let* m := GrowthToLowerboundCapacity W n in rehash t m.

(** ** Iteration: skip_empty_or_deleted (1640-1656), begin/end (1888-1899), operator++ (1596-1601).
    An iterator is the index of its control byte. *)
Fixpoint skip_empty (fuel : nat) (t : table) (i : nat) : res nat :=
  match fuel with
  | O => Loop
  | S f =>
      let* c := load (t_ctrl t) i in
      if IsEmptyOrDeleted c then
        let* w := window (t_ctrl t) i in
        skip_empty f t (i + g_count_leading g w)
      else Ok i
  end.
Definition begin_it (t : table) : res nat := skip_empty (S (S (t_cap t))) t 0.
Definition next_it (t : table) (i : nat) : res nat := skip_empty (S (S (t_cap t))) t (S i).
(* for (auto& e : t) ... : the list of visited slots *)
Fixpoint iterate_from (fuel : nat) (t : table) (i : nat) : res (list nat) :=
  match fuel with
  | O => Loop
  | S f =>
      if i =? t_cap t then Ok []
      else
        let* j := next_it t i in
        let* r := iterate_from f t j in
        Ok (i :: r)
  end.
Definition iterate (t : table) : res (list nat) :=
  let* i := begin_it t in iterate_from (S (t_cap t)) t i.
Fixpoint deref_all (t : table) (is : list nat) : res (list elt) :=
  match is with
  | [] => Ok []
  | i :: r => let* e := deref t i in let* es := deref_all t r in Ok (e :: es)
  end.
Definition to_list (t : table) : res (list elt) := let* is := iterate t in deref_all t is.

End Table.
Arguments table : clear implicits.
