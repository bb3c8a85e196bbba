(** Memory and objects of the hash tables: the operations of [Model] and [Multi] again, now acting on a heap of
    blocks, so that what is constructed, destroyed, allocated and given back is part of the state
    (include/gtl/phmap.hpp).  A block records the size asked from the allocator and its slots; a slot is raw memory
    ([None]) or holds an object.  Undefined behaviour covers: constructing over an object, destroying or moving from
    raw memory, touching a block that was given back, giving a block back with another size, and giving back a block
    in which an object is still alive (which is a leak of that object).

    Functions that only read (lookups, traversals, comparisons) are those of [Model], applied to the table the heap
    represents; control bytes have no lifetime and stay a list.  The element type is not trivially destructible (for
    trivially destructible elements clear and destroy_slots skip the destructors, 1915, 2650). *)
From stdpp Require Import list.
From Coq Require Import NArith ZArith.
From Verif.Common Require Import Res Word.
From Verif.Swiss Require Import Group Model Multi MapSpec MultiSpec.
Local Open Scope nat_scope.
Local Open Scope res_scope.

Section Life.
Context {K V : Type} (hash : K -> N) (eqb : K -> K -> bool) (eeq : K * V -> K * V -> bool) (E : env).
Notation elt := (K * V)%type.
Notation table := (table K V).
Notation g := (e_group E).
Notation W := (g_width (e_group E)).

(** ** The heap *)
(* size asked and slots; the index is the identity of the block; [None] = given back *)
Notation block := (N * list (option elt))%type.
Notation heap := (list (option block)).

Definition hblock (h : heap) (b : nat) : res block := let* o := load h b in of_option o.
Definition hset (h : heap) (b : nat) (sl : list (option elt)) : res heap :=
  let* (sz, _) := hblock h b in store h b (Some (sz, sl)).
(* Allocate (gtl_base.hpp:898): a new block of [n] raw slots *)
Definition halloc (h : heap) (sz : N) (n : nat) : heap * nat := (h ++ [Some (sz, replicate n None)], length h).
(* Deallocate (gtl_base.hpp:916) *)
Definition is_raw (s : option elt) : bool := match s with None => true | Some _ => false end.
Definition hfree (h : heap) (b : nat) (sz : N) : res heap :=
  let* (sz0, sl) := hblock h b in
  if (sz0 =? sz)%N && forallb is_raw sl then store h b None else UB.
(* PolicyTraits::construct, PolicyTraits::destroy or the source of PolicyTraits::transfer *)
Definition hconstruct (h : heap) (b i : nat) (e : elt) : res heap :=
  let* (_, sl) := hblock h b in
  let* sl' := construct sl i e in hset h b sl'.
Definition htake (h : heap) (b i : nat) : res (elt * heap) :=
  let* (_, sl) := hblock h b in
  let* (e, sl') := take_slot sl i in
  let* h' := hset h b sl' in Ok (e, h').

(** ** A table object: its fields; [o_blk] is the block of ctrl_ and slots_, meaningful if capacity_ is not 0 *)
Record obj := mkObj { o_ctrl : list Z; o_blk : nat; o_size : nat; o_cap : nat; o_growth : N }.
(* default member initialisers (2992-2999), EmptyGroup (822-832) *)
Definition empty_obj : obj := mkObj (kSentinel :: replicate 15 kEmpty) 0 0 0 0%N.
(* the table it represents *)
Definition view (h : heap) (x : obj) : res table :=
  if o_cap x =? 0 then Ok (mkTable (o_ctrl x) [] (o_size x) 0 (o_growth x))
  else let* (_, sl) := hblock h (o_blk x) in Ok (mkTable (o_ctrl x) sl (o_size x) (o_cap x) (o_growth x)).

(** ** initialize_slots (2634-2644) and resize (2670-2692) *)
Fixpoint resize_loop_h (is : list nat) (old_ctrl : list Z) (ob nb cap : nat) (h : heap) (ctrl : list Z)
  : res (heap * list Z) :=
  match is with
  | [] => Ok (h, ctrl)
  | i :: is' =>
      let* c := load old_ctrl i in
      if IsFull c then
        let* (_, sl) := hblock h ob in
        let* s := load sl i in
        let* e := of_option s in
        let hv := hash (fst e) in
        let* p := find_first_non_full E ctrl cap hv in
        let* ctrl' := set_ctrl E ctrl cap p (H2 hv) in
        let* (e', h1) := htake h ob i in
        let* h2 := hconstruct h1 nb p e' in
        resize_loop_h is' old_ctrl ob nb cap h2 ctrl'
      else resize_loop_h is' old_ctrl ob nb cap h ctrl
  end.
Definition resize_h (h : heap) (x : obj) (new_cap : N) : res (heap * obj) :=
  if (e_max_bytes E <? alloc_size E new_cap)%N then BadAlloc
  else if (alloc_size E new_cap <? needed_bytes E new_cap)%N then UB
  else
    let c := N.to_nat new_cap in
    let '(h1, nb) := halloc h (alloc_size E new_cap) c in
    let* (h2, ctrl) := resize_loop_h (seq 0 (o_cap x)) (o_ctrl x) (o_blk x) nb c h1 (reset_ctrl E (e_junk E) c) in
    let* h3 := (if o_cap x =? 0 then Ok h2 else hfree h2 (o_blk x) (alloc_size E (N.of_nat (o_cap x)))) in
    Ok (h3, mkObj ctrl nb (o_size x) c (growth_left_for E c (o_size x))).

(** ** drop_deletes_without_resize (2694-2757); the temporary [raw] is local storage *)
Fixpoint drop_loop_h (fuel : nat) (b cap : nat) (h : heap) (ctrl : list Z) (i : nat) : res (heap * list Z) :=
  match fuel with
  | O => Loop
  | S f =>
      if i =? cap then Ok (h, ctrl)
      else
        let* c := load ctrl i in
        if negb (IsDeleted c) then drop_loop_h f b cap h ctrl (S i)
        else
          let* (_, sl) := hblock h b in
          let* s := load sl i in
          let* e := of_option s in
          let hv := hash (fst e) in
          let* new_i := find_first_non_full E ctrl cap hv in
          if probe_index E cap hv new_i =? probe_index E cap hv i then
            let* ctrl' := set_ctrl E ctrl cap i (H2 hv) in
            drop_loop_h f b cap h ctrl' (S i)
          else
            let* cn := load ctrl new_i in
            if IsEmpty cn then
              let* c1 := set_ctrl E ctrl cap new_i (H2 hv) in
              let* (e1, h1) := htake h b i in
              let* h2 := hconstruct h1 b new_i e1 in
              let* c2 := set_ctrl E c1 cap i kEmpty in
              drop_loop_h f b cap h2 c2 (S i)
            else
              let* c1 := set_ctrl E ctrl cap new_i (H2 hv) in
              let* (tmp, h1) := htake h b i in
              let* (e2, h2) := htake h1 b new_i in
              let* h3 := hconstruct h2 b i e2 in
              let* h4 := hconstruct h3 b new_i tmp in
              drop_loop_h f b cap h4 c1 i
  end.
Definition drop_deletes_h (h : heap) (x : obj) : res (heap * obj) :=
  if o_cap x <? W - 1 then UB
  else
    let* c := convert_ctrl E (o_ctrl x) (o_cap x) in
    let* (h', c') := drop_loop_h (S (2 * o_cap x)) (o_blk x) (o_cap x) h c 0 in
    Ok (h', mkObj c' (o_blk x) (o_size x) (o_cap x) (growth_left_for E (o_cap x) (o_size x))).

(* rehash_and_grow_if_necessary (2759-2769) *)
Definition rehash_and_grow_h (h : heap) (x : obj) : res (heap * obj) :=
  if o_cap x =? 0 then resize_h h x 1
  else if o_size x <=? CapacityToGrowth W (o_cap x) / 2 then drop_deletes_h h x
  else resize_h h x (wadd 64 (wmul 64 (N.of_nat (o_cap x)) 2) 1).

(** ** Insertion: prepare_insert (2867-2881), emplace_decomposable (2542-2552) *)
Definition prepare_insert_h (h : heap) (x : obj) (hv : N) : res (heap * obj * nat) :=
  let* p0 := find_first_non_full E (o_ctrl x) (o_cap x) hv in
  let* c0 := load (o_ctrl x) p0 in
  let* (h1, x1, p) :=
    (if (o_growth x =? 0)%N && negb (IsDeleted c0) then
       let* (h1, x1) := rehash_and_grow_h h x in
       let* p1 := find_first_non_full E (o_ctrl x1) (o_cap x1) hv in
       Ok (h1, x1, p1)
     else Ok (h, x, p0)) in
  let* c := load (o_ctrl x1) p in
  Ok (h1, mkObj (o_ctrl x1) (o_blk x1) (S (o_size x1)) (o_cap x1)
            (wsub 64 (o_growth x1) (if IsEmpty c then 1%N else 0%N)), p).
Definition finish_insert_h (h : heap) (x : obj) (p : nat) (e : elt) : res (heap * obj) :=
  let* h' := hconstruct h (o_blk x) p e in
  let* ctrl' := set_ctrl E (o_ctrl x) (o_cap x) p (H2 (hash (fst e))) in
  Ok (h', mkObj ctrl' (o_blk x) (o_size x) (o_cap x) (o_growth x)).
Definition emplace_h (h : heap) (x : obj) (k : K) (v : V) : res (heap * obj * nat * bool) :=
  let* t := view h x in
  let* r := find_key hash eqb E t k in
  match r with
  | Some p => Ok (h, x, p, false)
  | None =>
      let* (h1, x1, p) := prepare_insert_h h x (hash k) in
      let* (h2, x2) := finish_insert_h h1 x1 p (k, v) in
      Ok (h2, x2, p, true)
  end.
(* insert_or_assign (3139-3151): assignment to a live mapped value *)
Definition assign_at_h (h : heap) (x : obj) (p : nat) (v : V) : res heap :=
  let* (_, sl) := hblock h (o_blk x) in
  let* s := load sl p in
  let* e := of_option s in
  let* sl' := store sl p (Some (fst e, v)) in hset h (o_blk x) sl'.
Definition insert_or_assign_h (h : heap) (x : obj) (k : K) (v : V) : res (heap * obj * nat * bool) :=
  let* (h1, x1, p, ins) := emplace_h h x k v in
  if ins then Ok (h1, x1, p, true)
  else let* h2 := assign_at_h h1 x1 p v in Ok (h2, x1, p, false).

(** ** Erasure: _erase (2255-2260), extract (2298-2302); the element is destroyed or moved to a node *)
Definition erase_meta_only_h (x : obj) (i : nat) : res obj :=
  let* t' := erase_meta_only E (mkTable (o_ctrl x) (@nil (option elt)) (o_size x) (o_cap x) (o_growth x)) i in
  Ok (mkObj (t_ctrl t') (o_blk x) (t_size t') (o_cap x) (t_growth t')).
Definition erase_at_h (h : heap) (x : obj) (i : nat) : res (elt * heap * obj) :=
  let* (e, h') := htake h (o_blk x) i in
  let* x' := erase_meta_only_h x i in
  Ok (e, h', x').
Definition erase_key_h (h : heap) (x : obj) (k : K) : res (option elt * heap * obj) :=
  let* t := view h x in
  let* r := find_key hash eqb E t k in
  match r with
  | None => Ok (None, h, x)
  | Some p => let* (e, h', x') := erase_at_h h x p in Ok (Some e, h', x')
  end.

(** ** clear (1911-1929), destroy_slots (2646-2668) *)
(* the loop over the full control bytes (1918-1922, 2653-2657) *)
Fixpoint destroy_loop (is : list nat) (ctrl : list Z) (b : nat) (h : heap) : res heap :=
  match is with
  | [] => Ok h
  | i :: is' =>
      let* c := load ctrl i in
      if IsFull c then let* (_, h') := htake h b i in destroy_loop is' ctrl b h'
      else destroy_loop is' ctrl b h
  end.
Definition clear_h (h : heap) (x : obj) : res (heap * obj) :=
  if o_size x =? 0 then Ok (h, x)
  else if o_cap x =? 0 then Ok (h, x)
  else
    let* h' := destroy_loop (seq 0 (o_cap x)) (o_ctrl x) (o_blk x) h in
    let* last := load (o_ctrl x) (o_cap x + W) in
    Ok (h', mkObj (reset_ctrl E last (o_cap x)) (o_blk x) 0 (o_cap x) (growth_left_for E (o_cap x) 0)).
Definition destroy_slots_h (h : heap) (x : obj) : res (heap * obj) :=
  if o_cap x =? 0 then Ok (h, x)
  else
    let* h1 := destroy_loop (seq 0 (o_cap x)) (o_ctrl x) (o_blk x) h in
    let* h2 := hfree h1 (o_blk x) (alloc_size E (N.of_nat (o_cap x))) in
    Ok (h2, empty_obj).

(** ** rehash (2338-2353), reserve (2355) *)
Definition rehash_h (h : heap) (x : obj) (n : N) : res (heap * obj) :=
  if (n =? 0)%N && (o_cap x =? 0) then Ok (h, x)
  else if (n =? 0)%N && (o_size x =? 0) then destroy_slots_h h x
  else
    let m := NormalizeCapacity (N.max n (N.of_nat (o_size x))) in
    if (n =? 0)%N || (N.of_nat (o_cap x) <? m)%N then resize_h h x m else Ok (h, x).
Definition reserve_h (h : heap) (x : obj) (n : N) : res (heap * obj) :=
  let* m := GrowthToLowerboundCapacity W n in rehash_h h x m.

(** ** Copy constructor (1817-1830), for constructors that do not throw *)
Fixpoint copy_loop_h (l : list elt) (h : heap) (x : obj) : res (heap * obj) :=
  match l with
  | [] => Ok (h, x)
  | e :: l' =>
      let hv := hash (fst e) in
      let* p := find_first_non_full E (o_ctrl x) (o_cap x) hv in
      let* ctrl' := set_ctrl E (o_ctrl x) (o_cap x) p (H2 hv) in
      let* h' := hconstruct h (o_blk x) p e in
      copy_loop_h l' h' (mkObj ctrl' (o_blk x) (o_size x) (o_cap x) (o_growth x))
  end.
Definition copy_h (h : heap) (that : obj) : res (heap * obj) :=
  let* (h0, x0) := rehash_h h empty_obj (N.of_nat (o_cap that)) in
  let* t := view h0 that in
  let* l := to_list E t in
  let* (h1, x1) := copy_loop_h l h0 x0 in
  Ok (h1, mkObj (o_ctrl x1) (o_blk x1) (o_size that) (o_cap x1) (wsub 64 (o_growth x1) (N.of_nat (o_size that)))).

(** ** merge (2283-2291): the element is transferred, then the metadata of the source updated *)
Fixpoint merge_loop_h (fuel : nat) (h : heap) (dst src : obj) (i : nat) : res (heap * obj * obj * bool) :=
  match fuel with
  | O => Loop
  | S f =>
      if i =? o_cap src then Ok (h, dst, src, false)
      else
        let* ts := view h src in
        let* e := deref ts i in
        match emplace_h h dst (fst e) (snd e) with
        | BadAlloc => Ok (h, dst, src, true)
        | Ok (h1, dst', _, inserted) =>
            let* (h2, src') := (if inserted then let* (_, h2, s') := erase_at_h h1 src i in Ok (h2, s') else Ok (h1, src)) in
            let* ts' := view h2 src' in
            let* j := next_it E ts' i in
            merge_loop_h f h2 dst' src' j
        | UB => UB | Loop => Loop | Throw => Throw
        end
  end.
Definition merge_h (h : heap) (dst src : obj) : res (heap * obj * obj * bool) :=
  let* ts := view h src in
  let* i := begin_it E ts in merge_loop_h (S (o_cap src)) h dst src i.

(** ** insert(node_type&&) (2027-2038) *)
Definition insert_node_h (h : heap) (x : obj) (n : option elt) : res (heap * obj * option elt * bool) :=
  match n with
  | None => Ok (h, x, None, false)
  | Some e =>
      let* (h', x', _, inserted) := emplace_h h x (fst e) (snd e) in
      Ok (h', x', if inserted then None else Some e, inserted)
  end.

(** ** erase_if (5597-5608) *)
Fixpoint erase_if_loop_h (fuel : nat) (p : elt -> bool) (h : heap) (x : obj) (i : nat) : res (heap * obj * list elt) :=
  match fuel with
  | O => Loop
  | S f =>
      if i =? o_cap x then Ok (h, x, [])
      else
        let* t := view h x in
        let* e := deref t i in
        let* j := next_it E t i in
        let* (h', x') := (if p e then let* (_, h', x') := erase_at_h h x i in Ok (h', x') else Ok (h, x)) in
        let* (h2, x2, seen) := erase_if_loop_h f p h' x' j in
        Ok (h2, x2, e :: seen)
  end.
Definition erase_if_h (p : elt -> bool) (h : heap) (x : obj) : res (heap * obj * nat * list elt) :=
  let* t := view h x in
  let* i := begin_it E t in
  let* (h', x', seen) := erase_if_loop_h (S (o_cap x)) p h x i in
  Ok (h', x', o_size x - o_size x', seen).

(** ** Calls on one table; an exception leaves heap and table as they were (resize allocates first) *)
Definition catch_h (h : heap) (x : obj) (r : res (heap * obj * out K V)) : res (heap * obj * out K V) :=
  match r with BadAlloc => Ok (h, x, RThrow) | _ => r end.
Definition exec_h (h : heap) (x : obj) (o : op K V) : res (heap * obj * out K V) :=
  match o with
  | OEmplace k v =>
      catch_h h x (let* (h', x', p, b) := emplace_h h x k v in
                   let* t := view h' x' in let* e := deref t p in Ok (h', x', RInserted b e))
  | OAssign k v =>
      catch_h h x (let* (h', x', p, b) := insert_or_assign_h h x k v in
                   let* t := view h' x' in let* e := deref t p in Ok (h', x', RInserted b e))
  | OFind k =>
      let* t := view h x in
      let* r := find_key hash eqb E t k in
      match r with None => Ok (h, x, RFound None) | Some p => let* e := deref t p in Ok (h, x, RFound (Some e)) end
  | OErase k => let* (e, h', x') := erase_key_h h x k in Ok (h', x', RErased e)
  | OClear => let* (h', x') := clear_h h x in Ok (h', x', RUnit)
  | ORehash n => catch_h h x (let* (h', x') := rehash_h h x n in Ok (h', x', RUnit))
  | OReserve n => catch_h h x (let* (h', x') := reserve_h h x n in Ok (h', x', RUnit))
  | OSize => Ok (h, x, RSize (o_size x))
  | OTraverse => let* t := view h x in let* l := to_list E t in Ok (h, x, RElems l)
  end.

(** ** Calls on several tables and node handles.
    Copy assignment (1871-1876): copy to a temporary, swap, the temporary with the old content is destroyed.
    Move assignment (1878-1884, 2825-2829): move-construct a temporary, swap, destroy the temporary. *)
Definition mexec_h (h : heap) (xs : list obj) (ns : list (option elt)) (o : mop K V)
  : res (heap * list obj * list (option elt) * mout K V) :=
  match o with
  | MOne i o1 =>
      let* x := load xs i in
      let* (h', x', r) := exec_h h x o1 in Ok (h', <[i := x']> xs, ns, MR r)
  | MCopy i j =>
      let* x := load xs i in
      let* y := load xs j in
      match copy_h h y with
      | BadAlloc => Ok (h, xs, ns, MThrew)
      | r => let* (h1, tmp) := r in
             let* (h2, _) := destroy_slots_h h1 x in Ok (h2, <[i := tmp]> xs, ns, MDone)
      end
  | MMove i j =>
      let* _ := load xs i in
      let* tmp := load xs j in
      let xs1 := <[j := empty_obj]> xs in
      let* x := load xs1 i in
      let* (h2, _) := destroy_slots_h h x in Ok (h2, <[i := tmp]> xs1, ns, MDone)
  | MSwap i j =>
      let* xi := load xs i in
      let* xj := load xs j in Ok (h, <[i := xj]> (<[j := xi]> xs), ns, MDone)
  | MMerge i j =>
      if i =? j then UB
      else
        let* xi := load xs i in
        let* xj := load xs j in
        let* (h', xi', xj', threw) := merge_h h xi xj in
        Ok (h', <[i := xi']> (<[j := xj']> xs), ns, if threw then MThrew else MDone)
  | MExtract i k n =>
      let* x := load xs i in
      let* _ := load ns n in
      let* (e, h', x') := erase_key_h h x k in
      Ok (h', <[i := x']> xs, <[n := e]> ns, MNode e)
  | MInsertNode i n =>
      let* x := load xs i in
      let* nd := load ns n in
      match insert_node_h h x nd with
      | BadAlloc => Ok (h, xs, ns, MThrew)
      | r => let* (h', x', nd', b) := r in Ok (h', <[i := x']> xs, <[n := nd']> ns, MBool b)
      end
  | MEq i j =>
      let* xi := load xs i in
      let* xj := load xs j in
      let* ti := view h xi in
      let* tj := view h xj in
      let* b := table_eq hash E eeq ti tj in Ok (h, xs, ns, MBool b)
  | MEraseIf i p =>
      let* x := load xs i in
      let* (h', x', c, seen) := erase_if_h p h x in Ok (h', <[i := x']> xs, ns, MErased c seen)
  end.
Fixpoint mrun_h (h : heap) (xs : list obj) (ns : list (option elt)) (os : list (mop K V))
  : res (heap * list obj * list (option elt) * list (mout K V)) :=
  match os with
  | [] => Ok (h, xs, ns, [])
  | o :: os' =>
      let* (h1, xs1, ns1, r) := mexec_h h xs ns o in
      let* (h2, xs2, ns2, rs) := mrun_h h1 xs1 ns1 os' in Ok (h2, xs2, ns2, r :: rs)
  end.
(* ~raw_hash_set (1886) of every table *)
Fixpoint destroy_all (h : heap) (xs : list obj) : res heap :=
  match xs with
  | [] => Ok h
  | x :: xs' => let* (h', _) := destroy_slots_h h x in destroy_all h' xs'
  end.
End Life.
