(** Model of gtl::priv::raw_hash_set (include/gtl/phmap.hpp) when the hash and equality objects may answer
    anything: an answer may change from one call to the next, equality need not be an equivalence and equal
    keys need not have equal hashes.

    The answers are numbered over the whole program: [hash n k] and [eqb n a b] are what the [n]-th call of
    one of the two objects answers.  Every function takes the number of the next call and returns it.
    Functions that call neither object are those of [Model].  Otherwise the same simplifications as [Model];
    an object that throws is not modelled here. *)
From stdpp Require Import list.
From Coq Require Import NArith ZArith.
From Verif.Common Require Import Res Word.
From Verif.Swiss Require Import Group Model AnyHashSpec.
Local Open Scope nat_scope.
Local Open Scope res_scope.

Section AnyHash.
Context {K V : Type} (hash : nat -> K -> N) (eqb : nat -> K -> K -> bool) (E : env).
Notation elt := (K * V)%type.
Notation g := (e_group E).
Notation W := (g_width (e_group E)).
Notation table := (table K V).

(* the inner for loop of find_impl / _find_key (2500-2505, 2847-2851): one call of the equality object for
   each slot whose control byte matches *)
Fixpoint match_any (n : nat) (t : table) (k : K) (off : nat) (is : list nat) : res (option nat * nat) :=
  match is with
  | [] => Ok (None, n)
  | i :: is' =>
      let p := probe_at (t_cap t) off i in
      let* s := load (t_slots t) p in
      let* e := of_option s in
      if eqb n k (fst e) then Ok (Some p, S n) else match_any (S n) t k off is'
  end.
(* find_impl (2491-2510) and _find_key (2838-2857) *)
Fixpoint find_any (fuel : nat) (n : nat) (t : table) (k : K) (h : N) (off idx : nat) : res (option nat * nat) :=
  match fuel with
  | O => Loop
  | S f =>
      let* w := window E (t_ctrl t) off in
      let* (r, n1) := match_any n t k off (g_match g w (H2 h)) in
      match r with
      | Some p => Ok (Some p, n1)
      | None =>
          if g_any_empty g w then Ok (None, n1)
          else let '(off', idx') := probe_next E (t_cap t) off idx in
               find_any f n1 t k h off' idx'
      end
  end.
(* _find_key(key, hashval), find(key, hashval) *)
Definition find_hash (n : nat) (t : table) (k : K) (h : N) : res (option nat * nat) :=
  find_any (S (t_cap t)) n t k h (probe_start h (t_cap t)) 0.
(* find(key) (2413-2415, 2422-2424): the hash object is called once *)
Definition find_key_any (n : nat) (t : table) (k : K) : res (option nat * nat) :=
  find_hash (S n) t k (hash n k).

(** ** resize (2670-2692): one call of the hash object for each element *)
Fixpoint resize_any (n : nat) (is : list nat) (old_ctrl : list Z) (old_slots : list (option elt)) (t : table)
  : res (table * nat) :=
  match is with
  | [] => Ok (t, n)
  | i :: is' =>
      let* c := load old_ctrl i in
      if IsFull c then
        let* s := load old_slots i in
        let* e := of_option s in
        let h := hash n (fst e) in
        let* p := find_first_non_full E (t_ctrl t) (t_cap t) h in
        let* ctrl' := set_ctrl E (t_ctrl t) (t_cap t) p (H2 h) in
        let* slots' := construct (t_slots t) p e in
        resize_any (S n) is' old_ctrl old_slots (mkTable ctrl' slots' (t_size t) (t_cap t) (t_growth t))
      else resize_any n is' old_ctrl old_slots t
  end.
Definition resize_to (n : nat) (t : table) (new_cap : N) : res (table * nat) :=
  let* t' := initialize_slots E new_cap (t_size t) in
  resize_any n (seq 0 (t_cap t)) (t_ctrl t) (t_slots t) t'.

(** ** drop_deletes_without_resize (2694-2757): one call of the hash object for each element, and one more
    for every element swapped into the place of another *)
Fixpoint drop_any (fuel : nat) (n : nat) (t : table) (i : nat) : res (table * nat) :=
  match fuel with
  | O => Loop
  | S f =>
      if i =? t_cap t then Ok (t, n)
      else
        let* c := load (t_ctrl t) i in
        if negb (IsDeleted c) then drop_any f n t (S i)
        else
          let* s := load (t_slots t) i in
          let* e := of_option s in
          let h := hash n (fst e) in
          let* new_i := find_first_non_full E (t_ctrl t) (t_cap t) h in
          if probe_index E (t_cap t) h new_i =? probe_index E (t_cap t) h i then
            let* ctrl' := set_ctrl E (t_ctrl t) (t_cap t) i (H2 h) in
            drop_any f (S n) (mkTable ctrl' (t_slots t) (t_size t) (t_cap t) (t_growth t)) (S i)
          else
            let* cn := load (t_ctrl t) new_i in
            if IsEmpty cn then
              let* c1 := set_ctrl E (t_ctrl t) (t_cap t) new_i (H2 h) in
              let* (e1, s1) := take_slot (t_slots t) i in
              let* s2 := construct s1 new_i e1 in
              let* c2 := set_ctrl E c1 (t_cap t) i kEmpty in
              drop_any f (S n) (mkTable c2 s2 (t_size t) (t_cap t) (t_growth t)) (S i)
            else
              let* c1 := set_ctrl E (t_ctrl t) (t_cap t) new_i (H2 h) in
              let* (e1, s1) := take_slot (t_slots t) i in
              let* (e2, s2) := take_slot s1 new_i in
              let* s3 := construct s2 i e2 in
              let* s4 := construct s3 new_i e1 in
              drop_any f (S n) (mkTable c1 s4 (t_size t) (t_cap t) (t_growth t)) i
  end.
Definition drop_deletes_any (n : nat) (t : table) : res (table * nat) :=
  if t_cap t <? W - 1 then UB
  else
    let* c := convert_ctrl E (t_ctrl t) (t_cap t) in
    let* (t', n') := drop_any (S (2 * t_cap t)) n (mkTable c (t_slots t) (t_size t) (t_cap t) (t_growth t)) 0 in
    Ok (mkTable (t_ctrl t') (t_slots t') (t_size t') (t_cap t') (growth_left_for E (t_cap t') (t_size t')), n').

(** ** rehash_and_grow_if_necessary (2759-2769) *)
Definition grow_any (n : nat) (t : table) : res (table * nat) :=
  if t_cap t =? 0 then resize_to n t 1
  else if t_size t <=? CapacityToGrowth W (t_cap t) / 2 then drop_deletes_any n t
  else resize_to n t (wadd 64 (wmul 64 (N.of_nat (t_cap t)) 2) 1).

(** ** prepare_insert (2867-2881): the hash is the one the caller computed *)
Definition prepare_any (n : nat) (t : table) (h : N) : res (table * nat * nat) :=
  let* p0 := find_first_non_full E (t_ctrl t) (t_cap t) h in
  let* c0 := load (t_ctrl t) p0 in
  let* (t1, p, n1) :=
    (if (t_growth t =? 0)%N && negb (IsDeleted c0) then
       let* (t1, n1) := grow_any n t in
       let* p1 := find_first_non_full E (t_ctrl t1) (t_cap t1) h in
       Ok (t1, p1, n1)
     else Ok (t, p0, n)) in
  let* c := load (t_ctrl t1) p in
  Ok (mkTable (t_ctrl t1) (t_slots t1) (S (t_size t1)) (t_cap t1)
              (wsub 64 (t_growth t1) (if IsEmpty c then 1%N else 0%N)), p, n1).
(* emplace_at, then set_ctrl(offset, H2(hashval)) with the same hash (2543-2552) *)
Definition finish_any (t : table) (p : nat) (e : elt) (h : N) : res table :=
  let* slots' := construct (t_slots t) p e in
  let* ctrl' := set_ctrl E (t_ctrl t) (t_cap t) p (H2 h) in
  Ok (mkTable ctrl' slots' (t_size t) (t_cap t) (t_growth t)).

(** insert / emplace / try_emplace (2543-2552, 2187-2195, 3153-3167): table, slot, inserted, next call *)
Definition emplace_any (n : nat) (t : table) (k : K) (v : V) : res (table * nat * bool * nat) :=
  let h := hash n k in
  let* (r, n1) := find_hash (S n) t k h in
  match r with
  | Some p => Ok (t, p, false, n1)
  | None =>
      let* (t1, p, n2) := prepare_any n1 t h in
      let* t2 := finish_any t1 p (k, v) h in
      Ok (t2, p, true, n2)
  end.
(** insert_or_assign (3139-3151) *)
Definition assign_any (n : nat) (t : table) (k : K) (v : V) : res (table * nat * bool * nat) :=
  let* (t1, p, ins, n1) := emplace_any n t k v in
  if ins then Ok (t1, p, true, n1)
  else let* t2 := assign_at t1 p v in Ok (t2, p, false, n1).
(* erase(key) (2232-2238) *)
Definition erase_key_any (n : nat) (t : table) (k : K) : res (option elt * table * nat) :=
  let* (r, n1) := find_key_any n t k in
  match r with
  | None => Ok (None, t, n1)
  | Some p => let* (e, t') := erase_at E t p in Ok (Some e, t', n1)
  end.
(* erase(iterator) of the [j]-th element of the traversal (2240, 2255-2260) *)
Definition erase_nth (t : table) (j : nat) : res (elt * table) :=
  let* is := iterate E t in
  let* p := of_option (is !! j) in
  erase_at E t p.

(** ** rehash (2338-2353), reserve (2355) *)
Definition rehash_any (n : nat) (t : table) (m0 : N) : res (table * nat) :=
  if (m0 =? 0)%N && (t_cap t =? 0) then Ok (t, n)
  else if (m0 =? 0)%N && (t_size t =? 0) then Ok (empty_table, n)
  else
    let m := NormalizeCapacity (N.max m0 (N.of_nat (t_size t))) in
    if (m0 =? 0)%N || (N.of_nat (t_cap t) <? m)%N then resize_to n t m else Ok (t, n).
Definition reserve_any (n : nat) (t : table) (m0 : N) : res (table * nat) :=
  let* m := GrowthToLowerboundCapacity W m0 in rehash_any n t m.

(** ** copy constructor (1817-1830) *)
Fixpoint copy_loop_any (n : nat) (l : list elt) (t : table) : res (table * nat) :=
  match l with
  | [] => Ok (t, n)
  | e :: l' =>
      let h := hash n (fst e) in
      let* p := find_first_non_full E (t_ctrl t) (t_cap t) h in
      let* ctrl' := set_ctrl E (t_ctrl t) (t_cap t) p (H2 h) in
      let* slots' := construct (t_slots t) p e in
      copy_loop_any (S n) l' (mkTable ctrl' slots' (t_size t) (t_cap t) (t_growth t))
  end.
Definition copy_any (n : nat) (that : table) : res (table * nat) :=
  let* (t0, n0) := rehash_any n empty_table (N.of_nat (t_cap that)) in
  let* l := to_list E that in
  let* (t1, n1) := copy_loop_any n0 l t0 in
  Ok (mkTable (t_ctrl t1) (t_slots t1) (t_size that) (t_cap t1)
              (wsub 64 (t_growth t1) (N.of_nat (t_size that))), n1).

(** ** One public call.  std::bad_alloc leaves the table as it was: resize allocates before it changes any
    field and before it calls the hash object (2634-2692); how many calls were made before is not known to
    the caller, so the numbering goes on from [n1], the number after the lookup. *)
Definition caught (t : table) (n1 : nat) (r : res (table * answer K V * nat)) : res (table * answer K V * nat) :=
  match r with BadAlloc => Ok (t, AThrow, n1) | _ => r end.
Definition exec_any (n : nat) (t : table) (o : call K V) : res (table * answer K V * nat) :=
  match o with
  | CEmplace k v =>
      let* (_, n1) := find_key_any n t k in
      caught t n1 (let* (t', p, b, n') := emplace_any n t k v in let* e := deref t' p in Ok (t', AInserted b e, n'))
  | CAssign k v =>
      let* (_, n1) := find_key_any n t k in
      caught t n1 (let* (t', p, b, n') := assign_any n t k v in let* e := deref t' p in Ok (t', AInserted b e, n'))
  | CFind k =>
      let* (r, n') := find_key_any n t k in
      match r with None => Ok (t, AFound None, n') | Some p => let* e := deref t p in Ok (t, AFound (Some e), n') end
  | CErase k => let* (e, t', n') := erase_key_any n t k in
      Ok (t', ACount (match e with Some _ => 1 | None => 0 end), n')
  | CEraseNth j => let* (e, t') := erase_nth t j in Ok (t', AUnit, n)
  | CClear => let* t' := clear E t in Ok (t', AUnit, n)
  | CRehash m => caught t n (let* (t', n') := rehash_any n t m in Ok (t', AUnit, n'))
  | CReserve m => caught t n (let* (t', n') := reserve_any n t m in Ok (t', AUnit, n'))
  | CCopy => caught t n (let* (t', n') := copy_any n t in Ok (t', AUnit, n'))
  | CSize => Ok (t, ACount (t_size t), n)
  | CTraverse => let* l := to_list E t in Ok (t, AElems l, n)
  end.
(** A program: the table after each call, with the answer and the number of the next functor call. *)
Fixpoint run_any (n : nat) (t : table) (os : list (call K V)) : res (list (nat * table * answer K V)) :=
  match os with
  | [] => Ok []
  | o :: os' =>
      let* (t1, r, n1) := exec_any n t o in
      let* rs := run_any n1 t1 os' in
      Ok ((n1, t1, r) :: rs)
  end.
End AnyHash.
