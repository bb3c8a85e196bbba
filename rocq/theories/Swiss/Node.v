(** Executable model of the node containers node_hash_map / node_hash_set (include/gtl/phmap.hpp): the table of
    [Model] and [Multi] whose slots hold pointers, over a heap of nodes, each a block allocated for one element.
    A slot is written (k, a): the pointer [a] together with the key of the node it points to, which the table reads
    through the pointer whenever it hashes or compares (element, 4836: [**slot]).  The proofs show that the node is
    alive and that its key is that [k] whenever a slot holds (k, a), so that reading it in the slot is no shortcut.
    Everything else that is read or written through a pointer goes through the heap here, and is undefined behaviour
    if the node is not alive.  Not modelled: allocation of a node that fails (only the arrays of the tables have a
    limit, as in [Model]); space_used. *)
From stdpp Require Import list.
From Coq Require Import NArith ZArith.
From Verif.Common Require Import Res Word.
From Verif.Swiss Require Import Group Model Multi MapSpec MultiSpec History MultiHistory.
Local Open Scope nat_scope.
Local Open Scope res_scope.

(** One node: memory obtained from the allocator without an object in it, with its element, or given back.  The
    index in the heap is the address; an address is not used again, so that it also identifies the node. *)
Inductive cell (A : Type) := Raw | Live (e : A) | Freed.
Arguments Raw {A}.  Arguments Live {A} e.  Arguments Freed {A}.

(** The calls.  [NArgs]: emplace with arguments from which the key cannot be read without building the element
    (2076-2088, 2097-2106); all other calls are those of [MultiSpec]. *)
Inductive nop (K V : Type) := NOp (o : mop K V) | NArgs (i : nat) (k : K) (v : V).
Arguments NOp {K V} o.  Arguments NArgs {K V} i k v.

Section Node.
Context {K V : Type} (hash : K -> N) (eqb : K -> K -> bool) (eeq : K * V -> K * V -> bool) (E : env).
Notation elt := (K * V)%type.
Notation ptr := (K * nat)%type.
Notation ptable := (table K nat).
Notation heap := (list (cell elt)).

(** ** Nodes *)
(* new_element (4851-4858, 4889-4896): allocate, then construct *)
Definition alloc_node (H : heap) : heap * nat := (H ++ [Raw], length H).
Definition construct_node (H : heap) (a : nat) (e : elt) : res heap :=
  let* c := load H a in match c with Raw => store H a (Live e) | _ => UB end.
Definition new_element (H : heap) (e : elt) : res (heap * nat) :=
  let '(H1, a) := alloc_node H in
  let* H2 := construct_node H1 a e in Ok (H2, a).
(* delete_element (4860-4866, 4898-4904): destroy, then deallocate *)
Definition destroy_node (H : heap) (a : nat) : res heap :=
  let* c := load H a in match c with Live _ => store H a Raw | _ => UB end.
Definition free_node (H : heap) (a : nat) : res heap :=
  let* c := load H a in match c with Raw => store H a Freed | _ => UB end.
Definition delete_element (H : heap) (a : nat) : res heap :=
  let* H1 := destroy_node H a in free_node H1 a.
(* element (4836): the element a slot points to, with the address of the node *)
Definition read_node (H : heap) (a : nat) : res elt :=
  let* c := load H a in match c with Live e => Ok e | _ => UB end.
Definition read (H : heap) (x : ptr) : res (K * (nat * V)) :=
  let* e := read_node H (snd x) in Ok (fst e, (snd x, snd e)).
Fixpoint read_all (H : heap) (l : list ptr) : res (list (K * (nat * V))) :=
  match l with
  | [] => Ok []
  | x :: l' => let* e := read H x in let* es := read_all H l' in Ok (e :: es)
  end.
(* value (4897-4898) assigned by insert_or_assign (3139-3151) *)
Definition assign_node (H : heap) (a : nat) (v : V) : res heap :=
  let* e := read_node H a in store H a (Live (fst e, v)).

(** the table as a reader of the elements sees it *)
Definition at_ptr (H : heap) (x : ptr) : option elt :=
  match H !! snd x with Some (Live e) => Some e | _ => None end.
Definition read_table (H : heap) (t : ptable) : table K V :=
  mkTable (t_ctrl t) (map (fun s => match s with Some x => at_ptr H x | None => None end) (t_slots t))
          (t_size t) (t_cap t) (t_growth t).

(** ** The loop over the full slots in clear (1916-1922) and destroy_slots (2652-2657); the element type does not
    matter here: nodes are always destroyed one by one (1914-1915, 2650-2651) *)
Fixpoint destroy_loop (is : list nat) (t : ptable) (H : heap) : res heap :=
  match is with
  | [] => Ok H
  | i :: is' =>
      let* c := load (t_ctrl t) i in
      if IsFull c then
        let* x := deref t i in
        let* H' := delete_element H (snd x) in destroy_loop is' t H'
      else destroy_loop is' t H
  end.
Definition destroy_elements (t : ptable) (H : heap) : res heap := destroy_loop (seq 0 (t_cap t)) t H.
Fixpoint delete_all (H : heap) (l : list ptr) : res heap :=
  match l with
  | [] => Ok H
  | x :: l' => let* H' := delete_element H (snd x) in delete_all H' l'
  end.

(** ** Copy constructor (1817-1830): every node is copied into a new one *)
Fixpoint clone_all (H : heap) (l : list ptr) : res (heap * list ptr) :=
  match l with
  | [] => Ok (H, [])
  | x :: l' =>
      let* e := read_node H (snd x) in
      let* (H1, a) := new_element H e in
      let* (H2, xs) := clone_all H1 l' in Ok (H2, (fst e, a) :: xs)
  end.
Definition copy_n (H : heap) (that : ptable) : res (heap * ptable) :=
  let* t0 := rehash hash E empty_table (N.of_nat (t_cap that)) in
  let* l := to_list E that in
  let* (H1, l') := clone_all H l in
  let* t1 := copy_loop hash E l' t0 in
  Ok (H1, mkTable (t_ctrl t1) (t_slots t1) (t_size that) (t_cap t1)
                  (wsub 64 (t_growth t1) (N.of_nat (t_size that)))).

(** ** Calls on one container *)
(* emplace_decomposable (2542-2552): if the key is absent, room is made, then the node is built in the slot *)
Definition emplace_n (H : heap) (t : ptable) (k : K) (v : V) : res (heap * ptable * nat * bool) :=
  let* r := find_key hash eqb E t k in
  match r with
  | Some p => Ok (H, t, p, false)
  | None =>
      let* (t1, p) := prepare_insert hash E t (hash k) in
      let* (H1, a) := new_element H (k, v) in
      let* t2 := finish_insert hash E t1 p (k, a) in
      Ok (H1, t2, p, true)
  end.
(* the same call when the constructor of the element throws: the memory of the node was obtained, nothing in
   new_element (4851-4858, 4889-4896) gives it back; the table keeps what prepare_insert did to it *)
Definition emplace_ctor_throws (H : heap) (t : ptable) (k : K) : res (heap * ptable * bool) :=
  let* r := find_key hash eqb E t k in
  match r with
  | Some _ => Ok (H, t, false)
  | None =>
      let* (t1, _) := prepare_insert hash E t (hash k) in
      let '(H1, _) := alloc_node H in Ok (H1, t1, true)
  end.
(* emplace (2097-2106) with InsertSlot<true> (2571-2588): the node is built first; then its pointer is transferred
   to a slot, or the node is deleted if the key is present.  An exception in between leaves the node behind. *)
Definition emplace_args_n (H : heap) (t : ptable) (k : K) (v : V) : res (heap * ptable * nat * bool) :=
  let* (H1, a) := new_element H (k, v) in
  let* (t', p, b) := emplace hash eqb E t k a in
  if b then Ok (H1, t', p, true)
  else let* H2 := delete_element H1 a in Ok (H2, t', p, false).
(* rehash (2338-2353): its first branch destroys the slots of an empty table; other branches only move pointers
   (transfer, 4818-4821) *)
Definition rehash_n (H : heap) (t : ptable) (n : N) : res (heap * ptable) :=
  let* H' := (if (n =? 0)%N && negb (t_cap t =? 0) && (t_size t =? 0) then destroy_elements t H else Ok H) in
  let* t' := rehash hash E t n in Ok (H', t').

Definition inserted_n (r : res (heap * ptable * nat * bool)) : res (heap * ptable * out K (nat * V)) :=
  let* (H', t', p, b) := r in
  let* x := deref t' p in
  let* e := read H' x in Ok (H', t', RInserted b e).
(* a call that throws std::bad_alloc leaves heap [H] and table [t] *)
Definition catch_n (H : heap) (t : ptable) (r : res (heap * ptable * out K (nat * V)))
  : res (heap * ptable * out K (nat * V)) :=
  match r with BadAlloc => Ok (H, t, RThrow) | _ => r end.
Definition exec_n (H : heap) (t : ptable) (o : op K V) : res (heap * ptable * out K (nat * V)) :=
  match o with
  | OEmplace k v => catch_n H t (inserted_n (emplace_n H t k v))
  | OAssign k v =>
      catch_n H t (inserted_n (
        let* (H1, t1, p, b) := emplace_n H t k v in
        if b then Ok (H1, t1, p, true)
        else let* x := deref t1 p in
             let* H2 := assign_node H1 (snd x) v in Ok (H2, t1, p, false)))
  | OFind k =>
      let* r := find_key hash eqb E t k in
      match r with
      | None => Ok (H, t, RFound None)
      | Some p => let* x := deref t p in let* e := read H x in Ok (H, t, RFound (Some e))
      end
  | OErase k =>
      let* (r, t') := erase_key hash eqb E t k in
      match r with
      | None => Ok (H, t', RErased None)
      | Some x => let* e := read H x in let* H' := delete_element H (snd x) in Ok (H', t', RErased (Some e))
      end
  | OClear =>
      let* H' := (if (t_size t =? 0) || (t_cap t =? 0) then Ok H else destroy_elements t H) in
      let* t' := clear E t in Ok (H', t', RUnit)
  | ORehash n => catch_n H t (let* (H', t') := rehash_n H t n in Ok (H', t', RUnit))
  | OReserve n =>
      catch_n H t (let* m := GrowthToLowerboundCapacity (g_width (e_group E)) n in
                   let* (H', t') := rehash_n H t m in Ok (H', t', RUnit))
  | OSize => Ok (H, t, RSize (t_size t))
  | OTraverse => let* l := to_list E t in let* es := read_all H l in Ok (H, t, RElems es)
  end.

(** ** Calls on several containers and node handles *)
(* the node handle is assigned: what it held is destroyed *)
Definition drop_node (H : heap) (n : option ptr) : res heap :=
  match n with None => Ok H | Some x => delete_element H (snd x) end.
(* erase_if (5597-5608): the predicate is applied to the elements *)
Definition on_node (H : heap) (p : elt -> bool) (x : ptr) : bool :=
  match at_ptr H x with Some e => p e | None => false end.

Definition nstate := (list ptable * list (option ptr) * heap)%type.
Definition nexec (s : nstate) (o : nop K V) : res (nstate * mout K (nat * V)) :=
  let '(ts, ns, H) := s in
  match o with
  | NArgs i k v =>
      let* t := load ts i in
      match inserted_n (emplace_args_n H t k v) with
      | BadAlloc =>
          (* the node built before the exception *)
          let* (H1, _) := new_element H (k, v) in Ok ((ts, ns, H1), MR RThrow)
      | r => let* (H', t', r') := r in Ok ((<[i := t']> ts, ns, H'), MR r')
      end
  | NOp (MOne i o1) =>
      let* t := load ts i in
      let* (H', t', r) := exec_n H t o1 in Ok ((<[i := t']> ts, ns, H'), MR r)
  | NOp (MCopy i j) =>
      (* copy assignment (1871-1876): copy, swap, the old content is destroyed *)
      let* x := load ts i in
      let* t := load ts j in
      match copy_n H t with
      | BadAlloc => Ok ((ts, ns, H), MThrew)
      | r => let* (H1, tmp) := r in
             let* H2 := destroy_elements x H1 in Ok ((<[i := tmp]> ts, ns, H2), MDone)
      end
  | NOp (MMove i j) =>
      (* move assignment (1878-1884, 2825-2829): move out, swap, the old content is destroyed *)
      let* _ := load ts i in
      let* t := load ts j in
      let '(tmp, rest) := move_out t in
      let ts1 := <[j := rest]> ts in
      let* x := load ts1 i in
      let* H1 := destroy_elements x H in Ok ((<[i := tmp]> ts1, ns, H1), MDone)
  | NOp (MSwap i j) =>
      let* ti := load ts i in
      let* tj := load ts j in Ok ((<[i := tj]> (<[j := ti]> ts), ns, H), MDone)
  | NOp (MMerge i j) =>
      (* merge (2283-2291): pointers are transferred *)
      if i =? j then UB
      else
        let* ti := load ts i in
        let* tj := load ts j in
        let* (ti', tj', threw) := merge hash eqb E ti tj in
        Ok ((<[i := ti']> (<[j := tj']> ts), ns, H), if threw then MThrew else MDone)
  | NOp (MExtract i k n) =>
      (* extract (2298-2308): the pointer is transferred to the handle *)
      let* t := load ts i in
      let* old := load ns n in
      let* (x, t') := erase_key hash eqb E t k in
      let* H' := drop_node H old in
      let* r := (match x with None => Ok None | Some y => let* e := read H' y in Ok (Some e) end) in
      Ok ((<[i := t']> ts, <[n := x]> ns, H'), MNode r)
  | NOp (MInsertNode i n) =>
      (* insert(node_type&&) (2027-2038) *)
      let* t := load ts i in
      let* nd := load ns n in
      match insert_node hash eqb E t nd with
      | BadAlloc => Ok ((ts, ns, H), MThrew)
      | r => let* (t', nd', b) := r in Ok ((<[i := t']> ts, <[n := nd']> ns, H), MBool b)
      end
  | NOp (MEq i j) =>
      (* operator== (2464-2475) *)
      let* ti := load ts i in
      let* tj := load ts j in
      let* b := table_eq hash E eeq (read_table H ti) (read_table H tj) in Ok ((ts, ns, H), MBool b)
  | NOp (MEraseIf i p) =>
      (* the nodes are deleted during the traversal; no other node is touched by it *)
      let* t := load ts i in
      let* (t', c, seen) := erase_if E (on_node H p) t in
      let* es := read_all H seen in
      let* H' := delete_all H (List.filter (on_node H p) seen) in
      Ok ((<[i := t']> ts, ns, H'), MErased c es)
  end.
Fixpoint nrun (s : nstate) (os : list (nop K V)) : res (nstate * list (mout K (nat * V))) :=
  match os with
  | [] => Ok (s, [])
  | o :: os' => let* (s1, r) := nexec s o in let* (s2, rs) := nrun s1 os' in Ok (s2, r :: rs)
  end.

(** ** Destructors of the handles and of the containers (1886) *)
Fixpoint drop_nodes (H : heap) (ns : list (option ptr)) : res heap :=
  match ns with
  | [] => Ok H
  | n :: ns' => let* H' := drop_node H n in drop_nodes H' ns'
  end.
Fixpoint destroy_tables (H : heap) (ts : list ptable) : res heap :=
  match ts with
  | [] => Ok H
  | t :: ts' => let* H' := destroy_elements t H in destroy_tables H' ts'
  end.
Definition teardown (s : nstate) : res heap :=
  let '(ts, ns, H) := s in
  let* H1 := drop_nodes H ns in destroy_tables H1 ts.

Definition nop_ok (a b : nat) (o : nop K V) : Prop :=
  match o with NOp o => mop_ok E a b o | NArgs i _ _ => i < a end.
End Node.
