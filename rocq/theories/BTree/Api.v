(** btree_set, btree_map, btree_multiset and btree_multimap (include/gtl/btree.hpp, 3112-3911) as a client calls them.
    A client names an iterator by its distance from begin(); results that are iterators are reported the same way. *)
From stdpp Require Import list.
From Coq Require Import Arith Lia.
From Verif.Common Require Import Res.
From Verif.BTree Require Import Tree Search Ops.
Local Open Scope nat_scope.
Local Open Scope res_scope.

Section Api.
Context {V K : Type} (key : V -> K) (lt : K -> K -> bool) (kN : nat) (m : mode).
Implicit Types (b src : btree V) (c d : cursor V) (v : V) (k : K).

Inductive op :=
| Insert v                      (* insert(v), emplace(args of v), try_emplace(key, args) *)
| InsertHint (i : nat) v        (* insert(hint, v), emplace_hint, try_emplace(hint, key, args) *)
| InsertRange (vs : list V)     (* insert(first, last), insert({...}) *)
| EraseKey k | EraseAt (i : nat) | EraseRange (i j : nat) | EraseIf (pred : V -> bool) | Clear
| ExtractAt (i : nat) | ExtractKey k
| Find k | Contains k | Count k | LowerBound k | UpperBound k | EqualRange k
| Deref (i : nat) | Size | Empty
| Forward                       (* for (auto& v : c) *)
| Backward                      (* from rbegin() to rend() *)
| CopyTo                        (* goes on with a copy *)
| Overwrite (i : nat) v         (* it->second = x: a value with the same key *)
| Height.
Inductive out := RUnit | RPos (i : nat) (inserted : bool) | RNum (n : nat) | RBool (x : bool) | RPair (i j : nat) | RVal v | ROpt (o : option V) | RList (vs : list V).

(* std::next(c.begin(), i) and std::distance(c.begin(), it) *)
Definition at_index b (i : nat) : res (cursor V) := let* g := begin_ b in advance i g.
Definition index_of b c : res nat := let* g := begin_ b in distance (b_size b) g c.
Definition with_pos (x : btree V * cursor V) (ins : bool) : res (btree V * out) := let '(b, c) := x in let* i := index_of b c in Ok (b, RPos i ins).

Definition call b (o : op) : res (btree V * out) :=
  match o with
  | Insert v =>                                                       (* (3345-3352), (3574-3575) *)
      if multi m then let* x := insert_multi key lt kN m b v in with_pos x true
      else let* (b', c, ins) := insert_unique key lt kN m b v in with_pos (b', c) ins
  | InsertHint i v =>                                                 (* (3353-3364), (3576-3581); the second component is not returned *)
      let* h := at_index b i in
      if multi m then let* x := insert_hint_multi key lt kN m b h v in with_pos x true
      else let* (b', c, _) := insert_hint_unique key lt kN m b h v in with_pos (b', c) true
  | InsertRange vs =>                                                 (* (3366-3371), (3582-3586) *)
      let* b' := (if multi m then insert_iterator_multi key lt kN m b vs else insert_iterator_unique key lt kN m b vs) in Ok (b', RUnit)
  | EraseKey k =>                                                     (* (3397-3400), (3616-3619) *)
      let* (b', n) := (if multi m then erase_multi key lt kN m b k else erase_unique key lt kN m b k) in Ok (b', RNum n)
  | EraseAt i => let* c := at_index b i in let* x := erase kN b c in with_pos x true                     (* (3218-3219) *)
  | EraseRange i j =>                                                 (* (3220-3222) *)
      let* c := at_index b i in let* d := at_index b j in let* (b', _, c') := erase_range kN b c d in with_pos (b', c') true
  | EraseIf pred =>                                                   (* reports the values that the predicate was asked about *)
      let* (b', asked) := erase_if kN (fun asked v => (asked ++ [v], pred v)) [] b in Ok (b', RList asked)   (* (3726-3735, 3784-3793, 3844-3853, 3902-3911) *)
  | Clear => Ok (clear, RUnit)                                        (* (3242) *)
  | ExtractAt i => let* c := at_index b i in let* (b', v) := extract kN b c in Ok (b', RVal v)           (* (3229-3238) *)
  | ExtractKey k =>                                                   (* (3403-3407), (3623-3627) *)
      let* c := find key lt m b k in let* e := end_ b in
      if same c e then Ok (b, ROpt None) else let* (b', v) := extract kN b c in Ok (b', ROpt (Some v))
  | Find k => let* c := find key lt m b k in let* i := index_of b c in Ok (b, RPos i true)               (* (3178-3184) *)
  | Contains k => let* c := find key lt m b k in let* e := end_ b in Ok (b, RBool (negb (same c e)))     (* (3187-3190) *)
  | Count k => let* n := (if multi m then count_multi key lt m b k else count_unique key lt m b k) in Ok (b, RNum n)   (* (3338-3341), (3567-3570) *)
  | LowerBound k => let* c := lower_bound key lt m b k in let* i := index_of b c in Ok (b, RPos i true)  (* (3192-3200) *)
  | UpperBound k => let* c := upper_bound key lt m b k in let* i := index_of b c in Ok (b, RPos i true)  (* (3202-3210) *)
  | EqualRange k =>                                                   (* (3212-3216), (1556-1563) *)
      let* c := lower_bound key lt m b k in let* d := upper_bound key lt m b k in
      let* i := index_of b c in let* j := index_of b d in Ok (b, RPair i j)
  | Deref i => let* c := at_index b i in let* v := value c in Ok (b, RVal v)
  | Size => Ok (b, RNum (b_size b))                                   (* (3246, 1680) *)
  | Empty => Ok (b, RBool (empty b))                                  (* (3248) *)
  | Forward => let* vs := values b in Ok (b, RList vs)
  | Backward => let* vs := rvalues b in Ok (b, RList vs)
  | CopyTo => let* b' := copy key lt kN m b in Ok (b', RUnit)         (* (3155, 2346-2350) *)
  | Overwrite i v => let* c := at_index b i in let* (b', _) := assign b c v in Ok (b', RUnit)
  | Height => let* h := height_ b in Ok (b, RNum h)                   (* (1686-1702) *)
  end.
Fixpoint run b (ops : list op) : res (btree V * list out) :=
  match ops with
  | [] => Ok (b, [])
  | o :: ops' => let* (b', r) := call b o in let* (b'', rs) := run b' ops' in Ok (b'', r :: rs)
  end.
End Api.
Arguments op : clear implicits. Arguments out : clear implicits.

(** btree_map (3440-3525): the values are pairs, the key is first *)
Section Map.
Context {K M : Type} (lt : K -> K -> bool) (kN : nat) (m : mode) (dflt : M).
Notation V := (K * M)%type.
Implicit Types (b : btree V).
Inductive mop := MInsert (k : K) (x : M) | MSet (k : K) (x : M) | MGet (k : K) | MAt (k : K) | MErase (k : K) | MHas (k : K) | MClear.
Inductive mout := MBool (x : bool) | MVal (x : M) | MNum (n : nat) | MUnit | MThrow.
(* operator[] (3501-3502): try_emplace(k).first *)
Definition subscript b (k : K) : res (btree V * cursor V) := let* (b', c, _) := insert_unique fst lt kN m b (k, dflt) in Ok (b', c).
Definition mcall b (o : mop) : res (btree V * mout) :=
  match o with
  | MInsert k x => let* (b', _, ins) := insert_unique fst lt kN m b (k, x) in Ok (b', MBool ins)
  | MSet k x => let* (b', c) := subscript b k in let* w := value c in let* (b'', _) := assign b' c (fst w, x) in Ok (b'', MUnit)    (* m[k] = x *)
  | MGet k => let* (b', c) := subscript b k in let* w := value c in Ok (b', MVal (snd w))
  | MAt k => let* c := find fst lt m b k in let* e := end_ b in      (* (3504-3517) *)
             if same c e then Ok (b, MThrow) else let* w := value c in Ok (b, MVal (snd w))
  | MErase k => let* (b', n) := erase_unique fst lt kN m b k in Ok (b', MNum n)
  | MHas k => let* c := find fst lt m b k in let* e := end_ b in Ok (b, MBool (negb (same c e)))
  | MClear => Ok (clear, MUnit)
  end.
Fixpoint mrun b (ops : list mop) : res (btree V * list mout) :=
  match ops with
  | [] => Ok (b, [])
  | o :: ops' => let* (b', r) := mcall b o in let* (b'', rs) := mrun b' ops' in Ok (b'', r :: rs)
  end.
End Map.
Arguments mop : clear implicits. Arguments mout : clear implicits.
