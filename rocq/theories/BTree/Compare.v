(** Calls of the comparator.  The searches of the B-tree containers (btree.hpp) once more, for a comparator of which only the first n calls
    return and the next one throws: [n] is passed along and counts down.  With a large n this counts the comparisons.  The comparator may
    answer differently at each call: [lt i] is the comparator when i calls are left (constant for a comparator that is a function).  A comparator
    that returns an ordering is called once where a bool comparator is called once (compare_keys, 521-530, 1448-1450; do_three_way_comparison, 503-518). *)
From stdpp Require Import list.
From Coq Require Import Arith Lia.
From Verif.Common Require Import Res.
From Verif.BTree Require Import Tree Search Ops Api.
Local Open Scope nat_scope.
Local Open Scope res_scope.

(** calls left before, result, calls left after *)
Definition M (A : Type) : Type := nat -> res (A * nat).
Definition ret {A} (a : A) : M A := fun n => Ok (a, n).
Definition bindM {A B} (c : M A) (k : A -> M B) : M B := fun n => let* (a, n') := c n in k a n'.
Definition lift {A} (r : res A) : M A := fun n => let* a := r in Ok (a, n).
(* one call of the comparator, whose value is [x i] if i calls are left after it *)
Definition ask {A} (x : nat -> A) : M A := fun n => match n with O => Throw | S n' => Ok (x n', n') end.
Notation "'let!' x ':=' c 'in' k" := (bindM c (fun x => k)) (at level 200, x pattern, c at level 100, k at level 200, right associativity) : res_scope.

Section Nodes.
Context {K : Type} (lt : nat -> K -> K -> bool).
(* linear_search_impl (1036-1050, 1055-1069) *)
Fixpoint linear_bool_c (comp : nat -> K -> K -> bool) (k : K) (ks : list K) : M nat :=
  match ks with
  | [] => ret 0
  | x :: ks' => let! y := ask (fun i => comp i x k) in if (y : bool) then let! i := linear_bool_c comp k ks' in ret (S i) else ret 0
  end.
Fixpoint linear_three_c (k : K) (ks : list K) : M (nat * bool) :=
  match ks with
  | [] => ret (0, false)
  | x :: ks' => let! y := ask (fun i => cmp3 (lt i) x k) in
                match y with
                | Eq => ret (0, true)
                | Gt => ret (0, false)
                | Lt => let! (i, e) := linear_three_c k ks' in ret (S i, e)
                end
  end.
(* binary_search_impl (1075-1090, 1096-1133) *)
Fixpoint binary_bool_c (comp : nat -> K -> K -> bool) (k : K) (ks : list K) (fuel s e : nat) : M nat :=
  match fuel with
  | O => ret s
  | S fuel' => if s =? e then ret s
               else let mid := (s + e) / 2 in
                    match ks !! mid with
                    | Some x => let! y := ask (fun i => comp i x k) in if (y : bool) then binary_bool_c comp k ks fuel' (mid + 1) e else binary_bool_c comp k ks fuel' s mid
                    | None => lift UB
                    end
  end.
Fixpoint binary_three_c (multi : bool) (k : K) (ks : list K) (fuel s e : nat) (exact : bool) : M (nat * bool) :=
  match fuel with
  | O => ret (s, exact)
  | S fuel' => if s =? e then ret (s, exact)
               else let mid := (s + e) / 2 in
                    match ks !! mid with
                    | Some x => let! y := ask (fun i => cmp3 (lt i) x k) in
                                match y with
                                | Lt => binary_three_c multi k ks fuel' (mid + 1) e exact
                                | Gt => binary_three_c multi k ks fuel' s mid exact
                                | Eq => if multi then binary_three_c multi k ks fuel' s mid true else ret (mid, true)
                                end
                    | None => lift UB
                    end
  end.
Context (m : mode).
(* lower_bound (1008-1011), upper_bound (1014-1018) of a node *)
Definition node_lower_c (k : K) (ks : list K) : M (nat * bool) :=
  match three m, linear m with
  | false, true => let! i := linear_bool_c lt k ks in ret (i, false)
  | false, false => let! i := binary_bool_c lt k ks (length ks) 0 (length ks) in ret (i, false)
  | true, true => linear_three_c k ks
  | true, false => binary_three_c (multi m) k ks (length ks) 0 (length ks) false
  end.
Definition node_upper_c (k : K) (ks : list K) : M (nat * bool) :=
  let! i := (if linear m then linear_bool_c (fun i => upper_adapter (lt i)) k ks else binary_bool_c (fun i => upper_adapter (lt i)) k ks (length ks) 0 (length ks)) in ret (i, false).
End Nodes.

Section CompareOps.
Context {V K : Type} (key : V -> K) (lt : nat -> K -> K -> bool) (kN : nat) (m : mode).
Implicit Types (b : btree V) (c d : cursor V) (v : V) (k : K).
(* internal_locate (2989-3026), internal_lower_bound (3030-3041), internal_upper_bound (3044-3056), internal_find (3059-3071) *)
Fixpoint descend_c (fuel : nat) (stop : bool) (pick : list K -> M (nat * bool)) (t : node V) (ps : list (frame V)) : M (cursor V * bool) :=
  match t with
  | Nil => ret (mkCur ps Nil, false)
  | Node _ _ rest =>
      match fuel with
      | O => lift Loop
      | S fuel' =>
          let! (i, e) := pick (map (fun x => key (fst x)) rest) in
          let! (f, t') := lift (child_at i t) in
          if stop && e then ret (mkCur (f :: ps) t', true) else descend_c fuel' stop pick t' (f :: ps)
      end
  end.
Definition internal_locate_c b k : M (cursor V * bool) := descend_c (height (b_root b)) (three m) (node_lower_c lt m k) (b_root b) [].
Definition internal_lower_bound_c b k : M (option (cursor V)) :=
  let! (c, _) := descend_c (height (b_root b)) false (node_lower_c lt m k) (b_root b) [] in ret (internal_last c).
Definition internal_upper_bound_c b k : M (option (cursor V)) :=
  let! (c, _) := descend_c (height (b_root b)) false (node_upper_c lt m k) (b_root b) [] in ret (internal_last c).
Definition check_c (c : cursor V) (e : bool) k : M (option (cursor V)) :=
  if three m then ret (if e then Some c else None)
  else match internal_last c with
       | Some c' => let! v := lift (value c') in let! x := ask (fun i => lt i k (key v)) in ret (if (x : bool) then None else Some c')
       | None => ret None
       end.
Definition internal_find_c b k : M (option (cursor V)) := let! (c, e) := internal_locate_c b k in check_c c e k.
(* (1532-1550), (1631-1658) *)
Definition lower_bound_c b k := let! o := internal_lower_bound_c b k in lift (internal_end b o).
Definition upper_bound_c b k := let! o := internal_upper_bound_c b k in lift (internal_end b o).
Definition find_c b k := let! o := internal_find_c b k in lift (internal_end b o).
Definition count_unique_c b k : M nat := let! o := internal_find_c b k in ret (match o with Some _ => 1 | None => 0 end).
Definition count_multi_c b k : M nat := let! c := lower_bound_c b k in let! d := upper_bound_c b k in lift (distance (b_size b) c d).
(* insert_unique (2361-2385), insert_hint_unique (2387-2413), insert_multi (2423-2435), insert_hint_multi (2437-2460): internal_emplace does
   not compare.  If a comparison throws, the container is [with_root b] *)
Definition insert_unique_c b v : M (btree V * cursor V * bool) :=
  let b := with_root b in
  let! (c, e) := internal_locate_c b (key v) in
  let! found := check_c c e (key v) in
  match found with
  | Some c' => ret (b, c', false)
  | None => let! (b', c') := lift (internal_emplace kN b c v) in ret (b', c', true)
  end.
Definition insert_hint_unique_c b c v : M (btree V * cursor V * bool) :=
  let k := key v in
  if empty b then insert_unique_c b v
  else
    let! e := lift (end_ b) in
    let! before := (if same c e then ret true else let! w := lift (value c) in ask (fun i => lt i k (key w))) in
    if (before : bool) then
      let! g := lift (begin_ b) in
      let! fits := (if same c g then ret true else let! p := lift (prev c) in let! w := lift (value p) in ask (fun i => lt i (key w) k)) in
      if (fits : bool) then let! (b', c') := lift (internal_emplace kN b c v) in ret (b', c', true) else insert_unique_c b v
    else
      let! w := lift (value c) in
      let! less := ask (fun i => lt i (key w) k) in
      if (less : bool) then
        let! c1 := lift (next c) in
        let! fits := (if same c1 e then ret true else let! w := lift (value c1) in ask (fun i => lt i k (key w))) in
        if (fits : bool) then let! (b', c') := lift (internal_emplace kN b c1 v) in ret (b', c', true) else insert_unique_c b v
      else ret (b, c, false).
Definition insert_multi_c b v : M (btree V * cursor V) :=
  let b := with_root b in
  let! o := internal_upper_bound_c b (key v) in
  let! c := lift (internal_end b o) in
  lift (internal_emplace kN b c v).
Definition insert_hint_multi_c b c v : M (btree V * cursor V) :=
  let k := key v in
  if empty b then insert_multi_c b v
  else
    let! e := lift (end_ b) in
    let! before := (if same c e then ret true else let! w := lift (value c) in ask (fun i => negb (lt i (key w) k))) in
    if (before : bool) then
      let! g := lift (begin_ b) in
      let! fits := (if same c g then ret true else let! p := lift (prev c) in let! w := lift (value p) in ask (fun i => negb (lt i k (key w)))) in
      if (fits : bool) then lift (internal_emplace kN b c v) else insert_multi_c b v
    else
      let! c1 := lift (next c) in
      let! fits := (if same c1 e then ret true else let! w := lift (value c1) in ask (fun i => negb (lt i (key w) k))) in
      if (fits : bool) then lift (internal_emplace kN b c1 v) else insert_multi_c b v.
(* erase_unique (2674-2685), erase_multi (2687-2700): nothing is compared after the searches *)
Definition erase_unique_c b k : M (btree V * nat) :=
  let! o := internal_find_c b k in
  match o with Some c => lift (let* (b', _) := erase kN b c in Ok (b', 1)) | None => ret (b, 0) end.
Definition erase_multi_c b k : M (btree V * nat) :=
  let! o := internal_lower_bound_c b k in
  match o with
  | None => ret (b, 0)
  | Some c => let! d := upper_bound_c b k in lift (let* (b', n, _) := erase_range kN b c d in Ok (b', n))
  end.

(** ** whole calls: the container that a call leaves behind is part of the outcome, also when the comparator throws *)
Inductive co := CRet (b : btree V) (r : out V) (n : nat) | CThrow (b : btree V) | CBad.
(* [b0]: the container while the comparisons are made *)
Definition catch (b0 : btree V) (c : M (btree V * out V)) (n : nat) : co :=
  match c n with Ok (b', r, n') => CRet b' r n' | Throw => CThrow b0 | _ => CBad end.
Definition pos_c (x : btree V * cursor V) (ins : bool) : M (btree V * out V) := lift (with_pos x ins).
Definition hint_c b c v : M (btree V) :=
  if multi m then let! (b', _) := insert_hint_multi_c b c v in ret b' else let! (b', _, _) := insert_hint_unique_c b c v in ret b'.
(* insert_iterator_unique (2415-2421), insert_iterator_multi (2462-2468) *)
Fixpoint insert_range_c b (vs : list V) (n : nat) : co :=
  match vs with
  | [] => CRet b RUnit n
  | v :: vs' => match (let! e := lift (end_ b) in hint_c b e v) n with
                | Ok (b', n') => insert_range_c b' vs' n'
                | Throw => CThrow (with_root b)
                | _ => CBad
                end
  end.
Definition call_c b (o : op V K) (n : nat) : co :=
  match o with
  | Insert v => catch (with_root b) (if multi m then let! x := insert_multi_c b v in pos_c x true
                                     else let! (b', c, ins) := insert_unique_c b v in pos_c (b', c) ins) n
  | InsertHint i v => catch (with_root b) (let! h := lift (at_index b i) in
                                           if multi m then let! x := insert_hint_multi_c b h v in pos_c x true
                                           else let! (b', c, _) := insert_hint_unique_c b h v in pos_c (b', c) true) n
  | InsertRange vs => insert_range_c b vs n
  | EraseKey k => catch b (let! (b', i) := (if multi m then erase_multi_c b k else erase_unique_c b k) in ret (b', RNum i)) n
  | ExtractKey k => catch b (let! c := find_c b k in let! e := lift (end_ b) in
                             if same c e then ret (b, ROpt None) else lift (let* (b', v) := extract kN b c in Ok (b', ROpt (Some v)))) n
  | Find k => catch b (let! c := find_c b k in lift (let* i := index_of b c in Ok (b, RPos i true))) n
  | Contains k => catch b (let! c := find_c b k in lift (let* e := end_ b in Ok (b, RBool (negb (same c e))))) n
  | Count k => catch b (let! i := (if multi m then count_multi_c b k else count_unique_c b k) in ret (b, RNum i)) n
  | LowerBound k => catch b (let! c := lower_bound_c b k in lift (let* i := index_of b c in Ok (b, RPos i true))) n
  | UpperBound k => catch b (let! c := upper_bound_c b k in lift (let* i := index_of b c in Ok (b, RPos i true))) n
  | EqualRange k => catch b (let! c := lower_bound_c b k in let! d := upper_bound_c b k in
                             lift (let* i := index_of b c in let* j := index_of b d in Ok (b, RPair i j))) n
  | _ => catch b (lift (call key (lt 0) kN m b o)) n                      (* these do not compare *)
  end.

(** ** merge: both containers are part of the outcome *)
Inductive mco := MRet (b src : btree V) (n : nat) | MThrow (b src : btree V) | MBad.
Definition mcatch {A} (b src : btree V) (r : res A) (k : A -> mco) : mco := match r with Ok a => k a | Throw => MThrow b src | _ => MBad end.
(* btree_set, btree_map (3418-3431) *)
Fixpoint merge_loop_c (fuel : nat) b (src : btree V) c (n : nat) : mco :=
  mcatch b src (end_ src) (fun e =>
  if same c e then MRet b src n
  else match fuel with
       | O => MBad
       | S fuel' =>
           mcatch b src (value c) (fun v =>
           mcatch (with_root b) src (insert_unique_c b v n) (fun '(b', _, ins, n') =>
           if (ins : bool) then mcatch b' src (erase kN src c) (fun '(src', c') => merge_loop_c fuel' b' src' c' n')
           else mcatch b' src (next c) (fun c' => merge_loop_c fuel' b' src c' n')))
       end).
Definition merge_unique_c b src (n : nat) : mco := mcatch b src (begin_ src) (fun c => merge_loop_c (b_size src) b src c n).
(* btree_multiset, btree_multimap (3646-3649): insert_iterator_multi over move iterators, then src.clear().  [moved v]: what stays behind in
   the slot of a value after its move *)
Fixpoint merge_multi_loop_c (moved : V -> V) (fuel : nat) b (src : btree V) c (n : nat) : mco :=
  mcatch b src (end_ src) (fun e =>
  if same c e then MRet b clear n
  else match fuel with
       | O => MBad
       | S fuel' =>
           mcatch b src (value c) (fun v =>
           mcatch (with_root b) src ((let! h := lift (end_ b) in insert_hint_multi_c b h v) n) (fun '(b', _, n') =>
           mcatch b' src (assign src c (moved v)) (fun '(src', c') =>
           mcatch b' src' (next c') (fun c'' => merge_multi_loop_c moved fuel' b' src' c'' n'))))
       end).
Definition merge_multi_c (moved : V -> V) b src (n : nat) : mco := mcatch b src (begin_ src) (fun c => merge_multi_loop_c moved (b_size src) b src c n).
End CompareOps.
