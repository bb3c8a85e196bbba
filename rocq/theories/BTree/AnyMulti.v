(** Several B-tree containers and a node handle, with arbitrary comparators: merge, swap, copy and move assignment, extract, insertion of
    a node (include/gtl/btree.hpp).  The comparators may answer anything and throw, as in Compare.v.  The comparator objects are not part
    of the containers: every call is given the answers it will get, so assignments and swaps have none to exchange. *)
From stdpp Require Import list.
From Coq Require Import Arith Lia.
From Verif.Common Require Import Res.
From Verif.BTree Require Import Tree Search Ops Api Compare AnyFacts PropsAny.
Local Open Scope nat_scope.
Local Open Scope res_scope.

Section AnyMulti.
Context {V K : Type} (key : V -> K) (kN : nat).
Implicit Types (b : btree V) (c : cursor V) (v : V).
(* the move assignment with allocators that differ (2503-2511): copy_or_move_values_in_order (2300-2321) into the cleared target.  The first
   value is inserted with insert_multi, the others at the end.  [moved v] is what a move leaves of a value; the source keeps these *)
Fixpoint move_each (m : mode) (moved : V -> V) (fuel : nat) b (src : btree V) c : res (btree V * btree V) :=
  let* e := end_ src in
  if same c e then Ok (b, src)
  else match fuel with
       | O => Loop
       | S fuel' =>
           let* v := value c in
           let* (b', _) := (if empty b then insert_multi key flat kN m b v else let* d := end_ b in internal_emplace kN b d v) in
           let* (src', c') := assign src c (moved v) in
           let* c'' := next c' in
           move_each m moved fuel' b' src' c''
       end.
Definition move_values (m : mode) (moved : V -> V) (src : btree V) : res (btree V * btree V) :=
  let* c := begin_ src in move_each m moved (b_size src) clear src c.

(* the type of the container that a variable names, and the variables; the handle holds at most one value *)
Context (mo : nat -> mode).
Record env := mkEnv { vars : list (btree V); hand : option V }.
Inductive instr :=
| On (i : nat) (a : acall (V := V) (K := K))                                    (* a call of PropsAny.v *)
| Merge (i j : nat) (lt : nat -> K -> K -> bool) (n : nat) (moved : V -> V)     (* i.merge(j); the comparator throws at call n + 1 *)
| Swap (i j : nat)
| CopyAssign (i j : nat)
| MoveAssign (i j : nat) (equal : bool) (moved : V -> V)                        (* equal: the allocators are, or are propagated *)
| Take (i p : nat)                                                              (* handle = i.extract(iterator at p) *)
| Put (i : nat) (lt : nat -> K -> K -> bool) (n : nat)                          (* i.insert(std::move(handle)) *)
| PutHint (i p : nat) (lt : nat -> K -> K -> bool) (n : nat).
Definition ended (e : env) (x : answer V) : option (env * answer V) := Some (e, x).
(* insert(node_type&&) of sets and maps (3371-3382: a node that is not inserted comes back in the result; here it is in the handle again), of multisets and multimaps (3604-3611); insert(hint, node_type&&) (3384-3393, 3612-3619).
   The handle is destroyed after the insertion, and only if there was one *)
Definition insert_node_c (lt : nat -> K -> K -> bool) (m : mode) b (p : option nat) v : M (btree V * cursor V * bool) :=
  match p with
  | None => if multi m then let! (b', c) := insert_multi_c key lt kN m b v in ret (b', c, true) else insert_unique_c key lt kN m b v
  | Some p => let! h := lift (at_index b p) in
              if multi m then let! (b', c) := insert_hint_multi_c key lt kN m b h v in ret (b', c, true) else insert_hint_unique_c key lt kN m b h v
  end.
Definition put (e : env) (i : nat) (p : option nat) (lt : nat -> K -> K -> bool) (n : nat) : option (env * answer V) :=
  match vars e !! i with
  | None => None
  | Some b =>
      match hand e with
      | None => match (let* c := end_ b in index_of b c) with Ok q => ended e (Returned (RPos q false)) | _ => None end    (* if (!node) return end() *)
      | Some v =>
          match insert_node_c lt (mo i) b p v n with
          | Ok (b', c, ins, _) => match index_of b' c with
                                  | Ok q => ended (mkEnv (<[i:=b']> (vars e)) (if (ins : bool) then None else Some v)) (Returned (RPos q ins))
                                  | _ => None
                                  end
          | Throw => ended (mkEnv (<[i:=with_root b]> (vars e)) (Some v)) Threw
          | _ => None
          end
      end
  end.
Definition exec (e : env) (x : instr) : option (env * answer V) :=
  match x with
  | On i a => match vars e !! i with
              | Some b => match acall_run key kN (mo i) b a with Some (b', r) => ended (mkEnv (<[i:=b']> (vars e)) (hand e)) r | None => None end
              | None => None
              end
  | Merge i j lt n moved =>                                              (* (3418-3431), (3646-3649) *)
      match vars e !! i, vars e !! j with
      | Some b, Some s =>
          match (if multi (mo i) then merge_multi_c key lt kN (mo i) moved b s n else merge_unique_c key lt kN (mo i) b s n) with
          | MRet b' s' _ => ended (mkEnv (<[j:=s']> (<[i:=b']> (vars e))) (hand e)) (Returned RUnit)
          | MThrow b' s' => ended (mkEnv (<[j:=s']> (<[i:=b']> (vars e))) (hand e)) Threw
          | MBad => None
          end
      | _, _ => None
      end
  | Swap i j =>                                                          (* (2712-2728) *)
      match vars e !! i, vars e !! j with
      | Some b, Some s => ended (mkEnv (<[j:=b]> (<[i:=s]> (vars e))) (hand e)) (Returned RUnit)
      | _, _ => None
      end
  | CopyAssign i j =>                                                    (* (2470-2483) *)
      match vars e !! i, vars e !! j with
      | Some b, Some s =>
          if i =? j then ended e (Returned RUnit)
          else match copy key flat kN (mo i) s with Ok b' => ended (mkEnv (<[i:=b']> (vars e)) (hand e)) (Returned RUnit) | _ => None end
      | _, _ => None
      end
  | MoveAssign i j equal moved =>                                        (* (2485-2516): this->clear(), then the members are exchanged *)
      match vars e !! i, vars e !! j with
      | Some b, Some s =>
          if i =? j then ended e (Returned RUnit)
          else match (if equal then Ok (s, clear) else move_values (mo i) moved s) with
               | Ok (b', s') => ended (mkEnv (<[j:=s']> (<[i:=b']> (vars e))) (hand e)) (Returned RUnit)
               | _ => None
               end
      | _, _ => None
      end
  | Take i p =>                                                          (* extract (3233-3242) *)
      match vars e !! i with
      | Some b => match (let* c := at_index b p in extract kN b c) with
                  | Ok (b', v) => ended (mkEnv (<[i:=b']> (vars e)) (Some v)) (Returned (ROpt (Some v)))
                  | _ => None
                  end
      | None => None
      end
  | Put i lt n => put e i None lt n
  | PutHint i p lt n => put e i (Some p) lt n
  end.
Fixpoint exec_all (e : env) (p : list instr) : option (env * list (answer V)) :=
  match p with
  | [] => Some (e, [])
  | x :: p' => match exec e x with
               | Some (e1, r) => match exec_all e1 p' with Some (e2, rs) => Some (e2, r :: rs) | None => None end
               | None => None
               end
  end.
End AnyMulti.
