(** Lookups with a key of another type: the templates "template<typename K> ... (const K& key)" of btree.hpp (1006-1133, 1531-1667,
    2674-2702, 2983-3073), instantiated with a type Q that a transparent comparator can compare with the keys.  [lo x q] is
    comp(x, q) and [hi q x] is comp(q, x); a comparator that returns an ordering gives Lt, Gt or Eq in the same way.
    Search.v and Ops.v are the instances with Q = key_type (hetero_is_plain below). *)
From stdpp Require Import list.
From Coq Require Import Arith Lia.
From Verif.Common Require Import Res.
From Verif.BTree Require Import Tree Search Ops.
Local Open Scope nat_scope.
Local Open Scope res_scope.

Section Node.
Context {K Q : Type} (lo : K -> Q -> bool) (hi : Q -> K -> bool).
Implicit Types (q : Q) (ks : list K).
(* do_three_way_comparison (503-518), with a key on the left *)
Definition hcmp (x : K) q : comparison := if lo x q then Lt else if hi q x then Gt else Eq.
(* linear_search_impl with a bool (1036-1050) *)
Fixpoint hlinear_bool (comp : K -> Q -> bool) q ks : nat :=
  match ks with [] => 0 | x :: ks' => if comp x q then S (hlinear_bool comp q ks') else 0 end.
(* with an ordering (1055-1069) *)
Fixpoint hlinear_three q ks : nat * bool :=
  match ks with
  | [] => (0, false)
  | x :: ks' => match hcmp x q with
                | Eq => (0, true)
                | Gt => (0, false)
                | Lt => let '(i, e) := hlinear_three q ks' in (S i, e)
                end
  end.
(* binary_search_impl with a bool (1075-1090) *)
Fixpoint hbinary_bool (comp : K -> Q -> bool) q ks (fuel s e : nat) : nat :=
  match fuel with
  | O => s
  | S fuel' => if s =? e then s
               else let mid := (s + e) / 2 in
                    match ks !! mid with
                    | Some x => if comp x q then hbinary_bool comp q ks fuel' (mid + 1) e else hbinary_bool comp q ks fuel' s mid
                    | None => s
                    end
  end.
(* with an ordering (1096-1133): a container of unique keys returns at the first match that it meets (1125-1131) *)
Fixpoint hbinary_three (multi : bool) q ks (fuel s e : nat) (exact : bool) : nat * bool :=
  match fuel with
  | O => (s, exact)
  | S fuel' => if s =? e then (s, exact)
               else let mid := (s + e) / 2 in
                    match ks !! mid with
                    | Some x => match hcmp x q with
                                | Lt => hbinary_three multi q ks fuel' (mid + 1) e exact
                                | Gt => hbinary_three multi q ks fuel' s mid exact
                                | Eq => if multi then hbinary_three multi q ks fuel' s mid true else (mid, true)
                                end
                    | None => (s, exact)
                    end
  end.
Context (m : mode).
(* lower_bound (1008-1011), upper_bound (1014-1018) with upper_bound_adapter (768-779) *)
Definition hnode_lower q ks : nat * bool :=
  match three m, linear m with
  | false, true => (hlinear_bool lo q ks, false)
  | false, false => (hbinary_bool lo q ks (length ks) 0 (length ks), false)
  | true, true => hlinear_three q ks
  | true, false => hbinary_three (multi m) q ks (length ks) 0 (length ks) false
  end.
Definition hupper_adapter (x : K) q : bool := negb (hi q x).
Definition hnode_upper q ks : nat * bool :=
  (if linear m then hlinear_bool hupper_adapter q ks else hbinary_bool hupper_adapter q ks (length ks) 0 (length ks), false).
End Node.

Section Hetero.
Context {V K Q : Type} (key : V -> K) (lo : K -> Q -> bool) (hi : Q -> K -> bool) (kN : nat) (m : mode).
Implicit Types (b : btree V) (q : Q).
(* internal_locate (2983-3026), internal_lower_bound and internal_upper_bound (3028-3056) *)
Definition hlocate b q : res (cursor V * bool) := descend key (height (b_root b)) (three m) (hnode_lower lo hi m q) (b_root b) [].
Definition hinternal_lower b q : res (option (cursor V)) :=
  let* (c, _) := descend key (height (b_root b)) false (hnode_lower lo hi m q) (b_root b) [] in Ok (internal_last c).
Definition hinternal_upper b q : res (option (cursor V)) :=
  let* (c, _) := descend key (height (b_root b)) false (hnode_upper hi m q) (b_root b) [] in Ok (internal_last c).
(* internal_find (3059-3071) *)
Definition hinternal_find b q : res (option (cursor V)) :=
  let* (c, e) := hlocate b q in
  if three m then Ok (if e then Some c else None)
  else match internal_last c with
       | Some c' => let* v := value c' in Ok (if hi q (key v) then None else Some c')
       | None => Ok None
       end.
(* lower_bound, upper_bound and equal_range (1531-1563), find (1641-1648) *)
Definition hlower_bound b q : res (cursor V) := let* o := hinternal_lower b q in internal_end b o.
Definition hupper_bound b q : res (cursor V) := let* o := hinternal_upper b q in internal_end b o.
Definition hequal_range b q : res (cursor V * cursor V) := let* c := hlower_bound b q in let* d := hupper_bound b q in Ok (c, d).
Definition hfind b q : res (cursor V) := let* o := hinternal_find b q in internal_end b o.
(* contains (3187-3190): find(key) != end() *)
Definition hcontains b q : res bool := let* c := hfind b q in let* e := end_ b in Ok (negb (same c e)).
(* count of btree_set and btree_map (3335-3338): count_unique (1652-1659); of the multi containers (3576-3579): count_multi (1664-1667) *)
Definition hcount b q : res nat :=
  if multi m then let* (c, d) := hequal_range b q in distance (b_size b) c d
  else let* o := hinternal_find b q in Ok (match o with Some _ => 1 | None => 0 end).
(* erase(key) of btree_set and btree_map (3394-3397): erase_unique (2676-2685); of the multi containers (3623-3626): erase_multi (2689-2702) *)
Definition herase b q : res (btree V * nat) :=
  if multi m then
    let* o := hinternal_lower b q in
    match o with
    | None => Ok (b, 0)
    | Some c => let* d := hupper_bound b q in let* (b', n, _) := erase_range kN b c d in Ok (b', n)
    end
  else
    let* o := hinternal_find b q in
    match o with Some c => let* (b', _) := erase kN b c in Ok (b', 1) | None => Ok (b, 0) end.
End Hetero.

(** with keys of key_type these are the functions of Ops.v *)
Lemma hetero_is_plain {V K} (key : V -> K) (lt : K -> K -> bool) kN m b k :
  hlower_bound key lt lt m b k = lower_bound key lt m b k /\ hupper_bound key lt m b k = upper_bound key lt m b k /\ hfind key lt lt m b k = find key lt m b k /\
  hcount key lt lt m b k = (if multi m then count_multi key lt m b k else count_unique key lt m b k) /\
  herase key lt lt kN m b k = (if multi m then erase_multi key lt kN m b k else erase_unique key lt kN m b k).
Proof.
  split; [done|]. split; [done|]. split; [done|]. split; [|done]. unfold hcount. destruct (multi m); [|done]. unfold hequal_range, count_multi.
  change (hlower_bound key lt lt m b k) with (lower_bound key lt m b k). change (hupper_bound key lt m b k) with (upper_bound key lt m b k).
  destruct (lower_bound key lt m b k); [|done..]. cbn [rbind]. by destruct (upper_bound key lt m b k).
Qed.
