(** Histories in which element constructors throw: any number of insertions fail, and the program goes on using the
    table.  The calls are those of History; an insertion whose constructor throws leaves the table as
    prepare_insert (phmap.hpp:2867-2881) left it, see [emplace_throwing]. *)
From stdpp Require Import list.
From Coq Require Import Arith NArith ZArith.
From Verif.Common Require Import Res Word.
From Verif.Swiss Require Import Group Model MapSpec History Reserve.
Local Open Scope nat_scope.
Local Open Scope res_scope.

(** [FThrow k]: try_emplace / emplace / insert / lazy_emplace of key k, where the element's constructor throws if it is called. *)
Inductive fop (K V : Type) := FCall (o : op K V) | FThrow (k : K).
Arguments FCall {K V}.  Arguments FThrow {K V}.
Inductive fout (K V : Type) := FOut (r : out K V) | FThrew.
Arguments FOut {K V}.  Arguments FThrew {K V}.

(** ** What a user sees: the map, and the number of failed insertions size() still counts. *)
Section Spec.
Context {K V : Type} (eqb : K -> K -> bool).
Definition f_step (st : list (K * V) * nat) (o : fop K V) (r : fout K V) (st' : list (K * V) * nat) : Prop :=
  let (m, n) := st in let (m', n') := st' in
  match o with
  | FThrow k => m' = m /\
      match s_find eqb m k with
      | Some e => r = FOut (RInserted false e) /\ n' = n
      | None => (r = FThrew /\ n' = S n) \/ (r = FOut RThrow /\ n' = n)       (* RThrow: std::bad_alloc *)
      end
  | FCall OSize => r = FOut (RSize (length m + n)) /\ m' = m /\ n' = n
  | FCall OClear => r = FOut RUnit /\ m' = [] /\ n' = 0
  | FCall o => n' = n /\ exists r0, r = FOut r0 /\ s_step eqb m o r0 m'
  end.
Inductive f_run : list (K * V) * nat -> list (fop K V) -> list (fout K V) -> list (K * V) * nat -> Prop :=
| f_run_nil st : f_run st [] [] st
| f_run_cons st o r st1 os rs st2 : f_step st o r st1 -> f_run st1 os rs st2 -> f_run st (o :: os) (r :: rs) st2.
End Spec.

Section Failing.
Context {K V : Type} (hash : K -> N) (eqb : K -> K -> bool) (E : env).
Notation table := (table K V).

Definition fexec (t : table) (o : fop K V) : res (table * fout K V) :=
  match o with
  | FCall o => let* (t', r) := exec hash eqb E t o in Ok (t', FOut r)
  | FThrow k =>
      let* r := find_key hash eqb E t k in
      match r with
      | Some p => let* e := deref t p in Ok (t, FOut (RInserted false e))      (* nothing is constructed *)
      | None =>
          match emplace_throwing hash eqb E t k with
          | BadAlloc => Ok (t, FOut RThrow)
          | x => let* t' := x in Ok (t', FThrew)
          end
      end
  end.
Fixpoint frun (t : table) (os : list (fop K V)) : res (table * list (fout K V)) :=
  match os with
  | [] => Ok (t, [])
  | o :: os' => let* (t1, r) := fexec t o in let* (t2, rs) := frun t1 os' in Ok (t2, r :: rs)
  end.
(** size() <= capacity() whenever a call is made *)
Fixpoint calm (t : table) (os : list (fop K V)) : Prop :=
  match os with
  | [] => True
  | o :: os' => t_size t <= t_cap t /\ match fexec t o with Ok (t1, _) => calm t1 os' | _ => True end
  end.
Definition fop_ok (o : fop K V) : Prop := match o with FCall o => op_ok E o | FThrow _ => True end.
End Failing.
