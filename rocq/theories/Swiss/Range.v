(** Hash containers: construction with a bucket count, from a range or from an initializer list, and insertion of a range
    (phmap.hpp 1707-1811, 1991-2027). *)
From stdpp Require Import list.
From Coq Require Import NArith ZArith.
From Verif.Common Require Import Res Word.
From Verif.Swiss Require Import Group Model MapSpec History.
Local Open Scope nat_scope.
Local Open Scope res_scope.

(** * What a user expects *)
(** Operations: those of C01; insert(first, last) or insert({...}); m = Map(first, last, bucket_cnt) or m = Map({...}, ...).
    [sized]: last - first compiles for the iterators (pointers, vector and deque iterators, initializer lists). *)
Inductive rop (K V : Type) :=
| RBase (o : op K V)
| RRange (sized : bool) (l : list (K * V))
| RNew (bucket_cnt : N) (sized : bool) (l : list (K * V)).
Arguments RBase {K V} o.  Arguments RRange {K V} sized l.  Arguments RNew {K V} bucket_cnt sized l.
Inductive rout (K V : Type) := ROut (r : out K V) | RDone | RThrew.
Arguments ROut {K V} r.  Arguments RDone {K V}.  Arguments RThrew {K V}.

Section Spec.
Context {K V : Type} (eqb : K -> K -> bool).
(** the first element of the range with a given key wins, and those already in the map win over the range *)
Definition s_insert_all (m l : list (K * V)) : list (K * V) :=
  fold_left (fun m e => match s_find eqb m (fst e) with Some _ => m | None => e :: m end) l m.
(** A range insertion that throws has inserted some prefix of the range; a construction that throws leaves the variable. *)
Definition s_rstep (m : list (K * V)) (o : rop K V) (r : rout K V) (m' : list (K * V)) : Prop :=
  match o with
  | RBase o => exists r', r = ROut r' /\ s_step eqb m o r' m'
  | RRange _ l => (r = RDone /\ m' = s_insert_all m l) \/
                  (r = RThrew /\ exists l1 l2, l = l1 ++ l2 /\ m' = s_insert_all m l1)
  | RNew _ _ l => (r = RDone /\ m' = s_insert_all [] l) \/ (r = RThrew /\ m' = m)
  end.
Inductive s_rrun : list (K * V) -> list (rop K V) -> list (rout K V) -> list (K * V) -> Prop :=
| s_rrun_nil m : s_rrun m [] [] m
| s_rrun_cons m o r m1 os rs m2 : s_rstep m o r m1 -> s_rrun m1 os rs m2 -> s_rrun m (o :: os) (r :: rs) m2.
End Spec.

Section Range.
Context {K V : Type} (hash : K -> N) (eqb : K -> K -> bool) (E : env).
Notation elt := (K * V)%type.
Notation table := (table K V).
Notation W := (g_width (e_group E)).

(* the loop of insert(first, last) (2010-2011, 2016-2017): emplace( *first) finds the key of an element (2074-2081) and goes
   through EmplaceDecomposable.  The flag tells that std::bad_alloc was thrown; the table is the one it leaves. *)
Fixpoint insert_each (t : table) (l : list elt) : res (table * bool) :=
  match l with
  | [] => Ok (t, false)
  | e :: l' =>
      match emplace hash eqb E t (fst e) (snd e) with
      | Ok (t', _, _) => insert_each t' l'
      | BadAlloc => Ok (t, true)
      | UB => UB | Loop => Loop | Throw => Throw
      end
  end.
(* insert(first, last) (2007-2018); the sum is computed modulo 2^64 *)
Definition insert_range (sized : bool) (t : table) (l : list elt) : res (table * bool) :=
  if sized then
    match reserve hash E t (wadd 64 (N.of_nat (t_size t)) (N.of_nat (length l))) with
    | Ok t1 => insert_each t1 l
    | BadAlloc => Ok (t, true)
    | UB => UB | Loop => Loop | Throw => Throw
    end
  else insert_each t l.
(* raw_hash_set(bucket_cnt, ...) (1708-1720) *)
Definition construct_buckets (bucket_cnt : N) : res table :=
  if (bucket_cnt =? 0)%N then Ok empty_table else initialize_slots E (NormalizeCapacity bucket_cnt) 0.
(* raw_hash_set(first, last, bucket_cnt, ...) (1731-1740) and the initializer lists (1778-1792), which are sized ranges;
   the target constructor has finished, so that an exception of insert runs the destructor: nothing remains *)
Definition construct_range (bucket_cnt : N) (sized : bool) (l : list elt) : res table :=
  let* t := construct_buckets bucket_cnt in
  let* (t', threw) := insert_range sized t l in
  if threw then BadAlloc else Ok t'.
(* m = Map(...): move assignment (1878-1886) takes the new table *)
Definition rexec (t : table) (o : rop K V) : res (table * rout K V) :=
  match o with
  | RBase o => let* (t', r) := exec hash eqb E t o in Ok (t', ROut r)
  | RRange sized l => let* (t', threw) := insert_range sized t l in Ok (t', if threw then RThrew else RDone)
  | RNew n sized l =>
      match construct_range n sized l with
      | Ok t' => Ok (t', RDone)
      | BadAlloc => Ok (t, RThrew)
      | UB => UB | Loop => Loop | Throw => Throw
      end
  end.
Fixpoint rrun (t : table) (os : list (rop K V)) : res (table * list (rout K V)) :=
  match os with
  | [] => Ok (t, [])
  | o :: os' => let* (t1, r) := rexec t o in let* (t2, rs) := rrun t1 os' in Ok (t2, r :: rs)
  end.
End Range.
