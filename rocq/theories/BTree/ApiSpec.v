(** What the calls of Api.v have to do to a sorted list of values, stated without the tree. *)
From stdpp Require Import list.
From Coq Require Import Arith Lia.
From Verif.BTree Require Import Spec Api.
Local Open Scope nat_scope.

Section ApiSpec.
Context {V K : Type} (key : V -> K) (lt : K -> K -> bool) (multi : bool).
Implicit Types (v : V) (k : K) (l : list V).
Notation lower := (lower key lt). Notation upper := (upper key lt). Notation has := (has key lt).

(* what the caller has to ensure *)
Definition pre l (o : op V K) : Prop :=
  match o with
  | InsertHint i _ => i <= length l
  | EraseAt i | ExtractAt i | Deref i => i < length l
  | EraseRange i j => i <= j <= length l
  | Overwrite i v => exists w, l !! i = Some w /\ key v = key w
  | _ => True
  end.
(* a value is inserted if its key is new, or keys may repeat *)
Definition insert_spec v l : list V := if negb multi && has (key v) l then l else insert_at (upper (key v) l) v l.
(* the position where insert(hint, v) puts a value whose key may repeat: the hint if the order allows it *)
Definition hint_spec (i : nat) v l : nat :=
  let lo := lower (key v) l in let up := upper (key v) l in if (lo <=? i) && (i <=? up) then i else if S i =? lo then lo else up.
(* an index of a value equivalent to k: the first one if there is only one *)
Definition found k l (i : nat) v : Prop := l !! i = Some v /\ equiv lt (key v) k = true /\ (multi = false -> i = lower k l).
Definition step l (o : op V K) l' (r : out V) : Prop :=
  match o with
  | Insert v => l' = insert_spec v l /\ r = RPos (if multi then upper (key v) l else lower (key v) l) (multi || negb (has (key v) l))
  | InsertHint i v =>
      if multi then l' = insert_at (hint_spec i v l) v l /\ r = RPos (hint_spec i v l) true
      else l' = insert_spec v l /\ r = RPos (lower (key v) l) true
  | InsertRange vs => l' = fold_left (fun l v => insert_spec v l) vs l /\ r = RUnit
  | EraseKey k => l' = List.filter (fun v => negb (equiv lt (key v) k)) l /\ r = RNum (length (List.filter (fun v => equiv lt (key v) k) l))
  | EraseAt i => l' = remove_at i 1 l /\ r = RPos i true
  | EraseRange i j => l' = remove_at i (j - i) l /\ r = RPos i true
  | EraseIf pred => l' = List.filter (fun v => negb (pred v)) l /\ r = RList l   (* asked about every value once, in order *)
  | Clear => l' = [] /\ r = RUnit
  | ExtractAt i => l' = remove_at i 1 l /\ exists v, l !! i = Some v /\ r = RVal v
  | ExtractKey k => if has k l then exists i v, found k l i v /\ l' = remove_at i 1 l /\ r = ROpt (Some v) else l' = l /\ r = ROpt None
  | Find k => l' = l /\ if has k l then exists i v, found k l i v /\ r = RPos i true else r = RPos (length l) true
  | Contains k => l' = l /\ r = RBool (has k l)
  | Count k => l' = l /\ r = RNum (length (List.filter (fun v => equiv lt (key v) k) l))
  | LowerBound k => l' = l /\ r = RPos (lower k l) true
  | UpperBound k => l' = l /\ r = RPos (upper k l) true
  | EqualRange k => l' = l /\ r = RPair (lower k l) (upper k l)
  | Deref i => l' = l /\ exists v, l !! i = Some v /\ r = RVal v
  | Size => l' = l /\ r = RNum (length l)
  | Empty => l' = l /\ r = RBool (length l =? 0)
  | Forward => l' = l /\ r = RList l
  | Backward => l' = l /\ r = RList (rev l)
  | CopyTo => l' = l /\ r = RUnit
  | Overwrite i v => l' = <[i := v]> l /\ r = RUnit
  | Height => l' = l /\ exists h, r = RNum h /\ 2 ^ h <= S (length l)
  end.
(* the answers of a whole client, and that it respects what it has to ensure *)
Fixpoint steps l (ops : list (op V K)) l' (rs : list (out V)) : Prop :=
  match ops, rs with
  | [], [] => l' = l
  | o :: ops', r :: rs' => exists l1, step l o l1 r /\ steps l1 ops' l' rs'
  | _, _ => False
  end.
Fixpoint safe l (ops : list (op V K)) : Prop :=
  match ops with [] => True | o :: ops' => pre l o /\ forall l1 r, step l o l1 r -> safe l1 ops' end.
End ApiSpec.

(** a btree_map is a finite map: the value of a key, for keys up to equivalence *)
Section MapSpec.
Context {K M : Type} (lt : K -> K -> bool) (dflt : M).
Definition upd (f : K -> option M) (k : K) (o : option M) : K -> option M := fun k' => if equiv lt k' k then o else f k'.
Definition mstep (f : K -> option M) (o : mop K M) : (K -> option M) * mout M :=
  match o with
  | MInsert k x => match f k with Some _ => (f, MBool false) | None => (upd f k (Some x), MBool true) end
  | MSet k x => (upd f k (Some x), MUnit)
  | MGet k => match f k with Some x => (f, MVal x) | None => (upd f k (Some dflt), MVal dflt) end
  | MAt k => (f, match f k with Some x => MVal x | None => MThrow end)
  | MErase k => (upd f k None, MNum (match f k with Some _ => 1 | None => 0 end))
  | MHas k => (f, MBool (match f k with Some _ => true | None => false end))
  | MClear => (fun _ => None, MUnit)
  end.
Fixpoint msteps (f : K -> option M) (ops : list (mop K M)) : list (mout M) :=
  match ops with [] => [] | o :: ops' => let '(f', r) := mstep f o in r :: msteps f' ops' end.
End MapSpec.
