(** Programs over several vectors, and what they should do. *)
From stdpp Require Import gmap list.
From Coq Require Import NArith Lia.
From Verif.Vec Require Import Model.
Local Open Scope nat_scope.

Section Machine.
Context {V : Type} (tr : traits) (moved : V -> V) (dflt : V).
Notation M := (@M V).
Notation "x <- m ;; k" := (bind m (fun x => k)) (at level 100, m at next level, right associativity).
Notation "m ;;; k" := (bind m (fun _ => k)) (at level 100, right associativity).

(** An argument: an object that is no element of any vector, or element [i] of vector [q]. *)
Inductive sarg := AVal (x : V) | AEl (q i : nat).
(** The public operations.  Vectors are named by registers, each of which always holds a vector.
    A constructor first destroys the vector that the register holds. *)
Inductive op :=
| CtorEmpty (r : nat) | CtorN (r n : nat) | CtorFill (r n : nat) (a : sarg) | CtorList (r : nat) (zs : list V) | CtorInput (r : nat) (zs : list V)
| CtorCopy (r q : nat) | CtorMove (r q : nat)
| AssignFill (r n : nat) (a : sarg) | AssignList (r : nat) (zs : list V) | AssignInput (r : nat) (zs : list V)
| CopyAssign (r q : nat) | MoveAssign (r q : nat) | Swap (r q : nat)
| Reserve (r n : nat) | Shrink (r : nat) | Resize (r n : nat) | ResizeWith (r n : nat) (a : sarg)
| PushBack (r : nat) (a : sarg) (mv : bool) | PopBack (r : nat) | Clear (r : nat)
| Erase (r i j : nat) | EraseIf (r : nat) (p : V -> bool)
| Emplace (r pos : nat) (a : sarg) (mv : bool) | InsertMove (r pos : nat) (x : V) | InsertCopy (r pos : nat) (a : sarg)
| InsertFill (r pos n : nat) (a : sarg) | InsertList (r pos : nat) (zs : list V) (mv : bool)
| Write (r i : nat) (x : V) | Index (r i : nat) | At (r i : nat).
(** What a call returns: nothing, an element, an element or std::out_of_range, or an iterator (by its offset). *)
Inductive obs := ONone | OVal (x : V) | OAt (o : option V) | OPos (n : nat).

Definition resolve (a : sarg) : M (@arg V) :=
  match a with AVal x => ret (Val x) | AEl q i => v <- get q ;; b <- blk v ;; ret (Ref (b, i)) end.
Definition none (m : M unit) : M obs := m ;;; ret ONone.
Definition pos_of (m : M nat) : M obs := n <- m ;; ret (OPos n).
Definition exec (o : op) : M obs :=
  match o with
  | CtorEmpty r => none (dtor tr r)
  | CtorN r n => none (dtor tr r ;;; ctor_default tr dflt r n)
  | CtorFill r n a => none (dtor tr r ;;; (a <- resolve a ;; ctor_fill tr moved r n a))
  | CtorList r zs => none (dtor tr r ;;; ctor_list tr moved r zs)
  | CtorInput r zs => none (dtor tr r ;;; ctor_input tr moved r zs)
  | CtorCopy r q => none (dtor tr r ;;; ctor_copy tr moved r q)
  | CtorMove r q => none (dtor tr r ;;; ctor_move r q)
  | AssignFill r n a => none (a <- resolve a ;; assign_fill tr moved r n a)
  | AssignList r zs => none (assign_list tr moved r zs)
  | AssignInput r zs => none (assign_input tr moved r zs)
  | CopyAssign r q => none (copy_assign tr moved r q)
  | MoveAssign r q => none (move_assign r q)
  | Swap r q => none (swap r q)
  | Reserve r n => none (reserve tr moved r n)
  | Shrink r => none (shrink_to_fit tr moved r)
  | Resize r n => none (resize tr moved dflt r n)
  | ResizeWith r n a => none (a <- resolve a ;; resize_with tr moved r n a)
  | PushBack r a mv => none (a <- resolve a ;; push_back tr moved r a mv)
  | PopBack r => none (pop_back tr r)
  | Clear r => none (clear tr r)
  | Erase r i j => pos_of (erase tr moved r i j)
  | EraseIf r p => pos_of (erase_if tr moved r p)
  | Emplace r pos a mv => pos_of (a <- resolve a ;; emplace tr moved r pos a mv)
  | InsertMove r pos x => pos_of (insert_move tr moved r pos (Val x))
  | InsertCopy r pos a => pos_of (a <- resolve a ;; insert_copy tr moved r pos a)
  | InsertFill r pos n a => pos_of (a <- resolve a ;; insert_fill tr moved r pos n a)
  | InsertList r pos zs mv => pos_of (insert_list tr moved r pos zs mv)
  | Write r i x => none (write tr moved r i x)
  | Index r i => x <- index r i ;; ret (OVal x)
  | At r i => x <- at_checked r i ;; ret (OAt x)
  end.

(** ** Specification, over the sequences of elements that the vectors hold *)
Notation seqs := (list (list V)).
Definition sval (L : seqs) (a : sarg) : option V := match a with AVal x => Some x | AEl q i => L !! q ≫= fun xs => xs !! i end.
Definition outside (r : nat) (a : sarg) : Prop := match a with AVal _ => True | AEl q _ => q <> r end.
(** the first [n] elements, padded with [x] *)
Definition padded (x : V) (n : nat) (xs : list V) : list V := take n xs ++ replicate (n - length xs) x.
Definition ins (pos : nat) (zs xs : list V) : list V := take pos xs ++ zs ++ drop pos xs.
(** what a call returns, and the sequences after it *)
Definition spec (o : op) (L : seqs) : option (obs * seqs) :=
  match o with
  | CtorEmpty r => Some (ONone, <[r := []]> L)
  | CtorN r n => Some (ONone, <[r := replicate n dflt]> L)
  | CtorFill r n a => x ← sval L a; Some (ONone, <[r := replicate n x]> L)
  | CtorList r zs | CtorInput r zs | AssignList r zs | AssignInput r zs => Some (ONone, <[r := zs]> L)
  | CtorCopy r q | CopyAssign r q => zs ← L !! q; Some (ONone, <[r := zs]> L)
  | CtorMove r q => zs ← L !! q; Some (ONone, <[q := []]> (<[r := zs]> L))
  | AssignFill r n a => x ← sval L a; Some (ONone, <[r := replicate n x]> L)
  | MoveAssign r q | Swap r q => xs ← L !! r; zs ← L !! q; Some (ONone, <[q := xs]> (<[r := zs]> L))
  | Reserve r _ | Shrink r => Some (ONone, L)
  | Resize r n => xs ← L !! r; Some (ONone, <[r := padded dflt n xs]> L)
  | ResizeWith r n a => xs ← L !! r; x ← sval L a; Some (ONone, <[r := padded x n xs]> L)
  | PushBack r a _ => xs ← L !! r; x ← sval L a; Some (ONone, <[r := xs ++ [x]]> L)
  | PopBack r => xs ← L !! r; Some (ONone, <[r := take (length xs - 1) xs]> L)
  | Clear r => Some (ONone, <[r := []]> L)
  | Erase r i j => xs ← L !! r; Some (OPos i, <[r := take i xs ++ drop j xs]> L)
  | EraseIf r p => xs ← L !! r; let ys := List.filter (fun x => negb (p x)) xs in Some (OPos (length ys), <[r := ys]> L)
  | Emplace r pos a _ | InsertCopy r pos a => xs ← L !! r; x ← sval L a; Some (OPos pos, <[r := ins pos [x] xs]> L)
  | InsertMove r pos x => xs ← L !! r; Some (OPos pos, <[r := ins pos [x] xs]> L)
  | InsertFill r pos n a => xs ← L !! r; x ← sval L a; Some (OPos pos, <[r := ins pos (replicate n x) xs]> L)
  | InsertList r pos zs _ => xs ← L !! r; Some (OPos pos, <[r := ins pos zs xs]> L)
  | Write r i x => xs ← L !! r; Some (ONone, <[r := <[i := x]> xs]> L)
  | Index r i => xs ← L !! r; x ← xs !! i; Some (OVal x, L)
  | At r i => xs ← L !! r; Some (OAt (xs !! i), L)
  end.
(** Calls that the documentation allows.  Sizes in bytes stay below 2^64 (see C40 for the rest); arguments exist;
    only objects that are no elements are moved from; emplace does not take an element of the vector itself
    except at the end (see C39 for the rest). *)
Definition fits64 (n : nat) : Prop := (N.of_nat n * t_size tr < 2 ^ 64)%N.
(** relocation to a new block can be undone: the type is trivially copyable, or moves without exceptions, or can be copied *)
Definition restorable : bool := t_triv tr || t_nomove tr || t_copyable tr.
Definition at_end (L : seqs) (r pos : nat) : Prop := match L !! r with Some xs => pos = length xs | None => False end.
Definition within (L : seqs) (r pos : nat) : Prop := match L !! r with Some xs => pos <= length xs | None => False end.
Definition grows (L : seqs) (r n : nat) : Prop := match L !! r with Some xs => fits64 (length xs + n) | None => False end.
Definition movable (a : sarg) (mv : bool) : Prop := mv = true -> match a with AVal _ => True | AEl _ _ => False end.
Definition dst (o : op) : nat :=
  match o with
  | CtorEmpty r | CtorN r _ | CtorFill r _ _ | CtorList r _ | CtorInput r _ | CtorCopy r _ | CtorMove r _
  | AssignFill r _ _ | AssignList r _ | AssignInput r _ | CopyAssign r _ | MoveAssign r _ | Swap r _
  | Reserve r _ | Shrink r | Resize r _ | ResizeWith r _ _ | PushBack r _ _ | PopBack r | Clear r
  | Erase r _ _ | EraseIf r _ | Emplace r _ _ _ | InsertMove r _ _ | InsertCopy r _ _ | InsertFill r _ _ _ | InsertList r _ _ _
  | Write r _ _ | Index r _ | At r _ => r
  end.
Definition call_ok (o : op) (L : seqs) : Prop :=
  match o with
  | CtorEmpty _ | AssignInput _ _ | CtorInput _ _ | Clear _ | EraseIf _ _ | At _ _ | Swap _ _ | MoveAssign _ _ | CopyAssign _ _ | Index _ _ => True
  | CtorN _ n | Reserve _ n | Resize _ n | ResizeWith _ n _ | AssignFill _ n _ => fits64 n
  | CtorFill r n a => fits64 n /\ outside r a
  | CtorList _ zs | AssignList _ zs => fits64 (length zs)
  | CtorCopy r q | CtorMove r q => r <> q
  | Shrink _ => restorable = true
  | PushBack _ a mv => movable a mv
  | PopBack r => match L !! r with Some xs => 0 < length xs | None => False end
  | Erase r i j => i <= j /\ within L r j
  | Emplace r pos a mv => within L r pos /\ grows L r 1 /\ movable a mv /\ (outside r a \/ at_end L r pos)
  | InsertMove r pos _ | InsertCopy r pos _ => within L r pos /\ grows L r 1
  | InsertFill r pos n _ => within L r pos /\ grows L r n
  | InsertList r pos zs _ => within L r pos /\ grows L r (length zs)
  | Write r i _ => match L !! r with Some xs => i < length xs | None => False end
  end.
Definition pre (o : op) (L : seqs) : Prop := is_Some (spec o L) /\ dst o < length L /\ call_ok o L.

(** What may have changed when a call throws.  All vectors but the destination keep their elements.
    Calls that only reallocate or append leave the destination as it was, too. *)
Definition never_throws (o : op) : Prop :=
  match o with CtorEmpty _ | CtorMove _ _ | MoveAssign _ _ | Swap _ _ | Shrink _ | PopBack _ | Clear _ | Index _ _ | At _ _ => True | _ => False end.
Definition all_or_nothing (o : op) : Prop :=
  match o with Reserve _ _ | Resize _ _ | ResizeWith _ _ _ | PushBack _ _ _ | Write _ _ _ => restorable = true | _ => False end.
Definition is_ctor (o : op) : Prop :=
  match o with CtorN _ _ | CtorFill _ _ _ | CtorList _ _ | CtorInput _ _ | CtorCopy _ _ => True | _ => False end.
Definition after_throw (o : op) (L L' : seqs) : Prop :=
  ~ never_throws o /\ length L' = length L /\ (forall q, q <> dst o -> L' !! q = L !! q) /\ (all_or_nothing o -> L' = L) /\ (is_ctor o -> L' = <[dst o := []]> L).

(** ** What is seen of a world: the elements of each vector *)
Definition cell_vals (cs : list (@cell V)) : list V := flat_map (fun c => match c with Live x => [x] | Raw => [] end) cs.
Definition elems (h : gmap nat (list (@cell V))) (v : vec) : list V :=
  match v_blk v with None => [] | Some b => match h !! b with None => [] | Some cs => cell_vals (take (v_sz v) cs) end end.
Definition view (w : @world V) : seqs := elems (w_heap w) <$> w_regs w.
(** all vectors empty, no memory allocated; [orc] decides which constructors, assignments and allocations throw *)
Definition start (k : nat) (orc : list bool) : @world V := mkW ∅ (replicate k (mkV None 0 0)) orc.
(** worlds that programs reach; a program may catch exceptions and go on *)
Inductive reach : @world V -> Prop :=
| reach_start k orc : reach (start k orc)
| reach_ret w o x w' : reach w -> pre o (view w) -> exec o w = Ret x w' -> reach w'
| reach_thr w o w' : reach w -> pre o (view w) -> exec o w = Thr w' -> reach w'.
End Machine.
Arguments AVal {V}. Arguments AEl {V}. Arguments ONone {V}. Arguments OVal {V}. Arguments OAt {V}. Arguments OPos {V}.
Arguments CtorEmpty {V}. Arguments CtorN {V}. Arguments CtorCopy {V}. Arguments CtorMove {V}. Arguments CopyAssign {V}. Arguments MoveAssign {V}. Arguments Swap {V}. Arguments Reserve {V}. Arguments Shrink {V}. Arguments Resize {V}.
Arguments PopBack {V}. Arguments Clear {V}. Arguments Erase {V}. Arguments Index {V}. Arguments At {V}.
