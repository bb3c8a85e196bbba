(** The functions beside gtl::vector: comparisons, erase(v, value), compactResize, relinquish and attach
    (/repo/include/gtl/vector.hpp, 1547-1641). *)
From stdpp Require Import gmap list.
From Coq Require Import NArith Lia.
From Verif.Vec Require Import Model Machine.
Local Open Scope nat_scope.

Section Handover.
(** [eqb] and [ltb] are the operators == and < of the elements; [ct] says whether they may throw. *)
Context {V : Type} (tr : traits) (moved : V -> V) (dflt : V) (eqb ltb : V -> V -> bool) (ct : bool).
Notation M := (@M V).
Notation "x <- m ;; k" := (bind m (fun x => k)) (at level 100, m at next level, right associativity).
Notation "m ;;; k" := (bind m (fun _ => k)) (at level 100, right associativity).

(** std::equal(first1, last1, first2), 1548: [n] elements are left, the next ones are element [i] of block [b] and of block [c] *)
Fixpoint equal_loop (n i b c : nat) : M bool :=
  match n with
  | O => ret true
  | S n' => x <- read (b, i) ;; y <- read (c, i) ;; may_throw ct ;;; if eqb x y then equal_loop n' (S i) b c else ret false
  end.
(** operator==, 1547-1549 *)
Definition op_eq (r q : nat) : M bool :=
  v <- get r ;; o <- get q ;;
  if v_sz v =? v_sz o then equal_loop (v_sz v) 0 (default 0 (v_blk v)) (default 0 (v_blk o)) else ret false.
(** operator!=, 1551 *)
Definition op_ne (r q : nat) : M bool := e <- op_eq r q ;; ret (negb e).
(** std::lexicographical_compare(first1, last1, first2, last2), 1554: [n] and [m] elements are left in the two ranges *)
Fixpoint lex_loop (n m i b c : nat) : M bool :=
  match n, m with
  | S n', S m' =>
      x <- read (b, i) ;; y <- read (c, i) ;;
      may_throw ct ;;; if ltb x y then ret true
      else may_throw ct ;;; if ltb y x then ret false else lex_loop n' m' (S i) b c
  | O, S _ => ret true
  | _, O => ret false
  end.
(** operator<, 1553-1555 *)
Definition op_lt (r q : nat) : M bool :=
  v <- get r ;; o <- get q ;; lex_loop (v_sz v) (v_sz o) 0 (default 0 (v_blk v)) (default 0 (v_blk o)).
(** operator>, 1557 *)
Definition op_gt (r q : nat) : M bool := op_lt q r.
(** operator<=, 1559 *)
Definition op_le (r q : nat) : M bool := g <- op_gt r q ;; ret (negb g).
(** operator>=, 1561 *)
Definition op_ge (r q : nat) : M bool := l <- op_lt r q ;; ret (negb l).

(** erase(v, value), 1638-1641: [value] is a parameter passed by value, copied from [a] before the call.  Simplified: its type is that
    of the elements; == does not throw inside std::remove. *)
Definition erase_value (r : nat) (a : @arg V) : M unit :=
  may_throw (copy_throws tr) ;;; value <- take_arg tr moved a false ;; erase_if tr moved r (fun x => eqb x value) ;;; skip.
(** compactResize, 1588-1592 *)
Definition compact_resize (r n : nat) : M unit := resize tr moved dflt r n ;;; shrink_to_fit tr moved r.
(** relinquish, 1617-1622: what the caller gets is the pointer *)
Definition relinquish (r : nat) : M (option nat) := v <- get r ;; set r (mkV None 0 0) ;;; ret (v_blk v).
(** attach, 1624-1630.  The assertion is not modelled: it does nothing in a release build. *)
Definition attach (r : nat) (data : option nat) (sz cap : nat) : M unit := set r (mkV data sz cap).

(** ** Programs.  Registers below [nv] are vectors.  The others are the places where a program that took storage from a vector keeps
    the pointer, the size and the capacity. *)
Inductive cmp := Eq | Ne | Lt | Gt | Le | Ge.
Inductive xop :=
| Plain (o : @op V)
| Cmp (c : cmp) (r q : nat)
| EraseValue (r : nat) (a : @sarg V)
| CompactResize (r n : nat)
| Relinquish (r k : nat)      (* size() and capacity() are noted first *)
| Attach (r k : nat)
| Dispose (k : nat).          (* the program destroys the elements and frees the storage itself *)
Inductive xobs := Plainly (x : @obs V) | Bool (b : bool) | Ptr (p : option nat) | Done.
Definition do_cmp (c : cmp) (r q : nat) : M bool :=
  match c with Eq => op_eq r q | Ne => op_ne r q | Lt => op_lt r q | Gt => op_gt r q | Le => op_le r q | Ge => op_ge r q end.
Definition xexec (o : xop) : M xobs :=
  match o with
  | Plain o => x <- exec tr moved dflt o ;; ret (Plainly x)
  | Cmp c r q => b <- do_cmp c r q ;; ret (Bool b)
  | EraseValue r a => a <- resolve a ;; erase_value r a ;;; ret Done
  | CompactResize r n => compact_resize r n ;;; ret Done
  | Relinquish r k => v <- get r ;; p <- relinquish r ;; set k (mkV p (v_sz v) (v_cap v)) ;;; ret (Ptr p)
  | Attach r k => v <- get k ;; attach r (v_blk v) (v_sz v) (v_cap v) ;;; set k (mkV None 0 0) ;;; ret Done
  | Dispose k => dtor tr k ;;; ret Done
  end.
End Handover.
Arguments Plain {V}. Arguments Cmp {V}. Arguments EraseValue {V}. Arguments CompactResize {V}. Arguments Relinquish {V}. Arguments Attach {V}. Arguments Dispose {V}.
Arguments Plainly {V}. Arguments Bool {V}. Arguments Ptr {V}. Arguments Done {V}.
