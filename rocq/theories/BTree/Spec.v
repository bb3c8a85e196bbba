(** What the B-tree containers promise: sorted lists.  Independent of the model of the code. *)
From stdpp Require Import list.
From Coq Require Import Arith Sorting.Sorted.
Local Open Scope nat_scope.

(** strict weak orders, the requirement on the comparator *)
Record swo {K} (lt : K -> K -> bool) : Prop := {
  swo_irrefl a : lt a a = false;
  swo_trans a b c : lt a b = true -> lt b c = true -> lt a c = true;
  swo_neg a b c : lt a b = true -> lt a c = true \/ lt c b = true;   (* incomparability is transitive *)
}.
Section Spec.
Context {V K : Type} (key : V -> K) (lt : K -> K -> bool).
Definition equiv (a b : K) : bool := negb (lt a b) && negb (lt b a).
(** a set has its keys strictly ascending, a multiset ascending *)
Definition rel (multi : bool) (a b : K) : bool := if multi then negb (lt b a) else lt a b.
Definition sorted (multi : bool) (l : list V) : Prop := StronglySorted (fun x y => rel multi (key x) (key y) = true) l.
(** the number of values less than k, and not greater than k *)
Definition lower (k : K) (l : list V) : nat := length (List.filter (fun v => lt (key v) k) l).
Definition upper (k : K) (l : list V) : nat := length (List.filter (fun v => negb (lt k (key v))) l).
Definition has (k : K) (l : list V) : bool := existsb (fun v => equiv (key v) k) l.
Definition insert_at (i : nat) (v : V) (l : list V) : list V := take i l ++ v :: drop i l.
Definition remove_at (i n : nat) (l : list V) : list V := take i l ++ drop (i + n) l.
(** what a function object with a state keeps, when it is asked about every value once, in order *)
Fixpoint kept {S} (pred : S -> V -> S * bool) (s : S) (l : list V) : S * list V :=
  match l with
  | [] => (s, [])
  | v :: l' => let '(s', yes) := pred s v in let '(s'', r) := kept pred s' l' in (s'', if yes then r else v :: r)
  end.
End Spec.
