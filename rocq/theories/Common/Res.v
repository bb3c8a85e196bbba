(** Outcome of an operation of the C++ code.
    [Ok]       : normal completion.
    [UB]       : the code executed undefined behaviour (out-of-range access, read of an
                 unconstructed object, ...).  Never a totalised default.
    [Loop]     : the loop fuel of the model was exhausted (theorems exclude this outcome, or show
                 it for every fuel).
    [BadAlloc] : the allocator threw std::bad_alloc.
    [Throw]    : a user supplied function (constructor, hash, predicate...) threw. *)
Inductive res (A : Type) : Type :=
| Ok (a : A)
| UB
| Loop
| BadAlloc
| Throw.
Arguments Ok {A} a.
Arguments UB {A}.
Arguments Loop {A}.
Arguments BadAlloc {A}.
Arguments Throw {A}.

Definition rbind {A B} (r : res A) (f : A -> res B) : res B :=
  match r with
  | Ok a => f a
  | UB => UB
  | Loop => Loop
  | BadAlloc => BadAlloc
  | Throw => Throw
  end.

Declare Scope res_scope.
Delimit Scope res_scope with res.
Notation "'let*' x ':=' r 'in' k" := (rbind r (fun x => k))
  (at level 200, x pattern, r at level 100, k at level 200, right associativity) : res_scope.

(** [of_option o]: an access that is UB when out of range. *)
Definition of_option {A} (o : option A) : res A :=
  match o with Some a => Ok a | None => UB end.

Definition rmap {A B} (f : A -> B) (r : res A) : res B := rbind r (fun a => Ok (f a)).
