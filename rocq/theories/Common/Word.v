(** Fixed-width unsigned machine words as [N] with explicit wrap-around. *)
From Coq Require Import NArith.
Open Scope N_scope.

Definition wmod (bits x : N) : N := x mod 2 ^ bits.
Definition wadd (bits a b : N) : N := (a + b) mod 2 ^ bits.
Definition wsub (bits a b : N) : N := (a + 2 ^ bits - b mod 2 ^ bits) mod 2 ^ bits.
Definition wmul (bits a b : N) : N := (a * b) mod 2 ^ bits.
Definition wnot (bits a : N) : N := 2 ^ bits - 1 - a mod 2 ^ bits.
Definition wshl (bits a n : N) : N := (N.shiftl a n) mod 2 ^ bits.
Definition wshr (a n : N) : N := N.shiftr a n.

(** Number of trailing zero bits (mathematical definition, unspecified at 0: returns 0). *)
Fixpoint ctz_pos (p : positive) : N :=
  match p with
  | xO q => N.succ (ctz_pos q)
  | _ => 0
  end.
Definition ctz (n : N) : N := match n with 0 => 0 | Npos p => ctz_pos p end.
(** Number of leading zero bits of a [bits]-wide word. *)
Definition clz (bits n : N) : N := bits - N.size n.
