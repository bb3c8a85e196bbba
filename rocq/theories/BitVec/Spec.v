(** What the bit vector operations mean, on plain lists of booleans (index 0 first).
    Nothing here mentions words, masks or loops. *)
From Coq Require Import List Arith NArith.
Import ListNotations.
Local Open Scope nat_scope.

(** the bits of the view [first,last), and the vector with those bits replaced *)
Definition sub (first last : nat) (l : list bool) : list bool := firstn (last - first) (skipn first l).
Definition splice (first last : nat) (new l : list bool) : list bool := firstn first l ++ new ++ skipn last l.

(** pointwise combination of two lists of the same length *)
Definition map2 (g : bool -> bool -> bool) (l1 l2 : list bool) : list bool := map (fun p => g (fst p) (snd p)) (combine l1 l2).
Definition b_sub (a b : bool) : bool := a && negb b.
Definition b_ornot (a b : bool) : bool := a || negb b.
Definition b_copy (a b : bool) : bool := b.

(** towards lower indices, zeroes come in at the top / towards higher indices *)
Definition shl_spec (n : nat) (l : list bool) : list bool := skipn n l ++ repeat false (Nat.min n (length l)).
Definition shr_spec (n : nat) (l : list bool) : list bool := repeat false (Nat.min n (length l)) ++ firstn (length l - n) l.

(** growing with [val], or truncating *)
Definition resize_spec (n : nat) (val : bool) (l : list bool) : list bool := firstn n l ++ repeat val (n - length l).

Definition count_spec (l : list bool) : nat := length (filter (fun b : bool => b) l).
(** the least index at which the list is true *)
Fixpoint find_spec (l : list bool) : option nat :=
  match l with
  | [] => None
  | true :: _ => Some 0
  | false :: r => match find_spec r with Some i => Some (S i) | None => None end
  end.
Definition any_spec (l : list bool) : bool := existsb (fun b => b) l.
Definition every_spec (l : list bool) : bool := forallb (fun b => b) l.
Definition contains_spec (l o : list bool) : bool := forallb (fun p => orb (fst p) (negb (snd p))) (combine l o).
Definition disjoint_spec (l o : list bool) : bool := forallb (fun p => negb (andb (fst p) (snd p))) (combine l o).

(** the number whose binary digits, least significant first, are the list *)
Fixpoint value (l : list bool) : N :=
  match l with [] => 0 | b :: r => (if b then 1 else 0) + 2 * value r end%N.
(** the binary digits of a number, least significant first *)
Definition digits (n : nat) (v : N) : list bool := map (fun i => N.testbit v (N.of_nat i)) (seq 0 n).
(** the last [k] hexadecimal digits of a number, as ASCII codes, most significant first *)
Definition hex_char (d : N) : N := nth (N.to_nat d) [48;49;50;51;52;53;54;55;56;57;97;98;99;100;101;102]%N 0%N.
Fixpoint hex (k : nat) (v : N) : list N := match k with O => [] | S k' => hex k' (v / 16)%N ++ [hex_char (v mod 16)%N] end.
(** the text form: "<empty>", or "0x" and two digits for each byte *)
Definition string_spec (l : list bool) : list N :=
  match l with
  | [] => [60; 101; 109; 112; 116; 121; 62]%N
  | _ => (48 :: 120 :: hex (2 * ((length l + 7) / 8)) (value l))%N
  end.
