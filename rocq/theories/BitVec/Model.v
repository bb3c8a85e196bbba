(** Model of gtl::bit_vector and gtl::bit_view (include/gtl/bit_vector.hpp).
    64-bit words are [N] with explicit wrap-around; the storage is the list of its words and its size in bits.
    Simplifications: bit indices, sizes and slot numbers are natural numbers (a vector of 2^64 - 63 bits or
    more cannot exist, so index arithmetic never wraps); asserts are not executed (release build), every
    out-of-range slot access and every shift by a negative amount is [UB]. *)
From stdpp Require Import list.
From Coq Require Import Arith NArith ZArith.
From Verif.Common Require Import Res Word.
Local Open Scope nat_scope.
Local Open Scope res_scope.

Definition stride : nat := 64.                                   (* bit_vector.hpp:28 *)
Definition ones : N := N.ones 64.                                (* :29 *)
Definition bmod (n : nat) : nat := n mod 64.                     (* :31, n & 0x3f *)
Definition slot (n : nat) : nat := n / 64.                       (* :32, n >> 6 *)
Definition slot_cnt (n : nat) : nat := slot (n + 63).            (* :33 *)
Definition bitmask (n : nat) : N := wshl 64 1 (N.of_nat (bmod n)).   (* :36 *)
Definition lowmask (n : nat) : N := wsub 64 (bitmask n) 1.           (* :39 *)
Definition himask (n : nat) : N := wnot 64 (lowmask n).              (* :42 *)

(* :44-49 *)
Definition popcount64 (y0 : N) : N :=
  let y := wsub 64 y0 (N.land (wshr y0 1) 0x5555555555555555) in
  let y := wadd 64 (N.land y 0x3333333333333333) (N.land (wshr y 2) 0x3333333333333333) in
  wshr (wmul 64 (N.land (wadd 64 y (wshr y 4)) 0x0f0f0f0f0f0f0f0f) 0x0101010101010101) 56.

(* :52-60 *)
Definition index64 : list N :=
  [ 0;  47; 1;  56; 48; 27; 2;  60; 57; 49; 41; 37; 28; 16; 3;  61;
    54; 58; 35; 52; 50; 42; 21; 44; 38; 32; 29; 23; 17; 11; 4;  62;
    46; 55; 26; 59; 40; 36; 15; 53; 34; 51; 20; 43; 31; 22; 10; 45;
    25; 39; 14; 33; 19; 30; 9;  24; 13; 18; 8;  12; 7;  6;  5;  63 ]%N.
Definition debruijn64 : N := 0x03f79d71b4cb0a89%N.
Definition countr_zero (bb : N) : res N :=
  of_option (index64 !! N.to_nat (wshr (wmul 64 (N.lxor bb (wsub 64 bb 1)) debruijn64) 58)).

(** storage (75-368) *)
Record storage := mkS { s_slots : list N; s_sz : nat }.
Definition rd (sl : list N) (i : nat) : res N := of_option (sl !! i).
Definition wr (sl : list N) (i : nat) (x : N) : res (list N) :=
  if i <? length sl then Ok (<[i := x]> sl) else UB.

(* std::vector<uint64_t>::resize(n, v) *)
Definition vresize (l : list N) (n : nat) (v : N) : list N := take n l ++ replicate (n - length l) v.
(* resize, 82-89 *)
Definition resize (st : storage) (num_bits : nat) (val : bool) : res storage :=
  let num_slots := slot_cnt num_bits in
  let sl := vresize (s_slots st) num_slots (if val then ones else 0%N) in
  let* sl' := (if bmod num_bits =? 0 then Ok sl
               else let* d := rd sl (num_slots - 1) in
                    wr sl (num_slots - 1) (N.land d (wnot 64 (himask num_bits)))) in
  Ok (mkS sl' num_bits).
Definition make (num_bits : nat) (val : bool) : res storage := resize (mkS [] 0) num_bits val.  (* 78 *)

(** bit_sequence (101-159): the mutable part is the cursor and the number of initial bits still due *)
Record seqst := mkQ { q_cur : nat; q_init : nat }.
Record seqc := mkC { c_last : nat; c_shift : nat }.
Definition seq_start (first as_first : nat) : seqst := mkQ first (bmod (stride - bmod as_first)).   (* 103-107 *)
Definition seq_const (last as_first : nat) : seqc := mkC last (bmod as_first).
(* get_next_bits, 130-151 *)
Definition get_next_bits (sl : list N) (last cur lg0 : nat) : res (N * nat) :=
  let lg := Nat.min lg0 (last - cur) in
  let slot_idx := slot cur in
  let offset := bmod cur in
  let* v :=
    (if (lg =? stride) && (offset =? 0) then rd sl slot_idx
     else if lg <=? stride - offset then
       let l := cur + lg in
       let* s := rd sl slot_idx in
       Ok (wshr (N.land s (if bmod l =? 0 then ones else lowmask l)) (N.of_nat offset))
     else
       let* s := rd sl slot_idx in
       let lg_left := lg - (stride - offset) in
       let* s1 := rd sl (slot_idx + 1) in
       Ok (N.lor (wshr s (N.of_nat offset)) (wshl 64 (N.land s1 (lowmask lg_left)) (N.of_nat (stride - offset))))) in
  Ok (v, cur + lg).
(* operator(), 118-126 *)
Definition seq_next (sl : list N) (c : seqc) (q : seqst) : res (N * seqst) :=
  if q_init q =? 0 then
    let* (v, cur) := get_next_bits sl (c_last c) (q_cur q) stride in Ok (v, mkQ cur 0)
  else
    let* (v, cur) := get_next_bits sl (c_last c) (q_cur q) (q_init q) in
    Ok (wshl 64 v (N.of_nat (c_shift c)), mkQ cur 0).

(* update_bit(idx, f), 162-170 *)
Definition update_bit_f (st : storage) (idx : nat) (f : N -> N) : res storage :=
  let* s := rd (s_slots st) (slot idx) in
  let fs := f s in
  let m := bitmask idx in
  let* sl := wr (s_slots st) (slot idx) (N.lor (N.land s (wnot 64 m)) (N.land fs m)) in
  Ok (mkS sl (s_sz st)).
(* update_bit<val>(idx), 173-186 *)
Definition update_bit (st : storage) (idx : nat) (val : bool) : res storage :=
  let* s := rd (s_slots st) (slot idx) in
  let m := bitmask idx in
  let old := negb (N.land s m =? 0)%N in
  if val then
    (if old then Ok st else let* sl := wr (s_slots st) (slot idx) (N.lor s m) in Ok (mkS sl (s_sz st)))
  else
    (if old then let* sl := wr (s_slots st) (slot idx) (N.land s (wnot 64 m)) in Ok (mkS sl (s_sz st)) else Ok st).

(** visit (201-312).  The callback is a state machine: it sees its own state, the words of the storage as they
    are at the moment of the call (it may read them through a bit_sequence), the word and the shift. *)
Section Visit.
Context {X : Type} (f : X -> list N -> N -> Z -> res (N * X)) (view oor : bool).

Definition oor_bits (s m : N) : N := if oor then N.lor s m else N.land s (wnot 64 m).   (* 188-194 *)
(* one partially covered slot, e.g. 211-222; [stop] is the early return of a view visit *)
Definition visit_part (x : X) (sl : list N) (i : nat) (m : N) (shift : Z) : res (X * list N * bool) :=
  let* s := rd sl i in
  let* (fs, x') := f x sl (oor_bits s m) shift in
  if view then Ok (x', sl, negb (fs =? 0)%N)
  else if (s =? fs)%N then Ok (x', sl, false)
  else let* sl' := wr sl i (N.lor (N.land s m) (N.land fs (wnot 64 m))) in Ok (x', sl', false).
(* one full slot, e.g. 242-250 *)
Definition visit_full (x : X) (sl : list N) (i : nat) : res (X * list N * bool) :=
  let* s := rd sl i in
  let* (fs, x') := f x sl s 0%Z in
  if view then Ok (x', sl, negb (fs =? 0)%N)
  else if (s =? fs)%N then Ok (x', sl, false)
  else let* sl' := wr sl i fs in Ok (x', sl', false).
(* for (slot = i; n times; ++slot) *)
Fixpoint visit_up (n : nat) (x : X) (sl : list N) (i : nat) : res (X * list N * bool) :=
  match n with
  | O => Ok (x, sl, false)
  | S n' =>
      let* (x1, sl1, stop) := visit_full x sl i in
      if stop then Ok (x1, sl1, true) else visit_up n' x1 sl1 (S i)
  end.
(* for (slot = i; n times; --slot) *)
Fixpoint visit_down (n : nat) (x : X) (sl : list N) (i : nat) : res (X * list N * bool) :=
  match n with
  | O => Ok (x, sl, false)
  | S n' =>
      let* (x1, sl1, stop) := visit_full x sl i in
      if stop then Ok (x1, sl1, true) else visit_down n' x1 sl1 (i - 1)
  end.

Definition visit (backward : bool) (first last : nat) (x : X) (sl : list N) : res (X * list N * bool) :=
  if last <=? first then Ok (x, sl, false)                                              (* 203-204 *)
  else
    let first_slot := slot first in
    let last_slot := slot last in
    let shift := bmod first in
    if first_slot =? last_slot then                                                     (* 209-222 *)
      visit_part x sl first_slot (wnot 64 (N.lxor (lowmask first) (lowmask last))) (Z.of_nat shift)
    else if negb backward then                                                          (* 223-268 *)
      let* (x1, sl1, stop1) := (if shift =? 0 then Ok (x, sl, false)
                                else visit_part x sl first_slot (lowmask first) (Z.of_nat shift)) in
      if stop1 then Ok (x1, sl1, true)
      else
        let fs1 := if shift =? 0 then first_slot else S first_slot in
        let* (x2, sl2, stop2) := visit_up (last_slot - fs1) x1 sl1 fs1 in
        if stop2 then Ok (x2, sl2, true)
        else if bmod last =? 0 then Ok (x2, sl2, false)
        else visit_part x2 sl2 last_slot (himask last) (- Z.of_nat shift)%Z
    else                                                                                (* 269-310 *)
      let* (x1, sl1, stop1) := (if bmod last =? 0 then Ok (x, sl, false)
                                else visit_part x sl last_slot (himask last) (- Z.of_nat shift)%Z) in
      if stop1 then Ok (x1, sl1, true)
      else
        let ls1 := last_slot - 1 in
        let* (x2, sl2, stop2) := visit_down (ls1 - first_slot) x1 sl1 ls1 in
        if stop2 then Ok (x2, sl2, true)
        else visit_part x2 sl2 first_slot (lowmask first) (Z.of_nat shift).

(* visit_all, 315-353, the branch with a callback (the shift is not passed) *)
Definition visit_all (x : X) (st : storage) : res (X * list N) :=
  let num_slots := slot_cnt (s_sz st) in
  if num_slots =? 0 then Ok (x, s_slots st)
  else
    let* (x1, sl1, stop) := visit_up (num_slots - 1) x (s_slots st) 0 in
    if stop then Ok (x1, sl1)
    else
      let m := if bmod (s_sz st) =? 0 then 0%N else himask (s_sz st) in
      let* s := rd sl1 (num_slots - 1) in
      let* (fs, x2) := f x1 sl1 (oor_bits s m) 0%Z in
      if view then Ok (x2, sl1)
      else if (s =? fs)%N then Ok (x2, sl1)
      else let* sl2 := wr sl1 (num_slots - 1) (N.land fs (wnot 64 m)) in Ok (x2, sl2).
End Visit.
(* visit_all<false_> / <true_>, 318-330: memset of all words, then mask the last *)
Definition fill_all (val : bool) (st : storage) : res storage :=
  let num_slots := slot_cnt (s_sz st) in
  if length (s_slots st) <? num_slots then UB
  else
    let sl := replicate num_slots (if val then ones else 0%N) ++ drop num_slots (s_slots st) in
    if val && negb (bmod (s_sz st) =? 0) then
      let* d := rd sl (num_slots - 1) in
      let* sl' := wr sl (num_slots - 1) (N.land d (wnot 64 (himask (s_sz st)))) in Ok (mkS sl' (s_sz st))
    else Ok (mkS sl (s_sz st)).

(** ** _view (377-756) over [first,last) of a vector *)
Notation cb X := (X -> list N -> N -> Z -> res (N * X)).
Definition mutate {X} (f : cb X) (backward : bool) (first last : nat) (x : X) (st : storage) : res storage :=
  let* (_, sl, _) := visit f false false backward first last x (s_slots st) in Ok (mkS sl (s_sz st)).
Definition inspect {X} (f : cb X) (oor : bool) (first last : nat) (x : X) (st : storage) : res X :=
  let* (x', _, _) := visit f true oor false first last x (s_slots st) in Ok x'.

Definition view_set (first last : nat) : storage -> res storage :=             (* 415-418 *)
  mutate (fun (x : unit) _ _ _ => Ok (ones, x)) false first last tt.
Definition view_reset (first last : nat) : storage -> res storage :=           (* 420-423 *)
  mutate (fun (x : unit) _ _ _ => Ok (0%N, x)) false first last tt.
Definition view_flip (first last : nat) : storage -> res storage :=            (* 425-428 *)
  mutate (fun (x : unit) _ v _ => Ok (wnot 64 v, x)) false first last tt.

(** The other operand: a view of another vector, or of the vector itself. *)
Inductive operand := Same | Other (st : storage).
Definition osl (o : operand) (sl : list N) : list N := match o with Same => sl | Other st => s_slots st end.

(* |= &= ^= -= or_not, 441-465: [g] combines the word of this view with the word of the other *)
Definition bin_assign (g : N -> N -> N) (first last : nat) (o : operand) (ofirst olast : nat) : storage -> res storage :=
  mutate (fun q sl a _ => let* (b, q') := seq_next (osl o sl) (seq_const olast first) q in Ok (g a b, q'))
         false first last (seq_start ofirst first).
Definition g_or : N -> N -> N := N.lor.                                        (* 443 *)
Definition g_and : N -> N -> N := N.land.                                      (* 448 *)
Definition g_xor : N -> N -> N := N.lxor.                                      (* 453 *)
Definition g_sub (a b : N) : N := N.land a (wnot 64 b).                        (* 458 *)
Definition g_ornot (a b : N) : N := N.lor a (wnot 64 b).                       (* 463 *)
Definition g_copy (a b : N) : N := b.                                          (* 555 *)

(* operator<<=, 470-497: bits move towards lower indices *)
Definition shl_step (cnt first last : nat) : storage -> res storage :=
  if cnt =? stride then
    mutate (fun carry _ v _ => Ok (carry, v)) true first last 0%N
  else
    mutate (fun carry _ v _ => Ok (N.lor (wshr v (N.of_nat cnt)) carry, wshl 64 v (N.of_nat (stride - cnt)))) true first last 0%N.
(* operator>>=, 499-526 *)
Definition shr_step (cnt first last : nat) : storage -> res storage :=
  if cnt =? stride then
    mutate (fun carry _ v _ => Ok (carry, v)) false first last 0%N
  else
    mutate (fun carry _ v _ => Ok (N.lor (wshl 64 v (N.of_nat cnt)) carry, wshr v (N.of_nat (stride - cnt)))) false first last 0%N.
(* a call with cnt <= stride *)
Definition shift_small (step : nat -> nat -> nat -> storage -> res storage) (first last cnt : nat) (st : storage) : res storage :=
  if last - first <=? cnt then view_reset first last st
  else if cnt =? 0 then Ok st
  else step cnt first last st.
(* while (cnt) { shift = min(cnt, stride); *this <<= shift; cnt -= shift; } *)
Fixpoint shift_loop (step : nat -> nat -> nat -> storage -> res storage) (fuel first last cnt : nat) (st : storage) : res storage :=
  if cnt =? 0 then Ok st
  else match fuel with
       | O => Loop
       | S n => let s := Nat.min cnt stride in
                let* st' := shift_small step first last s st in shift_loop step n first last (cnt - s) st'
       end.
Definition view_shift (step : nat -> nat -> nat -> storage -> res storage) (first last cnt : nat) (st : storage) : res storage :=
  if last - first <=? cnt then view_reset first last st
  else if cnt =? 0 then Ok st
  else if cnt <=? stride then step cnt first last st
  else shift_loop step (S cnt) first last cnt st.
Definition view_shl := view_shift shl_step.
Definition view_shr := view_shift shr_step.

(* operator=(uint64_t), 530-536: shl >= 0 ? val << shl : val >> shl (shift by a negative amount: UB) *)
Definition view_store (val : N) (first last : nat) : storage -> res storage :=
  mutate (fun (x : unit) _ _ shl => if (0 <=? shl)%Z then Ok (wshl 64 val (Z.to_N shl), x) else UB) false first last tt.
(* operator=(initializer_list), 538-548 *)
Fixpoint view_store_list (vals : list N) (start last : nat) (st : storage) : res storage :=
  match vals with
  | [] => Ok st
  | v :: vs =>
      if start <=? last then
        let l := Nat.min last (start + stride) in
        let* st' := view_store v start l st in view_store_list vs l last st'
      else Ok st
  end.
(* operator=(const _view&), 550-561; the last branch copies the other way round *)
Definition view_assign (first last : nat) (o : operand) (ofirst olast : nat) (st : storage) : res storage :=
  let different := match o with Same => false | Other _ => true end in
  if different || (first <? ofirst) || (first <=? olast) then bin_assign g_copy first last o ofirst olast st
  else if ofirst <? first then bin_assign g_copy ofirst olast Same first last st
  else Ok st.

(* operator==, 583-596 *)
Definition view_eq (st : storage) (first last : nat) (ost : storage) (ofirst olast : nat) : res bool :=
  if negb (last - first =? olast - ofirst) then Ok false
  else
    let* (_, r) := inspect (fun (x : seqst * bool) _ v _ =>
        let* (b, q') := seq_next (s_slots ost) (seq_const olast first) (fst x) in
        let r := if (v =? b)%N then snd x else false in
        Ok ((if r then 0 else 1)%N, (q', r))) false first last (seq_start ofirst first, true) st in
    Ok r.
(* any, 600-608 *)
Definition view_any (st : storage) (first last : nat) : res bool :=
  inspect (fun (r : bool) _ v _ => let r' := if (v =? 0)%N then r else true in Ok ((if r' then 1 else 0)%N, r')) false first last false st.
(* every, 610-618 *)
Definition view_every (st : storage) (first last : nat) : res bool :=
  inspect (fun (r : bool) _ v _ => let r' := if (v =? ones)%N then r else false in Ok ((if r' then 0 else 1)%N, r')) true first last true st.
(* contains, 624-638 *)
Definition view_contains (st : storage) (first last : nat) (ost : storage) (ofirst olast : nat) : res bool :=
  if last - first <? olast - ofirst then Ok false
  else
    let* (_, r) := inspect (fun (x : seqst * bool) _ v _ =>
        let* (b, q') := seq_next (s_slots ost) (seq_const olast first) (fst x) in
        let r := if (N.lor v b =? v)%N then snd x else false in
        Ok ((if r then 0 else 1)%N, (q', r))) false first last (seq_start ofirst first, true) st in
    Ok r.
(* disjoint, 640-661 *)
Definition view_disjoint (st : storage) (first last : nat) (ost : storage) (ofirst olast : nat) : res bool :=
  let go l ol :=
    (let* (_, r) := inspect (fun (x : seqst * bool) _ v _ =>
        let* (b, q') := seq_next (s_slots ost) (seq_const ol first) (fst x) in
        let r := if (N.land v b =? 0)%N then snd x else false in
        Ok ((if r then 0 else 1)%N, (q', r))) false first l (seq_start ofirst first, true) st in
     Ok r) in
  if last - first <=? olast - ofirst then go last (ofirst + (last - first)) else go (first + (olast - ofirst)) olast.
(* count, 670-677 *)
Definition view_count (st : storage) (first last : nat) : res N :=
  inspect (fun c _ v _ => Ok (0%N, (c + popcount64 v)%N)) false first last 0%N st.
(* find_first, 681-695; [None] is npos.  idx is a size_t; [countr_zero(v) - shift] is never negative here *)
Definition view_find_first (st : storage) (first last : nat) : res (option nat) :=
  let* idx := inspect (fun idx _ v shift =>
      if (v =? 0)%N then Ok (0%N, (idx + (64 - shift))%Z)
      else let* c := countr_zero v in Ok (1%N, (idx + (Z.of_N c - shift))%Z)) false first last (Z.of_nat first) st in
  Ok (if (idx <? Z.of_nat last)%Z then Some (Z.to_nat idx - first) else None).
(* find_next, 697-702 *)
Definition view_find_next (st : storage) (first last start : nat) : res (option nat) :=
  if last <=? first + start then Ok None
  else let* r := view_find_first st (first + start) last in
       Ok (match r with None => None | Some i => Some (i + start) end).

(* append_to_string, 714-736: the digits written, as characters, most significant first *)
Definition to_hex (b : N) : N := if (9 <? b)%N then (97 + b - 10)%N else (48 + b)%N.
(* the inner loop: [n] bytes still to be written at most 8; the result is built from its end *)
Fixpoint hex_word (k n : nat) (v : N) (acc : list N) : nat * list N :=
  match k with
  | O => (n, acc)
  | S k' =>
      match n with
      | O => (n, acc)
      | S n' => let b := (v mod 256)%N in
                hex_word k' n' (wshr v 8) (to_hex (wshr b 4) :: to_hex (N.land b 15) :: acc)
      end
  end.
Fixpoint hex_loop (fuel : nat) (sl : list N) (c : seqc) (n : nat) (q : seqst) (acc : list N) : res (list N) :=
  if n =? 0 then Ok acc
  else match fuel with
       | O => Loop
       | S fl => let* (v, q') := seq_next sl c q in
                 let '(n', acc') := hex_word 8 n v acc in hex_loop fl sl c n' q' acc'
       end.
Definition view_hex (st : storage) (first last : nat) : res (list N) :=
  let num_bytes := (last - first + 7) / 8 in
  hex_loop (S num_bytes) (s_slots st) (seq_const last 0) num_bytes (seq_start first 0) [].
(* operator std::string, 740-750 *)
Definition view_string (st : storage) (first last : nat) : res (list N) :=
  if last - first =? 0 then Ok [60; 101; 109; 112; 116; 121; 62]%N     (* "<empty>" *)
  else let* h := view_hex st first last in Ok (48 :: 120 :: h)%N.      (* "0x" *)

(** ** vec (762-1033): [view()] is the view [0, size) *)
Definition vec_get (st : storage) (idx : nat) : res bool :=                  (* 795 *)
  let* s := rd (s_slots st) (slot idx) in Ok (negb (N.land s (bitmask idx) =? 0)%N).
Definition vec_set (st : storage) (idx : nat) (val : bool) := update_bit st idx val.       (* 782-789, 798-804 *)
Definition vec_flip (st : storage) (idx : nat) := update_bit_f st idx (wnot 64).           (* 790-793 *)
Definition vec_set_all := fill_all true.                                     (* 808-811 *)
Definition vec_reset_all := fill_all false.                                  (* 812-815 *)
Definition vec_flip_all (st : storage) : res storage :=                      (* 816-819 *)
  let* (_, sl) := visit_all (fun (x : unit) _ v _ => Ok (wnot 64 v, x)) false false tt st in Ok (mkS sl (s_sz st)).
Definition vec_bin (g : N -> N -> N) (o : operand) (osz : nat) (st : storage) : res storage :=  (* 866-885 *)
  bin_assign g 0 (s_sz st) o 0 osz st.
Definition vec_shl (cnt : nat) (st : storage) := view_shl 0 (s_sz st) cnt st.   (* 899-902 *)
Definition vec_shr (cnt : nat) (st : storage) := view_shr 0 (s_sz st) cnt st.   (* 903-906 *)
(* operator=(initializer_list), 889-895 *)
Fixpoint vec_store_list (vals : list N) (i : nat) (st : storage) : res storage :=
  match vals with
  | [] => Ok st
  | v :: vs => let* st' := view_store v (i * 64) (Nat.min ((i + 1) * 64) (s_sz st)) st in vec_store_list vs (S i) st'
  end.
Definition vec_of_list (vals : list N) : res storage := let* st := make (length vals * 64) false in vec_store_list vals 0 st. (* 774-777 *)
Definition vec_any (st : storage) : res bool :=                              (* 910-918 *)
  let* (r, _) := visit_all (fun (r : bool) _ v _ => let r' := if (v =? 0)%N then r else true in Ok ((if r' then 1 else 0)%N, r')) true false false st in Ok r.
Definition vec_every (st : storage) : res bool :=                            (* 920-928 *)
  let* (r, _) := visit_all (fun (r : bool) _ v _ => let r' := if (v =? ones)%N then r else false in Ok ((if r' then 0 else 1)%N, r')) true true true st in Ok r.
Definition vec_eq (st ost : storage) : res bool := view_eq st 0 (s_sz st) ost 0 (s_sz ost).               (* 935-938 *)
Definition vec_contains (st ost : storage) : res bool := view_contains st 0 (s_sz st) ost 0 (s_sz ost).   (* 945-948 *)
Definition vec_disjoint (st ost : storage) : res bool := view_disjoint st 0 (s_sz st) ost 0 (s_sz ost).   (* 950-953 *)
Definition vec_count (st : storage) : res N :=                               (* 962-970 *)
  let* (c, _) := visit_all (fun c _ v _ => Ok (0%N, if (v =? 0)%N then c else (c + popcount64 v)%N)) true false 0%N st in Ok c.
Definition vec_find_first (st : storage) := view_find_first st 0 (s_sz st).               (* 988 *)
Definition vec_find_next (st : storage) (pos : nat) := view_find_next st 0 (s_sz st) pos. (* 989 *)
(* to_string, 993-999: characters '0' and '1', highest index first *)
Fixpoint to_string_loop (n i sz : nat) (st : storage) : res (list N) :=
  match n with
  | O => Ok []
  | S n' => let* b := vec_get st (sz - i - 1) in
            let* r := to_string_loop n' (S i) sz st in Ok ((if (b : bool) then 49 else 48)%N :: r)
  end.
Definition vec_to_string (st : storage) : res (list N) := to_string_loop (s_sz st) 0 (s_sz st) st.
Definition vec_to_ullong (st : storage) : res N := if s_sz st =? 0 then Ok 0%N else rd (s_slots st) 0.   (* 1001 *)
(* std::hash<bit_vector>, 1048-1060, 64-bit size_t *)
Fixpoint hash_loop (n i : nat) (sl : list N) (h : N) : res N :=
  match n with
  | O => Ok h
  | S n' => let* b := rd sl i in
            hash_loop n' (S i) sl (N.lxor h (wadd 64 (wadd 64 (wadd 64 b 0xc6a4a7935bd1e995) (wshl 64 h 6)) (wshr h 2)))
  end.
Definition vec_hash (st : storage) : res N := hash_loop (slot_cnt (s_sz st)) 0 (s_slots st) (N.of_nat (s_sz st)).
