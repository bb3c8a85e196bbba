(** Model of the control bytes and group scans of gtl's hash tables
    (include/gtl/phmap.hpp:745-1007). *)
From Coq Require Import NArith ZArith List Bool.
From Verif.Common Require Import Word.
Import ListNotations.
Open Scope Z_scope.

(** Control bytes, signed char (phmap.hpp:786-797). *)
Definition kEmpty : Z := -128.
Definition kDeleted : Z := -2.
Definition kSentinel : Z := -1.
(** phmap.hpp:858-861 *)
Definition IsEmpty (c : Z) : bool := c =? kEmpty.
Definition IsFull (c : Z) : bool := 0 <=? c.
Definition IsDeleted (c : Z) : bool := c =? kDeleted.
Definition IsEmptyOrDeleted (c : Z) : bool := c <? kSentinel.

(** H1, H2 (phmap.hpp:852-856), default configuration (GTL_NON_DETERMINISTIC not defined). *)
Definition H1 (h : N) : N := N.shiftr h 7.
Definition H2 (h : N) : Z := Z.of_N (N.land h 127).

(** ** BitMask (phmap.hpp:745-783) on the mask word [m]; [shift] is 0 or 3, [tbits] = bits of T.
    CountTrailingZeros / CountLeadingZeros are their mathematical definitions here; that the
    portable bits.hpp versions compute them is proved in Bits. *)
(* LowestBitSet / TrailingZeros: phmap.hpp:764, 770 *)
Definition bm_lowest (shift m : N) : nat := N.to_nat (N.shiftr (ctz m) shift).
(* LeadingZeros: phmap.hpp:772-776 *)
Definition bm_leading (tbits sigbits shift m : N) : nat :=
  let extra := (tbits - N.shiftl sigbits shift)%N in
  N.to_nat (N.shiftr (clz tbits (wshl tbits m extra)) shift).
(* iteration: begin = mask, ++ clears the lowest set bit, end = 0: phmap.hpp:758-768.
   The fuel is the number of bits of the word, an upper bound on the number of set bits. *)
Fixpoint bm_iter (fuel : nat) (shift m : N) : list nat :=
  match fuel with
  | O => []
  | S f =>
      match m with
      | 0%N => []
      | Npos p => bm_lowest shift (Npos p) :: bm_iter f shift (N.land (Npos p) (Npos p - 1))
      end
  end.

(** ** The interface of a group implementation used by the table. [list Z] is the window of
    [g_width] control bytes at the group's position. *)
Record group := {
  g_width : nat;
  (** positions yielded by iterating Match(h2) *)
  g_match : list Z -> Z -> list nat;
  (** MatchEmpty() as bool, its TrailingZeros() and LeadingZeros() *)
  g_any_empty : list Z -> bool;
  g_empty_tz : list Z -> nat;
  g_empty_lz : list Z -> nat;
  (** MatchEmptyOrDeleted(): None if the mask is zero, else LowestBitSet() *)
  g_first_nonfull : list Z -> option nat;
  (** CountLeadingEmptyOrDeleted() *)
  g_count_leading : list Z -> nat;
  (** ConvertSpecialToEmptyAndFullToDeleted *)
  g_convert : list Z -> list Z
}.

(** ** GroupSse2Impl (phmap.hpp:895-947): the intrinsics act byte-wise; [_mm_movemask_epi8]
    collects the top bit of each byte. *)
Fixpoint movemask (l : list bool) : N :=
  match l with
  | [] => 0%N
  | b :: r => (N.b2n b + 2 * movemask r)%N
  end.
(* Match: _mm_cmpeq_epi8 (902-905) *)
Definition sse_match_mask (l : list Z) (h : Z) : N := movemask (map (fun c => c =? h) l).
(* MatchEmpty, SSSE3 branch (909-912): _mm_sign_epi8(c,c) negates negative bytes (with -(-128) = -128),
   keeps positive ones; movemask takes its sign bit. *)
Definition mm_sign (c : Z) : Z :=
  if c <? 0 then (if c =? -128 then -128 else - c) else if c =? 0 then 0 else c.
Definition sse_empty_mask_ssse3 (l : list Z) : N := movemask (map (fun c => mm_sign c <? 0) l).
(* MatchEmpty, SSE2 branch (914) *)
Definition sse_empty_mask (l : list Z) : N := sse_match_mask l kEmpty.
(* MatchEmptyOrDeleted (920-923): kSentinel > c *)
Definition sse_nonfull_mask (l : list Z) : N := movemask (map (fun c => c <? kSentinel) l).
(* ConvertSpecialToEmptyAndFullToDeleted (933-944).
   SSSE3: _mm_shuffle_epi8(x126, ctrl) gives 0 when the control byte has its top bit set, else 126;
   SSE2: andnot(0 > c, 126).  Both are then or-ed with 0x80: -128 or (126|0x80) = 0xFE = -2. *)
Definition sse_convert_byte (c : Z) : Z :=
  let x := if c <? 0 then 0 else 126 in
  let r := Z.lor x 128 in r - 256.

Definition mask_opt (shift m : N) : option nat :=
  if (m =? 0)%N then None else Some (bm_lowest shift m).

Definition group_sse2 (ssse3 : bool) : group :=
  let em := if ssse3 then sse_empty_mask_ssse3 else sse_empty_mask in
  {| g_width := 16;
     g_match := fun l h => bm_iter 32 0 (sse_match_mask l h);
     g_any_empty := fun l => negb (em l =? 0)%N;
     g_empty_tz := fun l => bm_lowest 0 (em l);
     g_empty_lz := fun l => bm_leading 32 16 0 (em l);
     g_first_nonfull := fun l => mask_opt 0 (sse_nonfull_mask l);
     (* CountLeadingEmptyOrDeleted (927-930): TrailingZeros(movemask + 1) *)
     g_count_leading := fun l => N.to_nat (ctz (wadd 32 (sse_nonfull_mask l) 1));
     g_convert := map sse_convert_byte |}.

(** ** GroupPortableImpl (phmap.hpp:957-1007): 64-bit SWAR arithmetic. *)
Definition byte_of (c : Z) : N := Z.to_N (c mod 256).
Definition ctrl_of (b : N) : Z := let z := Z.of_N b in if z <? 128 then z else z - 256.
(* little_endian::Load64 / Store64 *)
Fixpoint load_le (l : list N) : N :=
  match l with
  | [] => 0%N
  | b :: r => (b + 256 * load_le r)%N
  end.
Fixpoint store_le (n : nat) (w : N) : list N :=
  match n with
  | O => []
  | S m => (w mod 256)%N :: store_le m (w / 256)%N
  end.
Definition msbs : N := 0x8080808080808080%N.
Definition lsbs : N := 0x0101010101010101%N.
Definition gaps : N := 0x00FEFEFEFEFEFEFE%N.
Definition p_load (l : list Z) : N := load_le (map byte_of l).
(* Match (963-981) *)
Definition p_match_word (w : N) (h : N) : N :=
  let x := N.lxor w (wmul 64 lsbs h) in
  N.land (N.land (wsub 64 x lsbs) (wnot 64 x)) msbs.
Definition p_match_mask (l : list Z) (h : Z) : N := p_match_word (p_load l) (Z.to_N h).
(* MatchEmpty (983-986) *)
Definition p_empty_mask (l : list Z) : N :=
  let w := p_load l in N.land (N.land w (wshl 64 (wnot 64 w) 6)) msbs.
(* MatchEmptyOrDeleted (988-991) *)
Definition p_nonfull_mask (l : list Z) : N :=
  let w := p_load l in N.land (N.land w (wshl 64 (wnot 64 w) 7)) msbs.
(* CountLeadingEmptyOrDeleted (993-996) *)
Definition p_count_leading (l : list Z) : nat :=
  let w := p_load l in
  N.to_nat (N.shiftr (ctz (wadd 64 (N.lor (N.land (wnot 64 w) (N.shiftr w 7)) gaps) 1) + 7) 3).
(* ConvertSpecialToEmptyAndFullToDeleted (998-1004) *)
Definition p_convert (l : list Z) : list Z :=
  let w := p_load l in
  let x := N.land w msbs in
  let r := N.land (wadd 64 (wnot 64 x) (N.shiftr x 7)) (wnot 64 lsbs) in
  map ctrl_of (store_le 8 r).

Definition group_portable : group :=
  {| g_width := 8;
     g_match := fun l h => bm_iter 64 3 (p_match_mask l h);
     g_any_empty := fun l => negb (p_empty_mask l =? 0)%N;
     g_empty_tz := fun l => bm_lowest 3 (p_empty_mask l);
     g_empty_lz := fun l => bm_leading 64 8 3 (p_empty_mask l);
     g_first_nonfull := fun l => mask_opt 3 (p_nonfull_mask l);
     g_count_leading := p_count_leading;
     g_convert := p_convert |}.
