(** Model of the portable bit tricks of bits.hpp and of the hash mixing of phmap_utils.hpp.

    A machine word of width w is an [N] below 2^w; every operation that can overflow is taken
    modulo 2^w explicitly.  Compiler intrinsics (__builtin_clz, __builtin_bswap64, _BitScanReverse,
    ...) are outside the model: what is modelled is the code of gtl that replaces them. *)
From Coq Require Import NArith ZArith List Lia Bool.
From Verif.Common Require Import Res Word.
Import ListNotations.
Open Scope N_scope.
Open Scope res_scope.

(** The string literal "\4\3\2\2\1\1\1\1\0\0\0\0\0\0\0": 15 characters and the terminating NUL
    (bits.hpp:269, 316); an index past the NUL is UB. *)
Definition clz_table : list N := [4; 3; 2; 2; 1; 1; 1; 1; 0; 0; 0; 0; 0; 0; 0; 0].
Definition clz_lookup (n : N) : res N := of_option (nth_error clz_table (N.to_nat n)).

(** One [if (n >> k) zeroes -= k, n >>= k;] *)
Definition clz_step (k : N) (s : N * N) : N * N :=
  let '(zeroes, n) := s in
  if N.eqb (wshr n k) 0 then (zeroes, n) else (wsub 32 zeroes k, wshr n k).

(* bits.hpp:259-270 CountLeadingZeros64Slow *)
Definition clz64_slow (n : N) : res N :=
  let '(zeroes, n) := clz_step 4 (clz_step 8 (clz_step 16 (clz_step 32 (60, n)))) in
  let* c := clz_lookup n in Ok (wadd 32 c zeroes).

(* bits.hpp:308-317 CountLeadingZeros32Slow (its parameter is a uint64_t) *)
Definition clz32_slow (n : N) : res N :=
  let '(zeroes, n) := clz_step 4 (clz_step 8 (clz_step 16 (28, n))) in
  let* c := clz_lookup n in Ok (wadd 32 c zeroes).

(** One [if (n & mask) c -= k;] *)
Definition ctz_step (n : N) (mask k c : N) : N :=
  if N.eqb (N.land n mask) 0 then c else wsub 32 c k.

(* bits.hpp:343-359 CountTrailingZerosNonZero64Slow *)
Definition ctz64_slow (n : N) : N :=
  let n := N.land n (wadd 64 (wnot 64 n) 1) in
  ctz_step n 0x5555555555555555 1
    (ctz_step n 0x3333333333333333 2
      (ctz_step n 0x0F0F0F0F0F0F0F0F 4
        (ctz_step n 0x00FF00FF00FF00FF 8
          (ctz_step n 0x0000FFFF0000FFFF 16
            (ctz_step n 0x00000000FFFFFFFF 32 63))))).

(* bits.hpp:383-397 CountTrailingZerosNonZero32Slow *)
Definition ctz32_slow (n : N) : N :=
  let n := N.land n (wadd 32 (wnot 32 n) 1) in
  ctz_step n 0x55555555 1
    (ctz_step n 0x33333333 2
      (ctz_step n 0x0F0F0F0F 4
        (ctz_step n 0x00FF00FF 8
          (ctz_step n 0x0000FFFF 16 31)))).

(* bits.hpp:180-184 umul128: (low, high) *)
Definition umul128 (a b : N) : N * N := (wmod 64 (a * b), wshr (a * b) 64).

(* bits.hpp:446-464 gbswap_64, generic fallback *)
Definition gbswap_64 (x : N) : N :=
  N.lor (N.lor (N.lor (N.lor (N.lor (N.lor (N.lor
    (wshl 64 (N.land x 0xFF) 56)
    (wshl 64 (N.land x 0xFF00) 40))
    (wshl 64 (N.land x 0xFF0000) 24))
    (wshl 64 (N.land x 0xFF000000) 8))
    (wshr (N.land x 0xFF00000000) 8))
    (wshr (N.land x 0xFF0000000000) 24))
    (wshr (N.land x 0xFF000000000000) 40))
    (wshr (N.land x 0xFF00000000000000) 56).
(* bits.hpp:466-473 gbswap_32 *)
Definition gbswap_32 (x : N) : N :=
  N.lor (N.lor (N.lor
    (wshl 32 (N.land x 0xFF) 24)
    (wshl 32 (N.land x 0xFF00) 8))
    (wshr (N.land x 0xFF0000) 8))
    (wshr (N.land x 0xFF000000) 24).
(* bits.hpp:475-481 gbswap_16; the operands are promoted to int, the result converted back *)
Definition gbswap_16 (x : N) : N :=
  wmod 16 (N.lor (wshl 32 (N.land x 0xFF) 8) (wshr (N.land x 0xFF00) 8)).

(** OSSwapInt16/32/64 of libkern convert their argument to the named width and swap its bytes. *)
Definition os_swap (w : N) (x : N) : N :=
  if w =? 16 then gbswap_16 (wmod 16 x) else if w =? 32 then gbswap_32 (wmod 32 x) else gbswap_64 (wmod 64 x).
(* bits.hpp:438-442: the __APPLE__ branch (neither clang nor gcc >= 4.8).  The result of
   OSSwapInt64 is converted to uint16_t. *)
Definition apple_gbswap_64 (x : N) : N := os_swap 16 x.
Definition apple_gbswap_32 (x : N) : N := os_swap 32 x.
Definition apple_gbswap_16 (x : N) : N := wmod 16 (os_swap 64 x).

(** Memory of a little-endian or big-endian host: the [n] bytes of a word, in address order
    (UnalignedLoad/Store are memcpy, bits.hpp:110-132). *)
Fixpoint le_bytes (n : nat) (x : N) : list N :=
  match n with O => [] | S n' => x mod 256 :: le_bytes n' (x / 256) end.
Fixpoint le_value (l : list N) : N :=
  match l with [] => 0 | b :: l' => b + 256 * le_value l' end.
Inductive host := LittleEndian | BigEndian.
Definition unaligned_store (h : host) (n : nat) (x : N) : list N :=
  match h with LittleEndian => le_bytes n x | BigEndian => rev (le_bytes n x) end.
Definition unaligned_load (h : host) (l : list N) : N :=
  match h with LittleEndian => le_value l | BigEndian => le_value (rev l) end.

(** Widths 2, 4 and 8 bytes. *)
Inductive width := W16 | W32 | W64.
Definition wbytes (w : width) : nat := match w with W16 => 2 | W32 => 4 | W64 => 8 end.
Definition wbits (w : width) : N := match w with W16 => 16 | W32 => 32 | W64 => 64 end.
Definition gbswap (w : width) : N -> N :=
  match w with W16 => gbswap_16 | W32 => gbswap_32 | W64 => gbswap_64 end.

(* bits.hpp:485-509 ghtons / ghtonl / ghtonll; gntoh* are the same functions (511-513) *)
Definition ghton (h : host) (w : width) (x : N) : N :=
  match h with LittleEndian => gbswap w x | BigEndian => x end.
Definition gntoh (h : host) (w : width) (x : N) : N := ghton h w x.

(* bits.hpp:519-562 little_endian::FromHost / ToHost / Load / Store *)
Definition le_from_host (h : host) (w : width) (x : N) : N :=
  match h with LittleEndian => x | BigEndian => gbswap w x end.
Definition le_to_host := le_from_host.
Definition le_store (h : host) (w : width) (v : N) : list N :=
  unaligned_store h (wbytes w) (le_from_host h w v).
Definition le_load (h : host) (w : width) (p : list N) : N := le_to_host h w (unaligned_load h p).
(* bits.hpp:568-610 big_endian::FromHost / ToHost / Load / Store *)
Definition be_from_host (h : host) (w : width) (x : N) : N :=
  match h with LittleEndian => gbswap w x | BigEndian => x end.
Definition be_to_host := be_from_host.
Definition be_store (h : host) (w : width) (v : N) : list N :=
  unaligned_store h (wbytes w) (be_from_host h w v).
Definition be_load (h : host) (w : width) (p : list N) : N := be_to_host h w (unaligned_load h p).

(** ** Hash mixing (phmap_utils.hpp) *)

(* phmap_utils.hpp:57-65 phmap_mix<4> (32-bit size_t) *)
Definition phmap_mix4 (a : N) : N :=
  let l := wmul 64 a 0xcc9e2d51 in wmod 32 (N.lxor l (wshr l 32)).
(* phmap_utils.hpp:67-79 phmap_mix<8> with a 128-bit product *)
Definition phmap_mix8_umul (a : N) : N :=
  let '(l, h) := umul128 a 0xde5fb9d2630458e9 in wadd 64 h l.
(* phmap_utils.hpp:80-93 phmap_mix<8>, portable *)
Definition phmap_mix8 (a : N) : N :=
  let a := wadd 64 (wnot 64 a) (wshl 64 a 21) in
  let a := N.lxor a (wshr a 24) in
  let a := wadd 64 (wadd 64 a (wshl 64 a 3)) (wshl 64 a 8) in
  let a := N.lxor a (wshr a 14) in
  let a := wadd 64 (wadd 64 a (wshl 64 a 2)) (wshl 64 a 4) in
  let a := N.lxor a (wshr a 28) in
  wadd 64 a (wshl 64 a 31).

(** The width of size_t: 4 or 8 bytes. *)
Inductive sizet := S4 | S8.
Definition sbits (s : sizet) : N := match s with S4 => 32 | S8 => 64 end.

(* phmap_utils.hpp:97-110 fold_if_needed *)
Definition fold_if_needed (s : sizet) (a : N) : N :=
  match s with S4 => wmod 32 (N.lxor a (wshr a 32)) | S8 => a end.

(* phmap_utils.hpp:158-200 Hash<bool>, Hash<char>, ..., Hash<uint32_t>: conversion to size_t *)
Definition hash_int (s : sizet) (v : Z) : N := Z.to_N (v mod 2 ^ Z.of_N (sbits s)).
(* phmap_utils.hpp:202-212 Hash<int64_t>, Hash<uint64_t> *)
Definition hash_int64 (s : sizet) (v : Z) : N := fold_if_needed s (Z.to_N (v mod 2 ^ 64)).

(** IEEE-754 comparison of two floating point values given by their representation: exponent
    width [e], mantissa width [m].  [fzero b]: b is +0 or -0; [fnan b]: b is a NaN. *)
Definition fmag (e m b : N) : N := b mod 2 ^ (e + m).
Definition fzero (e m b : N) : bool := N.eqb (fmag e m b) 0.
Definition fnan (e m b : N) : bool := N.ltb (N.ones e * 2 ^ m) (fmag e m b).
Definition feq (e m a b : N) : bool :=
  if fnan e m a || fnan e m b then false
  else if fzero e m a && fzero e m b then true else N.eqb a b.
(* phmap_utils.hpp:214-222 Hash<float> *)
Definition hash_float (b : N) : N := if feq 8 23 b 0 then 0 else b.
(* phmap_utils.hpp:224-232 Hash<double> *)
Definition hash_double (s : sizet) (b : N) : N := if feq 11 52 b 0 then 0 else fold_if_needed s b.

(* phmap_utils.hpp:236-240 GTL_HASH_ROTL32 on a 32-bit word *)
Definition rotl32 (x r : N) : N := N.lor (wshl 32 x r) (wshr x (32 - r)).
(* phmap_utils.hpp:247-267 Combiner<H, 4> *)
Definition combiner4 (h1 k1 : N) : N :=
  let k1 := wmul 32 k1 0xcc9e2d51 in
  let k1 := rotl32 k1 15 in
  let k1 := wmul 32 k1 0x1b873593 in
  let h1 := N.lxor h1 k1 in
  let h1 := rotl32 h1 13 in
  wadd 32 (wmul 32 h1 5) 0xe6546b64.
(* phmap_utils.hpp:269-292 Combiner<H, 8> *)
Definition combiner8 (h k : N) : N :=
  let m := wadd 64 (wshl 64 0xc6a4a793 32) 0x5bd1e995 in
  let k := wmul 64 k m in
  let k := N.lxor k (wshr k 47) in
  let k := wmul 64 k m in
  let h := N.lxor h k in
  let h := wmul 64 h m in
  wadd 64 h 0xe6546b64.
Definition combiner (s : sizet) : N -> N -> N := match s with S4 => combiner4 | S8 => combiner8 end.

(* phmap_utils.hpp:304-308 HashStateBase::combine over the hashes of the values *)
Fixpoint combine (s : sizet) (seed : N) (hs : list N) : N :=
  match hs with [] => seed | h :: hs' => combine s (combiner s seed h) hs' end.
(* phmap_utils.hpp:318-323 Hash<std::pair>, from the hashes of the components *)
Definition hash_pair (s : sizet) (h1 h2 : N) : N := combine s h1 [h2].
(* phmap_utils.hpp:327-353 Hash<std::tuple>: seed 0, one Combiner step per component *)
Definition hash_tuple (s : sizet) (hs : list N) : N := combine s 0 hs.
