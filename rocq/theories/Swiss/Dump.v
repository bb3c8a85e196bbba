(** Byte-level model of phmap_dump / phmap_load (include/gtl/phmap_dump.hpp:49-169) through
    gtl::BinaryOutputArchive / BinaryInputArchive (184-236), on a little-endian 64-bit machine.
    A file is a list of bytes.  Simplifications: the value type is given by its byte image [ser]/[des]
    (trivially copyable types, static_assert at 59/76); the file system never fails except by delivering
    fewer bytes than asked for. *)
From stdpp Require Import list.
From Coq Require Import NArith ZArith.
From Verif.Common Require Import Res Word.
From Verif.Swiss Require Import Group Model.
Local Open Scope nat_scope.
Local Open Scope res_scope.

(** size_t <-> 8 bytes *)
Fixpoint to_le (n : nat) (x : N) : list N :=
  match n with O => [] | S m => (x mod 256)%N :: to_le m (x / 256) end.
Fixpoint of_le (l : list N) : N :=
  match l with [] => 0%N | b :: l' => (b + 256 * of_le l')%N end.
Definition le8 (x : N) : list N := to_le 8 x.
(** int8_t <-> byte *)
Definition u8_of (c : Z) : N := Z.to_N (c mod 256).
Definition s8_of (b : N) : Z := if (b <? 128)%N then Z.of_N b else (Z.of_N b - 256)%Z.

(* istream::read(p, sz): overwrites as many bytes of the destination as the stream still has; a short read
   leaves the rest of the destination as it was (BinaryInputArchive::loadBinary, 214-217, ignores the state) *)
Definition read (dst src : list N) : list N * list N :=
  (take (length dst) src ++ drop (length src) dst, drop (length dst) src).
Definition read8 (old : N) (src : list N) : N * list N :=
  let '(b, r) := read (le8 old) src in (of_le b, r).

Definition s_version_base : N := (2 ^ 64 - 1 - 32)%N.   (* phmap_dump.hpp:49 *)
Definition s_version : N := (s_version_base + 1)%N.      (* phmap_dump.hpp:50 *)

Section Dump.
Context {K V : Type} (hash : K -> N) (eqb : K -> K -> bool) (E : env).
Notation elt := (K * V)%type.
Notation W := (g_width (e_group E)).
Notation table := (table K V).
Context (ser : elt -> list N) (des : list N -> elt) (raw : list N).  (* raw: bytes of a slot without object *)

Definition slot_bytes (s : option elt) : list N := match s with Some e => ser e | None => raw end.
(* raw_hash_set::phmap_dump (55-70) *)
Definition dump (t : table) : list N :=
  le8 s_version ++ le8 (N.of_nat (t_size t)) ++ le8 (N.of_nat (t_cap t)) ++
  (if t_size t =? 0 then []
   else le8 (t_growth t) ++ map u8_of (take (t_cap t + W + 1) (t_ctrl t)) ++ concat (map slot_bytes (t_slots t))).

(* cutting the slot array into slots; an object exists in a slot iff its control byte is full *)
Fixpoint chunks (n sz : nat) (l : list N) : list (list N) :=
  match n with O => [] | S m => take sz l :: chunks m sz (drop sz l) end.
Definition decode_slots (ctrl : list Z) (cs : list (list N)) : list (option elt) :=
  zip_with (fun c b => if IsFull c then Some (des b) else None) ctrl cs.

(* raw_hash_set::phmap_load (72-107) into a cleared table; returns the table and the rest of the file (the
   function itself always returns true).  capacity 0 with a non-zero size would overwrite the shared
   read-only empty group: UB *)
Definition load_table (src : list N) : res (table * list N) :=
  let '(version, src1) := read8 0 src in
  let '(version', size, src2) :=
    (if (version <=? s_version_base)%N then (0%N, version, src1)
     else let '(sz, r) := read8 0 src1 in ((version - s_version_base)%N, sz, r)) in
  let '(cap, src3) := read8 0 src2 in
  let* t0 := (if (cap =? 0)%N then Ok (mkTable (t_ctrl (empty_table : table)) [] (N.to_nat size) 0 0%N)
              else initialize_slots E cap (N.to_nat size)) in
  if (size =? 0)%N then Ok (t0, src3)
  else if (cap =? 0)%N then UB
  else
    let '(growth, src4) := (if (0 <? version')%N then read8 (t_growth t0) src3 else (t_growth t0, src3)) in
    let '(cb, src5) := read (map u8_of (t_ctrl t0)) src4 in
    let '(sb, src6) := read (concat (map (fun _ => raw) (t_slots t0))) src5 in
    let ctrl := map s8_of cb in
    let t1 := mkTable ctrl (decode_slots ctrl (chunks (t_cap t0) (length raw) sb)) (t_size t0) (t_cap t0) growth in
    let* t2 := (if (version' =? 0)%N then drop_deletes_without_resize hash E t1 else Ok t1) in
    Ok (t2, src6).

(** parallel_hash_set::phmap_dump (122-138) and phmap_load (150-169) over the array of submaps; [None] is the
    answer false *)
Definition pdump (ts : list table) : list N := le8 (N.of_nat (length ts)) ++ concat (map dump ts).
Fixpoint pload_loop (n : nat) (src : list N) : res (list table * list N) :=
  match n with
  | O => Ok ([], src)
  | S m =>
      let* (t, src1) := load_table src in
      let* (ts, src2) := pload_loop m src1 in Ok (t :: ts, src2)
  end.
Definition pload (n : nat) (src : list N) : res (option (list table * list N)) :=
  let '(count, src1) := read8 0 src in
  if (count =? N.of_nat n)%N then let* r := pload_loop n src1 in Ok (Some r) else Ok None.
End Dump.
