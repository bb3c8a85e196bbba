(** Memory layout of the blocks allocated by the containers: [Layout], [Allocate] and [Deallocate]
    (gtl_base.hpp), the block of a hash table (phmap.hpp) and the nodes of a B-tree (btree.hpp).
    All arithmetic is the arithmetic of a 64-bit [size_t]. *)
From Coq Require Import NArith List.
From Verif Require Import Common.Word.
Import ListNotations.
Open Scope N_scope.

(** ** Layout *)
(* An element type of a layout: SizeOf<T> (gtl_base.hpp:288-308) and log2 of AlignOf<T>.  The static
   assertion IsLegalElementType (gtl_base.hpp:353-358) makes every alignment a power of two. *)
Record ety := mkEty { ty_size : N; ty_log : N }.
Definition ty_align (t : ety) : N := 2 ^ ty_log t.

(* a layout: the element type and the number of elements of each array (Layout(sizes...), 411) *)
Definition layout := list (ety * N).
Definition ent (l : layout) (k : nat) : ety * N := nth k l (mkEty 0 0, 0).
Definition arr_ty (l : layout) (k : nat) : ety := fst (ent l k).
Definition arr_n (l : layout) (k : nat) : N := snd (ent l k).

(* Align (gtl_base.hpp:335) *)
Definition Align (n m : N) : N := N.land (wsub 64 (wadd 64 n m) 1) (wnot 64 (m - 1)).

(* Alignment (gtl_base.hpp:416), with Max (339-344) *)
Definition Alignment (l : layout) : N := fold_right (fun e a => N.max (ty_align (fst e)) a) 1 l.

(* Offset<N> (gtl_base.hpp:427-437) *)
Fixpoint Offset (l : layout) (k : nat) : N :=
  match k with
  | O => 0
  | S k' => Align (wadd 64 (Offset l k') (wmul 64 (ty_size (arr_ty l k')) (arr_n l k'))) (ty_align (arr_ty l k))
  end.

(* AllocSize (gtl_base.hpp:563-566) *)
Definition AllocSize (l : layout) : N :=
  let k := (length l - 1)%nat in
  wadd 64 (Offset l k) (wmul 64 (ty_size (arr_ty l k)) (arr_n l k)).

(* Pointer<N>(p) (gtl_base.hpp:502-507) and its [j]th element *)
Definition elem_addr (l : layout) (base : N) (k : nat) (j : N) : N :=
  wadd 64 (wadd 64 base (Offset l k)) (wmul 64 j (ty_size (arr_ty l k))).

(** ** Allocate and Deallocate *)
(* number of units of [A] bytes asked from the allocator (gtl_base.hpp:907) and given back (925);
   sizeof(M) = A because M is an empty class with that alignment *)
Definition units (A n : N) : N := wsub 64 (wadd 64 n A) 1 / A.
(* the bytes an allocator provides for that many units *)
Definition block_bytes (A n : N) : N := units A n * A.

(** ** The block of a hash table *)
(* MakeLayout (phmap.hpp:1546-1549): capacity + Group::kWidth + 1 control bytes, capacity slots *)
Definition MakeLayout (W : N) (slot : ety) (cap : N) : layout :=
  [(mkEty 1 0, wadd 64 (wadd 64 cap W) 1); (slot, cap)].

(** ** The nodes of a B-tree *)
Section BTree.
Variable slot : ety.
(* TargetNodeSize, an [int] template parameter (256 in every container of the library) *)
Variable T : N.

(* kNodeSlotSpace (btree.hpp:634): of type size_t because of the sizeof, so it wraps around *)
Definition kNodeSlotSpace : N := wsub 64 T (8 + 4).
(* node_count_type (btree.hpp:641-644): uint8_t or uint16_t *)
Definition field_ty : ety := if 255 <? kNodeSlotSpace / ty_size slot then mkEty 2 1 else mkEty 1 0.
(* btree_node*, on a 64-bit platform *)
Definition ptr_ty : ety := mkEty 8 3.

(* layout_type (btree.hpp:856): parent, position/start/count/max_count, values, children *)
Definition node_layout (nvals nkids : N) : layout :=
  [(ptr_ty, 1); (field_ty, 4); (slot, nvals); (ptr_ty, nkids)].
(* SizeWithNValues (btree.hpp:857-863) *)
Definition SizeWithNValues (n : N) : N := AllocSize (node_layout n 0).

(* NodeTargetValues(begin, end) (btree.hpp:872-877).  The recursion halves [end - begin]; [fuel] bounds
   its depth and the theorems show that [end - begin] is always enough. *)
Fixpoint NodeTargetValues (fuel : nat) (b e : N) : option N :=
  if b =? e then Some b
  else match fuel with
       | O => None
       | S f =>
           if T <? SizeWithNValues ((b + e) / 2 + 1) then NodeTargetValues f b ((b + e) / 2)
           else NodeTargetValues f ((b + e) / 2 + 1) e
       end.
(* kNodeTargetValues (btree.hpp:881) *)
Definition kNodeTargetValues : option N := NodeTargetValues (N.to_nat T) 0 T.
(* kNodeValues (btree.hpp:887) *)
Definition kNodeValues : option N :=
  option_map (fun n => if 3 <=? n then n else 3) kNodeTargetValues.

(* LeafLayout (btree.hpp:897-902), InternalLayout (903-908), LeafSize (909), InternalSize (912) *)
Definition LeafLayout (max_values : N) : layout := node_layout max_values 0.
Definition InternalLayout (kN : N) : layout := node_layout kN (kN + 1).
Definition LeafSize (max_values : N) : N := AllocSize (LeafLayout max_values).
Definition InternalSize (kN : N) : N := AllocSize (InternalLayout kN).

(* GetField<N>()[j] (btree.hpp:917-927): always computed with the internal layout, for leaves too *)
Definition field_addr (kN base : N) (k : nat) (j : N) : N := elem_addr (InternalLayout kN) base k j.

(* a value stored in a count field is reduced modulo its width (set_count, set_position, set_max_count,
   btree.hpp:934-937) *)
Definition stored (v : N) : N := v mod 2 ^ (8 * ty_size field_ty).
(* leaf() (btree.hpp:943) for a node whose max_count field was set to [m] *)
Definition is_leaf (m : N) : bool := negb (stored m =? 0).
(* max_count() (btree.hpp:956-962) *)
Definition max_count (kN m : N) : N := if stored m =? 0 then stored kN else stored m.
End BTree.
