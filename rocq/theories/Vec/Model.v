(** gtl::vector, /repo/include/gtl/vector.hpp, over a memory of blocks of cells.

    A cell is raw storage or holds a live object.  Every construction, assignment, destruction, read and deallocation of
    the code is a step on that memory; doing one on a cell in the wrong state (constructing over a live object, reading,
    assigning or destroying raw storage, freeing a block that still holds a live object, touching a freed block or an index
    outside a block) is the outcome [Wrong].  Constructors, assignments and allocations may throw, as decided by an
    arbitrary stream of booleans in the state; [scoped_guard] rollbacks are modelled.

    Simplifications:
    - for trivially copyable types destruction does nothing and construction may overwrite, as in the code, so cells of
      such types are never checked for leaks;
    - objects outside the vector (arguments, temporaries, the elements of source ranges) are plain values;
    - USE_JEMALLOC is not defined (lines 58-60), so reserve_in_place (994-1009) is [false] and goodMallocSize (66) is the identity;
    - an assignment that throws leaves its target as it was. *)
From stdpp Require Import gmap list infinite fin_map_dom.
From Coq Require Import NArith.
From Verif.Common Require Import Word.
Local Open Scope nat_scope.

(** What the code asks of the element type and allocator. *)
Record traits := mkT {
  t_triv : bool;        (* std::is_trivially_copyable_v<T> *)
  t_nomove : bool;      (* std::is_nothrow_move_constructible_v<T> *)
  t_copyable : bool;    (* std::is_copy_constructible_v<T> *)
  t_std : bool;         (* usingStdAllocator, 246 *)
  t_byval : bool;       (* should_pass_by_value, 241-242 *)
  t_size : N;           (* sizeof(T) *)
  t_max : N;            (* requests for more than this many bytes throw std::bad_alloc *)
}.

Section Model.
Context {V : Type} (tr : traits) (moved : V -> V) (dflt : V).

Inductive cell := Raw | Live (v : V).
Notation heap := (gmap nat (list cell)).
(** Impl, 106-217: b_ is a block (None is nullptr), e_ and z_ are offsets from it *)
Record vec := mkV { v_blk : option nat; v_sz : nat; v_cap : nat }.
Record world := mkW { w_heap : heap; w_regs : list vec; w_orc : list bool }.
Inductive out (A : Type) := Ret (a : A) (w : world) | Thr (w : world) | Wrong.
Arguments Ret {A}. Arguments Thr {A}. Arguments Wrong {A}.
Definition M (A : Type) := world -> out A.
Definition ret {A} (a : A) : M A := fun w => Ret a w.
Definition bind {A B} (m : M A) (k : A -> M B) : M B :=
  fun w => match m w with Ret a w' => k a w' | Thr w' => Thr w' | Wrong => Wrong end.
Definition wrong {A} : M A := fun _ => Wrong.
Definition skip : M unit := ret tt.
Notation "x <- m ;; k" := (bind m (fun x => k)) (at level 100, m at next level, right associativity).
Notation "m ;;; k" := (bind m (fun _ => k)) (at level 100, right associativity).
(** scoped_guard: [cleanup] runs if [m] throws, and the exception goes on *)
Definition guarded {A} (m : M A) (cleanup : M unit) : M A :=
  fun w => match m w with
           | Ret a w' => Ret a w'
           | Thr w' => match cleanup w' with Ret _ w2 => Thr w2 | Thr _ => Wrong | Wrong => Wrong end
           | Wrong => Wrong
           end.
(** try { m } catch (...) {} *)
Definition catch {A} (m : M A) (handler : M A) : M A :=
  fun w => match m w with Ret a w' => Ret a w' | Thr w' => handler w' | Wrong => Wrong end.
Definition when (b : bool) (m : M unit) : M unit := if b then m else skip.
(** a user-supplied operation that may throw, if [can] *)
Definition may_throw (can : bool) : M unit :=
  fun w => if can then match w_orc w with
                       | true :: o => Thr (mkW (w_heap w) (w_regs w) o)
                       | _ :: o => Ret tt (mkW (w_heap w) (w_regs w) o)
                       | [] => Ret tt w
                       end
           else Ret tt w.
(** for (k = i; k < i + n; ++k) body, with a rollback that sees k *)
Fixpoint for_guard (n i : nat) (body : nat -> M unit) (cleanup : nat -> M unit) : M unit :=
  match n with
  | O => skip
  | S n' => guarded (body i) (cleanup i) ;;; for_guard n' (S i) body cleanup
  end.
Fixpoint for_up (n i : nat) (body : nat -> M unit) : M unit :=
  match n with O => skip | S n' => body i ;;; for_up n' (S i) body end.
Fixpoint for_down (n : nat) (body : nat -> M unit) : M unit :=
  match n with O => skip | S n' => body n' ;;; for_down n' body end.

(** ** cells *)
Definition loc := (nat * nat)%type.
Definition peek (l : loc) : M cell :=
  fun w => match w_heap w !! l.1 with
           | Some cs => match cs !! l.2 with Some c => Ret c w | None => Wrong end
           | None => Wrong
           end.
Definition poke (l : loc) (c : cell) : M unit :=
  fun w => match w_heap w !! l.1 with
           | Some cs => if decide (l.2 < length cs) then Ret tt (mkW (<[l.1 := <[l.2 := c]> cs]> (w_heap w)) (w_regs w) (w_orc w)) else Wrong
           | None => Wrong
           end.
Definition read (l : loc) : M V := c <- peek l ;; match c with Live v => ret v | Raw => wrong end.
(** the state of an object that was moved from; moving a trivially copyable object copies it *)
Definition mvd (v : V) : V := if t_triv tr then v else moved v.

(** the argument of a constructor or assignment: an object elsewhere, or an object of some block *)
Inductive arg := Val (v : V) | Ref (l : loc).
Definition take_arg (a : arg) (mv : bool) : M V :=
  match a with
  | Val v => ret v
  | Ref l => v <- read l ;; (if mv then poke l (Live (mvd v)) else skip) ;;; ret v
  end.
Definition copy_throws : bool := negb (t_triv tr).
Definition move_throws : bool := negb (t_triv tr) && negb (t_nomove tr).
(** M_construct / S_construct / S_construct_a (271-331): placement new *)
Definition construct (l : loc) (a : arg) (mv : bool) : M unit :=
  c <- peek l ;;
  (match c with Live _ => if t_triv tr then skip else wrong | Raw => skip end) ;;;
  may_throw (if mv then move_throws else copy_throws) ;;;
  v <- take_arg a mv ;; poke l (Live v).
(** M_construct(p) / memset to zero (419-440) *)
Definition construct_default (l : loc) : M unit :=
  c <- peek l ;;
  (match c with Live _ => if t_triv tr then skip else wrong | Raw => skip end) ;;;
  may_throw copy_throws ;;; poke l (Live dflt).
(** *p = value *)
Definition assign_to (l : loc) (a : arg) (mv : bool) : M unit :=
  c <- peek l ;;
  (match c with Raw => if t_triv tr then skip else wrong | Live _ => skip end) ;;;
  may_throw copy_throws ;;;
  v <- take_arg a mv ;; poke l (Live v).
(** M_destroy (336-344) *)
Definition destroy (l : loc) : M unit :=
  if t_triv tr then skip
  else c <- peek l ;; match c with Live _ => poke l Raw | Raw => wrong end.
(** D_destroy_range_a (360-383) *)
Definition destroy_range (b i n : nat) : M unit := for_up n i (fun k => destroy (b, k)).

(** ** blocks *)
(** D_allocate (149-155).  [n] objects; a request above t_max bytes always throws *)
Definition allocate (n : nat) : M nat :=
  fun w => if (t_max tr <? N.of_nat n * t_size tr)%N then Thr w
           else match may_throw true w with
                | Ret _ w' => let b := fresh ((map_to_list (w_heap w')).*1) in
                              Ret b (mkW (<[b := replicate n Raw]> (w_heap w')) (w_regs w') (w_orc w'))
                | Thr w' => Thr w'
                | Wrong => Wrong
                end.
Definition is_raw (c : cell) : bool := match c with Raw => true | Live _ => false end.
(** D_deallocate (157-163): [n] must be the size of the block; live objects in it would be lost *)
Definition deallocate (b n : nat) : M unit :=
  fun w => match w_heap w !! b with
           | Some cs => if (length cs =? n) && (t_triv tr || forallb is_raw cs)
                        then Ret tt (mkW (delete b (w_heap w)) (w_regs w) (w_orc w)) else Wrong
           | None => Wrong
           end.

(** ** this *)
Definition get (r : nat) : M vec := fun w => match w_regs w !! r with Some v => Ret v w | None => Wrong end.
Definition set (r : nat) (v : vec) : M unit :=
  fun w => match w_regs w !! r with Some _ => Ret tt (mkW (w_heap w) (<[r := v]> (w_regs w)) (w_orc w)) | None => Wrong end.
Definition blk (v : vec) : M nat := match v_blk v with Some b => ret b | None => wrong end.
(** a byte count and back: goodMallocSize(n * sizeof(T)) / sizeof(T), 192, 928, 1247 *)
Definition good_cap (n : nat) : nat := N.to_nat (wmul 64 (N.of_nat n) (t_size tr) / t_size tr).
(** the pointer b_ + i: with b_ null there are no elements, and loops over it do nothing *)
Definition at_ (v : vec) (i : nat) : loc := (default 0 (v_blk v), i).

(** Impl::destroy, 173-187 *)
Definition impl_destroy (r : nat) : M unit :=
  v <- get r ;;
  match v_blk v with
  | None => skip
  | Some b => destroy_range b 0 (v_sz v) ;;; deallocate b (v_cap v)
  end.
(** Impl::init, 188-197 *)
Definition impl_init (r n : nat) : M unit :=
  if n =? 0 then set r (mkV None 0 0)
  else let c := good_cap n in b <- allocate c ;; set r (mkV (Some b) 0 c).
(** Impl::reset(newCap), 207-212, and reset(), 213-216 *)
Definition impl_reset (r n : nat) : M unit := impl_destroy r ;;; guarded (impl_init r n) (set r (mkV None 0 0)).
Definition impl_reset0 (r : nat) : M unit := impl_destroy r ;;; set r (mkV None 0 0).

(** ** ranges *)
(** M_destroy_range_e, 355-358: e_ = pos *)
Definition destroy_range_e (r i : nat) : M unit :=
  v <- get r ;; destroy_range (default 0 (v_blk v)) i (v_sz v - i) ;;; set r (mkV (v_blk v) i (v_cap v)).
(** D_uninitialized_fill_n_a, 399-452: with a value, or value-initialised *)
Definition ufill (b i n : nat) (a : arg) : M unit :=
  for_guard n i (fun k => construct (b, k) a false) (fun k => destroy_range b i (k - i)).
Definition ufill_default (b i n : nat) : M unit :=
  for_guard n i (fun k => construct_default (b, k)) (fun k => destroy_range b i (k - i)).
(** memcpy and memmove of n cells (for trivially copyable types) *)
Definition memmove (d i s j n : nat) : M unit :=
  fun w => match w_heap w !! s, w_heap w !! d with
           | Some cs, Some ds =>
               if decide (j + n <= length cs) then
                 if decide (i + n <= length ds) then
                   Ret tt (mkW (<[d := list_inserts i (take n (drop j cs)) ds]> (w_heap w)) (w_regs w) (w_orc w))
                 else Wrong
               else Wrong
           | _, _ => if n =? 0 then Ret tt w else Wrong
           end.
Definition memcpy (d i s j n : nat) : M unit :=
  if (d =? s) && (i <? j + n) && (j <? i + n) then wrong else memmove d i s j n.
(** D_uninitialized_copy_a / D_uninitialized_move_a from memory of the same kind, 469-519 *)
Definition ucopy (d i s j n : nat) (mv : bool) : M unit :=
  if t_triv tr && t_std tr then (if n =? 0 then skip else memcpy d i s j n)
  else for_guard n 0 (fun k => construct (d, i + k) (Ref (s, j + k)) mv) (fun k => destroy_range d i k).
(** D_uninitialized_copy_a from the values of foreign iterators *)
Definition ucopy_list (d i : nat) (xs : list V) (mv : bool) : M unit :=
  for_guard (length xs) 0 (fun k => construct (d, i + k) (match xs !! k with Some x => Val x | None => Ref (0, 0) end) mv)
    (fun k => destroy_range d i k).

(** ** relocation, 555-646 *)
Definition use_memcpy : bool := t_triv tr && t_std tr.                               (* 602 *)
Definition use_move : bool := (t_nomove tr && t_std tr) || negb (t_copyable tr).     (* 604-606 *)
Definition relocate_move (d i s j n : nat) : M unit :=                               (* 609-629 *)
  if use_memcpy then memcpy d i s j n else ucopy d i s j n use_move.
Definition relocate_done (s j n : nat) : M unit :=                                   (* 632-638 *)
  if use_memcpy then skip else destroy_range s j n.
Definition relocate_undo (d i s j n : nat) : M unit :=                               (* 641-655 *)
  if use_memcpy then skip
  else if t_nomove tr && t_std tr then relocate_move s j d i n
  else destroy_range d i n.
(** M_relocate, 596-599.  With b_ null there is nothing to relocate *)
Definition relocate (r nb : nat) : M unit :=
  v <- get r ;;
  match v_blk v with
  | None => skip
  | Some b => relocate_move nb 0 b 0 (v_sz v) ;;; relocate_done b 0 (v_sz v)
  end.

(** ** capacity *)
(** if (impl_.b_) M_deallocate(impl_.b_, z_ - b_) and the new pointers: 935-940, 981-987 *)
Definition install (r nb ncap : nat) : M unit :=
  v <- get r ;;
  (match v_blk v with Some b => deallocate b (v_cap v) | None => skip end) ;;;
  set r (mkV (Some nb) (v_sz v) ncap).
(** reserve, 920-941 *)
Definition reserve (r n : nat) : M unit :=
  v <- get r ;;
  if n <=? v_cap v then skip
  else
    let ncap := good_cap n in
    nb <- allocate ncap ;;
    guarded (relocate r nb) (deallocate nb ncap) ;;;
    install r nb ncap.
(** shrink_to_fit, 943-990; noexcept *)
Definition shrink_to_fit (r : nat) : M unit :=
  v <- get r ;;
  if v_sz v =? 0 then impl_reset0 r
  else
    let ncap := good_cap (v_sz v) in
    if v_cap v <=? ncap then skip
    else
      o <- catch (b <- allocate ncap ;; ret (Some b)) (ret None) ;;
      match o with
      | None => skip
      | Some nb =>
          ok <- catch (relocate r nb ;;; ret true) (deallocate nb ncap ;;; ret false) ;;
          if ok : bool then install r nb ncap else skip
      end.
(** argument of type VT: by value for small trivially copyable types, 243 *)
Definition by_vt (a : arg) : M arg := if t_byval tr then v <- take_arg a false ;; ret (Val v) else ret a.
(** dataIsInternal, 862: the address lies in [b_, e_) *)
Definition is_internal (v : vec) (a : arg) : bool :=
  match a, v_blk v with Ref l, Some b => (l.1 =? b) && (l.2 <? v_sz v) | _, _ => false end.
(** a local copy T copy(t) *)
Definition local_copy (a : arg) (mv : bool) : M arg := may_throw (if mv then move_throws else copy_throws) ;;; v <- take_arg a mv ;; ret (Val v).
(** M_uninitialized_fill_n_e, 388-397 *)
Definition fill_e (r n : nat) (a : arg) : M unit :=
  v <- get r ;; ufill (default 0 (v_blk v)) (v_sz v) n a ;;; set r (mkV (v_blk v) (v_sz v + n) (v_cap v)).
Definition fill_default_e (r n : nat) : M unit :=
  v <- get r ;; ufill_default (default 0 (v_blk v)) (v_sz v) n ;;; set r (mkV (v_blk v) (v_sz v + n) (v_cap v)).
(** resize(n), 894-901, and resize(n, t), 903-914 *)
Definition resize (r n : nat) : M unit :=
  v <- get r ;;
  if n <=? v_sz v then destroy_range_e r n else reserve r n ;;; fill_default_e r (n - v_sz v).
Definition resize_with (r n : nat) (t : arg) : M unit :=
  t <- by_vt t ;;
  v <- get r ;;
  if n <=? v_sz v then destroy_range_e r n
  else if negb (t_byval tr) && is_internal v t && (v_cap v <? n)
  then c <- local_copy t false ;; reserve r n ;;; fill_e r (n - v_sz v) c
  else reserve r n ;;; fill_e r (n - v_sz v) t.

(** ** construction and assignment *)
Definition ctor_default (r n : nat) : M unit := impl_init r n ;;; guarded (fill_default_e r n) (impl_reset0 r).            (* 667-670 *)
Definition ctor_fill (r n : nat) (a : arg) : M unit := impl_init r n ;;; guarded (fill_e r n a) (impl_reset0 r).           (* 672-675 *)
(** vector(first, last) for forward iterators and vector(initializer_list), 799-803, 707 *)
Definition copy_list_e (r : nat) (xs : list V) (mv : bool) : M unit :=                                              (* 460-465 *)
  v <- get r ;; ucopy_list (default 0 (v_blk v)) (v_sz v) xs mv ;;; set r (mkV (v_blk v) (v_sz v + length xs) (v_cap v)).
Definition ctor_list (r : nat) (xs : list V) : M unit := impl_init r (length xs) ;;; guarded (copy_list_e r xs false) (impl_reset0 r).
(** M_uninitialized_copy_e over another vector's memory *)
Definition copy_e (r s j n : nat) : M unit :=
  v <- get r ;; ucopy (default 0 (v_blk v)) (v_sz v) s j n false ;;; set r (mkV (v_blk v) (v_sz v + n) (v_cap v)).
(** vector(const vector&), 681-684 *)
Definition ctor_copy (r q : nat) : M unit :=
  o <- get q ;; impl_init r (v_sz o) ;;; guarded (copy_e r (default 0 (v_blk o)) 0 (v_sz o)) (impl_reset0 r).
(** vector(vector&&), 686-687: Impl(Impl&&), 137-143 *)
Definition ctor_move (r q : nat) : M unit := o <- get q ;; set r o ;;; set q (mkV None 0 0).
(** ~vector, 726; the register is left as a default-constructed vector *)
Definition dtor (r : nat) : M unit := impl_destroy r ;;; set r (mkV None 0 0).

(** assign(n, value), 772-793 *)
Definition assign_fill (r n : nat) (value : arg) : M unit :=
  value <- by_vt value ;;
  v <- get r ;;
  if v_cap v <? n then
    if negb (t_byval tr) && is_internal v value
    then c <- local_copy value false ;; impl_reset r n ;;; fill_e r n c
    else impl_reset r n ;;; fill_e r n value
  else if n <=? v_sz v then
    for_up n 0 (fun k => assign_to (at_ v k) value false) ;;; destroy_range_e r n
  else
    for_up (v_sz v) 0 (fun k => assign_to (at_ v k) value false) ;;; fill_e r (n - v_sz v) value.
(** assign(first, last) for forward iterators of foreign values, 827-840; assign(initializer_list), 795 *)
Definition assign_list (r : nat) (xs : list V) : M unit :=
  v <- get r ;;
  let n := length xs in
  if v_cap v <? n then impl_reset r n ;;; copy_list_e r xs false
  else if n <=? v_sz v then
    for_up n 0 (fun k => assign_to (at_ v k) (match xs !! k with Some x => Val x | None => Ref (0, 0) end) false) ;;; destroy_range_e r n
  else
    for_up (v_sz v) 0 (fun k => assign_to (at_ v k) (match xs !! k with Some x => Val x | None => Ref (0, 0) end) false) ;;;
    copy_list_e r (drop (v_sz v) xs) false.
(** operator=(const vector&), 728-745: assign over the other vector's elements *)
Definition copy_assign (r q : nat) : M unit :=
  if r =? q then skip
  else
    v <- get r ;; o <- get q ;;
    let n := v_sz o in
    if v_cap v <? n then impl_reset r n ;;; copy_e r (default 0 (v_blk o)) 0 n
    else if n <=? v_sz v then
      for_up n 0 (fun k => assign_to (at_ v k) (Ref (at_ o k)) false) ;;; destroy_range_e r n
    else
      for_up (v_sz v) 0 (fun k => assign_to (at_ v k) (Ref (at_ o k)) false) ;;;
      copy_e r (default 0 (v_blk o)) (v_sz v) (n - v_sz v).
(** operator=(vector&&), 747-753, moveFrom by swapping, 814; swap, 1096-1102 *)
Definition swap (r q : nat) : M unit := v <- get r ;; o <- get q ;; set r o ;;; set q v.
Definition move_assign (r q : nat) : M unit := if r =? q then skip else swap r q.

(** ** element access *)
Definition index (r i : nat) : M V := v <- get r ;; if i <? v_sz v then b <- blk v ;; read (b, i) else wrong.  (* 1016-1023 *)
(** at, 1024-1033; [None] is std::out_of_range *)
Definition at_checked (r i : nat) : M (option V) :=
  v <- get r ;; if v_sz v <=? i then ret None else x <- index r i ;; ret (Some x).
(** v[i] = x *)
Definition write (r i : nat) (x : V) : M unit := v <- get r ;; if i <? v_sz v then b <- blk v ;; assign_to (b, i) (Val x) false else wrong.

(** ** push_back *)
(** computePushBackCapacity, 1125-1136 *)
Definition push_back_cap (cap : nat) : nat :=
  let c := N.of_nat cap in
  N.to_nat (if (c =? 0)%N then N.max (64 / t_size tr) 1
            else if (c <? 4096 / t_size tr)%N then wmul 64 c 2
            else if (4096 * 32 / t_size tr <? c)%N then wmul 64 c 2
            else wadd 64 (wmul 64 c 3) 1 / 2)%N.
(** emplace_back_aux, 1139-1200 *)
Definition emplace_back_aux (r : nat) (a : arg) (mv : bool) : M unit :=
  v <- get r ;;
  let sz := good_cap (push_back_cap (v_cap v)) in
  nb <- allocate sz ;;
  guarded
    (if use_memcpy then
       (match v_blk v with None => skip | Some b => relocate_move nb 0 b 0 (v_sz v) end) ;;;
       construct (nb, v_sz v) a mv
     else
       construct (nb, v_sz v) a mv ;;;
       guarded (relocate r nb) (destroy (nb, v_sz v)))
    (deallocate nb sz) ;;;
  (match v_blk v with Some b => deallocate b (v_sz v) | None => skip end) ;;;
  set r (mkV (Some nb) (S (v_sz v)) sz).
(** emplace_back, push_back, 1060-1088 *)
Definition push_back (r : nat) (a : arg) (mv : bool) : M unit :=
  v <- get r ;;
  if v_sz v =? v_cap v then emplace_back_aux r a mv
  else construct (at_ v (v_sz v)) a mv ;;; set r (mkV (v_blk v) (S (v_sz v)) (v_cap v)).
(** pop_back, 1090-1094 *)
Definition pop_back (r : nat) : M unit :=
  v <- get r ;;
  if v_sz v =? 0 then wrong
  else set r (mkV (v_blk v) (v_sz v - 1) (v_cap v)) ;;; destroy (at_ v (v_sz v - 1)).
(** clear, 1104 *)
Definition clear (r : nat) : M unit := destroy_range_e r 0.
(** vector(first, last) for input iterators, 805-811 *)
Fixpoint push_list (r : nat) (xs : list V) (mv : bool) : M unit :=
  match xs with [] => skip | x :: t => push_back r (Val x) mv ;;; push_list r t mv end.
Definition ctor_input (r : nat) (xs : list V) : M unit := set r (mkV None 0 0) ;;; guarded (push_list r xs false) (impl_reset0 r).
(** assign for input iterators, 842-855 *)
Definition assign_input (r : nat) (xs : list V) : M unit :=
  v <- get r ;;
  let n := Nat.min (length xs) (v_sz v) in
  for_up n 0 (fun k => assign_to (at_ v k) (match xs !! k with Some x => Val x | None => Ref (0, 0) end) false) ;;;
  if negb (n =? v_sz v) then destroy_range_e r n else push_list r (drop n xs) false.

(** ** erase, 1206-1237 *)
Definition erase (r i j : nat) : M nat :=
  v <- get r ;;
  if (i <=? j) && (j <=? v_sz v) then
    (if i =? j then skip
     else if j =? v_sz v then destroy_range_e r i
     else
       b <- blk v ;;
       if t_triv tr && t_std tr then
         destroy_range b i (j - i) ;;;
         (if v_sz v - j <=? j - i then memcpy b i b j (v_sz v - j) else memmove b i b j (v_sz v - j)) ;;;
         set r (mkV (v_blk v) (v_sz v - (j - i)) (v_cap v))
       else
         for_up (v_sz v - j) 0 (fun k => assign_to (b, i + k) (Ref (b, j + k)) true) ;;;
         destroy_range_e r (v_sz v - (j - i))) ;;;
    ret i
  else wrong.

(** ** insert *)
(** size_type additions of sizes, which wrap *)
Definition szadd (a b : nat) : nat := N.to_nat (wadd 64 (N.of_nat a) (N.of_nat b)).
(** computeInsertCapacity, 1245-1249 *)
Definition insert_cap (v : vec) (n : nat) : nat := good_cap (Nat.max (push_back_cap (v_cap v)) (szadd (v_sz v) n)).
(** make_window, 1304-1338 *)
Definition make_window (r pos n : nat) : M unit :=
  v <- get r ;; b <- blk v ;;
  let tail := v_sz v - pos in
  if tail <=? n then
    relocate_move b (pos + n) b pos tail ;;; relocate_done b pos tail ;;;
    set r (mkV (v_blk v) (v_sz v + n) (v_cap v))
  else if t_triv tr && t_std tr then
    memmove b (pos + n) b pos tail ;;; set r (mkV (v_blk v) (v_sz v + n) (v_cap v))
  else
    ucopy b (v_sz v) b (v_sz v - n) n true ;;;
    (* move [pos, e_ - n) backwards to end at e_ *)
    guarded (for_down (tail - n) (fun k => assign_to (b, pos + n + k) (Ref (b, pos + k)) true))
      (destroy_range b (v_sz v - n) (n + n) ;;; set r (mkV (v_blk v) (v_sz v - n) (v_cap v))) ;;;
    set r (mkV (v_blk v) (v_sz v + n) (v_cap v)) ;;;
    destroy_range b pos n.
(** undo_window, 1340-1343 *)
Definition undo_window (r pos n : nat) : M unit :=
  v <- get r ;; destroy_range (default 0 (v_blk v)) (pos + n) (v_sz v - (pos + n)) ;;; set r (mkV (v_blk v) pos (v_cap v)).
(** wrap_frame, 1348-1362 *)
Definition wrap_frame (r ledge idx n : nat) : M unit :=
  v <- get r ;;
  match v_blk v with
  | None => skip
  | Some b =>
      relocate_move ledge 0 b 0 idx ;;;
      guarded (relocate_move ledge (idx + n) b idx (v_sz v - idx)) (relocate_undo ledge 0 b 0 idx) ;;;
      relocate_done b 0 idx ;;; relocate_done b idx (v_sz v - idx)
  end.
(** insert_use_fresh, 1367-1383: both branches of at_end compute the same *)
Definition use_fresh (v : vec) (n : nat) : bool := v_cap v <? szadd (v_sz v) n.
(** do_real_insert, 1388-1460.  [con b i] constructs the n elements at (b, i), [des b i] destroys them *)
Definition real_insert (r pos n : nat) (internal : bool) (redo : M nat) (con des : nat -> nat -> M unit) : M nat :=
  if n =? 0 then ret pos
  else
    v <- get r ;;
    let at_end := pos =? v_sz v in
    let fr := use_fresh v n in
    if negb at_end && negb fr && internal then redo
    else if v_sz v <? pos then wrong
    else if fr then
      let ncap := insert_cap v n in
      b <- allocate ncap ;;
      guarded (con b pos) (deallocate b ncap) ;;;
      guarded (wrap_frame r b pos n) (des b pos ;;; deallocate b ncap) ;;;
      (match v_blk v with Some ob => deallocate ob (v_cap v) | None => skip end) ;;;
      set r (mkV (Some b) (v_sz v + n) ncap) ;;; ret pos
    else
      b <- blk v ;;
      (if negb at_end then make_window r pos n else set r (mkV (v_blk v) (v_sz v + n) (v_cap v))) ;;;
      guarded (con b pos)
        (if negb at_end then undo_window r pos n
         else v' <- get r ;; set r (mkV (v_blk v') (v_sz v' - n) (v_cap v'))) ;;;
      ret pos.
Definition insert_one (r pos : nat) (internal : bool) (redo : M nat) (a : arg) (mv : bool) : M nat :=
  real_insert r pos 1 internal redo (fun b i => construct (b, i) a mv) (fun b i => destroy (b, i)).
(** emplace, 1463-1472 *)
Definition emplace (r pos : nat) (a : arg) (mv : bool) : M nat := insert_one r pos false wrong a mv.
(** insert(pos, T&&), 1485-1493, and insert(pos, const T&), 1475-1483 *)
Definition insert_move (r pos : nat) (a : arg) : M nat :=
  v <- get r ;;
  insert_one r pos (is_internal v a) (c <- local_copy a true ;; insert_one r pos false wrong c true) a true.
Definition insert_copy (r pos : nat) (a : arg) : M nat :=
  v <- get r ;;
  insert_one r pos (is_internal v a) (c <- local_copy a false ;; insert_one r pos false wrong c true) a false.
(** insert(pos, n, value), 1495-1503 *)
Definition insert_fill_at (r pos n : nat) (internal : bool) (redo : M nat) (a : arg) : M nat :=
  real_insert r pos n internal redo (fun b i => ufill b i n a) (fun b i => destroy_range b i n).
Definition insert_fill (r pos n : nat) (a : arg) : M nat :=
  a <- by_vt a ;;
  v <- get r ;;
  insert_fill_at r pos n (negb (t_byval tr) && is_internal v a) (c <- local_copy a false ;; insert_fill_at r pos n false wrong c) a.
(** insert(pos, first, last) for forward iterators of foreign values, 1515-1526 *)
Definition insert_list (r pos : nat) (xs : list V) (mv : bool) : M nat :=
  real_insert r pos (length xs) false wrong (fun b i => ucopy_list b i xs mv) (fun b i => destroy_range b i (length xs)).
(** remove_if over [0, size) followed by erase to the end (1638-1646): the values kept are moved down *)
Fixpoint remove_loop (n i o : nat) (b : nat) (p : V -> bool) : M nat :=
  match n with
  | O => ret o
  | S n' => x <- read (b, i) ;;
            if p x then remove_loop n' (S i) o b p
            else (if i =? o then skip else assign_to (b, o) (Ref (b, i)) true) ;;; remove_loop n' (S i) (S o) b p
  end.
Definition erase_if (r : nat) (p : V -> bool) : M nat :=
  v <- get r ;; k <- remove_loop (v_sz v) 0 0 (default 0 (v_blk v)) p ;; erase r k (v_sz v).
End Model.
Arguments Ret {V A}. Arguments Thr {V A}. Arguments Wrong {V A}. Arguments Raw {V}. Arguments Live {V}. Arguments Val {V}. Arguments Ref {V}.
