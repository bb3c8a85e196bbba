(** Exceptions inside the hash tables, on the heap of [Life]: an element constructor that throws while a table is
    copied, and a hash function that throws while a table is rehashed (include/gtl/phmap.hpp).
    A number says how many constructions, or calls of the hash function, succeed before one throws. *)
From stdpp Require Import list.
From Coq Require Import NArith ZArith.
From Verif.Common Require Import Res Word.
From Verif.Swiss Require Import Group Model Multi Life.
Local Open Scope nat_scope.
Local Open Scope res_scope.

Section LifeThrow.
Context {K V : Type} (hash : K -> N) (eqb : K -> K -> bool) (E : env).
Notation elt := (K * V)%type.
Notation heap := (list (option (N * list (option elt)))).
Notation W := (g_width (e_group E)).

(** ** Copy constructor (1817-1830).  The loop sets the control byte, then constructs the element.
    Returns the heap, the object as the loop leaves it, and whether it threw. *)
Fixpoint copy_loop_t (n : nat) (l : list elt) (h : heap) (x : obj) {struct l} : res (heap * obj * bool) :=
  match l with
  | [] => Ok (h, x, false)
  | e :: l' =>
      let hv := hash (fst e) in
      let* p := find_first_non_full E (o_ctrl x) (o_cap x) hv in
      let* ctrl' := set_ctrl E (o_ctrl x) (o_cap x) p (H2 hv) in
      let x' := mkObj ctrl' (o_blk x) (o_size x) (o_cap x) (o_growth x) in
      match n with
      | O => Ok (h, x', true)
      | S n' => let* h' := hconstruct h (o_blk x) p e in copy_loop_t n' l' h' x'
      end
  end.
(* the constructor delegates (1818), so when its body throws the destructor of the new table runs (1886);
   [None]: no table was made *)
Definition copy_t (n : nat) (h : heap) (that : obj) : res (heap * option obj) :=
  let* (h0, x0) := rehash_h hash E h empty_obj (N.of_nat (o_cap that)) in
  let* t := view h0 that in
  let* l := to_list E t in
  let* (h1, x1, threw) := copy_loop_t n l h0 x0 in
  if threw then let* (h2, _) := destroy_slots_h E h1 x1 in Ok (h2, None)
  else Ok (h1, Some (mkObj (o_ctrl x1) (o_blk x1) (o_size that) (o_cap x1) (wsub 64 (o_growth x1) (N.of_nat (o_size that))))).

(** ** resize (2670-2692): the hash of an element is computed before it is transferred *)
Fixpoint resize_loop_t (n : nat) (is : list nat) (old_ctrl : list Z) (ob nb cap : nat) (h : heap) (ctrl : list Z)
  {struct is} : res (heap * list Z * option nat) :=
  match is with
  | [] => Ok (h, ctrl, Some n)
  | i :: is' =>
      let* c := load old_ctrl i in
      if IsFull c then
        match n with
        | O => Ok (h, ctrl, None)
        | S n' =>
            let* (_, sl) := hblock h ob in
            let* s := load sl i in
            let* e := of_option s in
            let hv := hash (fst e) in
            let* p := find_first_non_full E ctrl cap hv in
            let* ctrl' := set_ctrl E ctrl cap p (H2 hv) in
            let* (e', h1) := htake h ob i in
            let* h2 := hconstruct h1 nb p e' in
            resize_loop_t n' is' old_ctrl ob nb cap h2 ctrl'
        end
      else resize_loop_t n is' old_ctrl ob nb cap h ctrl
  end.
(* when the hash throws, ctrl_, slots_ and capacity_ are those of the new block and the old one is not given back *)
Definition resize_t (n : nat) (h : heap) (x : obj) (new_cap : N) : res (heap * obj * option nat) :=
  if (e_max_bytes E <? alloc_size E new_cap)%N then BadAlloc
  else if (alloc_size E new_cap <? needed_bytes E new_cap)%N then UB
  else
    let c := N.to_nat new_cap in
    let '(h1, nb) := halloc h (alloc_size E new_cap) c in
    let* (h2, ctrl, rest) := resize_loop_t n (seq 0 (o_cap x)) (o_ctrl x) (o_blk x) nb c h1 (reset_ctrl E (e_junk E) c) in
    let x' := mkObj ctrl nb (o_size x) c (growth_left_for E c (o_size x)) in
    match rest with
    | None => Ok (h2, x', None)
    | Some n' =>
        let* h3 := (if o_cap x =? 0 then Ok h2 else hfree h2 (o_blk x) (alloc_size E (N.of_nat (o_cap x)))) in
        Ok (h3, x', Some n')
    end.

(** ** drop_deletes_without_resize (2694-2757): full slots are marked deleted until they are placed *)
Fixpoint drop_loop_t (n : nat) (fuel : nat) (b cap : nat) (h : heap) (ctrl : list Z) (i : nat)
  {struct fuel} : res (heap * list Z * option nat) :=
  match fuel with
  | O => Loop
  | S f =>
      if i =? cap then Ok (h, ctrl, Some n)
      else
        let* c := load ctrl i in
        if negb (IsDeleted c) then drop_loop_t n f b cap h ctrl (S i)
        else
          match n with
          | O => Ok (h, ctrl, None)
          | S n' =>
              let* (_, sl) := hblock h b in
              let* s := load sl i in
              let* e := of_option s in
              let hv := hash (fst e) in
              let* new_i := find_first_non_full E ctrl cap hv in
              if probe_index E cap hv new_i =? probe_index E cap hv i then
                let* ctrl' := set_ctrl E ctrl cap i (H2 hv) in
                drop_loop_t n' f b cap h ctrl' (S i)
              else
                let* cn := load ctrl new_i in
                if IsEmpty cn then
                  let* c1 := set_ctrl E ctrl cap new_i (H2 hv) in
                  let* (e1, h1) := htake h b i in
                  let* h2 := hconstruct h1 b new_i e1 in
                  let* c2 := set_ctrl E c1 cap i kEmpty in
                  drop_loop_t n' f b cap h2 c2 (S i)
                else
                  let* c1 := set_ctrl E ctrl cap new_i (H2 hv) in
                  let* (tmp, h1) := htake h b i in
                  let* (e2, h2) := htake h1 b new_i in
                  let* h3 := hconstruct h2 b i e2 in
                  let* h4 := hconstruct h3 b new_i tmp in
                  drop_loop_t n' f b cap h4 c1 i
          end
  end.
Definition drop_deletes_t (n : nat) (h : heap) (x : obj) : res (heap * obj * option nat) :=
  if o_cap x <? W - 1 then UB
  else
    let* c := convert_ctrl E (o_ctrl x) (o_cap x) in
    let* (h', c', rest) := drop_loop_t n (S (2 * o_cap x)) (o_blk x) (o_cap x) h c 0 in
    match rest with
    | None => Ok (h', mkObj c' (o_blk x) (o_size x) (o_cap x) (o_growth x), None)
    | Some n' => Ok (h', mkObj c' (o_blk x) (o_size x) (o_cap x) (growth_left_for E (o_cap x) (o_size x)), Some n')
    end.

(* rehash_and_grow_if_necessary (2759-2769) *)
Definition rehash_and_grow_t (n : nat) (h : heap) (x : obj) : res (heap * obj * option nat) :=
  if o_cap x =? 0 then resize_t n h x 1
  else if o_size x <=? CapacityToGrowth W (o_cap x) / 2 then drop_deletes_t n h x
  else resize_t n h x (wadd 64 (wmul 64 (N.of_nat (o_cap x)) 2) 1).
(* emplace_decomposable (2542-2552, hash of the key at 2558), prepare_insert (2867-2881); the flag says that the
   hash function threw.  When nothing is rehashed the target is computed once (2873); computing it again here gives
   the same slot. *)
Definition emplace_t (n : nat) (h : heap) (x : obj) (k : K) (v : V) : res (heap * obj * bool) :=
  match n with
  | O => Ok (h, x, true)
  | S n1 =>
      let* t := view h x in
      let* r := find_key hash eqb E t k in
      match r with
      | Some _ => Ok (h, x, false)
      | None =>
          let hv := hash k in
          let* p0 := find_first_non_full E (o_ctrl x) (o_cap x) hv in
          let* c0 := load (o_ctrl x) p0 in
          let* (h1, x1, rest) :=
            (if (o_growth x =? 0)%N && negb (IsDeleted c0) then rehash_and_grow_t n1 h x else Ok (h, x, Some n1)) in
          match rest with
          | None => Ok (h1, x1, true)
          | Some _ =>
              let* p := find_first_non_full E (o_ctrl x1) (o_cap x1) hv in
              let* c := load (o_ctrl x1) p in
              let x2 := mkObj (o_ctrl x1) (o_blk x1) (S (o_size x1)) (o_cap x1)
                          (wsub 64 (o_growth x1) (if IsEmpty c then 1%N else 0%N)) in
              let* (h3, x3) := finish_insert_h hash E h1 x2 p (k, v) in
              Ok (h3, x3, false)
          end
      end
  end.
End LifeThrow.
