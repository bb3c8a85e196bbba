(** C72: programs over several soas of one type when calls throw (soa.hpp).
    Anything that can throw in a call (allocation, copies and default construction of elements, the comparator, and moves unless they are
    noexcept) is a throw point; a call is given the number of throw points that it passes before one throws. *)
From stdpp Require Import list list_numbers.
From Coq Require Import Lia Sorting.Permutation.
From Coq Require Import ZifyBool ZifyNat.
From Verif.Common Require Import Res.
From Verif.Misc Require Import Soa PropsSoa.
Open Scope nat_scope.
Open Scope res_scope.

(** ** Calls, and what a user expects of them *)
Inductive sop (V : Type) :=
| Ins (i : nat) (xs : list V)                       (* a.insert(x...) *)
| Resz (i n : nat) | Clr (i : nat) | Rsv (i n : nat)  (* resize, clear, reserve *)
| Siz (i : nat) | Get (i r : nat) | Vw (i : nat) (cols : list nat) (r : nat)    (* size(), a[r], a.view<cols...>(r) *)
| Sort (i col : nat) (comp : V -> V -> bool)        (* a.sort_by_field<col>(comp) *)
| Cpy (i j : nat) (junk : list V) | Mov (i j : nat). (* a = b, a = std::move(b) *)
Arguments Ins {V}. Arguments Resz {V}. Arguments Clr {V}. Arguments Rsv {V}. Arguments Siz {V}. Arguments Get {V}. Arguments Vw {V}. Arguments Sort {V}.
Arguments Cpy {V}. Arguments Mov {V}.
Inductive sout (V : Type) := Done | Threw | Num (n : nat) | Row (r : list V).
Arguments Done {V}. Arguments Threw {V}. Arguments Num {V}. Arguments Row {V}.
(** a program that goes on as the results of its calls tell it *)
Inductive prog (V : Type) := Stop | Do (o : sop V) (k : sout V -> prog V).
Arguments Stop {V}. Arguments Do {V}.

(** A soa is a list of rows, and a flag that tells whether it consists of just these rows: after a call that threw half-way, the rows are
    those that can still be read. *)
Definition rows (V : Type) : Type := list (list V) * bool.
Section Spec.
Context {V : Type} (k : nat) (d : V) (nothrow : bool).     (* number of columns, value of a default-constructed element, whether moves are noexcept *)
Implicit Types (m : list (rows V)) (r : sout V).
Inductive s_step : list (rows V) -> sop V -> sout V -> list (rows V) -> Prop :=
| S_ins m i xs rs : m !! i = Some (rs, true) -> s_step m (Ins i xs) Done (<[i := (rs ++ [xs], true)]> m)
| S_ins_t m i xs rs : m !! i = Some (rs, true) -> s_step m (Ins i xs) Threw (<[i := (rs, false)]> m)
| S_resz m i n rs b : m !! i = Some (rs, b) -> s_step m (Resz i n) Done (<[i := (take n rs ++ repeat (repeat d k) (n - length rs), true)]> m)
| S_resz_t m i n rs : m !! i = Some (rs, true) -> length rs < n -> s_step m (Resz i n) Threw (<[i := (rs, false)]> m)
| S_clr m i : s_step m (Clr i) Done (<[i := ([], true)]> m)
| S_rsv m i n r : r = Done \/ r = Threw -> s_step m (Rsv i n) r m
| S_siz m i rs : m !! i = Some (rs, true) -> s_step m (Siz i) (Num (length rs)) m
| S_get m i rs b q x : m !! i = Some (rs, b) -> rs !! q = Some x -> s_step m (Get i q) (Row x) m
| S_vw m i rs b cols q x y : m !! i = Some (rs, b) -> rs !! q = Some x -> mapM (fun c => x !! c) cols = Some y -> s_step m (Vw i cols q) (Row y) m
| S_sort m i col comp rs p rs' : m !! i = Some (rs, true) -> sorted_stably col comp rs p rs' -> s_step m (Sort i col comp) Done (<[i := (rs', true)]> m)
| S_sort_t m i col comp : s_step m (Sort i col comp) Threw m
| S_sort_m m i col comp : nothrow = false -> s_step m (Sort i col comp) Threw (<[i := ([], false)]> m)
| S_cpy m i j junk x : m !! j = Some x -> s_step m (Cpy i j junk) Done (<[i := x]> m)
| S_cpy_t m i j junk : s_step m (Cpy i j junk) Threw (<[i := ([], false)]> m)
| S_mov m i j x : m !! j = Some x -> s_step m (Mov i j) Done (<[i := x]> (<[j := ([], true)]> m)).
(** which calls a program may make: rows that exist, rows of the right length, strict weak orders; of a soa on which a call threw, only the
    rows of before may be read, and it has to be cleared, cut down to them or assigned to before anything else is done with it *)
Definition pre m (o : sop V) : Prop :=
  match o with
  | Ins i xs => length xs = k /\ exists rs, m !! i = Some (rs, true)
  | Resz i n => exists rs b, m !! i = Some (rs, b) /\ (b = false -> n <= length rs)
  | Clr i | Rsv i _ => i < length m
  | Siz i => exists rs, m !! i = Some (rs, true)
  | Get i q => exists rs b, m !! i = Some (rs, b) /\ q < length rs
  | Vw i cols q => Forall (fun c => c < k) cols /\ exists rs b, m !! i = Some (rs, b) /\ q < length rs
  | Sort i col comp => col < k /\ swo comp /\ exists rs, m !! i = Some (rs, true)
  | Cpy i j _ | Mov i j => i <> j /\ i < length m /\ j < length m
  end.
Fixpoint well_used m (p : prog V) : Prop :=
  match p with
  | Stop => True
  | Do o c => pre m o /\ forall r m', s_step m o r m' -> well_used m' (c r)
  end.
Inductive s_run : list (rows V) -> prog V -> list (sout V) -> list (rows V) -> Prop :=
| s_stop m : s_run m Stop [] m
| s_do m o c r m1 rs m2 : s_step m o r m1 -> s_run m1 (c r) rs m2 -> s_run m (Do o c) (r :: rs) m2.
End Spec.

(** ** Model *)
Section SoaThrow.
Context {V : Type} (moved : V -> V) (d : V) (nothrow : bool).     (* nothrow: the elements are nothrow move constructible and assignable *)
Context (sorter : (nat -> nat -> bool) -> list nat -> nat -> list nat * nat * bool).
Notation soa := (list (list V)).
(** what a step leaves, the throw points left, and whether it threw *)
Notation T A := (A * nat * bool)%type.
Definition tick (n : nat) : option nat := match n with O => None | S n' => Some n' end.
Definition tick_move (n : nat) : option nat := if nothrow then Some n else tick n.

(* insert (70-73, 156-159): push_back on one column after the other; a push_back that throws leaves its column *)
Fixpoint insert_t (s : soa) (xs : list V) (n : nat) : T soa :=
  match s, xs with
  | c :: s', x :: xs' =>
      match tick n with
      | None => (s, n, true)
      | Some n' => let '(s'', n'', t) := insert_t s' xs' n' in ((c ++ [x]) :: s'', n'', t)
      end
  | _, _ => (s, n, false)
  end.
(* vector::resize: a column that does not grow throws nothing; one that throws is left as it was *)
Definition resize_col (c : list V) (sz n : nat) : T (list V) :=
  if sz <=? length c then (take sz c, n, false)
  else match tick n with None => (c, n, true) | Some n' => (c ++ repeat d (sz - length c), n', false) end.
(* resize (97-99) *)
Fixpoint resize_t (s : soa) (sz n : nat) : T soa :=
  match s with
  | [] => ([], n, false)
  | c :: s' =>
      match resize_col c sz n with
      | (c', n', true) => (c' :: s', n', true)
      | (c', n', false) => let '(s'', n'', t) := resize_t s' sz n' in (c' :: s'', n'', t)
      end
  end.
(* reserve (101-103): the elements of a column are the same before and after *)
Fixpoint reserve_t (s : soa) (n : nat) : nat * bool :=
  match s with
  | [] => (n, false)
  | _ :: s' => match tick n with None => (n, true) | Some n' => reserve_t s' n' end
  end.

(* the do ... while loop of reorder (190-199); a move that throws leaves both sides *)
Fixpoint cycle_t (fuel : nat) (o : list nat) (i : nat) (ci : V) (c : list V) (done : list bool) (cur n : nat) : res (T (list V * list bool)) :=
  match fuel with
  | O => Loop
  | S f =>
      let* _ := of_option (done !! cur) in
      let done := <[cur := true]> done in
      let* oc := of_option (o !! cur) in
      let* _ := of_option (c !! cur) in
      if oc =? i then
        match tick_move n with
        | None => Ok (c, done, n, true)
        | Some n' => Ok (<[cur := ci]> c, done, n', false)
        end
      else
        let* v := of_option (c !! oc) in
        match tick_move n with
        | None => Ok (c, done, n, true)
        | Some n' =>
            let c := <[cur := v]> (<[oc := moved v]> c) in
            let* oc' := of_option (o !! oc) in
            if oc' =? oc then Ok (c, done, n', false) else cycle_t f o i ci c done oc n'
        end
  end.
(* the for loop (185-201); when an exception leaves it, ci is destroyed *)
Fixpoint loop_t (o is : list nat) (c : list V) (done : list bool) (n : nat) : res (T (list V * list bool)) :=
  match is with
  | [] => Ok (c, done, n, false)
  | i :: is' =>
      let* b := of_option (done !! i) in
      if (b : bool) then loop_t o is' c done n
      else
        let* ci := of_option (c !! i) in
        match tick_move n with
        | None => Ok (c, done, n, true)
        | Some n' =>
            let* (c, done, n, t) := cycle_t (S (length o)) o i ci (<[i := moved ci]> c) done i n' in
            if (t : bool) then Ok (c, done, n, true) else loop_t o is' c done n
        end
  end.
(* reorder (179-202): done.reset() first *)
Definition reorder_t (o : list nat) (c : list V) (done : list bool) (n : nat) : res (T (list V * list bool)) :=
  loop_t o (seq 0 (length o)) c (map (fun _ => false) done) n.
(* sort_by_reference_impl (171-174) *)
Fixpoint reorder_all_t (o : list nat) (s : soa) (done : list bool) (n : nat) : res (T (soa * list bool)) :=
  match s with
  | [] => Ok ([], done, n, false)
  | c :: s' =>
      let* (c', done', n', t) := reorder_t o c done n in
      if (t : bool) then Ok (c' :: s', done', n', true)
      else let* (s'', done'', n'', t') := reorder_all_t o s' done' n' in Ok (c' :: s'', done'', n'', t')
  end.
(** sort_tmp (108, 141-148): one object for all soas of the type, which stays as a call leaves it *)
Record scratch := mkScratch { sc_o : list nat; sc_done : list bool }.
Definition resize_to {A} (x : A) (sz : nat) (l : list A) : list A := take sz l ++ repeat x (sz - length l).
(* sort_by_field (105-121).  sort_tmp.resize resizes o and then done (144-147), each may throw; the loop 111-112 writes o[0 .. num_elems - 1];
   [sorter lt l n]: what std::stable_sort makes of l *)
Definition sort_t (s : soa) (tmp : scratch) (col_idx : nat) (comp : V -> V -> bool) (n : nat) : res (T (soa * scratch)) :=
  let* sz := soa_size s in
  match tick n with
  | None => Ok (s, tmp, n, true)
  | Some n1 =>
  let o1 := resize_to 0 sz (sc_o tmp) in
  match tick n1 with
  | None => Ok (s, mkScratch o1 (sc_done tmp), n1, true)
  | Some n2 =>
  let done1 := resize_to false sz (sc_done tmp) in
  let o2 := seq 0 sz ++ drop sz o1 in
  let* col := of_option (s !! col_idx) in
  let '(o3, n3, t) := sorter (comp_wrapper comp col) o2 n2 in
  if (t : bool) then Ok (s, mkScratch o3 done1, n3, true)
  else let* (s', done', n', t') := reorder_all_t o3 s done1 n3 in Ok (s', mkScratch o3 done', n', t')
  end end.

(* the implicit copy assignment (std::tuple assigns its members one after the other); the vector whose assignment throws is left with
   unspecified elements, [junk] *)
Fixpoint copy_t (s that : soa) (junk : list V) (n : nat) : T soa :=
  match s, that with
  | c :: s', c' :: that' =>
      match tick n with
      | None => (junk :: s', n, true)
      | Some n' => let '(s'', n'', t) := copy_t s' that' junk n' in (c' :: s'', n'', t)
      end
  | _, _ => (s, n, false)
  end.

Definition done_or (t : bool) : sout V := if t then Threw else Done.
Definition exec (st : list soa) (tmp : scratch) (o : sop V) (n : nat) : res (list soa * scratch * sout V) :=
  match o with
  | Ins i xs =>
      let* s := of_option (st !! i) in let '(s', _, t) := insert_t s xs n in Ok (<[i := s']> st, tmp, done_or t)
  | Resz i sz =>
      let* s := of_option (st !! i) in let '(s', _, t) := resize_t s sz n in Ok (<[i := s']> st, tmp, done_or t)
  | Clr i => let* s := of_option (st !! i) in Ok (<[i := soa_clear s]> st, tmp, Done)
  | Rsv i _ => let* s := of_option (st !! i) in let '(_, t) := reserve_t s n in Ok (st, tmp, done_or t)
  | Siz i => let* s := of_option (st !! i) in let* sz := soa_size s in Ok (st, tmp, Num sz)
  | Get i r => let* s := of_option (st !! i) in let* x := row s r in Ok (st, tmp, Row x)
  | Vw i cols r =>            (* view (83-91, 161-169) *)
      let* s := of_option (st !! i) in
      let* x := of_option (mapM (fun c => s !! c ≫= fun l => l !! r) cols) in Ok (st, tmp, Row x)
  | Sort i col comp =>
      let* s := of_option (st !! i) in
      let* (s', tmp', _, t) := sort_t s tmp col comp n in Ok (<[i := s']> st, tmp', done_or t)
  | Cpy i j junk =>
      let* s := of_option (st !! i) in let* that := of_option (st !! j) in
      let '(s', _, t) := copy_t s that junk n in Ok (<[i := s']> st, tmp, done_or t)
  | Mov i j =>                (* every column takes the elements of the other one, which becomes empty *)
      let* _ := of_option (st !! i) in let* that := of_option (st !! j) in
      Ok (<[i := that]> (<[j := soa_clear that]> st), tmp, Done)
  end.
(** [b i]: the throw points that the i-th call passes *)
Fixpoint run (st : list soa) (tmp : scratch) (p : prog V) (b : nat -> nat) : res (list soa * scratch * list (sout V)) :=
  match p with
  | Stop => Ok (st, tmp, [])
  | Do o c =>
      let* (st1, tmp1, r) := exec st tmp o (b 0) in
      let* (st2, tmp2, rs) := run st1 tmp1 (c r) (fun i => b (S i)) in Ok (st2, tmp2, r :: rs)
  end.
End SoaThrow.

(** std::stable_sort: when it returns, its range is sorted stably; when the comparator throws, something of the same length is left *)
Record sorter_ok {V : Type} (sorter : (nat -> nat -> bool) -> list nat -> nat -> list nat * nat * bool) : Prop := {
  so_len : forall lt l n, length (fst (fst (sorter lt l n))) = length l;
  so_ok : forall (comp : V -> V -> bool) col n o n', swo comp ->
    sorter (comp_wrapper comp col) (seq 0 (length col)) n = (o, n', false) -> stable_order comp col o;
}.
(** one that meets this: insertion sort, with a throw point at each comparison *)
Fixpoint ins_t (lt : nat -> nat -> bool) (i : nat) (l : list nat) (n : nat) : list nat * nat * bool :=
  match l with
  | [] => ([i], n, false)
  | j :: l' =>
      match tick n with
      | None => (i :: l, n, true)
      | Some n' => if lt i j then (i :: l, n', false) else let '(l'', n'', t) := ins_t lt i l' n' in (j :: l'', n'', t)
      end
  end.
Fixpoint sort_from (lt : nat -> nat -> bool) (l acc : list nat) (n : nat) : list nat * nat * bool :=
  match l with
  | [] => (acc, n, false)
  | i :: l' => let '(acc', n', t) := ins_t lt i acc n in if (t : bool) then (acc' ++ l', n', true) else sort_from lt l' acc' n'
  end.
Definition insertion_sorter (lt : nat -> nat -> bool) (l : list nat) (n : nat) : list nat * nat * bool := sort_from lt l [] n.
Lemma ins_t_ok lt i l : forall n, length (fst (fst (ins_t lt i l n))) = S (length l) /\
  (snd (ins_t lt i l n) = false -> fst (fst (ins_t lt i l n)) = ins lt i l).
Proof.
  induction l as [|j l IH]; intros n; cbn; [done|]. destruct (tick n) as [n'|]; cbn; [|done]. destruct (lt i j); cbn; [done|].
  destruct (IH n') as [Hl He]. destruct (ins_t lt i l n') as [[l'' n''] t]. cbn in *. split; [lia|]. intros Ht. by rewrite He.
Qed.
Lemma sort_from_ok lt l : forall acc n, length (fst (fst (sort_from lt l acc n))) = length l + length acc /\
  (snd (sort_from lt l acc n) = false -> fst (fst (sort_from lt l acc n)) = fold_left (fun acc i => ins lt i acc) l acc).
Proof.
  induction l as [|i l IH]; intros acc n; cbn; [done|]. destruct (ins_t_ok lt i acc n) as [Hl He]. destruct (ins_t lt i acc n) as [[acc' n'] t]. cbn in *.
  destruct t; cbn; [rewrite app_length; split; [lia|done]|]. destruct (IH acc' n') as [Hl' He']. split; [lia|]. intros Ht. by rewrite He', He.
Qed.
Lemma insertion_sorter_ok V : sorter_ok (V:=V) insertion_sorter.
Proof.
  split.
  - intros lt l n. unfold insertion_sorter. rewrite (proj1 (sort_from_ok lt l [] n)). cbn. lia.
  - intros comp col n o n' Hc H. unfold insertion_sorter in H. pose proof (sort_from_ok (comp_wrapper comp col) (seq 0 (length col)) [] n) as [_ He].
    rewrite H in He. cbn in He. rewrite He by done. apply stable_sort_contract. assumption.
Qed.
