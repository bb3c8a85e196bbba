(** The work done by automatic rehashing: the table functions of Model.v once more, now counting the iterations of
    the loops that move elements when a table is rehashed, and one per block allocated. *)
From stdpp Require Import list.
From Coq Require Import Arith NArith ZArith Lia.
From Coq Require Import ZifyBool ZifyNat ZifyN.
From Verif.Common Require Import Res Word WordFacts.
From Verif.Swiss Require Import Group GroupSpec Model Probe Inv TableInv Resize Ops MapSpec History Reserve.
Ltac Zify.zify_post_hook ::= Z.div_mod_to_equations.
Local Open Scope nat_scope.
Local Open Scope res_scope.
Local Arguments cnt : simpl never.
Local Arguments elems : simpl never.

(** A computation and the steps it took; a computation that throws reports none (resize allocates before its loop,
    and drop_deletes_without_resize does not throw). *)
Definition more {A} (n : nat) (r : res (A * nat)) : res (A * nat) := let* (x, m) := r in Ok (x, n + m).

Section Steps.
Context {K V : Type} (hash : K -> N) (eqb : K -> K -> bool) (E : env).
Notation W := (g_width (e_group E)).
Notation elt := (K * V)%type.
Notation table := (table K V).
Notation op := (op K V).
Notation out := (out K V).

(* resize (phmap.hpp 2670-2692): one step per iteration of its loop over the old slots (2679-2689) *)
Fixpoint resize_loop_c (is : list nat) (old_ctrl : list Z) (old_slots : list (option elt)) (t : table) : res (table * nat) :=
  match is with
  | [] => Ok (t, 0)
  | i :: is' =>
      more 1 (let* c := load old_ctrl i in
      if IsFull c then
        let* s := load old_slots i in
        let* e := of_option s in
        let h := hash (fst e) in
        let* p := find_first_non_full E (t_ctrl t) (t_cap t) h in
        let* ctrl' := set_ctrl E (t_ctrl t) (t_cap t) p (H2 h) in
        let* slots' := construct (t_slots t) p e in
        resize_loop_c is' old_ctrl old_slots (mkTable ctrl' slots' (t_size t) (t_cap t) (t_growth t))
      else resize_loop_c is' old_ctrl old_slots t)
  end.
(* one step for the block allocated (2675, initialize_slots) *)
Definition resize_c (t : table) (new_cap : N) : res (table * nat) :=
  let* t' := initialize_slots E new_cap (t_size t) in
  more 1 (resize_loop_c (seq 0 (t_cap t)) (t_ctrl t) (t_slots t) t').

(* drop_deletes_without_resize (2694-2757): one step per iteration of the loop 2718-2755, the last test included *)
Fixpoint drop_loop_c (fuel : nat) (t : table) (i : nat) : res (table * nat) :=
  match fuel with
  | O => Loop
  | S f =>
      more 1 (if i =? t_cap t then Ok (t, 0)
      else
        let* c := load (t_ctrl t) i in
        if negb (IsDeleted c) then drop_loop_c f t (S i)
        else
          let* s := load (t_slots t) i in
          let* e := of_option s in
          let h := hash (fst e) in
          let* new_i := find_first_non_full E (t_ctrl t) (t_cap t) h in
          if probe_index E (t_cap t) h new_i =? probe_index E (t_cap t) h i then
            let* ctrl' := set_ctrl E (t_ctrl t) (t_cap t) i (H2 h) in
            drop_loop_c f (mkTable ctrl' (t_slots t) (t_size t) (t_cap t) (t_growth t)) (S i)
          else
            let* cn := load (t_ctrl t) new_i in
            if IsEmpty cn then
              let* c1 := set_ctrl E (t_ctrl t) (t_cap t) new_i (H2 h) in
              let* (e1, s1) := take_slot (t_slots t) i in
              let* s2 := construct s1 new_i e1 in
              let* c2 := set_ctrl E c1 (t_cap t) i kEmpty in
              drop_loop_c f (mkTable c2 s2 (t_size t) (t_cap t) (t_growth t)) (S i)
            else
              let* c1 := set_ctrl E (t_ctrl t) (t_cap t) new_i (H2 h) in
              let* (e1, s1) := take_slot (t_slots t) i in
              let* (e2, s2) := take_slot s1 new_i in
              let* s3 := construct s2 i e2 in
              let* s4 := construct s3 new_i e1 in
              drop_loop_c f (mkTable c1 s4 (t_size t) (t_cap t) (t_growth t)) i)
  end.
Definition drop_deletes_c (t : table) : res (table * nat) :=
  if t_cap t <? W - 1 then UB
  else
    let* c := convert_ctrl E (t_ctrl t) (t_cap t) in
    let* (t', n) := drop_loop_c (S (2 * t_cap t)) (mkTable c (t_slots t) (t_size t) (t_cap t) (t_growth t)) 0 in
    Ok (mkTable (t_ctrl t') (t_slots t') (t_size t') (t_cap t') (growth_left_for E (t_cap t') (t_size t')), n).

(* rehash_and_grow_if_necessary (2759-2769) *)
Definition rehash_and_grow_c (t : table) : res (table * nat) :=
  if t_cap t =? 0 then resize_c t 1
  else if t_size t <=? CapacityToGrowth W (t_cap t) / 2 then drop_deletes_c t
  else resize_c t (wadd 64 (wmul 64 (N.of_nat (t_cap t)) 2) 1).

(* prepare_insert (2867-2881) *)
Definition prepare_insert_c (t : table) (h : N) : res (table * nat * nat) :=
  let* p0 := find_first_non_full E (t_ctrl t) (t_cap t) h in
  let* c0 := load (t_ctrl t) p0 in
  let* (t1, p, n) :=
    (if (t_growth t =? 0)%N && negb (IsDeleted c0) then
       let* (t1, n) := rehash_and_grow_c t in
       let* p1 := find_first_non_full E (t_ctrl t1) (t_cap t1) h in
       Ok (t1, p1, n)
     else Ok (t, p0, 0)) in
  let* c := load (t_ctrl t1) p in
  Ok (mkTable (t_ctrl t1) (t_slots t1) (S (t_size t1)) (t_cap t1)
              (wsub 64 (t_growth t1) (if IsEmpty c then 1%N else 0%N)), p, n).

(* emplace_decomposable (2543-2552), lazy_emplace_with_hash (2187-2195), try_emplace_impl (3153-3167) *)
Definition emplace_c (t : table) (k : K) (v : V) : res (table * nat * bool * nat) :=
  let* r := find_key hash eqb E t k in
  match r with
  | Some p => Ok (t, p, false, 0)
  | None =>
      let* (t1, p, n) := prepare_insert_c t (hash k) in
      let* t2 := finish_insert hash E t1 p (k, v) in
      Ok (t2, p, true, n)
  end.
(* insert_or_assign_impl (3139-3151) *)
Definition insert_or_assign_c (t : table) (k : K) (v : V) : res (table * nat * bool * nat) :=
  let* (t1, p, ins, n) := emplace_c t k v in
  if ins then Ok (t1, p, true, n)
  else let* t2 := assign_at t1 p v in Ok (t2, p, false, n).

(** One public call and the steps of its rehashing; the calls that never rehash on their own report none. *)
Definition catch_c (t : table) (r : res (table * out * nat)) : res (table * out * nat) :=
  match r with BadAlloc => Ok (t, RThrow, 0) | _ => r end.
Definition exec_c (t : table) (o : op) : res (table * out * nat) :=
  match o with
  | OEmplace k v =>
      catch_c t (let* (t', p, b, n) := emplace_c t k v in let* e := deref t' p in Ok (t', RInserted b e, n))
  | OAssign k v =>
      catch_c t (let* (t', p, b, n) := insert_or_assign_c t k v in let* e := deref t' p in Ok (t', RInserted b e, n))
  | _ => let* (t', r) := exec hash eqb E t o in Ok (t', r, 0)
  end.
Fixpoint run_c (t : table) (os : list op) : res (table * list out * nat) :=
  match os with
  | [] => Ok (t, [], 0)
  | o :: os' =>
      let* (t1, r, n) := exec_c t o in
      let* (t2, rs, m) := run_c t1 os' in Ok (t2, r :: rs, n + m)
  end.

(** ** Forgetting the count gives the model back *)
Definition forget {A} (r : res (A * nat)) : res A := let* (x, _) := r in Ok x.
Lemma forget_more {A} n (r : res (A * nat)) : forget (more n r) = forget r.
Proof using. destruct r as [[]| | | |]; reflexivity. Qed.
Lemma forget_bind {A B} (r : res A) (f : A -> res (B * nat)) : forget (rbind r f) = rbind r (fun x => forget (f x)).
Proof using. destruct r; reflexivity. Qed.
Ltac fb := repeat (rewrite ?forget_bind; first [reflexivity | match goal with
  | |- rbind ?r _ = rbind ?r _ => destruct r as [?| | | |]; cbn [rbind]; try reflexivity
  | |- context [match ?p with (_, _) => _ end] => destruct p
  | |- forget (if ?b then _ else _) = _ => destruct b
  end]).
Lemma resize_loop_forget is oc os : forall t, forget (resize_loop_c is oc os t) = resize_loop hash E is oc os t.
Proof using.
  induction is as [|i is IH]; intros t; cbn [resize_loop_c resize_loop]; [reflexivity|]. rewrite forget_more.
  fb; apply IH.
Qed.
Lemma drop_loop_forget fuel : forall t i, forget (drop_loop_c fuel t i) = drop_loop hash E fuel t i.
Proof using.
  induction fuel as [|f IH]; intros t i; cbn [drop_loop_c drop_loop]; [reflexivity|]. rewrite forget_more.
  fb; apply IH.
Qed.
Lemma resize_forget t m : forget (resize_c t m) = resize hash E t m.
Proof using. unfold resize_c, resize. fb. rewrite forget_more. apply resize_loop_forget. Qed.
Lemma drop_forget t : forget (drop_deletes_c t) = drop_deletes_without_resize hash E t.
Proof using.
  unfold drop_deletes_c, drop_deletes_without_resize. fb.
  rewrite <- drop_loop_forget. destruct (drop_loop_c _ _ _) as [[]| | | |]; reflexivity.
Qed.
Lemma grow_forget t : forget (rehash_and_grow_c t) = rehash_and_grow_if_necessary hash E t.
Proof using.
  unfold rehash_and_grow_c, rehash_and_grow_if_necessary. fb; [apply resize_forget|apply drop_forget|apply resize_forget].
Qed.
Lemma prepare_forget t h : forget (prepare_insert_c t h) = prepare_insert hash E t h.
Proof using.
  unfold prepare_insert_c, prepare_insert. destruct (find_first_non_full _ _ _ _) as [p0| | | |]; cbn [rbind]; try reflexivity.
  destruct (load (t_ctrl t) p0) as [c0| | | |]; cbn [rbind]; try reflexivity.
  destruct (_ && _); cbn [rbind].
  - rewrite <- grow_forget. destruct (rehash_and_grow_c t) as [[t1 n]| | | |]; cbn [rbind forget]; try reflexivity.
    destruct (find_first_non_full _ _ _ _) as [p| | | |]; cbn [rbind]; try reflexivity.
    destruct (load _ _); reflexivity.
  - destruct (load _ _); reflexivity.
Qed.
Lemma emplace_forget t k v : forget (emplace_c t k v) = emplace hash eqb E t k v.
Proof using.
  unfold emplace_c, emplace. destruct (find_key _ _ _ _ _) as [[p|]| | | |]; cbn [rbind]; try reflexivity.
  rewrite <- prepare_forget. destruct (prepare_insert_c _ _) as [[[t1 p] n]| | | |]; cbn [rbind forget]; try reflexivity.
  destruct (finish_insert _ _ _ _ _); reflexivity.
Qed.
Lemma exec_forget t o : forget (exec_c t o) = exec hash eqb E t o.
Proof using.
  destruct o; cbn [exec_c]; try (destruct (exec _ _ _ _ _) as [[]| | | |]; reflexivity); cbn [exec].
  - rewrite <- emplace_forget. destruct (emplace_c _ _ _) as [[[[t1 p] b] n]| | | |]; cbn [rbind forget catch_c catch]; try reflexivity.
    destruct (deref _ _); reflexivity.
  - unfold insert_or_assign_c, insert_or_assign. rewrite <- emplace_forget.
    destruct (emplace_c _ _ _) as [[[[t1 p] b] n]| | | |]; cbn [rbind forget catch_c catch]; try reflexivity.
    destruct b; cbn [rbind].
    + destruct (deref _ _); reflexivity.
    + destruct (assign_at _ _ _) as [t2| | | |]; cbn [rbind]; try reflexivity. destruct (deref _ _); reflexivity.
Qed.
Lemma run_forget os : forall t, forget (run_c t os) = run hash eqb E t os.
Proof using.
  induction os as [|o os IH]; intros t; cbn [run_c run]; [reflexivity|].
  rewrite <- exec_forget. destruct (exec_c t o) as [[[t1 r] n]| | | |]; cbn [rbind forget]; try reflexivity.
  rewrite <- IH. destruct (run_c t1 os) as [[[t2 rs] m]| | | |]; reflexivity.
Qed.

(** ** How many steps one rehash takes *)
Lemma resize_loop_steps is oc os : forall t t' n, resize_loop_c is oc os t = Ok (t', n) -> n = length is.
Proof using.
  induction is as [|i is IH]; intros t t' n H; cbn [resize_loop_c] in H; [injection H as <- <-; reflexivity|].
  unfold more in H.
  repeat match type of H with
  | context [let* _ := ?r in _] => let Er := fresh "Er" in destruct r as [?| | | |] eqn:Er; cbn [rbind] in H; try discriminate
  end.
  match goal with p : (_ * nat)%type |- _ => destruct p as [t1 m] end. injection H as <- <-. cbn [length]. f_equal.
  destruct (load oc i) as [c| | | |]; cbn [rbind] in Er; try discriminate.
  destruct (IsFull c); [|eauto].
  repeat match type of Er with
  | context [let* _ := ?r in _] => let Ex := fresh "Ex" in destruct r as [?| | | |] eqn:Ex; cbn [rbind] in Er; try discriminate
  end. eauto.
Qed.
Lemma drop_loop_steps fuel : forall t i t' n, drop_loop_c fuel t i = Ok (t', n) -> 1 <= n <= fuel.
Proof using.
  induction fuel as [|f IH]; intros t i t' n H; cbn [drop_loop_c] in H; [discriminate|]. unfold more in H.
  match type of H with (let* _ := ?r in _) = _ => destruct r as [[t1 m]| | | |] eqn:Er end; cbn [rbind] in H; try discriminate.
  injection H as <- <-. cut (m <= f); [lia|].
  destruct (i =? t_cap t); [injection Er as <- <-; lia|].
  repeat match type of Er with
  | (let* _ := ?r in _) = _ => let Ex := fresh "Ex" in destruct r as [?| | | |] eqn:Ex; cbn [rbind] in Er; try discriminate
  | (let* _ := ?r in _) = _ => destruct r as [[]| | | |]; cbn [rbind] in Er; try discriminate
  | (if ?b then _ else _) = _ => destruct b
  | (let (_, _) := ?p in _) = _ => destruct p
  | drop_loop_c f _ _ = _ => apply IH in Er; lia
  end.
Qed.
Lemma resize_steps t m t' n : resize_c t m = Ok (t', n) -> n = S (t_cap t).
Proof using.
  unfold resize_c. destruct (initialize_slots _ _ _) as [t1| | | |]; cbn [rbind]; try discriminate. unfold more.
  destruct (resize_loop_c _ _ _ _) as [[t2 k]| | | |] eqn:Er; cbn [rbind]; try discriminate. intros H. injection H as <- <-.
  apply resize_loop_steps in Er. rewrite seq_length in Er. lia.
Qed.
Lemma drop_steps t t' n : drop_deletes_c t = Ok (t', n) -> 1 <= n <= S (2 * t_cap t).
Proof using.
  unfold drop_deletes_c. destruct (_ <? _); [discriminate|].
  destruct (convert_ctrl _ _ _) as [c| | | |]; cbn [rbind]; try discriminate.
  destruct (drop_loop_c _ _ _) as [[t2 k]| | | |] eqn:Er; cbn [rbind]; try discriminate. intros H. injection H as <- <-.
  apply drop_loop_steps in Er. lia.
Qed.
Lemma grow_steps t t' n : rehash_and_grow_c t = Ok (t', n) -> 1 <= n <= S (2 * t_cap t).
Proof using.
  unfold rehash_and_grow_c. repeat destruct (_ =? _); repeat destruct (_ <=? _); intros H;
    first [apply resize_steps in H; lia | apply drop_steps in H; lia].
Qed.
End Steps.
