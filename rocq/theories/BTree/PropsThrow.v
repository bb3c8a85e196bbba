(** C52: insertions into the B-tree containers when allocating a node or constructing the element throws. *)
From stdpp Require Import list.
From Coq Require Import Arith Lia ZifyBool ZifyNat Sorting.Sorted.
From Verif.Common Require Import Res.
From Verif.BTree Require Import Tree TreeFacts Search Spec Ops OpsFacts SpecFacts Refine Api ApiSpec ApiFacts Throw ThrowFacts PropsBTree.
From Verif.BTree Require Slots SlotsFacts SlotsRoot PropsSlots.
Local Open Scope nat_scope.
Local Open Scope res_scope.

(** *** C52, in full: after an exception the container holds its elements, can be used and destroyed, and leaks nothing.
    That is false (below).  What holds: after std::bad_alloc, and after an exception of the constructor thrown before any value was
    moved to make room, no element is lost, duplicated or reordered and size() is right; and the container is as good as any
    other (every later call behaves as C30-C35 say) unless the tree has a node without values.  With as many
    allocations as the height plus one there is no std::bad_alloc. *)
Section Insert.
Context {V K : Type} (key : V -> K) (lt : K -> K -> bool) (kN : nat) (m : mode).
(* [b] holds the values [l] in this order, and is a container like any other unless a node has no values *)
Definition keeps (b : btree V) (l : list V) : Prop :=
  elems (b_root b) = l /\ b_size b = length l /\
  (solid (b_root b) = true -> values b = Ok l /\ forall ops, safe key lt (multi m) l ops ->
     exists b' rs l', run key lt kN m b ops = Ok (b', rs) /\ steps key lt (multi m) l ops l' rs /\ values b' = Ok l').
Lemma holds_keeps b l : swo lt -> 3 <= kN -> holds key lt kN m b l -> keeps b l.
Proof.
  intros Hlt HkN (H1 & H2 & H3). split; [done|]. split; [done|]. intros Hs. specialize (H3 Hs). split; [by apply (repr_values key lt kN m HkN)|].
  intros ops Hops. destruct (run_spec key lt kN m Hlt HkN b l ops H3 Hops) as (b' & rs & l' & Hr & Hst & Hb). exists b', rs, l'. split; [done|]. split; [done|]. by apply (repr_values key lt kN m HkN).
Qed.
Theorem C52_insert_partial n ok b l v : swo lt -> 3 <= kN -> multi m = false -> reachable key lt kN m b -> values b = Ok l ->
  exists b' o, insert_unique_x key lt kN m n ok b v = Ok (b', o, negb (has key lt (key v) l)) /\
    (height (b_root b) + 1 <= n -> o <> NoMemory) /\
    match o with
    | Inserted c => (ok = true \/ has key lt (key v) l = true) /\ exists c', insert_unique key lt kN m b v = Ok (b', c', negb (has key lt (key v) l)) /\ c' = c
    | NoMemory => keeps b' l
    | Threw hole => ok = false /\ (hole = false -> keeps b' l)
    end.
Proof.
  intros Hlt HkN Hmu Hb Hl. pose proof (reachable_values key lt kN m Hlt HkN b l Hb Hl) as Hr.
  destruct (insert_unique_x_spec key lt kN m Hlt HkN n ok b l v Hmu Hr) as (b' & o & E & Hn & Ho). exists b', o. split; [done|]. split; [done|].
  destruct o as [c| |hole].
  - destruct Ho as (_ & _ & Hok & _ & c' & E' & Hc). eauto.
  - apply holds_keeps; tauto.
  - split; [tauto|]. intros _. apply holds_keeps; tauto.
Qed.
Theorem C52_insert_multi_partial n ok b l v : swo lt -> 3 <= kN -> multi m = true -> reachable key lt kN m b -> values b = Ok l ->
  exists b' o, insert_multi_x key lt kN m n ok b v = Ok (b', o) /\
    (height (b_root b) + 1 <= n -> o <> NoMemory) /\
    match o with
    | Inserted c => ok = true /\ insert_multi key lt kN m b v = Ok (b', c)
    | NoMemory => keeps b' l
    | Threw hole => ok = false /\ (hole = false -> keeps b' l)
    end.
Proof.
  intros Hlt HkN Hmu Hb Hl. pose proof (reachable_values key lt kN m Hlt HkN b l Hb Hl) as Hr.
  destruct (insert_multi_x_spec key lt kN m Hlt HkN n ok b l v Hmu Hr) as (b' & o & E & Hn & Ho). exists b', o. split; [done|]. split; [done|].
  destruct o as [c| |hole].
  - tauto.
  - by apply holds_keeps.
  - split; [tauto|]. intros _. apply holds_keeps; tauto.
Qed.
End Insert.
Print Assumptions C52_insert_partial.
Print Assumptions C52_insert_multi_partial.

(** In the slots of a leaf that has room: a constructor that throws at the end leaves the leaf as it was. *)
Theorem C52_throw_at_end {V C : Type} `{EqDecision C} (gone : V) kN (s : Slots.st V C) vs : SlotsRoot.lf kN s Slots.L vs -> length vs < kN -> 1 <= Slots.cap s Slots.L ->
  exists s' r, Slots.emplace_root gone kN s (length vs) Slots.Boom = Ok (s', r, true) /\ SlotsRoot.lf kN s' r vs /\
    (r = Slots.R -> Slots.alive s' Slots.L = false /\ forall k, Slots.cells s' Slots.L k = Slots.Raw).
Proof. apply SlotsRoot.emplace_root_boom_end. Qed.
Print Assumptions C52_throw_at_end.
Example C52_throw_at_end_case : SlotsRoot.lf 8 PropsSlots.s1 Slots.L [7]. Proof. apply PropsSlots.s1_leaf. Qed.

(** ** what goes wrong *)
Notation ins := (insert_unique_x (fun x : nat => x) Nat.ltb 3 set_mode).
Definition of_list (l : list nat) : res (btree nat) := insert_iterator_unique (fun x => x) Nat.ltb 3 set_mode new_btree l.
Definition got {A} (r : res A) (d : A) : A := match r with Ok x => x | _ => d end.
Definition b123 : btree nat := got (of_list [1; 2; 3]) new_btree.
Lemma b123_reachable : reachable (fun x => x) Nat.ltb 3 set_mode b123.
Proof. exists [InsertRange [1; 2; 3]]. eexists. split; [safe_step; exact I|]. vm_compute. reflexivity. Qed.
(** a constructor that throws anywhere but at the end of a leaf leaves a slot below count() without a value: reading the
    element at the position, and destroying the leaf, are undefined *)
Theorem C52_throw_in_the_middle_refuted {V C : Type} `{EqDecision C} (gone : V) kN (s : Slots.st V C) r i vs : SlotsRoot.lf kN s r vs -> i < length vs -> length vs < Slots.cap s r ->
  exists s', Slots.emplace_value gone kN s r i Slots.Boom = Ok (s', true) /\ Slots.cnt s' r = length vs /\ Slots.get s' r i = UB /\ Slots.free s' r = UB.
Proof. intros H H1 H2. destruct (SlotsRoot.emplace_leaf_boom_mid gone kN s r i vs H H1 H2) as (s' & ? & ? & ? & ? & _). eauto. Qed.
Print Assumptions C52_throw_in_the_middle_refuted.
(** the first insertion: the root stays allocated but size() is 0, so that neither clear() nor the destructor frees it *)
Theorem C52_first_insert_leaks_refuted : exists b, ins 1 false new_btree 7 = Ok (b, Threw false, true) /\ b_size b = 0 /\ blocks (b_root b) = 1 /\ freed b = 0.
Proof. eexists. split; [vm_compute; reflexivity|]. vm_compute. auto. Qed.
Print Assumptions C52_first_insert_leaks_refuted.
(** a constructor that throws after a full leaf was split before its first value: the first leaf is empty and begin() denotes a
    slot without a value *)
Theorem C52_throw_after_split_refuted : exists b c, ins 9 false b123 0 = Ok (b, Threw false, true) /\ b_size b = 3 /\ elems (b_root b) = [1; 2; 3] /\
  begin_ b = Ok c /\ value c = UB /\ values b = UB.
Proof. eexists _, _. split; [vm_compute; reflexivity|]. split; [reflexivity|]. split; [reflexivity|]. split; [vm_compute; reflexivity|]. split; vm_compute; reflexivity. Qed.
Print Assumptions C52_throw_after_split_refuted.
(** std::bad_alloc for the second node of the split of the root: the new root has a child but no values.  The elements are there, but once
    they are erased one by one the two nodes are leaked *)
Notation era := (erase_unique (fun x : nat => x) Nat.ltb 3 set_mode).
Theorem C52_bad_alloc_leaks_refuted : exists b b', ins 1 true b123 4 = Ok (b, NoMemory, true) /\ values b = Ok [1; 2; 3] /\
  (let* (b, _) := era b 1 in let* (b, _) := era b 2 in let* (b, _) := era b 3 in Ok b) = Ok b' /\ b_size b' = 0 /\ blocks (b_root b') = 2 /\ freed b' = 0.
Proof. eexists _, _. split; [vm_compute; reflexivity|]. split; [vm_compute; reflexivity|]. split; [vm_compute; reflexivity|]. vm_compute. auto. Qed.
Print Assumptions C52_bad_alloc_leaks_refuted.
(* with enough memory the same calls free every node *)
Example C52_no_leak_without : exists b c b', ins 2 true b123 4 = Ok (b, Inserted c, true) /\
  (let* (b, _) := era b 1 in let* (b, _) := era b 2 in let* (b, _) := era b 3 in let* (b, _) := era b 4 in Ok b) = Ok b' /\ b_size b' = 0 /\ blocks (b_root b') = 0.
Proof. eexists _, _, _. split; [vm_compute; reflexivity|]. split; [vm_compute; reflexivity|]. vm_compute. auto. Qed.
(** the hypotheses and the outcomes of [C52_insert_partial] *)
Example C52_cases : values b123 = Ok [1; 2; 3] /\ height (b_root b123) = 1 /\
  (exists b, ins 0 true b123 4 = Ok (b, NoMemory, true) /\ solid (b_root b) = true /\ values b = Ok [1; 2; 3]) /\
  (exists b, ins 2 false b123 4 = Ok (b, Threw false, true) /\ solid (b_root b) = false) /\
  (exists c, ins 2 false b123 2 = Ok (b123, Inserted c, false) /\ value c = Ok 2) /\
  (exists b b', of_list [1; 2; 4; 5] = Ok b /\ ins 0 false b 0 = Ok (b', Threw true, true)) /\
  (exists b b', of_list [1; 2; 4; 5] = Ok b /\ ins 0 false b 6 = Ok (b', Threw false, true) /\ solid (b_root b') = true /\ values b' = Ok [1; 2; 4; 5]).
Proof.
  split; [by vm_compute|]. split; [by vm_compute|]. split; [eexists; crunch|]. split; [eexists; crunch|]. split; [eexists; crunch|]. split; [eexists _, _; crunch|]. eexists _, _; crunch.
Qed.
