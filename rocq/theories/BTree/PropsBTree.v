(** The properties of the B-tree containers (C30-C35, C49). *)
From stdpp Require Import list.
From Coq Require Import Arith Lia ZifyBool ZifyNat Sorting.Sorted Permutation.
From Verif.Common Require Import Res.
From Verif.BTree Require Import Tree TreeFacts Balance Search Spec SearchFacts Ops Iter OpsFacts SpecFacts Refine Refine2 Api ApiSpec ApiFacts MapFacts.
Local Open Scope nat_scope.
Local Open Scope res_scope.

(** the modes of the examples: node search by a bool comparator or a three-way one, linear or binary *)
Definition set_mode : mode := mkMode false true false.
Definition set_mode3 : mode := mkMode true false false.
Definition multi_mode : mode := mkMode false false true.
Definition multi_mode3 : mode := mkMode true true true.
(* evaluate one conjunct after the other *)
Ltac crunch := repeat match goal with |- _ /\ _ => split end; (vm_compute; reflexivity).
Lemma ltb_swo : swo Nat.ltb.
Proof. split; intros; lia. Qed.

(** ** C30, C31: every client sees a sorted list *)
Theorem btree_refines_sorted_list {V K} (key : V -> K) (lt : K -> K -> bool) (kN : nat) (m : mode) ops :
  swo lt -> 3 <= kN -> safe key lt (multi m) [] ops ->
  exists b rs l, run key lt kN m new_btree ops = Ok (b, rs) /\ steps key lt (multi m) [] ops l rs /\
    values b = Ok l /\ b_size b = length l /\ sorted key lt (multi m) l.
Proof.
  intros Hlt HkN Hs. destruct (run_spec key lt kN m Hlt HkN new_btree [] ops) as (b & rs & l & Hr & Hst & Hb); auto; [apply (repr_new key lt kN m HkN)|].
  exists b, rs, l. pose proof Hb as (Hsh & Hel & Hso). split_and!; auto; [|by apply (repr_size key lt kN m b l)]. by rewrite (values_spec key kN HkN b Hsh), Hel.
Qed.
Print Assumptions btree_refines_sorted_list.
Definition some_ops : list (op nat nat) :=
  InsertRange (seq 0 20) :: Insert 7 :: InsertHint 3 30 :: EraseAt 4 :: EraseRange 2 9 :: EraseKey 15 :: Find 16 :: LowerBound 5 :: ExtractKey 18 :: CopyTo :: Backward ::
  EraseIf Nat.even :: Height :: Forward :: [Clear; Size].
(* go through the calls of a client *)
Ltac safe_step := split; [vm_compute; first [exact I|lia|repeat eexists]|let H := fresh in intros ? ? H; vm_compute in H;
  first [destruct H as [-> _] | destruct H as (? & ? & (? & ? & H) & -> & _); specialize (H eq_refl); subst]].
Example some_ops_safe : safe (fun x : nat => x) Nat.ltb false [] some_ops.
Proof. do 16 safe_step. exact I. Qed.
Example some_ops_run : exists b, run (fun x : nat => x) Nat.ltb 3 set_mode new_btree some_ops = Ok (b,
  [RUnit; RPos 7 false; RPos 20 true; RPos 4 true; RPos 2 true; RNum 1; RPos 7 true; RPos 2 true; ROpt (Some 18); RUnit; RList [30; 19; 17; 16; 14; 13; 12; 11; 10; 1; 0];
   RList [0; 1; 10; 11; 12; 13; 14; 16; 17; 19; 30]; RNum 2; RList [1; 11; 13; 17; 19]; RUnit; RNum 0]).
Proof. eexists. vm_compute. reflexivity. Qed.

(** ** C30: btree_map is a finite map *)
Theorem btree_map_is_finite_map {K M} (lt : K -> K -> bool) (kN : nat) (m : mode) (dflt : M) ops :
  swo lt -> 3 <= kN -> multi m = false ->
  exists b, mrun lt kN m dflt new_btree ops = Ok (b, msteps lt dflt (fun _ => None) ops).
Proof.
  intros Hlt HkN Hmu. destruct (mrun_spec lt kN m dflt Hlt HkN Hmu new_btree [] (fun _ => None) ops) as (b & l & Hr & _); eauto; [apply (repr_new fst lt kN m HkN)|done].
Qed.
Print Assumptions btree_map_is_finite_map.
(* a key type with equivalent keys that differ *)
Definition half_lt (a b : nat) : bool := a / 2 <? b / 2.
Lemma half_swo : swo half_lt.
Proof. unfold half_lt. split; intros; lia. Qed.
Definition some_mops : list (mop nat nat) := map (fun k => MInsert k (10 * k)) [9; 2; 5; 11; 3; 7; 4; 8; 6; 1; 0; 20; 30; 40] ++
  [MSet 3 1; MGet 2; MSet 50 5; MAt 51; MAt 60; MErase 10; MHas 11; MGet 13; MHas 12; MErase 100; MClear; MHas 2].
Example some_mops_run : exists b, mrun half_lt 3 set_mode3 77 new_btree some_mops = Ok (b,
  [MBool true; MBool true; MBool true; MBool true; MBool false; MBool true; MBool false; MBool false; MBool false; MBool true; MBool false; MBool true; MBool true; MBool true;
   MUnit; MVal 1; MUnit; MVal 5; MThrow; MNum 1; MBool false; MVal 77; MBool true; MNum 0; MUnit; MBool false]).
Proof. eexists. vm_compute. reflexivity. Qed.

(** ** trees that a client can reach *)
Section Reach.
Context {V K : Type} (key : V -> K) (lt : K -> K -> bool) (kN : nat) (m : mode).
Definition reachable (b : btree V) : Prop := exists ops rs, safe key lt (multi m) [] ops /\ run key lt kN m new_btree ops = Ok (b, rs).
Context (Hlt : swo lt) (HkN : 3 <= kN).
Lemma reachable_repr b : reachable b -> exists l, repr key lt kN m b l /\ values b = Ok l.
Proof.
  intros (ops & rs & Hs & Hr). destruct (run_spec key lt kN m Hlt HkN new_btree [] ops) as (b' & rs' & l & Hr' & _ & Hb); auto; [apply (repr_new key lt kN m HkN)|].
  rewrite Hr in Hr'. injection Hr' as <- <-. exists l. split; [done|]. pose proof Hb as (Hsh & Hel & _). by rewrite (values_spec key kN HkN b Hsh), Hel.
Qed.
Lemma repr_values b l : repr key lt kN m b l -> values b = Ok l.
Proof. intros (Hsh & Hel & _). by rewrite (values_spec key kN HkN b Hsh), Hel. Qed.
Lemma reachable_values b l : reachable b -> values b = Ok l -> repr key lt kN m b l.
Proof. intros Hb Hl. destruct (reachable_repr b Hb) as (l' & Hr & Hl'). congruence. Qed.
Lemma at_index_it b l i c : repr key lt kN m b l -> it (b_root b) i c -> at_index b i = Ok c.
Proof.
  intros Hb Hc. destruct (at_index_spec key lt kN m HkN b l i Hb) as (d & Hd & Hi); [by eapply (it_bound key lt kN m)|]. rewrite Hd. f_equal.
  eapply (unique_it kN b i); eauto. apply Hb.
Qed.
End Reach.

Definition a_set : btree nat := match run (fun x : nat => x) Nat.ltb 3 set_mode new_btree [InsertRange (seq 0 20)] with Ok (b, _) => b | _ => new_btree end.
Example a_set_reachable : reachable (fun x : nat => x) Nat.ltb 3 set_mode a_set /\ values a_set = Ok (seq 0 20).
Proof. split; [|by vm_compute]. exists [InsertRange (seq 0 20)], [RUnit]. split; [by safe_step|by vm_compute]. Qed.
(* pairs ordered by their first component *)
Definition a_multi : btree (nat * nat) :=
  match run fst Nat.ltb 3 multi_mode3 new_btree [InsertRange (map (fun i => (i mod 3, i)) (seq 0 14))] with Ok (b, _) => b | _ => new_btree end.
Example a_multi_reachable : reachable fst Nat.ltb 3 multi_mode3 a_multi /\
  values a_multi = Ok [(0,0);(0,3);(0,6);(0,9);(0,12);(1,1);(1,4);(1,7);(1,10);(1,13);(2,2);(2,5);(2,8);(2,11)].
Proof. split; [|by vm_compute]. exists [InsertRange (map (fun i => (i mod 3, i)) (seq 0 14))], [RUnit]. split; [by safe_step|by vm_compute]. Qed.

(** ** C31: multi containers *)
(* insert(v) puts v after every value that is not greater, before every greater one *)
Theorem btree_multi_insert_after_equivalents {V K} (key : V -> K) (lt : K -> K -> bool) kN m b l v : swo lt -> 3 <= kN -> multi m = true ->
  reachable key lt kN m b -> values b = Ok l ->
  exists b' A B, call key lt kN m b (Insert v) = Ok (b', RPos (length A) true) /\ l = A ++ B /\ values b' = Ok (A ++ v :: B) /\
    Forall (fun w => lt (key v) (key w) = false) A /\ Forall (fun w => lt (key v) (key w) = true) B.
Proof.
  intros Hlt HkN Hmu Hb Hl. pose proof (reachable_values key lt kN m Hlt HkN b l Hb Hl) as Hr. pose proof (repr_sorted key lt kN m b l Hr) as Hs.
  destruct (call_spec key lt kN m Hlt HkN b l (Insert v) Hr I) as (b' & r & l' & Hc & Hst & Hb'). cbn in Hst. rewrite Hmu in Hst. destruct Hst as [-> ->].
  pose proof (upper_le key lt (key v) l) as Hle. exists b', (take (upper key lt (key v) l) l), (drop (upper key lt (key v) l) l).
  rewrite take_length. replace (upper key lt (key v) l `min` length l) with (upper key lt (key v) l) by lia. split; [done|]. split; [by rewrite take_drop|].
  split; [by rewrite (repr_values key lt kN m HkN b' _ Hb')|]. split; apply Forall_lookup; intros j w Hw.
  - rewrite lookup_take_Some in Hw. destruct Hw as [Hw Hj]. rewrite (upper_lookup key lt (multi m) Hlt (key v) l j w Hs Hw). lia.
  - rewrite lookup_drop in Hw. rewrite (upper_lookup key lt (multi m) Hlt (key v) l _ w Hs Hw). lia.
Qed.
Print Assumptions btree_multi_insert_after_equivalents.
Example btree_multi_insert_case : exists b', call fst Nat.ltb 3 multi_mode3 a_multi (Insert (1, 100)) = Ok (b', RPos 10 true) /\
  values b' = Ok [(0,0);(0,3);(0,6);(0,9);(0,12);(1,1);(1,4);(1,7);(1,10);(1,13);(1,100);(2,2);(2,5);(2,8);(2,11)].
Proof. eexists. crunch. Qed.
(* so values with equivalent keys stay in the order of their insertion, and no value is lost *)
Theorem btree_multi_insertion_order {V K} (key : V -> K) (lt : K -> K -> bool) kN m vs : swo lt -> 3 <= kN -> multi m = true ->
  exists b rs l, run key lt kN m new_btree (map Insert vs) = Ok (b, rs) /\ values b = Ok l /\ l ≡ₚ vs /\
    forall k, List.filter (fun v => equiv lt (key v) k) l = List.filter (fun v => equiv lt (key v) k) vs.
Proof.
  intros Hlt HkN Hmu. cut (forall b l, repr key lt kN m b l -> exists b' rs l', run key lt kN m b (map Insert vs) = Ok (b', rs) /\ repr key lt kN m b' l' /\ l' ≡ₚ l ++ vs /\
    forall k, List.filter (fun v => equiv lt (key v) k) l' = List.filter (fun v => equiv lt (key v) k) (l ++ vs)).
  { intros Hx. destruct (Hx new_btree [] (repr_new key lt kN m HkN)) as (b & rs & l & Hr & Hb & Hp & Hf). exists b, rs, l. split; [done|].
    split; [by apply (repr_values key lt kN m HkN)|]. done. }
  induction vs as [|v vs IH]; intros b l Hb; cbn [map run].
  - exists b, [], l. rewrite app_nil_r. done.
  - pose proof (repr_sorted key lt kN m b l Hb) as Hs. destruct (call_spec key lt kN m Hlt HkN b l (Insert v) Hb I) as (b1 & r & l1 & -> & Hst & Hb1). cbn in Hst. rewrite Hmu in Hst.
    destruct Hst as [-> ->]. cbn [rbind]. destruct (IH b1 _ Hb1) as (b' & rs & l' & -> & Hb' & Hp & Hf). cbn [rbind]. eexists b', _, l'. split; [reflexivity|]. split; [done|].
    unfold insert_spec in Hp, Hf. cbn [negb andb] in Hp, Hf. unfold insert_at in Hp, Hf. split.
    + rewrite Hp. clear Hp Hf. generalize (upper key lt (key v) l). intros n. rewrite <- (Permutation_middle l vs v).
      transitivity ((v :: take n l ++ drop n l) ++ vs); [|by rewrite take_drop]. apply Permutation_app_tail. symmetry. apply Permutation_middle.
    + intros k. rewrite Hf, !List.filter_app. cbn [List.filter]. replace (List.filter (fun w => equiv lt (key w) k) l) with (List.filter (fun w => equiv lt (key w) k) (take (upper key lt (key v) l) l ++ drop (upper key lt (key v) l) l)) by (by rewrite take_drop).
      rewrite !List.filter_app, <- !app_assoc. f_equal.
      destruct (equiv lt (key v) k) eqn:E; cbn [app]; [|done].
      replace (List.filter (fun w => equiv lt (key w) k) (drop (upper key lt (key v) l) l)) with (@nil V); [done|]. symmetry. apply filter_none. apply Forall_lookup.
      intros j w Hw. rewrite lookup_drop in Hw. pose proof (upper_lookup key lt (multi m) Hlt (key v) l _ w Hs Hw) as Hu.
      destruct (lt_cong lt Hlt (key w) k (key v) E) as [_ H2]. unfold equiv. rewrite <- H2, Hu. lia.
Qed.
Print Assumptions btree_multi_insertion_order.
Example btree_multi_insertion_order_case : exists b rs, run fst Nat.ltb 3 multi_mode new_btree (map Insert [(2,1);(1,2);(2,3);(1,4);(2,5);(2,6);(2,7);(1,8);(0,9);(2,10)]) = Ok (b, rs) /\
  values b = Ok [(0,9);(1,2);(1,4);(1,8);(2,1);(2,3);(2,5);(2,6);(2,7);(2,10)].
Proof. do 2 eexists. crunch. Qed.
(* count(k) and erase(k), for sets too *)
Theorem btree_count_and_erase_key {V K} (key : V -> K) (lt : K -> K -> bool) kN m b l k : swo lt -> 3 <= kN ->
  reachable key lt kN m b -> values b = Ok l ->
  let n := length (List.filter (fun v => equiv lt (key v) k) l) in
  call key lt kN m b (Count k) = Ok (b, RNum n) /\
  exists b', call key lt kN m b (EraseKey k) = Ok (b', RNum n) /\ values b' = Ok (List.filter (fun v => negb (equiv lt (key v) k)) l).
Proof.
  intros Hlt HkN Hb Hl n. pose proof (reachable_values key lt kN m Hlt HkN b l Hb Hl) as Hr. split.
  - destruct (call_spec key lt kN m Hlt HkN b l (Count k) Hr I) as (b' & r & l' & Hc & [-> ->] & Hb'). rewrite Hc. do 2 f_equal. cbn in Hc.
    destruct (multi m); [destruct (count_multi key lt m b k)|destruct (count_unique key lt m b k)]; cbn in Hc; congruence.
  - destruct (call_spec key lt kN m Hlt HkN b l (EraseKey k) Hr I) as (b' & r & l' & Hc & [-> ->] & Hb'). exists b'. split; [done|]. by apply (repr_values key lt kN m HkN).
Qed.
Print Assumptions btree_count_and_erase_key.
Example btree_count_and_erase_case : call fst Nat.ltb 3 multi_mode3 a_multi (Count 1) = Ok (a_multi, RNum 5) /\
  exists b', call fst Nat.ltb 3 multi_mode3 a_multi (EraseKey 1) = Ok (b', RNum 5) /\ values b' = Ok [(0,0);(0,3);(0,6);(0,9);(0,12);(2,2);(2,5);(2,8);(2,11)].
Proof. split; [by vm_compute|]. eexists. crunch. Qed.

(** ** C32: iteration *)
Theorem btree_iterates_sorted {V K} (key : V -> K) (lt : K -> K -> bool) kN m b : swo lt -> 3 <= kN -> reachable key lt kN m b ->
  exists l, values b = Ok l /\ rvalues b = Ok (rev l) /\ b_size b = length l /\
    forall i j v w, l !! i = Some v -> l !! j = Some w -> i < j -> if multi m then lt (key w) (key v) = false else lt (key v) (key w) = true.
Proof.
  intros Hlt HkN Hb. destruct (reachable_repr key lt kN m Hlt HkN b Hb) as (l & Hr & Hl). exists l. pose proof Hr as (Hsh & Hel & Hs). split_and!; auto.
  - by rewrite (rvalues_spec key kN HkN b Hsh), Hel.
  - by apply (repr_size key lt kN m b l).
  - intros i j v w Hi Hj Hij. clear Hr Hl Hel. revert i j Hi Hj Hij. induction Hs as [|x l Hs IH Hf]; intros i j Hi Hj Hij; [done|].
    destruct j as [|j]; [lia|]. cbn in Hj. destruct i as [|i]; cbn in Hi.
    + injection Hi as ->. rewrite Forall_forall in Hf. specialize (Hf w (elem_of_list_lookup_2 _ _ _ Hj)). unfold rel in Hf. destruct (multi m); [by destruct (lt (key w) (key v))|done].
    + apply (IH i j); auto. lia.
Qed.
Print Assumptions btree_iterates_sorted.
(* the iterator after i increments denotes element i; -- undoes ++, ++ undoes -- *)
Theorem btree_iterators_step {V K} (key : V -> K) (lt : K -> K -> bool) kN m b l i : swo lt -> 3 <= kN -> reachable key lt kN m b -> values b = Ok l -> i < length l ->
  exists c d v, at_index b i = Ok c /\ l !! i = Some v /\ value c = Ok v /\ next c = Ok d /\ at_index b (S i) = Ok d /\ prev d = Ok c.
Proof.
  intros Hlt HkN Hb Hl Hi. pose proof (reachable_values key lt kN m Hlt HkN b l Hb Hl) as Hr.
  destruct (at_index_spec key lt kN m HkN b l i Hr) as (c & Hc & Hic); [lia|]. destruct (value_it key lt kN m b l i c Hr Hic Hi) as (v & Hv & Hvc).
  destruct (next_r key lt kN m b l i c Hr Hic Hi) as (d & Hd & Hid). exists c, d, v. split_and!; auto; [by eapply (at_index_it key lt kN m HkN)|].
  destruct (prev_r key lt kN m b l i d Hr Hid) as (c' & Hp & Hic' & _). rewrite Hp. f_equal. eapply (unique_it kN b i); eauto. apply Hr.
Qed.
Print Assumptions btree_iterators_step.
Example btree_iterates_case : rvalues a_set = Ok (rev (seq 0 20)) /\ b_size a_set = 20.
Proof. by vm_compute. Qed.

(** ** C33: erase returns the successor *)
Theorem btree_erase_returns_successor {V K} (key : V -> K) (lt : K -> K -> bool) kN m b l i c : swo lt -> 3 <= kN -> reachable key lt kN m b -> values b = Ok l -> i < length l ->
  at_index b i = Ok c -> exists b' c', erase kN b c = Ok (b', c') /\ values b' = Ok (take i l ++ drop (S i) l) /\ at_index b' i = Ok c' /\
    forall w, l !! (S i) = Some w -> value c' = Ok w.
Proof.
  intros Hlt HkN Hb Hl Hi Hc. pose proof (reachable_values key lt kN m Hlt HkN b l Hb Hl) as Hr.
  destruct (at_index_spec key lt kN m HkN b l i Hr) as (c0 & Hc0 & Hic); [lia|]. assert (c0 = c) as -> by congruence.
  destruct (erase_it key lt kN m HkN b l i c Hr Hic Hi) as (b' & c' & He & Hb' & Hic'). exists b', c'. split; [done|]. unfold remove_at in Hb'. rewrite Nat.add_1_r in Hb'.
  split; [by apply (repr_values key lt kN m HkN)|]. split; [by eapply (at_index_it key lt kN m HkN)|]. intros w Hw.
  assert (Hw' : (take i l ++ drop (S i) l) !! i = Some w).
  { rewrite lookup_app_r; rewrite take_length; [|lia]. rewrite lookup_drop. replace (S i + (i - i `min` length l)) with (S i) by lia. done. }
  destruct (value_it key lt kN m b' _ i c' Hb' Hic') as (w' & Hw'' & Hv); [by eapply lookup_lt_Some|]. congruence.
Qed.
Print Assumptions btree_erase_returns_successor.
Theorem btree_erase_range_returns_successor {V K} (key : V -> K) (lt : K -> K -> bool) kN m b l i j c d : swo lt -> 3 <= kN -> reachable key lt kN m b -> values b = Ok l -> i <= j <= length l ->
  at_index b i = Ok c -> at_index b j = Ok d -> exists b' c', erase_range kN b c d = Ok (b', j - i, c') /\ values b' = Ok (take i l ++ drop j l) /\ at_index b' i = Ok c'.
Proof.
  intros Hlt HkN Hb Hl Hi Hc Hd. pose proof (reachable_values key lt kN m Hlt HkN b l Hb Hl) as Hr.
  destruct (at_index_spec key lt kN m HkN b l i Hr) as (c0 & Hc0 & Hic); [lia|]. assert (c0 = c) as -> by congruence.
  destruct (at_index_spec key lt kN m HkN b l j Hr) as (d0 & Hd0 & Hid); [lia|]. assert (d0 = d) as -> by congruence.
  destruct (erase_range_spec key lt kN m HkN b l i j c d Hr Hic Hid) as (b' & c' & He & Hb' & Hic'); [lia|]. exists b', c'. split; [done|].
  unfold remove_at in Hb'. replace (i + (j - i)) with j in Hb' by lia. split; [by apply (repr_values key lt kN m HkN)|]. by eapply (at_index_it key lt kN m HkN).
Qed.
Print Assumptions btree_erase_range_returns_successor.
Example btree_erase_case : exists c b' c', at_index a_set 9 = Ok c /\ erase 3 a_set c = Ok (b', c') /\ value c' = Ok 10 /\ values b' = Ok (seq 0 9 ++ seq 10 10).
Proof. do 3 eexists. crunch. Qed.
Example btree_erase_range_case : exists c d b' c', at_index a_set 2 = Ok c /\ at_index a_set 17 = Ok d /\ erase_range 3 a_set c d = Ok (b', 15, c') /\ value c' = Ok 17 /\ values b' = Ok [0; 1; 17; 18; 19].
Proof. do 4 eexists. crunch. Qed.

(** ** C34: balance *)
(* the nodes below a node, and the lengths of the paths from a node to the leaves *)
Inductive below {V} : node V -> node V -> Prop :=
| below_first a k0 rest : below k0 (Node a k0 rest)
| below_rest a k0 rest v t : In (v, t) rest -> below t (Node a k0 rest)
| below_trans s t u : below s t -> below t u -> below s u.
Inductive leaf_depth {V} : node V -> nat -> Prop :=
| depth_leaf : leaf_depth Nil 0
| depth_first a k0 rest n : leaf_depth k0 n -> leaf_depth (Node a k0 rest) (S n)
| depth_rest a k0 rest v t n : In (v, t) rest -> leaf_depth t n -> leaf_depth (Node a k0 rest) (S n).
Lemma wf_below {V} kN h (s t : node V) : below s t -> wf kN h t -> exists h', wf kN h' s.
Proof.
  intros Hb. revert h. induction Hb as [a k0 rest|a k0 rest v t Hin|s t u H1 IH1 H2 IH2]; intros h Hw.
  - destruct h; [done|]. destruct Hw as (_ & Hw & _). eauto.
  - destruct h as [|h]; [done|]. destruct Hw as (_ & _ & Hw). exists h. rewrite List.Forall_forall in Hw. apply (Hw _ Hin).
  - destruct (IH2 h Hw) as [h' Hw']. eauto.
Qed.
Lemma wf_depth {V} kN (t : node V) n : leaf_depth t n -> forall h, wf kN h t -> n = h.
Proof.
  induction 1 as [|a k0 rest n Hd IH|a k0 rest v t n Hin Hd IH]; intros h Hw.
  - by destruct h.
  - destruct h as [|h]; [done|]. destruct Hw as (_ & Hw & _). f_equal. eauto.
  - destruct h as [|h]; [done|]. destruct Hw as (_ & _ & Hw). rewrite List.Forall_forall in Hw. f_equal. apply IH, (Hw _ Hin).
Qed.
Theorem btree_stays_balanced {V K} (key : V -> K) (lt : K -> K -> bool) kN m b : swo lt -> 3 <= kN -> reachable key lt kN m b ->
  exists h, (forall n, leaf_depth (b_root b) n -> n = h) /\
    (forall s, s = b_root b \/ below s (b_root b) -> s <> Nil -> 1 <= ncount s <= kN) /\
    2 ^ h <= S (b_size b) /\ height_ b = Ok h.
Proof.
  intros Hlt HkN Hb. destruct (reachable_repr key lt kN m Hlt HkN b Hb) as (l & Hr & Hl). pose proof Hr as (Hsh & Hel & Hs).
  destruct (height_spec key kN HkN b Hsh) as (h & Hh & Hp & Hw). exists h. split; [intros n Hn; by eapply wf_depth|].
  split; [|split; [by rewrite (repr_size key lt kN m b l Hr), <- Hel|done]].
  intros s Hs' Hn. assert (exists h', wf kN h' s) as [h' Hw'] by (destruct Hs' as [->|Hs']; [eauto|by eapply wf_below]).
  destruct h' as [|h'], s as [|a k0 rest]; try done. apply Hw'.
Qed.
Print Assumptions btree_stays_balanced.
Example btree_balanced_case : height_ a_set = Ok 3 /\ ncount (b_root a_set) = 1 /\ leaf_depth (b_root a_set) 3.
Proof. split; [by vm_compute|]. split; [by vm_compute|]. vm_compute. do 3 constructor. constructor. Qed.

(** ** C35: searches *)
Theorem btree_bounds {V K} (key : V -> K) (lt : K -> K -> bool) kN m b l k : swo lt -> 3 <= kN -> reachable key lt kN m b -> values b = Ok l ->
  exists i j c d, lower_bound key lt m b k = Ok c /\ at_index b i = Ok c /\ upper_bound key lt m b k = Ok d /\ at_index b j = Ok d /\ i <= j <= length l /\
    forall n v, l !! n = Some v -> lt (key v) k = (n <? i) /\ lt k (key v) = (j <=? n) /\ equiv lt (key v) k = (i <=? n) && (n <? j).
Proof.
  intros Hlt HkN Hb Hl. pose proof (reachable_values key lt kN m Hlt HkN b l Hb Hl) as Hr. pose proof (repr_sorted key lt kN m b l Hr) as Hs.
  destruct (lower_bound_spec key lt kN m Hlt HkN b l k Hr) as (c & Hc & Hic). destruct (upper_bound_spec key lt kN m Hlt HkN b l k Hr) as (d & Hd & Hid).
  exists (lower key lt k l), (upper key lt k l), c, d. split_and!; auto; try (by eapply (at_index_it key lt kN m HkN)); [by apply lower_upper|apply upper_le|].
  intros n v Hn. rewrite (lower_lookup key lt (multi m) Hlt k l n v Hs Hn). rewrite (equiv_lookup key lt kN m Hlt HkN k l n v Hs Hn).
  rewrite (upper_lookup key lt (multi m) Hlt k l n v Hs Hn). split_and!; [done|lia|done].
Qed.
Print Assumptions btree_bounds.
(* find gives an equivalent value, or end() if there is none *)
Theorem btree_find {V K} (key : V -> K) (lt : K -> K -> bool) kN m b l k : swo lt -> 3 <= kN -> reachable key lt kN m b -> values b = Ok l ->
  exists c, find key lt m b k = Ok c /\
    ((exists i v, at_index b i = Ok c /\ l !! i = Some v /\ value c = Ok v /\ equiv lt (key v) k = true /\ (three m && multi m = false -> forall n w, n < i -> l !! n = Some w -> equiv lt (key w) k = false)) \/
     (end_ b = Ok c /\ Forall (fun v => equiv lt (key v) k = false) l)).
Proof.
  intros Hlt HkN Hb Hl. pose proof (reachable_values key lt kN m Hlt HkN b l Hb Hl) as Hr. pose proof (repr_sorted key lt kN m b l Hr) as Hs.
  destruct (find_spec key lt kN m Hlt HkN b l k Hr) as (c & Hf & Hc). exists c. split; [done|]. destruct (has key lt k l) eqn:Hh.
  - left. destruct Hc as (i & v & Hc & Hv & He & Hi). exists i, v. destruct (value_it key lt kN m b l i c Hr Hc) as (v' & Hv' & Hvc); [by eapply lookup_lt_Some|].
    split_and!; auto; [by eapply (at_index_it key lt kN m HkN)|congruence|]. intros Hmm n w Hn Hw. rewrite (Hi Hmm) in Hn. rewrite (equiv_lookup key lt kN m Hlt HkN k l n w Hs Hw). lia.
  - right. split.
    + destruct (end_it key lt kN m b l Hr) as (e & He & Hie). rewrite He. f_equal. eapply (unique_it kN b); eauto. apply Hr.
    + apply List.Forall_forall. intros v Hv. destruct (equiv lt (key v) k) eqn:E; [|done]. exfalso. unfold has in Hh. assert (existsb (fun v => equiv lt (key v) k) l = true); [|congruence].
      apply List.existsb_exists. eauto.
Qed.
Print Assumptions btree_find.
(* linear and binary searches, bool and three-way comparators find the same *)
Theorem btree_searches_agree {V K} (key : V -> K) (lt : K -> K -> bool) kN m m' b k : swo lt -> 3 <= kN -> multi m' = multi m -> reachable key lt kN m b ->
  lower_bound key lt m' b k = lower_bound key lt m b k /\ upper_bound key lt m' b k = upper_bound key lt m b k /\
  (multi m = false -> find key lt m' b k = find key lt m b k).
Proof.
  intros Hlt HkN Hmm Hb. destruct (reachable_repr key lt kN m Hlt HkN b Hb) as (l & Hr & Hl).
  assert (Hr' : repr key lt kN m' b l) by (unfold repr; by rewrite Hmm). pose proof Hr as (Hsh & _).
  destruct (lower_bound_spec key lt kN m Hlt HkN b l k Hr) as (c1 & -> & H1). destruct (lower_bound_spec key lt kN m' Hlt HkN b l k Hr') as (c2 & -> & H2).
  destruct (upper_bound_spec key lt kN m Hlt HkN b l k Hr) as (c3 & -> & H3). destruct (upper_bound_spec key lt kN m' Hlt HkN b l k Hr') as (c4 & -> & H4).
  split; [f_equal; by eapply (unique_it kN b)|]. split; [f_equal; by eapply (unique_it kN b)|]. intros Hmu.
  destruct (find_spec key lt kN m Hlt HkN b l k Hr) as (c5 & -> & H5). destruct (find_spec key lt kN m' Hlt HkN b l k Hr') as (c6 & -> & H6).
  f_equal. destruct (has key lt k l).
  - destruct H5 as (i & v & H5 & _ & _ & Hi), H6 as (i' & v' & H6 & _ & _ & Hi'). rewrite Hmm in Hi'. rewrite Hmu, andb_false_r in Hi, Hi'.
    rewrite (Hi eq_refl) in H5. rewrite (Hi' eq_refl) in H6. by eapply (unique_it kN b).
  - by eapply (unique_it kN b).
Qed.
Print Assumptions btree_searches_agree.
Example btree_bounds_case : call fst Nat.ltb 3 multi_mode3 a_multi (EqualRange 1) = Ok (a_multi, RPair 5 10) /\ call fst Nat.ltb 3 multi_mode a_multi (EqualRange 1) = Ok (a_multi, RPair 5 10).
Proof. by vm_compute. Qed.
(* find of a multi container with a three-way comparator need not give the first of the equivalents *)
Theorem btree_find_first_of_equivalents_refuted : exists (b : btree (nat * nat)) c v, reachable fst Nat.ltb 3 multi_mode3 b /\
  find fst Nat.ltb multi_mode3 b 1 = Ok c /\ value c = Ok v /\ exists d w, lower_bound fst Nat.ltb multi_mode3 b 1 = Ok d /\ value d = Ok w /\ fst w = 1 /\ w <> v.
Proof.
  exists a_multi. do 2 eexists. split; [apply a_multi_reachable|]. split; [vm_compute; reflexivity|]. split; [vm_compute; reflexivity|].
  do 2 eexists. split; [vm_compute; reflexivity|]. split; [vm_compute; reflexivity|]. split; [done|]. vm_compute. congruence.
Qed.
Print Assumptions btree_find_first_of_equivalents_refuted.

(** ** C49: erase_if *)
(* for any function object: it is asked about every value once, in order, and what it rejects stays *)
Theorem btree_erase_if_exact {V K S} (key : V -> K) (lt : K -> K -> bool) kN m b l (pred : S -> V -> S * bool) s : swo lt -> 3 <= kN -> reachable key lt kN m b -> values b = Ok l ->
  exists b', erase_if kN pred s b = Ok (b', fst (kept pred s l)) /\ values b' = Ok (snd (kept pred s l)) /\ b_size b' = length (snd (kept pred s l)).
Proof.
  intros Hlt HkN Hb Hl. pose proof (reachable_values key lt kN m Hlt HkN b l Hb Hl) as Hr.
  destruct (erase_if_spec key lt kN m HkN pred s b l Hr) as (b' & He & Hb'). exists b'. split; [done|]. split; [by apply (repr_values key lt kN m HkN)|]. by eapply (repr_size key lt kN m).
Qed.
Print Assumptions btree_erase_if_exact.
Example btree_erase_if_case : exists b', erase_if 3 (fun n v => (n + v, Nat.odd n)) 0 a_set = Ok (b', 190) /\ values b' = Ok [0; 1; 4; 5; 8; 9; 12; 13; 16; 17].
Proof. eexists. crunch. Qed.

(** ** operations on two containers *)
(* copies, comparisons *)
Theorem btree_copy_equal {V K} (key : V -> K) (lt : K -> K -> bool) kN m b l : swo lt -> 3 <= kN -> reachable key lt kN m b -> values b = Ok l ->
  exists b', copy key lt kN m b = Ok b' /\ values b' = Ok l /\ b_size b' = b_size b.
Proof.
  intros Hlt HkN Hb Hl. pose proof (reachable_values key lt kN m Hlt HkN b l Hb Hl) as Hr. destruct (copy_spec key lt kN m Hlt HkN b l Hr) as (b' & Hc & Hb').
  exists b'. split; [done|]. split; [by apply (repr_values key lt kN m HkN)|]. by rewrite (repr_size key lt kN m b l Hr), (repr_size key lt kN m b' l Hb').
Qed.
Print Assumptions btree_copy_equal.
Example btree_copy_case : exists b', copy (fun x : nat => x) Nat.ltb 3 set_mode a_set = Ok b' /\ values b' = Ok (seq 0 20).
Proof. eexists. crunch. Qed.
Theorem btree_equality {V K} (key : V -> K) (lt : K -> K -> bool) kN m (eqv : V -> V -> bool) x y xs ys : swo lt -> 3 <= kN -> reachable key lt kN m x -> reachable key lt kN m y ->
  values x = Ok xs -> values y = Ok ys -> (forall v w, eqv v w = true <-> v = w) -> exists r, equals eqv x y = Ok r /\ (r = true <-> xs = ys).
Proof.
  intros Hlt HkN Hx Hy Hxs Hys He. destruct (reachable_values key lt kN m Hlt HkN x xs Hx Hxs) as (Hsx & Hex & _). destruct (reachable_values key lt kN m Hlt HkN y ys Hy Hys) as (Hsy & Hey & _).
  rewrite (equals_spec key kN HkN eqv x y Hsx Hsy), Hex, Hey. eexists. split; [reflexivity|]. clear -He. revert ys. induction xs as [|v xs IH]; intros [|w ys]; cbn; try (split; congruence).
  specialize (IH ys). specialize (He v w). rewrite !andb_true_iff in *. cbn in IH. rewrite He. split; [intros (H1 & -> & H2); f_equal; tauto|intros [= -> ->]; tauto].
Qed.
Print Assumptions btree_equality.
Example btree_equality_case : equals Nat.eqb a_set a_set = Ok true.
Proof. by vm_compute. Qed.
(* the order of the lists, std::lexicographical_compare *)
Inductive lex {V} (ltv : V -> V -> bool) : list V -> list V -> Prop :=
| lex_nil y ys : lex ltv [] (y :: ys)
| lex_head x y xs ys : ltv x y = true -> lex ltv (x :: xs) (y :: ys)
| lex_tail x y xs ys : ltv x y = false -> ltv y x = false -> lex ltv xs ys -> lex ltv (x :: xs) (y :: ys).
Theorem btree_less {V K} (key : V -> K) (lt : K -> K -> bool) kN m (ltv : V -> V -> bool) x y xs ys : swo lt -> 3 <= kN -> reachable key lt kN m x -> reachable key lt kN m y ->
  values x = Ok xs -> values y = Ok ys -> exists r, less ltv x y = Ok r /\ (r = true <-> lex ltv xs ys).
Proof.
  intros Hlt HkN Hx Hy Hxs Hys. destruct (reachable_values key lt kN m Hlt HkN x xs Hx Hxs) as (Hsx & Hex & _). destruct (reachable_values key lt kN m Hlt HkN y ys Hy Hys) as (Hsy & Hey & _).
  rewrite (less_spec key kN HkN ltv x y Hsx Hsy), Hex, Hey. eexists. split; [reflexivity|]. clear. revert ys. induction xs as [|v xs IH]; intros [|w ys]; cbn.
  - split; [done|inversion 1].
  - split; [constructor|done].
  - split; [done|inversion 1].
  - destruct (ltv v w) eqn:E1; [split; [by constructor|done]|]. destruct (ltv w v) eqn:E2.
    + split; [done|]. inversion 1; congruence.
    + rewrite IH. split; [by apply lex_tail|]. inversion 1; congruence.
Qed.
Print Assumptions btree_less.
Example btree_less_case : exists b, run (fun x : nat => x) Nat.ltb 3 set_mode new_btree (map Insert [0; 1; 3]) = Ok (b, [RPos 0 true; RPos 1 true; RPos 2 true]) /\ less Nat.ltb a_set b = Ok true.
Proof. eexists. crunch. Qed.

(** merge: nothing is lost or duplicated, whatever the order of the source *)
Lemma insert_perm {V} i v (l : list V) : insert_at i v l ≡ₚ v :: l.
Proof. unfold insert_at. rewrite <- Permutation_middle. by rewrite take_drop. Qed.
Lemma left_over_perm {V K} (key : V -> K) lt l vs : fold_left (fun l v => set_insert key lt v l) vs l ++ left_over key lt l vs ≡ₚ l ++ vs.
Proof.
  revert l. induction vs as [|v vs IH]; intros l; cbn [fold_left left_over]; [done|]. destruct (has key lt (key v) l) eqn:E.
  - unfold set_insert at 2. rewrite E, <- !Permutation_middle. by rewrite IH.
  - rewrite IH. unfold set_insert. rewrite E, insert_perm. by rewrite <- Permutation_middle.
Qed.
Theorem btree_set_merge_conserves {V K} (key : V -> K) (lt lt2 : K -> K -> bool) kN m m2 b src l ls : swo lt -> swo lt2 -> 3 <= kN -> multi m = false ->
  reachable key lt kN m b -> values b = Ok l -> reachable key lt2 kN m2 src -> values src = Ok ls ->
  exists b' src' l' ls', merge_unique key lt kN m b src = Ok (b', src') /\ values b' = Ok l' /\ values src' = Ok ls' /\ l' ++ ls' ≡ₚ l ++ ls /\ sorted key lt false l' /\
    b_size b' = length l' /\ b_size src' = length ls'.
Proof.
  intros Hlt Hlt2 HkN Hmu Hb Hl Hsrc Hls. pose proof (reachable_values key lt kN m Hlt HkN b l Hb Hl) as Hr. pose proof (reachable_values key lt2 kN m2 Hlt2 HkN src ls Hsrc Hls) as (Hsh & He & _).
  destruct (merge_unique_spec key lt kN m Hlt HkN b l src Hmu Hr Hsh) as (b' & src' & Hm & Hb' & Hs' & He'). rewrite He in *.
  exists b', src'. do 2 eexists. split; [done|]. split; [by apply (repr_values key lt kN m HkN)|]. split; [by rewrite (values_spec key kN HkN src' Hs'), He'|].
  split; [apply left_over_perm|]. pose proof (repr_sorted key lt kN m b' _ Hb') as Hso. rewrite Hmu in Hso. split; [done|]. split; [by apply (repr_size key lt kN m)|].
  by rewrite (size_shape kN src' Hs'), He'.
Qed.
Print Assumptions btree_set_merge_conserves.
(** between sets with one order, what stays in the source is what the target already had *)
Theorem btree_set_merge_exact {V K} (key : V -> K) (lt : K -> K -> bool) kN m b src l ls : swo lt -> 3 <= kN -> multi m = false ->
  reachable key lt kN m b -> values b = Ok l -> reachable key lt kN m src -> values src = Ok ls ->
  exists b' src' l', merge_unique key lt kN m b src = Ok (b', src') /\ values b' = Ok l' /\ sorted key lt false l' /\
    l' ≡ₚ l ++ List.filter (fun v => negb (existsb (fun w => equiv lt (key w) (key v)) l)) ls /\
    values src' = Ok (List.filter (fun v => existsb (fun w => equiv lt (key w) (key v)) l) ls).
Proof.
  intros Hlt HkN Hmu Hb Hl Hsrc Hls. pose proof (reachable_values key lt kN m Hlt HkN b l Hb Hl) as Hr. pose proof (reachable_values key lt kN m Hlt HkN src ls Hsrc Hls) as (Hsh & He & Hso).
  destruct (merge_unique_spec key lt kN m Hlt HkN b l src Hmu Hr Hsh) as (b' & src' & Hm & Hb' & Hs' & He'). rewrite He in *.
  exists b', src'. eexists. split; [done|]. split; [by apply (repr_values key lt kN m HkN)|]. pose proof (repr_sorted key lt kN m b' _ Hb') as Hs2. rewrite Hmu in Hs2, Hso. split; [done|].
  assert (Hlo : left_over key lt l ls = List.filter (fun v => existsb (fun w => equiv lt (key w) (key v)) l) ls).
  { clear -Hlt Hso. cut (forall l', (forall v, In v ls -> has key lt (key v) l' = has key lt (key v) l) -> left_over key lt l' ls = List.filter (fun v => has key lt (key v) l) ls).
    { intros Hx. by apply Hx. }
    induction Hso as [|v ls Hs IH Hf]; intros l' Hl'; cbn [left_over List.filter]; [done|]. pose proof (Hl' v (or_introl eq_refl)) as Hv. rewrite Hv. destruct (has key lt (key v) l) eqn:E.
    - f_equal. apply IH. intros w Hw. apply Hl'. by right.
    - apply IH. intros w Hw. rewrite <- (Hl' w (or_intror Hw)). unfold set_insert. rewrite Hv. unfold has, insert_at. rewrite List.existsb_app. cbn [existsb].
      rewrite List.Forall_forall in Hf. specialize (Hf w Hw). cbn in Hf. unfold rel in Hf. unfold equiv at 2. rewrite Hf. cbn [negb andb orb].
      rewrite <- List.existsb_app. by rewrite take_drop. }
  split; [|by rewrite (values_spec key kN HkN src' Hs'), He', Hlo].
  eapply (Permutation_app_inv_r (left_over key lt l ls)). rewrite left_over_perm, Hlo, <- app_assoc. apply Permutation_app_head. clear. induction ls as [|v ls IH]; cbn [List.filter]; [done|].
  destruct (existsb (fun w => equiv lt (key w) (key v)) l); cbn [negb]; [by rewrite <- Permutation_middle, <- IH|by rewrite IH at 1].
Qed.
Print Assumptions btree_set_merge_exact.
Definition odds : btree nat := match run (fun x : nat => x) Nat.ltb 3 set_mode new_btree [InsertRange (map (fun i => 2 * i + 1) (seq 0 12))] with Ok (b, _) => b | _ => new_btree end.
Example btree_set_merge_case : reachable (fun x : nat => x) Nat.ltb 3 set_mode odds /\ exists b' src', merge_unique (fun x : nat => x) Nat.ltb 3 set_mode a_set odds = Ok (b', src') /\
  values b' = Ok (seq 0 20 ++ [21; 23]) /\ values src' = Ok [1; 3; 5; 7; 9; 11; 13; 15; 17; 19].
Proof. split; [|do 2 eexists; crunch]. exists [InsertRange (map (fun i => 2 * i + 1) (seq 0 12))], [RUnit]. split; [by safe_step|by vm_compute]. Qed.
Theorem btree_multi_merge {V K} (key : V -> K) (lt lt2 : K -> K -> bool) kN m m2 b src l ls : swo lt -> swo lt2 -> 3 <= kN -> multi m = true ->
  reachable key lt kN m b -> values b = Ok l -> reachable key lt2 kN m2 src -> values src = Ok ls ->
  exists b' src' l', merge_multi key lt kN m b src = Ok (b', src') /\ values b' = Ok l' /\ values src' = Ok [] /\ l' ≡ₚ l ++ ls /\ sorted key lt true l'.
Proof.
  intros Hlt Hlt2 HkN Hmu Hb Hl Hsrc Hls. pose proof (reachable_values key lt kN m Hlt HkN b l Hb Hl) as Hr. pose proof (reachable_values key lt2 kN m2 Hlt2 HkN src ls Hsrc Hls) as (Hsh & He & _).
  destruct (merge_multi_spec key lt kN m Hlt HkN b l src Hmu Hr Hsh) as (b' & Hm & Hb'). rewrite He in *. exists b', new_btree. eexists. split; [done|].
  split; [by apply (repr_values key lt kN m HkN)|]. split; [done|]. pose proof (repr_sorted key lt kN m b' _ Hb') as Hso. rewrite Hmu in Hso. split; [|done].
  clear. revert l. induction ls as [|v ls IH]; intros l; cbn [fold_left]; [by rewrite app_nil_r|]. rewrite IH, insert_perm. by rewrite <- Permutation_middle.
Qed.
Print Assumptions btree_multi_merge.
Example btree_multi_merge_case : exists b' src', merge_multi fst Nat.ltb 3 multi_mode3 a_multi a_multi = Ok (b', src') /\ b_size b' = 28 /\ values src' = Ok [].
Proof. do 2 eexists. crunch. Qed.

(** ** insert(hint, v) of multi containers *)
(* the value goes to the hint if that is a place for it, but otherwise not always to the nearest one: a hint before the
   first equivalent value makes it the last of them *)
Theorem btree_multi_hint {V K} (key : V -> K) (lt : K -> K -> bool) kN m b l i v : swo lt -> 3 <= kN -> multi m = true -> reachable key lt kN m b -> values b = Ok l ->
  (forall n w, l !! n = Some w -> n < i -> lt (key v) (key w) = false) -> (forall n w, l !! n = Some w -> i <= n -> lt (key w) (key v) = false) -> i <= length l ->
  exists b', call key lt kN m b (InsertHint i v) = Ok (b', RPos i true) /\ values b' = Ok (take i l ++ v :: drop i l).
Proof.
  intros Hlt HkN Hmu Hb Hl H1 H2 Hi. pose proof (reachable_values key lt kN m Hlt HkN b l Hb Hl) as Hr. pose proof (repr_sorted key lt kN m b l Hr) as Hs.
  destruct (call_spec key lt kN m Hlt HkN b l (InsertHint i v) Hr Hi) as (b' & r & l' & Hc & Hst & Hb'). cbn in Hst. rewrite Hmu in Hst. destruct Hst as [-> ->].
  assert (Hh : hint_spec key lt i v l = i); [|rewrite Hh in *; exists b'; split; [done|by rewrite (repr_values key lt kN m HkN b' _ Hb')]].
  unfold hint_spec. pose proof (lower_upper key lt Hlt (key v) l) as Hlu. pose proof (upper_le key lt (key v) l) as Hul.
  assert (lower key lt (key v) l <= i).
  { destruct (decide (lower key lt (key v) l <= i)) as [|Hn]; [done|exfalso]. destruct (lookup_lt_is_Some_2 l i) as [w Hw]; [lia|].
    specialize (H2 i w Hw ltac:(lia)). rewrite (lower_lookup key lt (multi m) Hlt (key v) l i w Hs Hw) in H2. lia. }
  assert (i <= upper key lt (key v) l).
  { destruct (decide (i <= upper key lt (key v) l)) as [|Hn]; [done|exfalso]. destruct (lookup_lt_is_Some_2 l (upper key lt (key v) l)) as [w Hw]; [lia|].
    specialize (H1 _ w Hw ltac:(lia)). rewrite (upper_lookup key lt (multi m) Hlt (key v) l _ w Hs Hw) in H1. lia. }
  by replace ((_ <=? i) && (i <=? _)) with true by lia.
Qed.
Print Assumptions btree_multi_hint.
Example btree_multi_hint_case : exists b', call fst Nat.ltb 3 multi_mode3 a_multi (InsertHint 7 (1, 100)) = Ok (b', RPos 7 true).
Proof. eexists. crunch. Qed.
Theorem btree_multi_hint_nearest_refuted : exists (b : btree (nat * nat)) l i v b' p, reachable fst Nat.ltb 3 multi_mode3 b /\ values b = Ok l /\
  call fst Nat.ltb 3 multi_mode3 b (InsertHint i v) = Ok (b', RPos p true) /\
  exists q, i <= q < p /\ sorted fst Nat.ltb true (take q l ++ v :: drop q l).   (* a nearer place *)
Proof.
  exists a_multi. eexists. exists 0, (1, 100). do 2 eexists. split; [apply a_multi_reachable|]. split; [vm_compute; reflexivity|]. split; [vm_compute; reflexivity|].
  exists 5. split; [lia|]. vm_compute. repeat constructor.
Qed.
Print Assumptions btree_multi_hint_nearest_refuted.
