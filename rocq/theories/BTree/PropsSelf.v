(** C82: merging a B-tree container with itself (include/gtl/btree.hpp). *)
From stdpp Require Import list.
From Coq Require Import Arith Lia ZifyBool ZifyNat Sorting.Sorted.
From Verif.Common Require Import Res.
From Verif.BTree Require Import Tree TreeFacts Balance Search Spec SearchFacts Ops Iter OpsFacts SpecFacts Refine Refine2 Api ApiSpec ApiFacts MapFacts PropsBTree.
Local Open Scope nat_scope.
Local Open Scope res_scope.

Section Self.
Context {V K : Type} (key : V -> K) (lt : K -> K -> bool) (kN : nat) (m : mode).
(* s.merge(s) of btree_set and btree_map (3418-3426): insert(std::move( *src_it)) into the tree that is walked.  An insertion that
   succeeds makes src_it invalid, so going on with it is undefined behaviour. *)
Fixpoint self_merge_loop (fuel : nat) (b : btree V) c : res (btree V) :=
  let* e := end_ b in
  if same c e then Ok b
  else match fuel with
       | O => Loop
       | S fuel' => let* v := value c in
                    let* (b', _, ins) := insert_unique key lt kN m b v in
                    if (ins : bool) then UB
                    else let* c' := next c in self_merge_loop fuel' b' c'
       end.
Definition self_merge (b : btree V) : res (btree V) := let* c := begin_ b in self_merge_loop (b_size b) b c.
(* btree_multiset and btree_multimap (3646-3648): insert(move iterators of begin() and end()) before clear(); every insertion succeeds
   and makes both iterators invalid (and clear() would then empty the container).  Simplified: the first insertion is not hinted. *)
Definition self_merge_multi (b : btree V) : res (btree V) :=
  let* c := begin_ b in let* e := end_ b in
  if same c e then Ok clear
  else let* v := value c in let* (_, _) := insert_multi key lt kN m b v in UB.

Context (Hlt : swo lt) (HkN : 3 <= kN).
Lemma has_elem l i v : l !! i = Some v -> has key lt (key v) l = true.
Proof using Hlt.
  intros Hv. unfold has. apply existsb_exists. exists v. split; [apply elem_of_list_In; eapply elem_of_list_lookup_2; exact Hv|].
  unfold equiv. assert (lt (key v) (key v) = false) as -> by apply Hlt. reflexivity.
Qed.
Lemma self_loop b l : multi m = false -> repr key lt kN m b l -> forall fuel i c, it (b_root b) i c -> length l - i <= fuel ->
  self_merge_loop fuel b c = Ok b.
Proof using Hlt HkN.
  intros Hmu Hb. pose proof Hb as (Hsh & Hl & _). induction fuel as [|fuel IH]; intros i c Hc Hf; cbn [self_merge_loop];
    destruct (end_spec kN b Hsh) as (e & -> & He); cbn [rbind]; rewrite (same_it kN b _ _ c e Hsh Hc He); pose proof (it_le _ _ _ Hc) as Hle; rewrite Hl in *.
  - replace (i =? _) with true by lia. done.
  - destruct (i =? length l) eqn:E; [done|]. destruct (lookup_lt_is_Some_2 l i) as [v Hv]; [lia|].
    rewrite (it_value _ _ _ v Hc) by (by rewrite Hl). cbn [rbind].
    destruct (insert_unique_spec key lt kN m Hlt HkN b l v Hmu Hb) as (b' & c' & -> & _ & _ & Hsame). rewrite (has_elem l i v Hv) in *. cbn [rbind negb].
    rewrite (Hsame eq_refl). destruct (next_it kN b i c Hsh Hc) as (c1 & -> & Hc1); [rewrite Hl; lia|]. cbn [rbind]. apply (IH (S i)); [done|lia].
Qed.
End Self.

(** C82.  Merging any reachable btree_set or btree_map with itself returns and leaves the tree as it was. *)
Theorem C82_btree_self_merge : forall (V K : Type) (key : V -> K) (lt : K -> K -> bool) (kN : nat) (m : mode) ops b rs,
  swo lt -> 3 <= kN -> multi m = false -> safe key lt (multi m) [] ops -> run key lt kN m new_btree ops = Ok (b, rs) ->
  self_merge key lt kN m b = Ok b.
Proof.
  intros V K key lt kN m ops b rs Hlt HkN Hmu Hs Hr.
  destruct (run_spec key lt kN m Hlt HkN new_btree [] ops) as (b' & rs' & l & Hr' & _ & Hb); auto; [apply (repr_new key lt kN m HkN)|].
  rewrite Hr in Hr'. injection Hr' as <- <-. unfold self_merge. destruct (begin_it key lt kN m b l Hb) as (c & -> & Hc). cbn [rbind].
  apply (self_loop key lt kN m Hlt HkN b l Hmu Hb _ 0); [done|]. rewrite (repr_size key lt kN m b l Hb). lia.
Qed.
Print Assumptions C82_btree_self_merge.
Example C82_btree_example : exists b rs, safe (fun x => x) Nat.ltb false [] [InsertRange (seq 0 20); EraseAt 4] /\
  run (fun x => x) Nat.ltb 3 set_mode new_btree [InsertRange (seq 0 20); EraseAt 4] = Ok (b, rs) /\ b_size b = 19 /\ self_merge (fun x => x) Nat.ltb 3 set_mode b = Ok b.
Proof.
  destruct (run (fun x => x) Nat.ltb 3 set_mode new_btree [InsertRange (seq 0 20); EraseAt 4]) as [[b rs]| | | |] eqn:E; try (vm_compute in E; discriminate).
  exists b, rs. split; [|split; [reflexivity|]].
  - do 2 safe_step. exact I.
  - vm_compute in E. injection E as <- <-. split; vm_compute; reflexivity.
Qed.

(** A multi-container that is not empty must not be merged with itself: its first insertion makes the iterators invalid. *)
Theorem C82_multi_refuted : forall (V K : Type) (key : V -> K) (lt : K -> K -> bool) (kN : nat) (m : mode) ops b rs,
  swo lt -> 3 <= kN -> multi m = true -> safe key lt (multi m) [] ops -> run key lt kN m new_btree ops = Ok (b, rs) -> b_size b <> 0 ->
  self_merge_multi key lt kN m b = UB.
Proof.
  intros V K key lt kN m ops b rs Hlt HkN Hmu Hs Hr Hne.
  destruct (run_spec key lt kN m Hlt HkN new_btree [] ops) as (b' & rs' & l & Hr' & _ & Hb); auto; [apply (repr_new key lt kN m HkN)|].
  rewrite Hr in Hr'. injection Hr' as <- <-. pose proof Hb as (Hsh & Hl & _). pose proof (repr_size key lt kN m b l Hb) as Hsz. unfold self_merge_multi.
  destruct (begin_it key lt kN m b l Hb) as (c & -> & Hc). destruct (end_it key lt kN m b l Hb) as (e & -> & He). cbn [rbind].
  rewrite (same_it kN b _ _ c e Hsh Hc He). replace (0 =? length l) with false by lia.
  destruct (value_it key lt kN m b l 0 c Hb Hc) as (v & _ & ->); [lia|]. cbn [rbind].
  destruct (insert_multi_spec key lt kN m Hlt HkN b l v Hmu Hb) as (b1 & c1 & -> & _). reflexivity.
Qed.
Print Assumptions C82_multi_refuted.
Example C82_multi_example : exists b rs, safe (fun x => x) Nat.ltb true [] [Insert 5; Insert 5] /\
  run (fun x => x) Nat.ltb 3 multi_mode new_btree [Insert 5; Insert 5] = Ok (b, rs) /\ b_size b <> 0 /\ self_merge_multi (fun x => x) Nat.ltb 3 multi_mode b = UB.
Proof.
  destruct (run (fun x => x) Nat.ltb 3 multi_mode new_btree [Insert 5; Insert 5]) as [[b rs]| | | |] eqn:E; try (vm_compute in E; discriminate).
  exists b, rs. split; [|split; [reflexivity|]].
  - split; [exact I|]. intros l' r' H. split; [exact I|]. intros. exact I.
  - vm_compute in E. injection E as <- <-. split; [vm_compute; discriminate|vm_compute; reflexivity].
Qed.
