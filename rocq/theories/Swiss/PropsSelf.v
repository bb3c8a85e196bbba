(** C82: merging a hash table with itself (include/gtl/phmap.hpp). *)
From stdpp Require Import list.
From Coq Require Import Arith NArith ZArith Lia.
From Verif.Common Require Import Res Word.
From Verif.Swiss Require Import Group GroupSpec Model Probe Inv TableInv Resize Ops MapSpec History Reserve PropsTable.
From Verif.Swiss Require Import Multi MultiSpec MultiProof MultiHistory PropsMulti.
Local Open Scope nat_scope.
Local Open Scope res_scope.

Section Self.
Context {K V : Type} (hash : K -> N) (eqb : K -> K -> bool) (E : env).
Notation table := (table K V).
(* t.merge(t): merge (2283-2291) with src = *this and InsertSlot<false> (2571-2588), without assertions (2284 asserts this != &src).
   The loop walks the table it inserts into, up to the end iterator computed first; [n] is the capacity then.  An insertion
   that succeeds makes that walk meaningless and is undefined behaviour here. *)
Fixpoint self_merge_loop (fuel : nat) (n : nat) (t : table) (i : nat) : res table :=
  match fuel with
  | O => Loop
  | S f =>
      if i =? n then Ok t
      else
        let* e := deref t i in
        let* (t', _, inserted) := emplace hash eqb E t (fst e) (snd e) in
        if (inserted : bool) then UB
        else let* j := next_it E t' i in self_merge_loop f n t' j
  end.
Definition self_merge (t : table) : res table :=
  let* i := begin_it E t in self_merge_loop (S (t_cap t)) (t_cap t) t i.
(* parallel_hash_set::merge (4101-4109): nothing if this == &src *)

Context (HE : env_ok E) (HK : KeyOK hash eqb).
Lemma self_loop_ok (t : table) : tinv hash eqb E t -> forall fuel i, i <= t_cap t -> t_cap t - i < fuel ->
  (i = t_cap t \/ exists e, t_slots t !! i = Some (Some e)) -> self_merge_loop fuel (t_cap t) t i = Ok t.
Proof using HE HK.
  intros Ht. induction fuel as [|f IH]; intros i Hi Hf Hst; [lia|]. cbn [self_merge_loop]. destruct (Nat.eqb_spec i (t_cap t)); [reflexivity|].
  destruct Hst as [?|(e & He)]; [congruence|]. unfold deref. rewrite (load_some _ _ _ He). cbn [rbind of_option].
  rewrite (emplace_old hash eqb E HE HK t (fst e) (snd e) i e (or_intror Ht) He (ko_refl _ _ HK (fst e))). cbn [rbind].
  destruct (next_ok hash eqb E HE HK t i Ht ltac:(lia)) as (j & Hj & Hij & Hjs & _). rewrite Hj. cbn [rbind]. apply IH; [lia|lia|assumption].
Qed.
End Self.

(** C82.  Merging any reachable hash table with itself, in a build without assertions, returns and leaves the table as it was: no element
    is erased, inserted, moved or copied, no memory is requested. *)
Theorem C82_hash_self_merge : forall (K V : Type) (hash : K -> N) (eqb : K -> K -> bool) (eeq : K * V -> K * V -> bool) (E : env) (t : table K V),
  real_env E -> KeyOK hash eqb -> EltOK eqb eeq -> mreachable hash eqb eeq E t -> self_merge hash eqb E t = Ok t.
Proof.
  intros K V hash eqb eeq E t HE0 HK HQ Hr. pose proof (real_env_ok E HE0) as HE.
  destruct (mreachable_good hash eqb eeq E HE HK HQ t Hr) as [->|Ht]; [reflexivity|]. unfold self_merge.
  destruct (begin_ok hash eqb E HE HK t Ht) as (i & Hi & Hic & His & _). rewrite Hi. cbn [rbind].
  apply (self_loop_ok hash eqb E HE HK); [assumption|assumption|lia|assumption].
Qed.
Print Assumptions C82_hash_self_merge.
(** a table with tombstones and collisions *)
Example C82_hash_example : exists t, mreachable ex_hash N.eqb ex_eeq ex_env t /\ t_size t = 5 /\ t_cap t = 63 /\ self_merge ex_hash N.eqb ex_env t = Ok t.
Proof.
  exists (nth 0 (mtables ex_hist) empty_table).
  assert (H : exists ns rs, mrun ex_hash N.eqb ex_eeq ex_env (replicate 3 empty_table) (replicate 1 None) ex_hist = Ok (mtables ex_hist, ns, rs))
    by (do 2 eexists; vm_compute; reflexivity).
  assert (Hl : length (mtables ex_hist) = 3) by (vm_compute; reflexivity). destruct H as (ns & rs & H).
  split; [exists 3, 1, ex_hist, (mtables ex_hist), ns, rs; (split; [apply ex_hist_ok|]); (split; [exact H|]); apply nth_In; lia|].
  split; [vm_compute; reflexivity|]. split; [vm_compute; reflexivity|]. vm_compute. reflexivity.
Qed.
(** Keys that do not equal themselves (a NaN, excluded by [KeyOK]) are inserted again: the table is walked while it changes. *)
Theorem C82_hash_nan_refuted : exists (eqb : N -> N -> bool) (t : table N N) p,
  emplace ex_hash eqb ex_env empty_table 7%N 1%N = Ok (t, p, true) /\ self_merge ex_hash eqb ex_env t = UB.
Proof.
  exists (fun _ _ => false). destruct (emplace ex_hash (fun _ _ => false) ex_env empty_table 7%N 1%N) as [[[t p] b]| | | |] eqn:Et; try (vm_compute in Et; discriminate).
  exists t, p. assert (b = true) as -> by (vm_compute in Et; congruence). split; [reflexivity|].
  vm_compute in Et. injection Et as <- <-. vm_compute. reflexivity.
Qed.
Print Assumptions C82_hash_nan_refuted.
