(** Property theorem C56: memory and object lifetimes of the hash tables. *)
From stdpp Require Import list.
From Coq Require Import Arith NArith ZArith Lia.
From Verif.Common Require Import Res Word.
From Verif.Swiss Require Import Group GroupSpec Model Probe Inv TableInv Resize Ops MapSpec History Reserve PropsTable.
From Verif.Swiss Require Import Multi MultiSpec MultiProof MultiHistory PropsMulti Life LifeProof.
Local Open Scope nat_scope.
Local Open Scope res_scope.

(** ** Specification: what a heap holds *)
(* the objects alive in the memory of the tables *)
Definition alive {A} (h : list (option (N * list (option A)))) : list A :=
  flat_map (fun o => match o with None => [] | Some (_, sl) => omap id sl end) h.
(* the sizes of the blocks that were not given back *)
Definition held {A} (h : list (option (N * list (option A)))) : list N :=
  flat_map (fun o => match o with None => [] | Some (sz, _) => [sz] end) h.
(* the block a table should have: none for bucket_count() = 0 *)
Definition should_hold (E : env) (x : obj) : list N :=
  if o_cap x =? 0 then [] else [alloc_size E (N.of_nat (o_cap x))].

Section Count.
Context {K V : Type} (hash : K -> N) (eqb : K -> K -> bool) (E : env).
Notation heap := (list (option (N * list (option (K * V))))).
Lemma alive_take (h : heap) b sz sl : h !! b = Some (Some (sz, sl)) ->
  alive h ≡ₚ elems sl ++ alive (<[b := None]> h) /\ held h ≡ₚ sz :: held (<[b := None]> h).
Proof.
  revert b. induction h as [|o h IH]; intros [|b] Hb; try discriminate.
  - injection Hb as ->. cbn. split; reflexivity.
  - destruct (IH b Hb) as [H1 H2]. unfold alive, held in *. cbn [flat_map insert list_insert]. rewrite H1, H2. split.
    + rewrite !app_assoc. apply Permutation_app; [apply Permutation_app_comm|reflexivity].
    + symmetry. apply Permutation_middle.
Qed.
Lemma alive_none (h : heap) : (forall b, b < length h -> h !! b = Some None) -> alive h = [] /\ held h = [].
Proof.
  induction h as [|o h IH]; intros H; [split; reflexivity|].
  assert (Ho : o = None) by (specialize (H 0 ltac:(cbn; lia)); cbn in H; congruence). subst o. cbn [alive held flat_map].
  apply IH. intros b Hb. apply (H (S b)). cbn. lia.
Qed.
Lemma Inv_count : forall xs (h : heap) (ts : list (table K V)), Inv E h xs ts ->
  alive h ≡ₚ concat (map (fun t => elems (t_slots t)) ts) /\ held h ≡ₚ concat (map (should_hold E) xs).
Proof.
  induction xs as [|x xs IH]; intros h ts HI.
  - pose proof HI as (HF & _ & HC). inversion HF; subst. destruct (alive_none h) as [-> ->]; [|split; reflexivity].
    intros b Hb. destruct (HC b Hb) as [|(i & x & Hx & _)]; [assumption|discriminate].
  - pose proof HI as (HF & _). inversion HF as [|? t ? ts' Ho HF']; subst. pose proof Ho as (_ & _ & _ & _ & H5 & H6).
    cbn [map concat]. unfold should_hold at 1. destruct (Nat.eqb_spec (o_cap x) 0) as [H0|H0].
    + destruct (IH h ts') as [G1 G2].
      { eapply Inv_tail; [exact HI|]. intros b [Hm _]. contradiction. }
      rewrite (H5 H0). split; assumption.
    + specialize (H6 H0). destruct (alive_take h _ _ _ H6) as [G1 G2]. rewrite G1, G2.
      destruct (IH (<[o_blk x := None]> h) ts') as [I1 I2].
      { assert (HI1 : Inv E (<[o_blk x := None]> h) (<[0 := empty_obj]> (x :: xs)) (<[0 := empty_table]> (t :: ts'))).
        { eapply Inv_step; [exact HI|reflexivity| |apply owns_empty].
          split; [rewrite insert_length; lia|]. split.
          - intros b Hb Hn. split; [|apply not_mine_empty]. apply list_lookup_insert_ne. intros Heq. apply Hn. split; assumption.
          - intros b Hb [[_ <-]|Hge] _; rewrite insert_length in Hb; [apply list_lookup_insert; assumption|lia]. }
        eapply Inv_tail; [exact HI1|apply not_mine_empty]. }
      rewrite I1, I2. split; reflexivity.
Qed.
End Count.

(** C56.  Every program over [a] hash maps and [b] node handles runs, on a heap, without undefined behaviour: no
    object is constructed over another one, destroyed twice or read after its destruction, and no block is used
    after it was given back or given back with another size.  Its answers are those of ideal maps.  When it ends,
    the objects alive in the memory of the tables are exactly the elements of the maps, and the blocks held are one
    per map with a non-zero bucket_count(), of the size its capacity needs.  Destroying the maps then gives back
    every block, after destroying every object in it. *)
Theorem C56_lifetimes : forall (K V : Type) (hash : K -> N) (eqb : K -> K -> bool) (eeq : K * V -> K * V -> bool)
    (E : env) (a b : nat) (os : list (mop K V)),
  real_env E -> KeyOK hash eqb -> EltOK eqb eeq -> Forall (mop_ok E a b) os ->
  exists h xs ns rs ms, mrun_h hash eqb eeq E [] (replicate a empty_obj) (replicate b None) os = Ok (h, xs, ns, rs) /\
    s_mrun eqb eeq (replicate a [], replicate b None) os rs (ms, ns) /\
    alive h ≡ₚ concat ms /\ held h ≡ₚ concat (map (should_hold E) xs) /\
    exists h', destroy_all E h xs = Ok h' /\ length h' = length h /\ alive h' = [] /\ held h' = [].
Proof.
  intros K V hash eqb eeq E a b os HE HK HQ Ho.
  destruct (mrun_sim hash eqb E eeq (real_env_ok E HE) HK HQ os [] (replicate a empty_obj) (replicate a empty_table) (replicate b None) (replicate a []))
    as (h & xs & ts & ns & rs & ms & _ & G2 & G3 & G4 & G5).
  - apply Inv_start.
  - apply start_ok.
  - rewrite !replicate_length. assumption.
  - exists h, xs, ns, rs, ms. split; [assumption|]. split; [assumption|].
    destruct (Inv_count E xs h ts G3) as [C1 C2]. split; [|split; [assumption|]].
    + rewrite C1. clear -G4. induction G4 as [|t m ts ms [_ Hp] _ IH]; [reflexivity|]. cbn [map concat]. rewrite Hp, IH. reflexivity.
    + destruct (destroy_all_ok E xs h ts G3) as (h' & D1 & D2 & D3).
      { apply R_good in G4. eapply Forall_impl; [exact G4|]. intros t. apply good_clean. }
      exists h'. split; [assumption|]. split; [assumption|]. apply alive_none. assumption.
Qed.
Print Assumptions C56_lifetimes.

(** the program of C10_C11_C49_example: 3 maps, 9 blocks asked for in all, 2 of them held at the end *)
Definition ex_heap : res (nat * list N * nat * bool) :=
  let* (h, xs, _, _) := mrun_h ex_hash N.eqb ex_eeq ex_env [] (replicate 3 empty_obj) (replicate 1 None) ex_mops in
  let* h' := destroy_all ex_env h xs in
  Ok (length h, held h, length (alive h), match held h' with [] => true | _ => false end).
Example C56_example : Forall (mop_ok ex_env 3 1) ex_mops /\ EltOK N.eqb ex_eeq /\ KeyOK ex_hash N.eqb /\ real_env ex_env /\
  ex_heap = Ok (9, [152%N; 152%N], 13, true).
Proof. split; [apply ex_mops_ok|]. split; [apply ex_elt|]. split; [apply ex_key|]. split; [apply ex_env_real|]. vm_compute. reflexivity. Qed.
