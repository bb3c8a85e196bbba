(** Property theorem C64: the cost of automatic rehashing. *)
From stdpp Require Import list.
From Coq Require Import NArith ZArith Lia ZifyBool ZifyNat.
From Verif.Common Require Import Res Word.
From Verif.Swiss Require Import Group GroupSpec Model Probe Inv TableInv Resize Ops MapSpec History Reserve Amortized AmortizedProof PropsTable.
Local Open Scope nat_scope.
Local Open Scope res_scope.

(** C64, total: start from any table a program can build and make any calls except rehash and reserve.  The calls
    behave as in C01 (the counting run is the run), and all their rehashes together - those that grow the table and
    those that only sweep out tombstones - take at most 3 * bucket_count() + 6 * (number of insertions) steps, a step
    being one iteration of a loop that moves elements or one block allocated.  From an empty table without memory,
    6 steps per insertion. *)
Theorem C64_amortised : forall (K V : Type) (hash : K -> N) (eqb : K -> K -> bool) (E : env) (t : table K V) (os : list (op K V)),
  real_env E -> KeyOK hash eqb -> reachable hash eqb E t -> Forall automatic os ->
  exists t' rs n, run hash eqb E t os = Ok (t', rs) /\ run_c hash eqb E t os = Ok (t', rs, n) /\
    n <= 3 * t_cap t + 6 * length (List.filter is_insert rs).
Proof.
  intros K V hash eqb E t os HE0 HK Hr Ho. pose proof (real_env_ok E HE0) as HE.
  pose proof (reachable_good hash eqb E HE HK t Hr) as Hg.
  assert (Hok : Forall (op_ok E) os).
  { eapply Forall_impl; [exact Ho|]. intros o Ha. destruct o; cbn in *; auto; contradiction. }
  destruct (run_ok hash eqb E HE HK os t (elems (t_slots t)) (conj Hg (reflexivity _)) Hok) as (t' & rs & m & Hrun & _ & _).
  pose proof (run_forget hash eqb E os t) as Hf. rewrite Hrun in Hf.
  destruct (run_c hash eqb E t os) as [[[t1 rs1] n]| | | |] eqn:Hc; cbn [forget rbind] in Hf; try discriminate.
  injection Hf as -> ->. exists t', rs, n. split; [assumption|]. split; [reflexivity|].
  pose proof (run_phi hash eqb E HE HK os t t' rs n Hg Ho Hc) as Hp. pose proof (phi_cap E t). unfold inserts in Hp. lia.
Qed.
Print Assumptions C64_amortised.

(** C64, single calls: every call takes at most 3 * bucket_count() + 6 steps, and none unless it inserts; a call that
    took no step left
    bucket_count() as it was and every element that is still there in the slot it was in, so iterators and references
    to them remain valid. *)
Theorem C64_stays : forall (K V : Type) (hash : K -> N) (eqb : K -> K -> bool) (E : env) (t t' : table K V) (o : op K V) r n,
  real_env E -> KeyOK hash eqb -> reachable hash eqb E t -> automatic o -> exec_c hash eqb E t o = Ok (t', r, n) ->
  exec hash eqb E t o = Ok (t', r) /\ n <= 3 * t_cap t + 6 /\ (is_insert r = false -> n = 0) /\
  (n = 0 -> t_cap t' = t_cap t /\
    forall i e, t_slots t !! i = Some (Some e) ->
      (exists v, t_slots t' !! i = Some (Some (fst e, v))) \/ (forall x, In x (elems (t_slots t')) -> eqb (fst e) (fst x) = false)).
Proof.
  intros K V hash eqb E t t' o r n HE0 HK Hr Ho Hx. pose proof (real_env_ok E HE0) as HE.
  pose proof (reachable_good hash eqb E HE HK t Hr) as Hg.
  destruct (exec_phi hash eqb E HE HK t t' o r n Hg Ho Hx) as (_ & Hp & Hs).
  pose proof (exec_forget hash eqb E t o) as Hf. rewrite Hx in Hf. cbn [forget rbind] in Hf. symmetry in Hf.
  split; [assumption|]. pose proof (phi_cap E t). split.
  { assert (inserts [r] <= 1) by (unfold inserts; cbn; destruct (is_insert r); cbn; lia). lia. }
  split; [|exact Hs]. apply (exec_quiet_cost hash eqb E HE HK t t' o r n Hg Hx).
Qed.
Print Assumptions C64_stays.

(** Keys 0..49, then 0..44 erased, then 50..62 inserted, into an sse2 table that places key k at slot k: the table grows to
    63 slots (63 steps), and its growth budget runs out again at key 56 because the erased slots are tombstones; the table
    is then swept in place, once (64 steps), at an unchanged bucket_count(). *)
Definition ex_spread (k : N) : N := (128 * k)%N.
Lemma ex_spread_key : KeyOK ex_spread N.eqb.
Proof.
  constructor; [apply N.eqb_refl|intros a b; apply N.eqb_sym|intros a b c H1 H2; apply N.eqb_eq in H1, H2; apply N.eqb_eq; congruence|].
  intros a b H. apply N.eqb_eq in H. subst. reflexivity.
Qed.
Definition ex_churn : list (op N N) := ins (nums 0 50) ++ map OErase (nums 0 45) ++ ins (nums 50 13).
Example C64_example : exists t rs n, Forall automatic ex_churn /\
  run_c ex_spread N.eqb ex_env empty_table ex_churn = Ok (t, rs, n) /\
  t_cap t = 63 /\ t_size t = 18 /\ inserts rs = 63 /\ n = 127 /\
  reachable ex_spread N.eqb ex_env (@empty_table N N).
Proof.
  do 3 eexists.
  split; [apply Forall_forall; intros o Ho; unfold ex_churn, ins in Ho; repeat (apply elem_of_app in Ho; destruct Ho as [Ho|Ho]);
    apply elem_of_list_fmap in Ho; destruct Ho as (k & -> & _); exact I|].
  split; [vm_compute; reflexivity|]. split; [vm_compute; reflexivity|]. split; [vm_compute; reflexivity|].
  split; [vm_compute; reflexivity|]. split; [vm_compute; reflexivity|]. exists [], []. split; [constructor|reflexivity].
Qed.
