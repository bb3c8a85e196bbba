(** Property theorems C65: hash containers with an allocator other than the default one. *)
From stdpp Require Import list.
From Coq Require Import Arith NArith ZArith Lia.
From Verif.Common Require Import Res Word.
From Verif.Swiss Require Import Group GroupSpec Model Probe Inv TableInv Resize Ops MapSpec History Reserve PropsTable.
From Verif.Swiss Require Import Multi MultiSpec MultiProof MultiHistory PropsMulti NullCtrl NullProof.
Local Open Scope nat_scope.
Local Open Scope res_scope.

(** C65, programs.  With a custom allocator a container without memory has a null control pointer, not the static empty
    group.  Every program over [a] such maps and [b] node handles, all empty at first, runs to completion: nothing is
    ever read through the null pointer, and all the answers are those of ideal finite maps. *)
Theorem C65_programs : forall (K V : Type) (hash : K -> N) (eqb : K -> K -> bool) (eeq : K * V -> K * V -> bool)
    (E : env) (a b : nat) (os : list (mop K V)),
  real_env E -> KeyOK hash eqb -> EltOK eqb eeq -> Forall (mop_ok E a b) os ->
  exists ts ns rs ms, mrun_a hash eqb E eeq (replicate a null_table) (replicate b None) os = Ok (ts, ns, rs) /\
    s_mrun eqb eeq (replicate a [], replicate b None) os rs (ms, ns).
Proof.
  intros K V hash eqb eeq E a b os HE HK HQ Ho. pose proof (real_env_ok E HE) as HE'.
  destruct (mrun_ok hash eqb eeq E HE' HK HQ os (replicate a empty_table) (replicate b None) (replicate a []))
    as (ts & ns & rs & ms & H1 & H2 & _).
  - apply start_ok.
  - rewrite !replicate_length. assumption.
  - exists (map nul ts), ns, rs, ms. split; [|assumption].
    replace (replicate a null_table) with (map nul (replicate a (@empty_table K V))).
    2: { clear. induction a as [|a IH]; [reflexivity|]. cbn [replicate map]. rewrite IH. reflexivity. }
    rewrite (mrun_a_ok hash eqb E eeq HE' HK HQ).
    + rewrite H1. reflexivity.
    + apply Forall_replicate. left. reflexivity.
    + rewrite !replicate_length. assumption.
Qed.
Print Assumptions C65_programs.

(** the tables such programs reach *)
Definition areachable {K V} (hash : K -> N) (eqb : K -> K -> bool) (eeq : K * V -> K * V -> bool) (E : env) (t : table K V) : Prop :=
  exists a b os ts ns rs, Forall (mop_ok E a b) os /\
    mrun_a hash eqb E eeq (replicate a null_table) (replicate b None) os = Ok (ts, ns, rs) /\ In t ts.
Lemma areachable_good {K V} (hash : K -> N) (eqb : K -> K -> bool) (eeq : K * V -> K * V -> bool) E (t : table K V) :
  env_ok E -> KeyOK hash eqb -> EltOK eqb eeq -> areachable hash eqb eeq E t ->
  exists u, t = nul u /\ good hash eqb E u.
Proof.
  intros HE HK HQ (a & b & os & ts & ns & rs & Ho & Hr & Hin).
  replace (replicate a null_table) with (map nul (replicate a (@empty_table K V))) in Hr.
  2: { clear. induction a as [|a IH]; [reflexivity|]. cbn [replicate map]. rewrite IH. reflexivity. }
  rewrite (mrun_a_ok hash eqb E eeq HE HK HQ) in Hr.
  2: apply Forall_replicate; left; reflexivity.
  2: rewrite !replicate_length; assumption.
  destruct (mrun hash eqb eeq E (replicate a empty_table) (replicate b None) os) as [[[us ns'] rs']| | | |] eqn:Hm;
    cbn [null3 rbind] in Hr; try discriminate. injection Hr as <- _ _.
  apply in_map_iff in Hin. destruct Hin as (u & <- & Hu). exists u. split; [reflexivity|].
  apply (mreachable_good hash eqb eeq E HE HK HQ). exists a, b, os, us, ns', rs'. auto.
Qed.

(** C65, moving between containers whose allocators are not equal (move construction with an allocator, move assignment
    without propagation).  Either memory is short, and then the source is as it was, or the new container has exactly
    the elements of the source, with their values, and answers lookups like the source did, while the source keeps all
    its keys, in the same order, each with what moving leaves of its value. *)
Theorem C65_move_unequal : forall (K V : Type) (hash : K -> N) (eqb : K -> K -> bool) (eeq : K * V -> K * V -> bool)
    (E : env) (mv : V -> V) (t : table K V) (l : list (K * V)),
  real_env E -> KeyOK hash eqb -> EltOK eqb eeq -> areachable hash eqb eeq E t -> to_list_a E t = Ok l ->
  move_unequal hash eqb E mv t = Ok (None, t) \/
  exists d s l', move_unequal hash eqb E mv t = Ok (Some d, s) /\ to_list_a E d = Ok l' /\ Permutation l' l /\
    to_list_a E s = Ok (map (fun e => (fst e, mv (snd e))) l) /\
    forall k, exec_a hash eqb E d (OFind k) = Ok (d, RFound (s_find eqb l k)).
Proof.
  intros K V hash eqb eeq E mv t l HE0 HK HQ Hr Hl. pose proof (real_env_ok E HE0) as HE.
  destruct (areachable_good hash eqb eeq E t HE HK HQ Hr) as (u & -> & Hg).
  rewrite (to_list_a_ok hash eqb E eeq HE HK HQ u Hg) in Hl.
  destruct (iterate_ok hash eqb E HE HK u Hg) as (? & _ & H1 & _). rewrite Hl in H1. injection H1 as ->.
  destruct (move_unequal_ok hash eqb E eeq HE HK HQ mv u Hg) as [H|(d & s & Hm & Hd & Hs & Hp & Hes)]; [left; exact H|right].
  exists (nul d), (nul s), (elems (t_slots d)). split; [exact Hm|].
  rewrite !(to_list_a_ok hash eqb E eeq HE HK HQ) by assumption.
  destruct (iterate_ok hash eqb E HE HK d Hd) as (? & _ & -> & _).
  destruct (iterate_ok hash eqb E HE HK s Hs) as (? & _ & -> & _).
  split; [reflexivity|]. split; [assumption|]. split; [rewrite Hes; reflexivity|].
  intros k. rewrite (exec_a_ok hash eqb E eeq HE HK HQ) by (try assumption; exact I).
  destruct (exec_ok hash eqb E HE HK d (elems (t_slots u)) (OFind k)) as (t2 & r & m' & Hx & [Hst _] & _); [split; assumption|exact I|].
  rewrite Hx. cbn [nulr rbind]. rewrite Hst. cbn [exec] in Hx.
  destruct (find_key hash eqb E d k) as [[p|]| | | |]; cbn [rbind] in Hx; try discriminate;
    [destruct (deref d p); cbn [rbind] in Hx; try discriminate|]; injection Hx as <- _; reflexivity.
Qed.
Print Assumptions C65_move_unequal.

(** The tests for the null pointer are needed: without them the same calls on an empty container are undefined. *)
Lemma C65_tests_needed : forall (K V : Type) (hash : K -> N) (eqb : K -> K -> bool) (E : env) (k : K),
  real_env E ->
  find_key hash eqb E (@null_table K V) k = UB /\ find_key_a hash eqb E (@null_table K V) k = Ok None.
Proof.
  intros K V hash eqb E k HE. split; [|reflexivity]. unfold find_key, find_fuel. cbn [null_table t_cap find_loop t_ctrl].
  unfold window. pose proof (gok_width _ (eo_group _ (real_env_ok E HE))) as HW.
  destruct (Nat.leb_spec (probe_start (hash k) 0 + g_width (e_group E)) (length (@nil Z))) as [H|H]; [|reflexivity].
  cbn [length] in H. lia.
Qed.

(** A container that has memory and an element does in every call, with whatever argument, exactly what one with the default allocator does:
    rehash(0), which the programs above do not use, included.  One that has memory but no element gives it back in rehash(0). *)
Theorem C65_same_calls : forall (K V : Type) (hash : K -> N) (eqb : K -> K -> bool) (E : env) (t : table K V),
  is_null t = false ->
  (t_size t <> 0 -> forall o, exec_a hash eqb E t o = exec hash eqb E t o) /\
  (t_size t = 0 -> t_cap t <> 0 -> exec_a hash eqb E t (ORehash 0) = Ok (null_table, RUnit)).
Proof.
  intros K V hash eqb E t Hn.
  assert (He : forall k v, emplace_a hash eqb E t k v = emplace hash eqb E t k v).
  { intros k v. unfold emplace_a, emplace, find_key_a, prepare_insert_a. rewrite Hn. cbn [rbind]. reflexivity. }
  assert (Hr : t_size t <> 0 -> forall n, rehash_a hash E t n = rehash hash E t n).
  { intros H0 n. unfold rehash_a, rehash. destruct (Nat.eqb_spec (t_size t) 0) as [|_]; [done|]. rewrite andb_false_r. reflexivity. }
  split.
  - intros H0 [k v|k v|k|k| |n|n| |]; unfold exec_a, exec.
    + by rewrite He.
    + unfold insert_or_assign_a, insert_or_assign. by rewrite He.
    + unfold find_key_a. by rewrite Hn.
    + unfold erase_key_a, erase_key, find_key_a. by rewrite Hn.
    + done.
    + by rewrite Hr.
    + unfold reserve_a, reserve. destruct (GrowthToLowerboundCapacity _ _); try done. cbn [rbind]. by rewrite Hr.
    + done.
    + unfold to_list_a, to_list, begin_a, iterate. rewrite Hn. by destruct (begin_it E t).
  - intros H0 Hc. unfold exec_a, rehash_a. rewrite H0. destruct (Nat.eqb_spec (t_cap t) 0); [done|]. reflexivity.
Qed.
Print Assumptions C65_same_calls.
Definition ex_aouts : list (mout N N) :=
  match mrun_a ex_hash N.eqb ex_env ex_eeq (replicate 3 null_table) (replicate 1 None) ex_mops with Ok (_, _, rs) => rs | _ => [] end.
Definition ex_src : table N N :=
  match mrun_a ex_hash N.eqb ex_env ex_eeq [null_table] [] (map (MOne 0) (ins (nums 0 12)) ++ map (fun k => MOne 0 (OErase k)) (nums 2 3)) with
  | Ok (t :: _, _, _) => t | _ => null_table end.
Example C65_same_calls_example : is_null ex_src = false /\ t_size ex_src = 9 /\
  match exec_a ex_hash N.eqb ex_env ex_src (ORehash 0) with
  | Ok (t, RUnit) => t_size t = 9 /\ t_cap t = 15 /\ to_list_a ex_env t <> to_list_a ex_env null_table
  | _ => False end.
Proof. vm_compute. repeat split; discriminate. Qed.

Example C65_example : Forall (mop_ok ex_env 3 1) ex_mops /\ EltOK N.eqb ex_eeq /\ ex_aouts = ex_mouts /\ length ex_aouts = 34 /\
  to_list_a ex_env ex_src = Ok (map (fun k => (k, k)) [0; 1; 5; 6; 7; 8; 9; 10; 11]%N) /\
  match move_unequal ex_hash N.eqb ex_env (fun _ => 0%N) ex_src with
  | Ok (Some d, s) => to_list_a ex_env d = Ok (map (fun k => (k, k)) [0; 1; 5; 6; 7; 8; 9; 10; 11]%N) /\
                      to_list_a ex_env s = Ok (map (fun k => (k, 0%N)) [0; 1; 5; 6; 7; 8; 9; 10; 11]%N)
  | _ => False end.
Proof.
  split; [apply ex_mops_ok|]. split; [apply ex_elt|].
  split; [vm_compute; reflexivity|]. split; [vm_compute; reflexivity|]. split; [vm_compute; reflexivity|]. vm_compute. split; reflexivity.
Qed.
Print Assumptions C65_tests_needed.
