(** Property theorems C10, C11, C22, C49: several hash tables, node handles, files. *)
From stdpp Require Import list.
From Coq Require Import Arith NArith ZArith Lia.
From Verif.Common Require Import Res Word.
From Verif.Swiss Require Import Group GroupSpec Model Probe Inv TableInv Resize Ops MapSpec History Reserve PropsTable.
From Verif.Swiss Require Import Multi MultiSpec MultiProof MultiHistory Dump DumpProof.
Local Open Scope nat_scope.
Local Open Scope res_scope.

Definition ex_eeq (a b : N * N) : bool := (N.eqb (fst a) (fst b) && N.eqb (snd a) (snd b))%bool.
Lemma ex_eeq_eq a b : ex_eeq a b = true <-> a = b.
Proof.
  unfold ex_eeq. rewrite andb_true_iff, !N.eqb_eq. destruct a, b; cbn. split; [intros [-> ->]; reflexivity|].
  intros [= -> ->]. auto.
Qed.
Lemma ex_elt : EltOK N.eqb ex_eeq.
Proof.
  constructor.
  - intros a. apply ex_eeq_eq. reflexivity.
  - intros a b. unfold ex_eeq. rewrite (N.eqb_sym (fst a)), (N.eqb_sym (snd a)). reflexivity.
  - intros a b c H1 H2. apply ex_eeq_eq in H1, H2. subst. apply ex_eeq_eq. reflexivity.
  - intros a b H. apply ex_eeq_eq in H. subst. apply N.eqb_refl.
Qed.

(** C10, C11, C49.  Every program over [a] hash maps and [b] node handles, all empty at first, that mixes the
    single-map operations of C01 with copy and move assignment, swap, merge, extract, node insertion, == and
    erase_if runs to completion, and all its answers are those of ideal finite maps: an operation on one map
    never shows in another one. *)
Theorem C10_C11_C49_programs : forall (K V : Type) (hash : K -> N) (eqb : K -> K -> bool) (eeq : K * V -> K * V -> bool)
    (E : env) (a b : nat) (os : list (mop K V)),
  real_env E -> KeyOK hash eqb -> EltOK eqb eeq -> Forall (mop_ok E a b) os ->
  exists ts ns rs ms, mrun hash eqb eeq E (replicate a empty_table) (replicate b None) os = Ok (ts, ns, rs) /\
    s_mrun eqb eeq (replicate a [], replicate b None) os rs (ms, ns).
Proof.
  intros K V hash eqb eeq E a b os HE HK HQ Ho.
  destruct (mrun_ok hash eqb eeq E (real_env_ok E HE) HK HQ os (replicate a empty_table) (replicate b None) (replicate a []))
    as (ts & ns & rs & ms & H1 & H2 & _).
  - apply start_ok.
  - rewrite !replicate_length. assumption.
  - eauto 8.
Qed.
Print Assumptions C10_C11_C49_programs.

(** a program using everything: two colliding maps, copies with tombstones, equality with different
    histories, merge with common keys, a node moved from one map to another *)
Definition ex_mops : list (mop N N) :=
  map (MOne 0) (ins (nums 0 12)) ++ map (fun k => MOne 0 (OErase k)) (nums 2 3) ++ [MCopy 1 0; MEq 0 1; MOne 1 (OAssign 7%N 70%N); MEq 0 1;
   MMerge 2 1; MSwap 0 2; MOne 2 (OFind 7%N); MOne 0 (OFind 7%N); MMerge 0 2; MExtract 2 7%N 0; MInsertNode 0 0; MOne 1 (OFind 7%N);
   MInsertNode 1 0; MOne 1 (OFind 7%N); MEraseIf 0 (fun e => N.even (fst e)); MOne 0 OSize; MMove 1 0; MOne 0 OSize; MOne 1 OSize].
Definition ex_mouts : list (mout N N) :=
  match mrun ex_hash N.eqb ex_eeq ex_env (replicate 3 empty_table) (replicate 1 None) ex_mops with Ok (_, _, rs) => rs | _ => [] end.
Lemma ex_mops_ok : Forall (mop_ok ex_env 3 1) ex_mops.
Proof.
  unfold ex_mops. apply Forall_app. split; [|apply Forall_app; split].
  - apply Forall_forall. intros o Ho. apply elem_of_list_fmap in Ho. destruct Ho as (x & -> & Hx).
    apply elem_of_list_fmap in Hx. destruct Hx as (k & -> & _). cbn. split; [lia|exact I].
  - apply Forall_forall. intros o Ho. apply elem_of_list_fmap in Ho. destruct Ho as (k & -> & _). cbn. split; [lia|exact I].
  - repeat (apply Forall_cons_2; [cbn; repeat split; try lia|]). apply Forall_nil_2.
Qed.
Example C10_C11_C49_example : Forall (mop_ok ex_env 3 1) ex_mops /\ EltOK N.eqb ex_eeq /\
  drop 15 ex_mouts =
    [MDone; MBool true; MR (RInserted false (7, 70)%N); MBool false; MDone; MDone; MR (RFound (Some (7, 7)%N)); MR (RFound (Some (7, 70)%N));
     MDone; MNode (Some (7, 7)%N); MBool false; MR (RFound None); MBool true; MR (RFound (Some (7, 7)%N));
     MErased 4 (map (fun k => (k, if (k =? 7)%N then 70%N else k)) [0; 1; 5; 6; 7; 8; 9; 10; 11]%N); MR (RSize 5); MDone; MR (RSize 0); MR (RSize 5)].
Proof. split; [apply ex_mops_ok|]. split; [apply ex_elt|]. vm_compute. reflexivity. Qed.

(** C10, copying: the copy of a reachable table has the same elements, size() and bucket_count(), and no
    tombstones; it throws only when memory is short. *)
Theorem C10_copy : forall (K V : Type) (hash : K -> N) (eqb : K -> K -> bool) (eeq : K * V -> K * V -> bool) (E : env) (t : table K V),
  real_env E -> KeyOK hash eqb -> EltOK eqb eeq -> mreachable hash eqb eeq E t ->
  (copy hash E t = BadAlloc /\ (e_max_bytes E < alloc_size E (N.of_nat (t_cap t)))%N) \/
  exists t' l l', copy hash E t = Ok t' /\ to_list E t = Ok l /\ to_list E t' = Ok l' /\ Permutation l' l /\
    t_size t' = t_size t /\ t_cap t' = t_cap t /\ table_eq hash E eeq t t' = Ok true /\
    forall k, exec hash eqb E t' (OFind k) = Ok (t', RFound (s_find eqb l k)).
Proof.
  intros K V hash eqb eeq E t HE0 HK HQ Hr. pose proof (real_env_ok E HE0) as HE.
  pose proof (mreachable_good hash eqb eeq E HE HK HQ t Hr) as Hg.
  destruct (copy_ok hash eqb E HE HK t Hg) as [[Hb Hbig]|(t' & Hc & Hg' & Hcap & Hsz & Hp & _)]; [left; auto|right].
  exists t', (elems (t_slots t)), (elems (t_slots t')).
  destruct (iterate_ok hash eqb E HE HK t Hg) as (is & _ & H2 & _).
  destruct (iterate_ok hash eqb E HE HK t' Hg') as (is' & _ & H2' & _).
  repeat (split; [assumption|]). split.
  { destruct (table_eq_ok hash eqb E HE HK eeq HQ t t' Hg Hg') as (r & -> & Hr').
    f_equal. apply Hr'. apply (same_assocs_perm eeq _ _ _ _ (Permutation_refl _) Hp). intros e. reflexivity. }
  intros k. destruct (exec_ok hash eqb E HE HK t' (elems (t_slots t)) (OFind k)) as (t2 & r & m' & Hx & [Hst _] & _); [split; assumption|exact I|].
  rewrite Hx. rewrite Hst. cbn [exec] in Hx.
  destruct (find_key hash eqb E t' k) as [[p|]| | | |]; cbn [rbind] in Hx; try discriminate;
    [destruct (deref t' p); cbn [rbind] in Hx; try discriminate|]; injection Hx as <- _; reflexivity.
Qed.
Print Assumptions C10_copy.

(** C10, equality: on reachable tables operator== answers, and answers true exactly when both hold the same
    associations, whatever their histories. *)
Theorem C10_equality : forall (K V : Type) (hash : K -> N) (eqb : K -> K -> bool) (eeq : K * V -> K * V -> bool) (E : env)
    (t1 t2 : table K V) (l1 l2 : list (K * V)),
  real_env E -> KeyOK hash eqb -> EltOK eqb eeq -> mreachable hash eqb eeq E t1 -> mreachable hash eqb eeq E t2 ->
  to_list E t1 = Ok l1 -> to_list E t2 = Ok l2 ->
  exists r, table_eq hash E eeq t1 t2 = Ok r /\
    (r = true <-> forall e, (exists x, In x l1 /\ eeq x e = true) <-> (exists x, In x l2 /\ eeq x e = true)).
Proof.
  intros K V hash eqb eeq E t1 t2 l1 l2 HE0 HK HQ Hr1 Hr2 Hl1 Hl2. pose proof (real_env_ok E HE0) as HE.
  pose proof (mreachable_good hash eqb eeq E HE HK HQ t1 Hr1) as Hg1.
  pose proof (mreachable_good hash eqb eeq E HE HK HQ t2 Hr2) as Hg2.
  destruct (iterate_ok hash eqb E HE HK t1 Hg1) as (? & _ & H1 & _). rewrite Hl1 in H1. injection H1 as ->.
  destruct (iterate_ok hash eqb E HE HK t2 Hg2) as (? & _ & H2 & _). rewrite Hl2 in H2. injection H2 as ->.
  apply (table_eq_ok hash eqb E HE HK eeq HQ); assumption.
Qed.
Print Assumptions C10_equality.

(** the tables after a program *)
Definition mtables (os : list (mop N N)) : list (table N N) :=
  match mrun ex_hash N.eqb ex_eeq ex_env (replicate 3 empty_table) (replicate 1 None) os with Ok (ts, _, _) => ts | _ => [] end.
Definition ex_hist : list (mop N N) := map (MOne 0) (ins (nums 0 30)) ++ map (fun k => MOne 0 (OErase k)) (nums 5 25) ++
  map (MOne 1) (ins [4; 2; 3; 0; 1]%N).
Lemma ex_hist_ok : Forall (mop_ok ex_env 3 1) ex_hist.
Proof.
  unfold ex_hist. apply Forall_app. split; [|apply Forall_app; split].
  1,3: apply Forall_forall; intros o Ho; apply elem_of_list_fmap in Ho; destruct Ho as (x & -> & Hx);
    apply elem_of_list_fmap in Hx; destruct Hx as (k & -> & _); cbn; split; [lia|exact I].
  apply Forall_forall. intros o Ho. apply elem_of_list_fmap in Ho. destruct Ho as (k & -> & _). cbn. split; [lia|exact I].
Qed.
(** two reachable tables with equal contents, different capacities, one with tombstones *)
Example C10_example : exists t1 t2, mreachable ex_hash N.eqb ex_eeq ex_env t1 /\ mreachable ex_hash N.eqb ex_eeq ex_env t2 /\
  t_cap t1 = 63 /\ t_cap t2 = 7 /\ table_eq ex_hash ex_env ex_eeq t1 t2 = Ok true.
Proof.
  exists (nth 0 (mtables ex_hist) empty_table), (nth 1 (mtables ex_hist) empty_table).
  assert (H : exists ns rs, mrun ex_hash N.eqb ex_eeq ex_env (replicate 3 empty_table) (replicate 1 None) ex_hist = Ok (mtables ex_hist, ns, rs))
    by (do 2 eexists; vm_compute; reflexivity).
  assert (Hl : length (mtables ex_hist) = 3) by (vm_compute; reflexivity). destruct H as (ns & rs & H).
  split; [|split].
  1,2: exists 3, 1, ex_hist, (mtables ex_hist), ns, rs; (split; [apply ex_hist_ok|]); (split; [exact H|]); apply nth_In; lia.
  split; [vm_compute; reflexivity|]. split; vm_compute; reflexivity.
Qed.

(** C11, merge of two reachable tables: nothing lost, nothing duplicated; if it does not run out of memory,
    exactly the elements whose key was absent from the destination move. *)
Theorem C11_merge : forall (K V : Type) (hash : K -> N) (eqb : K -> K -> bool) (eeq : K * V -> K * V -> bool) (E : env)
    (dst src : table K V) (ld ls : list (K * V)),
  real_env E -> KeyOK hash eqb -> EltOK eqb eeq -> mreachable hash eqb eeq E dst -> mreachable hash eqb eeq E src ->
  to_list E dst = Ok ld -> to_list E src = Ok ls ->
  exists dst' src' threw ld' ls' moved, merge hash eqb E dst src = Ok (dst', src', threw) /\
    to_list E dst' = Ok ld' /\ to_list E src' = Ok ls' /\ Permutation ls (moved ++ ls') /\ Permutation ld' (moved ++ ld) /\
    distinct eqb ld' /\
    (forall e, In e moved -> s_find eqb ld (fst e) = None) /\
    (threw = false -> forall e, In e ls' -> s_find eqb ld (fst e) <> None).
Proof.
  intros K V hash eqb eeq E dst src ld ls HE0 HK HQ Hr1 Hr2 Hl1 Hl2. pose proof (real_env_ok E HE0) as HE.
  pose proof (mreachable_good hash eqb eeq E HE HK HQ dst Hr1) as Hg1.
  pose proof (mreachable_good hash eqb eeq E HE HK HQ src Hr2) as Hg2.
  destruct (iterate_ok hash eqb E HE HK dst Hg1) as (? & _ & H1 & _). rewrite Hl1 in H1. injection H1 as ->.
  destruct (iterate_ok hash eqb E HE HK src Hg2) as (? & _ & H2 & _). rewrite Hl2 in H2. injection H2 as ->.
  destruct (merge_ok hash eqb E HE HK dst src Hg1 Hg2) as (dst' & src' & b & moved & rest & Hm & Hg1' & Hg2' & P1 & P2 & P3 & Ha & Hb).
  exists dst', src', b, (elems (t_slots dst')), (elems (t_slots src')), moved.
  destruct (iterate_ok hash eqb E HE HK dst' Hg1') as (? & _ & H1' & _).
  destruct (iterate_ok hash eqb E HE HK src' Hg2') as (? & _ & H2' & _).
  split; [assumption|]. split; [assumption|]. split; [assumption|]. split; [rewrite P3; assumption|]. split; [assumption|].
  split; [apply (good_dist hash eqb E dst' Hg1')|]. split.
  - intros e He. apply (R_absent hash eqb E HE HK dst _ (fst e)); [split; [assumption|reflexivity]|]. apply Ha. assumption.
  - intros Hf e He. assert (Hin : In e rest) by (eapply Permutation_in; [exact P3|exact He]).
    specialize (Hb Hf e Hin). destruct Hb as (y & Hx & Hk).
    clear -Hx Hk. induction (elems (t_slots dst)) as [|z l IH]; cbn in *; [contradiction|].
    destruct Hx as [->|Hx]; [rewrite Hk; discriminate|]. destruct (eqb (fst e) (fst z)); [discriminate|auto].
Qed.
Print Assumptions C11_merge.

(** C49, hash containers: erase_if on a reachable table removes exactly the elements satisfying the predicate,
    returns how many, calls the predicate once on each element (in traversal order), and moves no element that
    stays. *)
Theorem C49_erase_if_hash : forall (K V : Type) (hash : K -> N) (eqb : K -> K -> bool) (eeq : K * V -> K * V -> bool) (E : env)
    (t : table K V) (l : list (K * V)) (p : K * V -> bool),
  real_env E -> KeyOK hash eqb -> EltOK eqb eeq -> mreachable hash eqb eeq E t -> to_list E t = Ok l ->
  exists t', erase_if E p t = Ok (t', length (List.filter p l), l) /\
    to_list E t' = Ok (List.filter (fun e => negb (p e)) l) /\ t_size t' = length (List.filter (fun e => negb (p e)) l) /\
    t_cap t' = t_cap t /\
    (forall i e, t_slots t !! i = Some (Some e) -> p e = false -> t_slots t' !! i = Some (Some e)).
Proof.
  intros K V hash eqb eeq E t l p HE0 HK HQ Hr Hl. pose proof (real_env_ok E HE0) as HE.
  pose proof (mreachable_good hash eqb eeq E HE HK HQ t Hr) as Hg.
  destruct (iterate_ok hash eqb E HE HK t Hg) as (? & _ & H1 & _). rewrite Hl in H1. injection H1 as ->.
  destruct (erase_if_ok hash eqb E HE HK p t Hg) as (t' & He & Hg' & Hcap & Hel & Hst).
  exists t'. split; [assumption|]. rewrite <- Hel. destruct (iterate_ok hash eqb E HE HK t' Hg') as (? & _ & H2 & _).
  { split; [assumption|].
    split; [apply (good_size hash eqb E t' Hg')|]. auto. }
Qed.
Print Assumptions C49_erase_if_hash.

(** ** C22: files *)
(** C22, round trip: loading what was dumped gives back the table.  A non-empty table is reproduced slot by
    slot (so it behaves identically under all later operations); an empty one keeps its capacity and behaves
    as an empty map.  What follows in the file is left unread. *)
Theorem C22_dump_load : forall (K V : Type) (hash : K -> N) (eqb : K -> K -> bool) (eeq : K * V -> K * V -> bool) (E : env)
    (ser : K * V -> list N) (des : list N -> K * V) (raw : list N) (t : table K V) (l : list (K * V)) (rest : list N) (os : list (op K V)),
  real_env E -> KeyOK hash eqb -> EltOK eqb eeq -> TrivCopy (e_slot_size E) ser des raw -> mreachable hash eqb eeq E t ->
  to_list E t = Ok l -> Forall (op_ok E) os ->
  (load_table hash E des raw (dump E ser raw t ++ rest) = BadAlloc /\ (e_max_bytes E < alloc_size E (N.of_nat (t_cap t)))%N) \/
  exists t', load_table hash E des raw (dump E ser raw t ++ rest) = Ok (t', rest) /\
    to_list E t' = Ok l /\ t_size t' = t_size t /\ t_cap t' = t_cap t /\ (l <> [] -> t' = t) /\
    exists t2 rs m, run hash eqb E t' os = Ok (t2, rs) /\ s_run eqb l os rs m.
Proof.
  intros K V hash eqb eeq E ser des raw t l rest os HE0 HK HQ HT Hr Hl Ho. pose proof (real_env_ok E HE0) as HE.
  pose proof (mreachable_good hash eqb eeq E HE HK HQ t Hr) as Hg.
  destruct (iterate_ok hash eqb E HE HK t Hg) as (? & _ & H1 & _). rewrite Hl in H1. injection H1 as ->.
  destruct (load_dump hash eqb E HE HK ser des raw HT t rest Hg) as [[Hb Hbig]|(t' & Hld & Hg' & Hcap & Hsz & Hel & Hid)]; [left; auto|right].
  exists t'. split; [assumption|]. rewrite <- Hel. destruct (iterate_ok hash eqb E HE HK t' Hg') as (? & _ & H2 & _).
  { split; [assumption|].
    split; [assumption|]. split; [assumption|]. split.
    - intros Hne. apply Hid. rewrite (good_size hash eqb E t Hg), <- Hel. intros H0. apply nil_length_inv in H0. contradiction.
    - destruct (run_ok hash eqb E HE HK os t' (elems (t_slots t'))) as (t2 & rs & m & Hrun & Hsr & _); [split; [assumption|reflexivity]|assumption|]. eauto. }
Qed.
Print Assumptions C22_dump_load.

(** C22, failure reporting, is false.  The load functions always answer true for a single table: a file cut
    after its four header words gives a table whose size() is that of the dumped table although a traversal
    finds nothing ... *)
Theorem C22_truncated_file_refuted : forall (K V : Type) (hash : K -> N) (eqb : K -> K -> bool) (eeq : K * V -> K * V -> bool) (E : env)
    (ser : K * V -> list N) (des : list N -> K * V) (raw : list N) (t : table K V) (l : list (K * V)),
  real_env E -> KeyOK hash eqb -> EltOK eqb eeq -> TrivCopy (e_slot_size E) ser des raw -> mreachable hash eqb eeq E t ->
  to_list E t = Ok l -> l <> [] ->
  load_table hash E des raw (take 32 (dump E ser raw t)) = BadAlloc \/
  exists t', load_table hash E des raw (take 32 (dump E ser raw t)) = Ok (t', []) /\
    t_size t' = length l /\ t_size t' <> 0 /\ to_list E t' = Ok [].
Proof.
  intros K V hash eqb eeq E ser des raw t l HE0 HK HQ HT Hr Hl Hne. pose proof (real_env_ok E HE0) as HE.
  pose proof (mreachable_good hash eqb eeq E HE HK HQ t Hr) as Hg.
  destruct (iterate_ok hash eqb E HE HK t Hg) as (? & _ & H1 & _). rewrite Hl in H1. injection H1 as ->.
  assert (Hz : t_size t <> 0).
  { rewrite (good_size hash eqb E t Hg). intros H0. apply nil_length_inv in H0. contradiction. }
  destruct (load_truncated hash eqb E HE HK ser des raw HT t Hg Hz) as [?|(t' & H2 & H3 & H4)]; [auto|right].
  exists t'. rewrite H3. rewrite (good_size hash eqb E t Hg) in *. auto.
Qed.
Print Assumptions C22_truncated_file_refuted.
(** ... and a missing or empty file is loaded "successfully" as an empty table. *)
Theorem C22_missing_file_refuted : forall (K V : Type) (hash : K -> N) (E : env) (des : list N -> K * V) (raw : list N),
  load_table hash E des raw [] = Ok (empty_table, []).
Proof. reflexivity. Qed.
Print Assumptions C22_missing_file_refuted.

(** the hypotheses are met by a table with tombstones of elements of a type with exactly 2^64 values *)
Record w64 := mkW64 { w64_val : N; w64_ok : (w64_val <? 2 ^ 64)%N = true }.
Lemma w64_eq a b : w64_val a = w64_val b -> a = b.
Proof. destruct a as [a Ha], b as [b Hb]. cbn. intros ->. f_equal. apply (Eqdep_dec.UIP_dec Bool.bool_dec). Qed.
Definition w64_of (x : N) : w64 := mkW64 (x mod 2 ^ 64) (proj2 (N.ltb_lt _ _) (N.mod_lt x (2 ^ 64) ltac:(discriminate))).
Definition w_ser (e : w64 * unit) : list N := le8 (w64_val (fst e)).
Definition w_des (b : list N) : w64 * unit := (w64_of (of_le b), tt).
Lemma w_triv : TrivCopy 8 w_ser w_des (replicate 8 0%N).
Proof.
  constructor; [intros e; unfold w_ser, le8; rewrite to_le_length; reflexivity|reflexivity|].
  intros [e []]. unfold w_des, w_ser. cbn [fst]. f_equal. apply w64_eq. cbn [w64_of w64_val].
  destruct e as [x Hx]. cbn [w64_val]. apply N.ltb_lt in Hx. unfold le8. rewrite of_to_le by exact Hx. apply N.mod_small. exact Hx.
Qed.
Definition w_ops : list (op w64 unit) := map (fun k => OEmplace (w64_of k) tt) (nums 0 20) ++ map (fun k => OErase (w64_of k)) (nums 3 10).
Definition w_hash (x : w64) : N := ex_hash (w64_val x).
Definition w_eqb (x y : w64) : bool := N.eqb (w64_val x) (w64_val y).
Lemma ok_inv {A B} (r : res (A * B)) (b : A -> bool) :
  match r with Ok (t, _) => b t | _ => false end = true -> exists t rs, r = Ok (t, rs) /\ b t = true.
Proof. destruct r as [[t rs]| | | |]; try discriminate. eauto. Qed.
Example C22_example : TrivCopy (e_slot_size ex_env) w_ser w_des (replicate 8 0%N) /\ Forall (op_ok ex_env) w_ops /\
  exists t rs, run w_hash w_eqb ex_env empty_table w_ops = Ok (t, rs) /\
    t_size t = 10 /\ length (dump ex_env w_ser (replicate 8 0%N) t) = 4 * 8 + (31 + 16 + 1) + 31 * 8.
Proof.
  split; [apply w_triv|]. split.
  { apply Forall_app. split; apply Forall_forall; intros o Ho; apply elem_of_list_fmap in Ho; destruct Ho as (k & -> & _); exact I. }
  destruct (ok_inv (run w_hash w_eqb ex_env empty_table w_ops)
    (fun t => (t_size t =? 10) && (length (dump ex_env w_ser (replicate 8 0%N) t) =? 4 * 8 + (31 + 16 + 1) + 31 * 8))) as (t & rs & Hr & Hb);
    [vm_compute; reflexivity|].
  exists t, rs. split; [exact Hr|]. apply andb_true_iff in Hb. destruct Hb as [H1 H2]. apply Nat.eqb_eq in H1, H2. auto.
Qed.

(** C22, parallel containers: the dump of [n] submaps loads into a container with the same number of submaps,
    submap by submap, and is refused (answer false) by a container with another number of submaps. *)
Theorem C22_parallel_dump_load : forall (K V : Type) (hash : K -> N) (eqb : K -> K -> bool) (eeq : K * V -> K * V -> bool) (E : env)
    (ser : K * V -> list N) (des : list N -> K * V) (raw : list N) (ts : list (table K V)) (rest : list N) (n : nat),
  real_env E -> KeyOK hash eqb -> EltOK eqb eeq -> TrivCopy (e_slot_size E) ser des raw ->
  Forall (mreachable hash eqb eeq E) ts -> (N.of_nat (length ts) < 2 ^ 64)%N ->
  (n <> length ts -> pload hash E des raw n (pdump E ser raw ts ++ rest) = Ok None) /\
  (n = length ts -> pload hash E des raw n (pdump E ser raw ts ++ rest) = BadAlloc \/
     exists ts', pload hash E des raw n (pdump E ser raw ts ++ rest) = Ok (Some (ts', rest)) /\
       Forall2 (fun t' t => t_size t' = t_size t /\ t_cap t' = t_cap t /\ to_list E t' = to_list E t /\ (t_size t <> 0 -> t' = t)) ts' ts).
Proof.
  intros K V hash eqb eeq E ser des raw ts rest n HE0 HK HQ HT Hr Hlen. pose proof (real_env_ok E HE0) as HE.
  assert (Hg : Forall (good hash eqb E) ts).
  { eapply Forall_impl; [exact Hr|]. intros t. apply (mreachable_good hash eqb eeq E HE HK HQ). }
  unfold pload, pdump. rewrite <- app_assoc, read8_le by assumption. split; intros Hn.
  - destruct (N.eqb_spec (N.of_nat (length ts)) (N.of_nat n)); [lia|reflexivity].
  - subst n. rewrite N.eqb_refl.
    destruct (pload_loop_dump hash eqb E HE HK ser des raw HT ts rest Hg) as [[Hb _]|(ts' & Hp & HF)].
    + left. rewrite Hb. reflexivity.
    + right. rewrite Hp. cbn [rbind]. exists ts'. split; [reflexivity|].
      clear Hp Hr Hlen. induction HF as [|t' t ts' ts (Hg' & Hc & Hs & He & Hid) HF IH]; constructor.
      * inversion Hg; subst. split; [assumption|]. split; [assumption|]. split; [|assumption].
        destruct (iterate_ok hash eqb E HE HK t' Hg') as (? & _ & -> & _).
        destruct (iterate_ok hash eqb E HE HK t) as (? & _ & -> & _); [assumption|]. rewrite He. reflexivity.
      * apply IH. inversion Hg; assumption.
Qed.
Print Assumptions C22_parallel_dump_load.
