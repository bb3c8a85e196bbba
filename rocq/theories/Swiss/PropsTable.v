(** Property theorems C01-C07, C12, C50: one hash table under arbitrary operation sequences. *)
From stdpp Require Import list.
From Coq Require Import Arith NArith ZArith Lia.
From Verif.Common Require Import Res Word.
From Verif.Swiss Require Import Group GroupSpec Model Probe Inv TableInv Resize Ops MapSpec History Reserve.
Local Open Scope nat_scope.
Local Open Scope res_scope.

(** A concrete build and key type used by the examples: 16-byte groups, 8-byte slots, keys are numbers and
    every key below 50 has the same hash. *)
Definition ex_env : env := Build_env (group_sse2 false) 100000 8 3 0%Z.
Definition ex_env8 : env := Build_env group_portable 100000 8 3 0%Z.
Definition ex_hash (k : N) : N := if (k <? 50)%N then 0%N else (128 * 16)%N.
Lemma ex_env_real : real_env ex_env.
Proof. constructor; try reflexivity; try (split; [discriminate|reflexivity]); try discriminate. left. exists false. reflexivity. Qed.
Lemma ex_env8_real : real_env ex_env8.
Proof. constructor; try reflexivity; try (split; [discriminate|reflexivity]); try discriminate. right. reflexivity. Qed.
Lemma ex_key : KeyOK ex_hash N.eqb.
Proof.
  constructor; intros a; [apply N.eqb_refl|intros b; apply N.eqb_sym|intros b c H1 H2|intros b H].
  - apply N.eqb_eq in H1, H2. subst. apply N.eqb_refl.
  - apply N.eqb_eq in H. subst. reflexivity.
Qed.
Definition nums (a n : nat) : list N := map N.of_nat (seq a n).
Definition ins (l : list N) : list (op N N) := map (fun k => OEmplace k k) l.

(** the table and the answers after a sequence of operations *)
Definition run_table (os : list (op N N)) : table N N :=
  match run ex_hash N.eqb ex_env empty_table os with Ok (t, _) => t | _ => empty_table end.
Definition run_outs (os : list (op N N)) : list (out N N) :=
  match run ex_hash N.eqb ex_env empty_table os with Ok (_, rs) => rs | _ => [] end.

(** C01.  Every sequence of public operations runs to completion (no undefined behaviour, no endless loop)
    and its answers are answers the ideal finite map may give. *)
Theorem C01_map_refinement : forall (K V : Type) (hash : K -> N) (eqb : K -> K -> bool) (E : env) (os : list (op K V)),
  real_env E -> KeyOK hash eqb -> Forall (op_ok E) os ->
  exists t rs m, run hash eqb E empty_table os = Ok (t, rs) /\ s_run eqb [] os rs m.
Proof.
  intros K V hash eqb E os HE HK Ho.
  destruct (run_ok hash eqb E (real_env_ok E HE) HK os empty_table [] (R_empty hash eqb E) Ho) as (t & rs & m & H1 & H2 & _). eauto.
Qed.
Print Assumptions C01_map_refinement.

(** C01, exceptions: an operation on a reachable table throws only when the table it needs does not fit in
    the memory the allocator can provide, and then the table is untouched. *)
Theorem C01_throws_only_out_of_memory : forall (K V : Type) (hash : K -> N) (eqb : K -> K -> bool) (E : env)
    (t t' : table K V) (o : op K V),
  real_env E -> KeyOK hash eqb -> reachable hash eqb E t -> op_ok E o ->
  exec hash eqb E t o = Ok (t', RThrow) -> throw_ok E t o /\ t' = t.
Proof.
  intros K V hash eqb E t t' o HE HK Hr Ho Hex.
  pose proof (reachable_good hash eqb E (real_env_ok E HE) HK t Hr) as Hg.
  destruct (exec_ok hash eqb E (real_env_ok E HE) HK t (elems (t_slots t)) o) as (t2 & r & m' & Hx & _ & _ & Ht).
  - split; [assumption|reflexivity].
  - assumption.
  - rewrite Hex in Hx. injection Hx as <- <-. split; [apply Ht; reflexivity|].
    destruct o; cbn [exec] in Hex;
      repeat match type of Hex with
      | context [match ?x with Ok _ => _ | _ => _ end] => destruct x eqn:?; cbn [rbind catch] in Hex
      | context [rbind ?x _] => destruct x eqn:?; cbn [rbind catch] in Hex
      | context [let '(_, _) := ?x in _] => destruct x
      | context [match ?x with Some _ => _ | None => _ end] => destruct x
      end; congruence.
Qed.
Print Assumptions C01_throws_only_out_of_memory.

(** a run with colliding keys, erasures, overwriting, growth through several capacities *)
Definition ex_ops : list (op N N) :=
  ins (nums 0 20) ++ [OErase 3%N; OErase 3%N; OAssign 4%N 77%N; OFind 4%N; OReserve 40%N; OFind 5%N; ORehash 100%N] ++
  ins (nums 60 20) ++ [OSize; OClear; OSize].
Lemma ex_ops_ok : Forall (op_ok ex_env) ex_ops.
Proof.
  unfold ex_ops. apply Forall_app. split; [|apply Forall_app; split; [|apply Forall_app; split]].
  - apply Forall_forall. intros o Ho. apply elem_of_list_fmap in Ho. destruct Ho as (k & -> & _). exact I.
  - repeat (apply Forall_cons_2; [cbn; try exact I|]); [| |apply Forall_nil_2].
    + split; [discriminate|]. split; [reflexivity|]. intros m Hm. vm_compute in Hm. injection Hm as <-. vm_compute. reflexivity.
    + split; [discriminate|]. split; [reflexivity|]. vm_compute. reflexivity.
  - apply Forall_forall. intros o Ho. apply elem_of_list_fmap in Ho. destruct Ho as (k & -> & _). exact I.
  - repeat (apply Forall_cons_2; [exact I|]). apply Forall_nil_2.
Qed.
Example C01_example : real_env ex_env /\ KeyOK ex_hash N.eqb /\ Forall (op_ok ex_env) ex_ops /\
  exists t rs, run ex_hash N.eqb ex_env empty_table ex_ops = Ok (t, rs) /\
    drop 20 (take 27 rs) = [RErased (Some (3%N, 3%N)); RErased None; RInserted false (4%N, 77%N); RFound (Some (4%N, 77%N));
                            RUnit; RFound (Some (5%N, 5%N)); RUnit] /\
    drop 47 rs = [RSize 39; RUnit; RSize 0] /\ t_cap t = 127.
Proof.
  split; [apply ex_env_real|]. split; [apply ex_key|]. split; [apply ex_ops_ok|].
  exists (run_table ex_ops), (run_outs ex_ops). repeat (split; [vm_compute; reflexivity|]). vm_compute. reflexivity.
Qed.

(** C02.  On every reachable table, a traversal visits slots [is], each once, exactly the slots holding an
    element; it yields a duplicate-free list of elements with pairwise different keys whose length is
    size(), and find succeeds exactly on the keys visited. *)
Theorem C02_size_and_iteration : forall (K V : Type) (hash : K -> N) (eqb : K -> K -> bool) (E : env) (t : table K V),
  real_env E -> KeyOK hash eqb -> reachable hash eqb E t ->
  exists is l, iterate E t = Ok is /\ to_list E t = Ok l /\ t_size t = length l /\ distinct eqb l /\
    List.NoDup is /\ (forall i, In i is <-> exists e, t_slots t !! i = Some (Some e)) /\
    (forall k, exec hash eqb E t (OFind k) = Ok (t, RFound (s_find eqb l k))).
Proof.
  intros K V hash eqb E t HE0 HK Hr. pose proof (real_env_ok E HE0) as HE.
  pose proof (reachable_good hash eqb E HE HK t Hr) as Hg.
  destruct (iterate_ok hash eqb E HE HK t Hg) as (is & H1 & H2 & H3 & H4).
  exists is, (elems (t_slots t)). repeat (split; [assumption|]).
  split; [apply (good_size hash eqb E t Hg)|]. split; [apply (good_dist hash eqb E t Hg)|].
  split; [assumption|]. split; [assumption|]. intros k.
  destruct (exec_ok hash eqb E HE HK t (elems (t_slots t)) (OFind k)) as (t2 & r & m' & Hx & [Hst _] & _); [split; [assumption|reflexivity]|exact I|].
  rewrite Hx. rewrite Hst. cbn [exec] in Hx.
  destruct (find_key hash eqb E t k) as [[p|]| | | |]; cbn [rbind] in Hx; try discriminate;
    [destruct (deref t p); cbn [rbind] in Hx; try discriminate|]; injection Hx as <- _; reflexivity.
Qed.
Print Assumptions C02_size_and_iteration.

(** a reachable table with tombstones *)
Example C02_example : exists t : table N N, reachable ex_hash N.eqb ex_env t /\ t_size t = 10 /\ t_cap t = 31 /\ t_ctrl t !! 3 = Some kDeleted.
Proof.
  eexists. split; [|split; [|split]].
  - exists (ins (nums 0 20) ++ map OErase (nums 3 10)). eexists. split.
    + apply Forall_app. split; apply Forall_forall; intros o Ho; apply elem_of_list_fmap in Ho; destruct Ho as (k & -> & _); exact I.
    + vm_compute. reflexivity.
  - vm_compute. reflexivity.
  - vm_compute. reflexivity.
  - vm_compute. reflexivity.
Qed.

(** C03.  On every reachable table every lookup ends after inspecting at most capacity/width + 1 groups. *)
Theorem C03_lookup_terminates : forall (K V : Type) (hash : K -> N) (eqb : K -> K -> bool) (E : env) (t : table K V) (k : K),
  real_env E -> KeyOK hash eqb -> reachable hash eqb E t ->
  exists r, find_fuel hash eqb E (t_cap t / g_width (e_group E) + 1) t k = Ok r /\ find_key hash eqb E t k = Ok r.
Proof.
  intros K V hash eqb E t k HE HK Hr. rewrite Nat.add_1_r.
  apply find_bounded; [apply real_env_ok; assumption|exact HK|].
  apply reachable_good; [apply real_env_ok; assumption|exact HK|assumption].
Qed.
Print Assumptions C03_lookup_terminates.

(** C04 is false: when size() is 2^i - 1 (and at least width - 1), rehash(0) produces a completely full
    table and the lookup of any absent key never returns. *)
Theorem C04_rehash0_hangs_refuted : forall (K V : Type) (hash : K -> N) (eqb : K -> K -> bool) (E : env) (t : table K V) (k : K) (i : nat),
  real_env E -> KeyOK hash eqb -> reachable hash eqb E t ->
  t_size t = 2 ^ i - 1 -> g_width (e_group E) <= 2 ^ i -> find_key hash eqb E t k = Ok None ->
  rehash hash E t 0 = BadAlloc \/
  exists t', rehash hash E t 0 = Ok t' /\ t_cap t' = t_size t /\ forall fuel, find_fuel hash eqb E fuel t' k = Loop.
Proof.
  intros K V hash eqb E t k i HE0 HK Hr Hsz HW Hf. pose proof (real_env_ok E HE0) as HE.
  pose proof (reachable_good hash eqb E HE HK t Hr) as Hg.
  assert (Ha : absent eqb t k).
  { destruct (present_or_absent eqb t k) as [(j & e & Hs & Hk)|Ha]; [|assumption].
    rewrite (good_find_present hash eqb E HE HK t k j e Hg Hs Hk) in Hf. discriminate. }
  destruct (rehash0_hang hash eqb E HE HK t k i Hg Hsz HW Ha) as [?|(t' & H1 & H2 & _ & H3)]; [auto|right; eauto].
Qed.
Print Assumptions C04_rehash0_hangs_refuted.
(** the witness: 15 elements, then rehash(0), then find of an absent key *)
Theorem C04_rehash0_usable_refuted : exists (os : list (op N N)) (k : N) t rs t',
  Forall (op_ok ex_env) os /\ run ex_hash N.eqb ex_env empty_table os = Ok (t, rs) /\
  rehash ex_hash ex_env t 0 = Ok t' /\ forall fuel, find_fuel ex_hash N.eqb ex_env fuel t' k = Loop.
Proof.
  assert (Ho : Forall (op_ok ex_env) (ins (nums 0 15))).
  { apply Forall_forall; intros o Ho; apply elem_of_list_fmap in Ho; destruct Ho as (k & -> & _); exact I. }
  set (t := run_table (ins (nums 0 15))). set (rs := run_outs (ins (nums 0 15))).
  assert (Hr : run ex_hash N.eqb ex_env empty_table (ins (nums 0 15)) = Ok (t, rs)) by (vm_compute; reflexivity).
  exists (ins (nums 0 15)), 1000%N, t, rs.
  destruct (C04_rehash0_hangs_refuted _ _ ex_hash N.eqb ex_env t 1000%N 4 ex_env_real ex_key) as [Hb|(t' & H1 & _ & H2)].
  - exists (ins (nums 0 15)), rs. auto.
  - vm_compute. reflexivity.
  - cbn. lia.
  - vm_compute. reflexivity.
  - exfalso. revert Hb. vm_compute. discriminate.
  - exists t'. auto.
Qed.
Print Assumptions C04_rehash0_usable_refuted.

(** C04, the part that holds: rehash(0) keeps everything when the size fits the 7/8 limit of the smallest
    capacity holding it.  Missing: the other sizes, where the property is false (above). *)
Theorem C04_rehash0_partial : forall (K V : Type) (hash : K -> N) (eqb : K -> K -> bool) (E : env) (t : table K V) (l : list (K * V)),
  real_env E -> KeyOK hash eqb -> reachable hash eqb E t -> to_list E t = Ok l ->
  t_size t <= CapacityToGrowth (g_width (e_group E)) (N.to_nat (NormalizeCapacity (N.of_nat (t_size t)))) ->
  rehash hash E t 0 = BadAlloc \/
  exists t' l', rehash hash E t 0 = Ok t' /\ to_list E t' = Ok l' /\ Permutation l' l /\ t_size t' = t_size t /\
    forall k, exec hash eqb E t' (OFind k) = Ok (t', RFound (s_find eqb l k)).
Proof.
  intros K V hash eqb E t l HE0 HK Hr Hl Hroom. pose proof (real_env_ok E HE0) as HE.
  pose proof (reachable_good hash eqb E HE HK t Hr) as Hg.
  destruct (iterate_ok hash eqb E HE HK t Hg) as (is & _ & H2 & _). rewrite Hl in H2. injection H2 as ->.
  destruct (rehash0_ok hash eqb E HE HK t Hg Hroom) as [[Hb _]|(t' & Hr' & Hg' & Hsz & Hp)]; [auto|right].
  destruct (iterate_ok hash eqb E HE HK t' Hg') as (is' & _ & H2' & _).
  exists t', (elems (t_slots t')). repeat (split; [assumption|]). intros k.
  destruct (exec_ok hash eqb E HE HK t' (elems (t_slots t)) (OFind k)) as (t2 & r & m' & Hx & [Hst _] & _); [split; assumption|exact I|].
  rewrite Hx. rewrite Hst. cbn [exec] in Hx.
  destruct (find_key hash eqb E t' k) as [[p|]| | | |]; cbn [rbind] in Hx; try discriminate;
    [destruct (deref t' p); cbn [rbind] in Hx; try discriminate|]; injection Hx as <- _; reflexivity.
Qed.
Print Assumptions C04_rehash0_partial.
Example C04_partial_example : exists t rs, run ex_hash N.eqb ex_env empty_table (ins (nums 0 40) ++ map OErase (nums 3 20)) = Ok (t, rs) /\
  t_size t = 20 /\ t_cap t = 63 /\
  20 <= CapacityToGrowth 16 (N.to_nat (NormalizeCapacity 20)).
Proof.
  exists (run_table (ins (nums 0 40) ++ map OErase (nums 3 20))), (run_outs (ins (nums 0 40) ++ map OErase (nums 3 20))).
  split; [vm_compute; reflexivity|]. split; [vm_compute; reflexivity|]. split; [vm_compute; reflexivity|].
  vm_compute. repeat constructor.
Qed.

(** C05 is false in general: reserve compares the request with the capacity and ignores tombstones.  After
    erasing 16 of 28 elements, reserve(20) does nothing; the next insertion makes size() = 13 <= 20 but
    rehashes in place and moves elements. *)
Definition slot_key (t : table N N) (i : nat) : option N :=
  match t_slots t !! i with Some (Some e) => Some (fst e) | _ => None end.
Theorem C05_reserve_ignores_tombstones_refuted : exists (os : list (op N N)) t rs t1 t2 r (i : nat) (k : N),
  Forall (op_ok ex_env) (os ++ [OReserve 20%N; OEmplace 100%N 1%N]) /\
  run ex_hash N.eqb ex_env empty_table os = Ok (t, rs) /\
  exec ex_hash N.eqb ex_env t (OReserve 20%N) = Ok (t1, RUnit) /\
  exec ex_hash N.eqb ex_env t1 (OEmplace 100%N 1%N) = Ok (t2, r) /\
  t_size t2 <= 20 /\ slot_key t1 i = Some k /\ slot_key t2 i <> Some k.
Proof.
  exists (ins (nums 0 20) ++ ins (nums 50 8) ++ map OErase (nums 0 16)).
  do 2 eexists. eexists. eexists. eexists. exists 17, 17%N. split.
  { apply Forall_app. split; [apply Forall_app; split; [|apply Forall_app; split]|].
    1-3: apply Forall_forall; intros o Ho; apply elem_of_list_fmap in Ho; destruct Ho as (k & -> & _); exact I.
    apply Forall_cons_2; [|apply Forall_cons_2; [exact I|apply Forall_nil_2]].
    split; [discriminate|]. split; [reflexivity|]. intros m Hm. vm_compute in Hm. injection Hm as <-. vm_compute. reflexivity. }
  split; [vm_compute; reflexivity|]. split; [vm_compute; reflexivity|]. split; [vm_compute; reflexivity|].
  split; [vm_compute; lia|]. split; [vm_compute; reflexivity|vm_compute; discriminate].
Qed.
Print Assumptions C05_reserve_ignores_tombstones_refuted.

(** C05, the part that holds: if nothing has been erased before the reserve, or if the reserve changed
    bucket_count(), then as long as size() <= n no insertion, assignment or lookup changes bucket_count()
    or moves an element (assignment may change its value), and below n nothing throws.
    Missing: a reserve that keeps the capacity of a table with tombstones, where the claim is false. *)
Theorem C05_reserve_no_move_partial : forall (K V : Type) (hash : K -> N) (eqb : K -> K -> bool) (E : env)
    (os0 os : list (op K V)) (n : N) (t t1 t2 : table K V) (rs0 rs : list (out K V)),
  real_env E -> KeyOK hash eqb -> Forall (op_ok E) os0 ->
  run hash eqb E empty_table os0 = Ok (t, rs0) ->
  op_ok E (@OReserve K V n) -> exec hash eqb E t (OReserve n) = Ok (t1, RUnit) ->
  (Forall no_erase os0 \/ t_cap t1 <> t_cap t) ->
  Forall quiet os -> run hash eqb E t1 os = Ok (t2, rs) -> t_size t2 <= N.to_nat n ->
  t_cap t2 = t_cap t1 /\
  (forall i e, t_slots t1 !! i = Some (Some e) -> exists v, t_slots t2 !! i = Some (Some (fst e, v))) /\
  (t_size t2 < N.to_nat n -> ~ In RThrow rs).
Proof.
  intros K V hash eqb E os0 os n t t1 t2 rs0 rs HE0 HK Ho0 Hr0 Hon Hres Hor Hq Hr Hle. pose proof (real_env_ok E HE0) as HE.
  assert (Hg : good hash eqb E t) by (apply (reachable_good hash eqb E HE HK t); exists os0, rs0; auto).
  destruct (exec_reserve hash eqb E HE HK t t1 n Hg Hon Hres) as (Hg1 & Hn & Hc1 & Hc2 & _).
  assert (Hnt : no_tombstones t1).
  { destruct Hor as [Hne|Hc]; [|auto]. apply Hc2.
    apply (run_no_erase hash eqb E HE HK os0 empty_table t rs0); try assumption; [left; reflexivity|].
    intros i Hi. cbn in Hi. lia. }
  destruct (run_quiet hash eqb E HE HK os t1 t2 rs Hg1 Hnt Hq Hr) as (_ & Hk & Ht).
  destruct (Hk ltac:(lia)) as [Hcap Hslots]. split; [assumption|]. split; [assumption|]. intros Hlt. apply Ht. lia.
Qed.
Print Assumptions C05_reserve_no_move_partial.
Example C05_partial_example : exists t t1 t2 rs0 rs,
  run ex_hash N.eqb ex_env empty_table (ins (nums 0 10)) = Ok (t, rs0) /\ Forall no_erase (ins (nums 0 10)) /\
  op_ok ex_env (@OReserve N N 60) /\ exec ex_hash N.eqb ex_env t (OReserve 60%N) = Ok (t1, RUnit) /\
  Forall quiet (ins (nums 30 50)) /\ run ex_hash N.eqb ex_env t1 (ins (nums 30 50)) = Ok (t2, rs) /\
  t_size t2 = 60 /\ t_cap t1 = 127.
Proof.
  do 5 eexists. split; [vm_compute; reflexivity|].
  split; [apply Forall_forall; intros o Ho; apply elem_of_list_fmap in Ho; destruct Ho as (k & -> & _); exact I|].
  split; [split; [discriminate|]; split; [reflexivity|]; intros m Hm; vm_compute in Hm; injection Hm as <-; vm_compute; reflexivity|].
  split; [vm_compute; reflexivity|].
  split; [apply Forall_forall; intros o Ho; apply elem_of_list_fmap in Ho; destruct Ho as (k & -> & _); exact I|].
  split; [vm_compute; reflexivity|]. split; vm_compute; reflexivity.
Qed.

(** C06.  Capacity and load discipline of every reachable table. *)
Theorem C06_capacity_discipline : forall (K V : Type) (hash : K -> N) (eqb : K -> K -> bool) (E : env) (t : table K V),
  real_env E -> KeyOK hash eqb -> reachable hash eqb E t ->
  let W := g_width (e_group E) in
  (t_cap t = 0 \/ exists k, 1 <= k <= 63 /\ t_cap t = 2 ^ k - 1) /\
  t_size t <= t_cap t /\ (W <= t_cap t + 1 -> 8 * t_size t <= 7 * (t_cap t + 1)) /\
  (W <= t_cap t + 1 -> exists i, i < t_cap t /\ t_ctrl t !! i = Some kEmpty) /\
  (t_cap t + 1 < W -> no_tombstones t).
Proof.
  intros K V hash eqb E t HE0 HK Hr W. pose proof (real_env_ok E HE0) as HE.
  pose proof (reachable_good hash eqb E HE HK t Hr) as Hg. pose proof (W_cases E (eo_group E HE)) as HW. fold W in HW.
  pose proof (good_room hash eqb E t Hg) as [Hroom Hsz]. fold W in Hroom.
  destruct Hg as [->|Ht].
  - change (t_cap empty_table) with 0 in *. split; [auto|]. split; [assumption|]. split; [intros; lia|]. split; [intros; lia|].
    intros _ i Hi. change (t_cap empty_table) with 0 in Hi. lia.
  - pose proof (tinv_cap hash eqb E t Ht) as (k & Hk & HM). split; [right; exists k; split; [assumption|lia]|].
    split; [assumption|]. split; [|split].
    + intros Hl. unfold CapacityToGrowth in Hroom.
      assert (Hd : t_cap t = 7 \/ 7 + 8 * (t_cap t / 8) = t_cap t).
      { right. assert (H8 : exists q, S (t_cap t) = 8 * q).
        { destruct k as [|[|[|k]]]; [lia|cbn in HM; lia|cbn in HM; lia|]. exists (2 ^ k). rewrite HM. cbn [Nat.pow]. lia. }
        destruct H8 as [q Hq]. assert (Hc : t_cap t = 8 * (q - 1) + 7) by lia.
        assert (Hdv : t_cap t / 8 = q - 1) by (symmetry; apply (Nat.div_unique (t_cap t) 8 (q - 1) 7); lia). lia. }
      destruct (Nat.eqb_spec W 8), (Nat.eqb_spec (t_cap t) 7); cbn [andb] in Hroom;
        repeat match goal with H : t_cap t = 7 |- _ => rewrite H in * end; cbn in *; lia.
    + intros Hl. destruct (tinv_has_empty hash eqb E HE HK t Ht) as [Hs|He]; [fold W in Hs; lia|assumption].
    + intros Hs. apply (no_tomb_ndel hash eqb E HE HK t (or_intror Ht)). apply (tv_small _ _ _ _ Ht). fold W. lia.
Qed.
Print Assumptions C06_capacity_discipline.
(** a reachable table at its growth limit: 28 of 31 slots *)
Example C06_example : exists t rs, Forall (op_ok ex_env) (ins (nums 0 28)) /\
  run ex_hash N.eqb ex_env empty_table (ins (nums 0 28)) = Ok (t, rs) /\ t_cap t = 31 /\ t_size t = 28 /\ 8 * t_size t = 7 * (t_cap t + 1).
Proof.
  do 2 eexists. split.
  { apply Forall_forall; intros o Ho; apply elem_of_list_fmap in Ho; destruct Ho as (k & -> & _); exact I. }
  split; [vm_compute; reflexivity|]. repeat split; vm_compute; reflexivity.
Qed.

(** C07.  Erasing a key of a reachable table empties the slot of its element and no other: every other
    slot, and bucket_count(), is unchanged. *)
Theorem C07_erase_moves_nothing : forall (K V : Type) (hash : K -> N) (eqb : K -> K -> bool) (E : env)
    (t : table K V) (k : K) (i : nat),
  real_env E -> KeyOK hash eqb -> reachable hash eqb E t -> find_key hash eqb E t k = Ok (Some i) ->
  exists e t', erase_key hash eqb E t k = Ok (Some e, t') /\ erase_at E t i = Ok (e, t') /\
    t_slots t !! i = Some (Some e) /\ eqb k (fst e) = true /\ t_slots t' !! i = Some None /\
    (forall j, j <> i -> t_slots t' !! j = t_slots t !! j) /\ t_cap t' = t_cap t /\ t_size t = S (t_size t').
Proof.
  intros K V hash eqb E t k i HE0 HK Hr Hf. pose proof (real_env_ok E HE0) as HE.
  pose proof (reachable_good hash eqb E HE HK t Hr) as Hg.
  destruct (present_or_absent eqb t k) as [(j & e & Hs & Hk)|Ha].
  - rewrite (good_find_present hash eqb E HE HK t k j e Hg Hs Hk) in Hf. injection Hf as ->.
    destruct (erase_key_present hash eqb E HE HK t k i e Hg Hs Hk) as (t' & He & _ & Hsl & Hcap & Hsz & _).
    exists e, t'. split; [assumption|]. split.
    { unfold erase_key in He. rewrite (good_find_present hash eqb E HE HK t k i e Hg Hs Hk) in He. cbn [rbind] in He.
      destruct (erase_at E t i) as [[e2 t2]| | | |]; cbn [rbind] in He; try discriminate. injection He as -> ->. reflexivity. }
    split; [assumption|]. split; [assumption|]. rewrite Hsl. split.
    { apply list_lookup_insert. apply lookup_lt_Some in Hs. assumption. }
    split; [|auto]. intros j Hj. apply list_lookup_insert_ne. congruence.
  - rewrite (good_find_absent hash eqb E HE HK t k Hg Ha) in Hf. discriminate.
Qed.
Print Assumptions C07_erase_moves_nothing.
Example C07_example : exists t rs, run ex_hash N.eqb ex_env8 empty_table (ins (nums 0 20)) = Ok (t, rs) /\
  find_key ex_hash N.eqb ex_env8 t 11%N = Ok (Some 11).
Proof. do 2 eexists. split; [vm_compute; reflexivity|vm_compute; reflexivity]. Qed.

(** C12 is false: whenever the constructor of a new element throws (and memory sufficed), size() has grown
    by one although the elements found by a traversal are the same as before. *)
Theorem C12_throwing_constructor_refuted : forall (K V : Type) (hash : K -> N) (eqb : K -> K -> bool) (E : env)
    (t : table K V) (k : K) (l : list (K * V)),
  real_env E -> KeyOK hash eqb -> reachable hash eqb E t -> find_key hash eqb E t k = Ok None -> to_list E t = Ok l ->
  emplace_throwing hash eqb E t k = BadAlloc \/
  exists t' l', emplace_throwing hash eqb E t k = Ok t' /\ t_size t' = S (t_size t) /\
    to_list E t' = Ok l' /\ Permutation l' l /\ length l' <> t_size t'.
Proof.
  intros K V hash eqb E t k l HE0 HK Hr Hf Hl. pose proof (real_env_ok E HE0) as HE.
  pose proof (reachable_good hash eqb E HE HK t Hr) as Hg.
  assert (Ha : absent eqb t k).
  { destruct (present_or_absent eqb t k) as [(j & e & Hs & Hk)|Ha]; [|assumption].
    rewrite (good_find_present hash eqb E HE HK t k j e Hg Hs Hk) in Hf. discriminate. }
  destruct (iterate_ok hash eqb E HE HK t Hg) as (is & _ & H2 & _). rewrite Hl in H2. injection H2 as ->.
  destruct (emplace_throwing_ok hash eqb E HE HK t k Hg Ha) as [?|(t1 & gr & He & Ht1 & Hp)]; [auto|right].
  destruct (iterate_ok hash eqb E HE HK t1 (or_intror Ht1)) as (is1 & _ & H2' & _).
  eexists. exists (elems (t_slots t1)). split; [exact He|]. split; [reflexivity|]. split.
  - rewrite <- H2'. apply iter_fields; reflexivity.
  - split; [assumption|]. rewrite (Permutation_length Hp), <- (good_size hash eqb E t Hg). cbn [t_size]. lia.
Qed.
Print Assumptions C12_throwing_constructor_refuted.
(** C12, the part that holds: the elements and every lookup are unaffected by the exception.
    Missing: size(), which is false (above). *)
Theorem C12_throwing_constructor_elements_partial : forall (K V : Type) (hash : K -> N) (eqb : K -> K -> bool) (E : env)
    (t t' : table K V) (k : K) (l : list (K * V)),
  real_env E -> KeyOK hash eqb -> reachable hash eqb E t -> to_list E t = Ok l ->
  emplace_throwing hash eqb E t k = Ok t' ->
  exists l', to_list E t' = Ok l' /\ Permutation l' l /\
    forall k', exec hash eqb E t' (OFind k') = Ok (t', RFound (s_find eqb l k')).
Proof.
  intros K V hash eqb E t t' k l HE0 HK Hr Hl Het. pose proof (real_env_ok E HE0) as HE.
  pose proof (reachable_good hash eqb E HE HK t Hr) as Hg.
  destruct (iterate_ok hash eqb E HE HK t Hg) as (is & _ & H2 & _). rewrite Hl in H2. injection H2 as ->.
  assert (Hmain : exists t1, good hash eqb E t1 /\ elems (t_slots t1) ≡ₚ elems (t_slots t) /\
            t_ctrl t' = t_ctrl t1 /\ t_slots t' = t_slots t1 /\ t_cap t' = t_cap t1).
  { destruct (present_or_absent eqb t k) as [(j & e & Hs & Hk)|Ha].
    - unfold emplace_throwing in Het. rewrite (good_find_present hash eqb E HE HK t k j e Hg Hs Hk) in Het. cbn [rbind] in Het.
      injection Het as <-. exists t. auto.
    - destruct (emplace_throwing_ok hash eqb E HE HK t k Hg Ha) as [Hb|(t1 & gr & He & Ht1 & Hp)]; [congruence|].
      rewrite He in Het. injection Het as <-. exists t1. split; [right; assumption|]. auto. }
  destruct Hmain as (t1 & Hg1 & Hp & Hc & Hs & Hcap).
  destruct (iterate_ok hash eqb E HE HK t1 Hg1) as (is1 & _ & H2' & _).
  exists (elems (t_slots t1)). split; [rewrite <- H2'; apply iter_fields; assumption|]. split; [assumption|]. intros k'.
  destruct (exec_ok hash eqb E HE HK t1 (elems (t_slots t)) (OFind k')) as (t2 & r & m' & Hx & [Hst _] & _); [split; assumption|exact I|].
  cbn [exec] in Hx |- *. rewrite (find_fields hash eqb E t' t1 k' Hc Hs Hcap). unfold deref in *. rewrite Hs.
  destruct (find_key hash eqb E t1 k') as [[p|]| | | |]; cbn [rbind] in Hx |- *; try discriminate.
  - destruct (load (t_slots t1) p) as [[e|]| | | |]; cbn [rbind of_option] in Hx |- *; try discriminate.
    injection Hx as _ <-. rewrite <- Hst. reflexivity.
  - injection Hx as _ <-. rewrite <- Hst. reflexivity.
Qed.
Print Assumptions C12_throwing_constructor_elements_partial.
Example C12_example : exists t rs l t', run ex_hash N.eqb ex_env empty_table (ins (nums 0 14)) = Ok (t, rs) /\
  find_key ex_hash N.eqb ex_env t 99%N = Ok None /\ to_list ex_env t = Ok l /\ length l = 14 /\
  emplace_throwing ex_hash N.eqb ex_env t 99%N = Ok t' /\ t_size t' = 15.
Proof. do 4 eexists. repeat (split; [vm_compute; reflexivity|]). vm_compute. reflexivity. Qed.

(** C50 is false: reserve(SIZE_MAX) on an empty map computes an allocation size that wraps around to a few
    bytes, does not throw, and writes out of bounds. *)
Theorem C50_huge_reserve_refuted : exists n : N, (n < 2 ^ 64)%N /\
  exec (V := N) ex_hash N.eqb ex_env empty_table (OReserve n) = UB.
Proof. exists (2 ^ 64 - 1)%N. split; [reflexivity|]. vm_compute. reflexivity. Qed.
Print Assumptions C50_huge_reserve_refuted.
(** C50, the part that holds: as long as the size computation does not wrap, a reserve/rehash the allocator
    cannot satisfy throws and leaves the table exactly as it was; it cannot do anything else.
    Missing: requests whose size computation wraps, where the claim is false. *)
Theorem C50_unsatisfiable_rehash_partial : forall (K V : Type) (hash : K -> N) (eqb : K -> K -> bool) (E : env)
    (t : table K V) (n : N),
  real_env E -> KeyOK hash eqb -> reachable hash eqb E t -> op_ok E (@ORehash K V n) ->
  (N.of_nat (t_cap t) < NormalizeCapacity n)%N -> (e_max_bytes E < alloc_size E (NormalizeCapacity n))%N ->
  exec hash eqb E t (ORehash n) = Ok (t, RThrow).
Proof.
  intros K V hash eqb E t n HE0 HK Hr (Hn & Hn64 & Hnw) Hgt Hbig. pose proof (real_env_ok E HE0) as HE.
  pose proof (reachable_good hash eqb E HE HK t Hr) as Hg. cbn [exec].
  assert (Hmax : NormalizeCapacity (N.max n (N.of_nat (t_size t))) = NormalizeCapacity n \/ (n < N.of_nat (t_size t))%N).
  { destruct (N.le_gt_cases (N.of_nat (t_size t)) n); [left; rewrite N.max_l by assumption; reflexivity|auto]. }
  pose proof (good_room hash eqb E t Hg) as [_ Hroom].
  destruct Hmax as [Hm|Hm].
  - unfold rehash. destruct (N.eqb_spec n 0); [congruence|]. cbn [andb orb]. rewrite Hm.
    destruct (N.ltb_spec (N.of_nat (t_cap t)) (NormalizeCapacity n)); [|lia].
    unfold resize, initialize_slots. destruct (N.ltb_spec (e_max_bytes E) (alloc_size E (NormalizeCapacity n))); [|lia]. reflexivity.
  - exfalso. destruct Hg as [->|Ht]; [cbn in Hm; lia|].
    assert (NormalizeCapacity n <= N.of_nat (t_cap t))%N; [|lia].
    apply normalize_min; [assumption|eapply tinv_cap; eassumption|lia].
Qed.
Print Assumptions C50_unsatisfiable_rehash_partial.
Example C50_example : op_ok ex_env (@ORehash N N 100000) /\
  (e_max_bytes ex_env < alloc_size ex_env (NormalizeCapacity 100000))%N.
Proof. split; [split; [discriminate|split; [reflexivity|vm_compute; reflexivity]]|vm_compute; reflexivity]. Qed.
