(** Property theorems about parallel containers used from one thread (C13). *)
From stdpp Require Import list list_numbers.
From Coq Require Import Arith NArith ZArith Lia.
From Coq Require Import ZifyBool ZifyNat ZifyN.
From Verif.Common Require Import Res Word.
From Verif.Swiss Require Import Group Model TableInv Ops MapSpec History Multi MultiSpec MultiProof MultiHistory PropsTable PropsMulti.
From Verif.Par Require Import Seq SeqSpec SeqProof.
Local Open Scope nat_scope.
Local Open Scope res_scope.

(** C13.  For every number 2^lg of submaps (lg <= 12 as the code requires), every hash function and every
    program over [a] parallel containers and [b] node handles, the program runs to completion and all its
    answers are those of ideal finite maps. *)
Theorem C13_programs : forall (K V : Type) (hash : K -> N) (eqb : K -> K -> bool) (eeq : K * V -> K * V -> bool)
    (E : env) (lg a b : nat) (os : list (mop K V)),
  real_env E -> KeyOK hash eqb -> EltOK eqb eeq -> lg <= 12 -> Forall (pmop_ok E lg a b) os ->
  exists cs ns rs ms, pm_run hash eqb eeq E lg (replicate a (p_empty lg)) (replicate b None) os = Ok (cs, ns, rs) /\
    p_mrun eqb eeq (replicate a [], replicate b None) os rs (ms, ns).
Proof.
  intros K V hash eqb eeq E lg a b os HE HK HQ Hlg Ho.
  destruct (pm_run_ok hash eqb E lg (real_env_ok E HE) HK Hlg eeq HQ os (replicate a (p_empty lg)) (replicate b None) (replicate a []))
    as (ts & ns & rs & ms & H1 & H2 & _).
  - apply pm_start.
  - rewrite !replicate_length. assumption.
  - eauto 8.
Qed.
Print Assumptions C13_programs.

(** ** The same operations on one map and on a parallel map *)
(** equal answers; two traversals agree when they visit the same elements *)
Definition same_out {K V} (r1 r2 : out K V) : Prop :=
  match r1, r2 with
  | RElems l1, RElems l2 => Permutation l1 l2
  | _, _ => r1 = r2
  end.
Fixpoint p_run {K V} (hash : K -> N) (eqb : K -> K -> bool) (E : env) (lg : nat) (ps : list (table K V)) (os : list (op K V))
  : res (list (table K V) * list (out K V)) :=
  match os with
  | [] => Ok (ps, [])
  | o :: os' =>
      let* (ps1, r) := p_exec hash eqb E lg ps o in
      let* (ps2, rs) := p_run hash eqb E lg ps1 os' in Ok (ps2, r :: rs)
  end.
Lemma same_step {K V} (hash : K -> N) (eqb : K -> K -> bool) (HK : KeyOK hash eqb) (m1 m2 m1' m2' : list (K * V)) o r1 r2 :
  distinct eqb m1 -> m1 ≡ₚ m2 -> s_step eqb m1 o r1 m1' -> s_step eqb m2 o r2 m2' -> r1 <> RThrow -> r2 <> RThrow ->
  same_out r1 r2 /\ m1' ≡ₚ m2'.
Proof.
  intros Hd Hp H1 H2 N1 N2.
  destruct o as [k v|k v|k|k| |n|n| |]; cbn [s_step] in *;
    try (rewrite <- (s_find_perm hash eqb HK m1 m2 k Hd Hp) in H2).
  - destruct (s_find eqb m1 k); [destruct H1 as [-> ->], H2 as [-> ->]; split; [reflexivity|assumption]|].
    destruct H1 as [[-> ->]|[-> _]]; [|congruence]. destruct H2 as [[-> ->]|[-> _]]; [|congruence]. split; [reflexivity|]. constructor. assumption.
  - destruct (s_find eqb m1 k).
    + destruct H1 as [-> ->], H2 as [-> ->]. split; [reflexivity|]. apply s_update_perm. assumption.
    + destruct H1 as [[-> ->]|[-> _]]; [|congruence]. destruct H2 as [[-> ->]|[-> _]]; [|congruence]. split; [reflexivity|]. constructor. assumption.
  - destruct H1 as [-> ->], H2 as [-> ->]. split; [reflexivity|assumption].
  - destruct H1 as [-> ->], H2 as [-> ->]. split; [reflexivity|]. apply s_erase_perm. assumption.
  - destruct H1 as [-> ->], H2 as [-> ->]. split; reflexivity.
  - destruct H1 as [[->| ->] ->]; [|congruence]. destruct H2 as [[->| ->] ->]; [|congruence]. split; [reflexivity|assumption].
  - destruct H1 as [[->| ->] ->]; [|congruence]. destruct H2 as [[->| ->] ->]; [|congruence]. split; [reflexivity|assumption].
  - destruct H1 as [-> ->], H2 as [-> ->]. split; [|assumption]. cbn. f_equal. apply Permutation_length. assumption.
  - destruct H1 as [(l1 & -> & P1) ->], H2 as [(l2 & -> & P2) ->]. split; [|assumption]. cbn. rewrite P1, P2. assumption.
Qed.

Theorem C13_same_answers_as_one_map : forall (K V : Type) (hash : K -> N) (eqb : K -> K -> bool) (E : env) (lg : nat) (os : list (op K V)),
  real_env E -> KeyOK hash eqb -> lg <= 12 -> Forall (op_ok E) os -> Forall (p_op_ok E lg) os ->
  exists t rs ps rs', run hash eqb E empty_table os = Ok (t, rs) /\ p_run hash eqb E lg (p_empty lg) os = Ok (ps, rs') /\
    (* up to the first std::bad_alloc of either *)
    forall n, Forall (fun r => r <> RThrow) (take n rs) -> Forall (fun r => r <> RThrow) (take n rs') ->
      Forall2 same_out (take n rs) (take n rs').
Proof.
  intros K V hash eqb E lg os HE0 HK Hlg Ho1 Ho2. pose proof (real_env_ok E HE0) as HE.
  assert (G : forall os (t : table K V) m ps, History.R hash eqb E t m -> PR hash eqb E lg ps m -> Forall (op_ok E) os -> Forall (p_op_ok E lg) os ->
    exists t' rs ps' rs', run hash eqb E t os = Ok (t', rs) /\ p_run hash eqb E lg ps os = Ok (ps', rs') /\
      forall n, Forall (fun r => r <> RThrow) (take n rs) -> Forall (fun r => r <> RThrow) (take n rs') -> Forall2 same_out (take n rs) (take n rs')).
  { clear os Ho1 Ho2. induction os as [|o os IH]; intros t m ps HR HP Ho1 Ho2.
    - exists t, [], ps, []. split; [reflexivity|]. split; [reflexivity|]. intros n _ _. rewrite !take_nil. constructor.
    - inversion Ho1 as [|? ? Ha1 Hb1]; subst. inversion Ho2 as [|? ? Ha2 Hb2]; subst.
      destruct (exec_ok hash eqb E HE HK t m o HR Ha1) as (t1 & r1 & m1 & He1 & Hs1 & HR1 & _).
      destruct (p_exec_ok hash eqb E lg HE HK Hlg ps m o HP Ha2) as (ps1 & r2 & m2 & He2 & Hs2 & HP2).
      cbn [run p_run]. rewrite He1, He2. cbn [rbind].
      assert (Hdec : (r1 <> RThrow /\ r2 <> RThrow) \/ (r1 = RThrow \/ r2 = RThrow)).
      { destruct r1; try (right; left; reflexivity); destruct r2; try (right; right; reflexivity); left; split; discriminate. }
      destruct Hdec as [[N1 N2]|Hthrow].
      + destruct (same_step hash eqb HK m m m1 m2 o r1 r2 (R_distinct hash eqb E HE HK _ _ HR) (reflexivity _) Hs1 Hs2 N1 N2) as [Hsame Hm12].
        destruct (IH t1 m1 ps1 HR1) as (t' & rs & ps' & rs' & Hr & Hpr & Hall); [|assumption|assumption|].
        * eapply PR_perm; [exact HP2|]. symmetry. exact Hm12.
        * rewrite Hr, Hpr. cbn [rbind]. eexists _, _, _, _. split; [reflexivity|]. split; [reflexivity|].
          intros [|n] F1 F2; [constructor|]. cbn [take] in *. inversion F1; subst. inversion F2; subst. constructor; [assumption|]. apply Hall; assumption.
      + destruct (run_ok hash eqb E HE HK os t1 m1 HR1 Hb1) as (t' & rs & m' & Hr & _).
        assert (Hpr : exists ps' rs', p_run hash eqb E lg ps1 os = Ok (ps', rs')).
        { clear -HE HK Hlg HP2 Hb2. revert ps1 m2 HP2. induction Hb2 as [|o os Ho _ IH]; intros ps m HP; cbn [p_run]; [eauto|].
          destruct (p_exec_ok hash eqb E lg HE HK Hlg ps m o HP Ho) as (ps' & r & m' & He & _ & HP'). rewrite He. cbn [rbind].
          destruct (IH _ _ HP') as (ps2 & rs2 & ->). cbn [rbind]. eauto. }
        destruct Hpr as (ps' & rs' & Hpr). rewrite Hr, Hpr. cbn [rbind]. eexists _, _, _, _. split; [reflexivity|]. split; [reflexivity|].
        intros [|n] F1 F2; [constructor|]. cbn [take] in *. inversion F1; subst. inversion F2; subst. destruct Hthrow; congruence. }
  apply (G os empty_table [] (p_empty lg)); [apply R_empty|apply replicate_PR; reflexivity|assumption|assumption].
Qed.
Print Assumptions C13_same_answers_as_one_map.

(** ** Examples: 4 submaps, keys spread over them *)
Definition exp_hash (k : N) : N := (k * 256)%N.
Lemma exp_key : KeyOK exp_hash N.eqb.
Proof.
  split; [apply N.eqb_refl|apply N.eqb_sym| |].
  - intros a b c H1 H2. apply N.eqb_eq in H1, H2. subst. apply N.eqb_refl.
  - intros a b H. apply N.eqb_eq in H. subst. reflexivity.
Qed.
Definition exp_ops : list (op N N) :=
  ins (nums 0 30) ++ [OErase 3%N; OErase 3%N; OAssign 4%N 77%N; OFind 4%N; OReserve 40%N; OFind 5%N; ORehash 100%N; OTraverse; OSize].
Lemma exp_ops_ok : Forall (op_ok ex_env) exp_ops /\ Forall (p_op_ok ex_env 2) exp_ops.
Proof.
  unfold exp_ops. split; (apply Forall_app; split; [apply Forall_forall; intros o Ho; apply elem_of_list_fmap in Ho; destruct Ho as (k & -> & _); exact I|]).
  - repeat (apply Forall_cons_2; [try exact I|]); try apply Forall_nil_2.
    + cbn. split; [discriminate|]. split; [reflexivity|]. intros m Hm. vm_compute in Hm. injection Hm as <-. vm_compute. reflexivity.
    + cbn. split; [discriminate|]. split; reflexivity.
  - repeat (apply Forall_cons_2; [try exact I|]); try apply Forall_nil_2.
    + cbn [p_op_ok]. split; [reflexivity|]. intros m Hm. vm_compute in Hm. injection Hm as <-. vm_compute. reflexivity.
    + vm_compute. split; [discriminate|]. split; reflexivity.
Qed.
Example C13_example : real_env ex_env /\ KeyOK exp_hash N.eqb /\ Forall (op_ok ex_env) exp_ops /\ Forall (p_op_ok ex_env 2) exp_ops /\
  exists ps rs, p_run exp_hash N.eqb ex_env 2 (p_empty 2) exp_ops = Ok (ps, rs) /\ Forall (fun r => r <> RThrow) rs /\
    map t_size ps = [8; 8; 7; 6] /\ last rs = Some (RSize 29).
Proof.
  split; [apply ex_env_real|]. split; [apply exp_key|]. split; [apply exp_ops_ok|]. split; [apply exp_ops_ok|].
  eexists _, _. split; [vm_compute; reflexivity|]. split; [|split; vm_compute; reflexivity].
  apply Forall_forall. intros r Hr. vm_compute in Hr. repeat (apply elem_of_cons in Hr as [->|Hr]; [discriminate|]). apply elem_of_nil in Hr. destruct Hr.
Qed.
Definition exp_mops : list (mop N N) :=
  map (MOne 0) (ins (nums 0 12)) ++ [MCopy 1 0; MEq 0 1; MOne 1 (OAssign 7%N 70%N); MEq 0 1; MMerge 2 1; MSwap 0 2; MMerge 0 2;
   MExtract 2 7%N 0; MInsertNode 0 0; MInsertNode 1 0; MOne 1 (OFind 7%N); MEraseIf 0 (fun e => N.even (fst e)); MOne 0 OSize; MMove 1 0; MOne 1 OSize].
Example C13_programs_example : Forall (pmop_ok ex_env 2 3 1) exp_mops /\
  match pm_run exp_hash N.eqb ex_eeq ex_env 2 (replicate 3 (p_empty 2)) (replicate 1 None) exp_mops with
  | Ok (_, _, rs) => drop 12 rs
  | _ => []
  end = [MDone; MBool true; MR (RInserted false (7, 70)%N); MBool false; MDone; MDone; MDone; MNode (Some (7, 7)%N); MBool false; MBool true;
         MR (RFound (Some (7, 7)%N)); MErased 6 [(0, 0); (4, 4); (8, 8); (1, 1); (5, 5); (9, 9); (2, 2); (6, 6); (10, 10); (3, 3); (7, 70); (11, 11)]%N;
         MR (RSize 6); MDone; MR (RSize 6)].
Proof.
  split; [|vm_compute; reflexivity]. unfold exp_mops. apply Forall_app. split.
  - apply Forall_forall. intros o Ho. apply elem_of_list_fmap in Ho. destruct Ho as (x & -> & Hx).
    apply elem_of_list_fmap in Hx. destruct Hx as (k & -> & _). cbn. split; [lia|exact I].
  - repeat (apply Forall_cons_2; [cbn; repeat split; try lia|]). apply Forall_nil_2.
Qed.

(** C13 is false of rehash(n) with n smaller than the number of submaps: every submap then executes rehash(0),
    with the effect of C04.  Here 15 keys in one of two submaps, rehash(1): looking for an absent key of that
    submap never returns. *)
Theorem C13_rehash_small_refuted : exists (os : list (op N N)) (k : N) ps rs ps' t',
  Forall (p_op_ok ex_env 1) os /\ p_run ex_hash N.eqb ex_env 1 (p_empty 1) os = Ok (ps, rs) /\
  p_exec ex_hash N.eqb ex_env 1 ps (ORehash 1) = Ok (ps', RUnit) /\ ps' !! subidx 1 (ex_hash k) = Some t' /\
  forall fuel, find_fuel ex_hash N.eqb ex_env fuel t' k = Loop.
Proof.
  destruct (C04_rehash0_hangs_refuted _ _ ex_hash N.eqb ex_env (run_table (ins (nums 0 15))) 1000%N 4 ex_env_real ex_key) as [Hb|(t' & H1 & _ & H2)].
  - exists (ins (nums 0 15)), (run_outs (ins (nums 0 15))). split; [|vm_compute; reflexivity].
    apply Forall_forall; intros o Ho; apply elem_of_list_fmap in Ho; destruct Ho as (k & -> & _); exact I.
  - vm_compute. reflexivity.
  - cbn. lia.
  - vm_compute. reflexivity.
  - exfalso. revert Hb. vm_compute. discriminate.
  - exists (ins (nums 0 15)), 1000%N. eexists _, _, _, t'. split; [|split; [vm_compute; reflexivity|split; [vm_compute; reflexivity|split; [|exact H2]]]].
    + apply Forall_forall; intros o Ho; apply elem_of_list_fmap in Ho; destruct Ho as (k & -> & _); exact I.
    + vm_compute in H1. injection H1 as <-. vm_compute. reflexivity.
Qed.
Print Assumptions C13_rehash_small_refuted.

(** C13, copy assignment: the strong guarantee of a single map (C10) is lost.  When the memory for a later
    submap is missing, the destination is left with the submaps copied so far. *)
Definition small_env : env := Build_env (group_sse2 false) 150 8 3 0%Z.
Theorem C13_copy_strong_guarantee_refuted : exists (src dst d' : list (table N N)) os1 rs1 os2 rs2 n,
  p_run exp_hash N.eqb ex_env 1 (p_empty 1) os1 = Ok (src, rs1) /\
  p_run exp_hash N.eqb small_env 1 (p_empty 1) os2 = Ok (dst, rs2) /\
  p_copy exp_hash small_env dst src = Ok (d', true) /\ p_size dst = n /\ p_size d' <> n.
Proof.
  exists (match p_run exp_hash N.eqb ex_env 1 (p_empty 1) (ins [0; 1; 3; 5; 7; 9; 11; 13; 15; 17; 19]%N) with Ok (ps, _) => ps | _ => [] end).
  exists (p_empty 1). eexists _, (ins [0; 1; 3; 5; 7; 9; 11; 13; 15; 17; 19]%N), _, [], _, _.
  split; [vm_compute; reflexivity|]. split; [vm_compute; reflexivity|]. split; [vm_compute; reflexivity|]. split; [vm_compute; reflexivity|].
  vm_compute. discriminate.
Qed.
Print Assumptions C13_copy_strong_guarantee_refuted.

(** C49, parallel containers: erase_if(container, pred) on a container that any program has produced removes exactly
    the elements satisfying the predicate, returns how many, and calls the predicate once on each element, in the
    order of a traversal. *)
Theorem C49_erase_if_parallel : forall (K V : Type) (hash : K -> N) (eqb : K -> K -> bool) (eeq : K * V -> K * V -> bool)
    (E : env) (lg a b : nat) (os : list (mop K V)) cs ns rs (i : nat) (ps : list (table K V)) (p : K * V -> bool),
  real_env E -> KeyOK hash eqb -> EltOK eqb eeq -> lg <= 12 -> Forall (pmop_ok E lg a b) os ->
  pm_run hash eqb eeq E lg (replicate a (p_empty lg)) (replicate b None) os = Ok (cs, ns, rs) -> cs !! i = Some ps ->
  exists l ps', p_to_list E ps = Ok l /\ p_erase_if E p ps = Ok (ps', length (List.filter p l), l) /\
    p_to_list E ps' = Ok (List.filter (fun e => negb (p e)) l) /\ p_size ps' = length (List.filter (fun e => negb (p e)) l).
Proof.
  intros K V hash eqb eeq E lg a b os cs ns rs i ps p HE0 HK HQ Hlg Ho Hrun Hi. pose proof (real_env_ok E HE0) as HE.
  destruct (pm_run_ok hash eqb E lg HE HK Hlg eeq HQ os (replicate a (p_empty lg)) (replicate b None) (replicate a []))
    as (cs2 & ns2 & rs2 & ms & H1 & _ & HF); [apply pm_start|rewrite !replicate_length; assumption|].
  rewrite Hrun in H1. injection H1 as <- <- <-. destruct (Forall2_lookup_l _ _ _ _ _ HF Hi) as (m & _ & HR).
  destruct (p_erase_if_ok hash eqb E lg HE HK p ps m HR) as (ps' & He & HR' & Hel).
  exists (pelems ps), ps'. pose proof HR as [Hg Hp]. pose proof HR' as [Hg' _].
  assert (Hl : forall qs : list (table K V), pgood hash eqb E lg qs -> p_to_list E qs = Ok (pelems qs)).
  { intros qs Hq. apply (p_to_list_ok hash eqb E HE HK); [apply (pg_good _ _ _ _ _ Hq)|]. rewrite (pg_len _ _ _ _ _ Hq). apply num_pos. }
  split; [apply Hl; assumption|]. split; [rewrite He; do 3 f_equal; symmetry; apply Permutation_length, filter_perm; assumption|].
  rewrite <- Hel. split; [apply Hl; assumption|]. apply (p_size_ok hash eqb E), (pg_good _ _ _ _ _ Hg').
Qed.
Print Assumptions C49_erase_if_parallel.
Example C49_erase_if_parallel_example : Forall (pmop_ok ex_env 2 1 0) (map (MOne 0) (ins (nums 0 12))) /\
  match pm_run exp_hash N.eqb ex_eeq ex_env 2 [p_empty 2] [] (map (MOne 0) (ins (nums 0 12))) with
  | Ok ([ps], _, _) => match p_erase_if ex_env (fun e => N.even (fst e)) ps with Ok (ps', n, seen) => Some (n, length seen, p_to_list ex_env ps') | _ => None end
  | _ => None
  end = Some (6, 12, Ok [(5, 5); (9, 9); (1, 1); (7, 7); (11, 11); (3, 3)]%N).
Proof.
  split; [|vm_compute; reflexivity].
  apply Forall_forall. intros o Ho. apply elem_of_list_fmap in Ho. destruct Ho as (x & -> & Hx).
  apply elem_of_list_fmap in Hx. destruct Hx as (k & -> & _). cbn. split; [lia|exact I].
Qed.
