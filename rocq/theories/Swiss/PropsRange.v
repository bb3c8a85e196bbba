(** Property theorems C66: constructing from and inserting ranges. *)
From stdpp Require Import list.
From Coq Require Import Arith NArith ZArith Lia.
From Verif.Common Require Import Res Word.
From Verif.Swiss Require Import Group GroupSpec Model Probe Inv TableInv Resize Ops MapSpec History Reserve PropsTable Range RangeProof.
Local Open Scope nat_scope.
Local Open Scope res_scope.

(** C66, programs.  Every program mixing the operations of C01 with insertion of ranges and assignment of containers built
    from ranges, with any bucket counts, runs to completion with the answers of an ideal finite map: of several elements
    with equal keys the first one wins, elements already there win over the range, a range insertion that throws
    std::bad_alloc has inserted a prefix of the range, and a construction that throws leaves the variable as it was. *)
Theorem C66_programs : forall (K V : Type) (hash : K -> N) (eqb : K -> K -> bool) (E : env) (os : list (rop K V)),
  real_env E -> KeyOK hash eqb -> Forall (rop_ok E) os ->
  exists t rs m l, rrun hash eqb E empty_table os = Ok (t, rs) /\ s_rrun eqb [] os rs m /\
    to_list E t = Ok l /\ Permutation l m /\ t_size t = length m.
Proof.
  intros K V hash eqb E os HE0 HK Ho. pose proof (real_env_ok E HE0) as HE.
  destruct (rrun_ok hash eqb E HE HK os empty_table [] (R_empty hash eqb E) Ho) as (t & rs & m & H1 & H2 & HR).
  exists t, rs, m, (elems (t_slots t)). split; [assumption|]. split; [assumption|]. pose proof HR as [Hg Hp].
  destruct (iterate_ok hash eqb E HE HK t Hg) as (? & _ & H & _). split; [assumption|]. split; [assumption|].
  apply (R_size hash eqb E t m HR).
Qed.
Print Assumptions C66_programs.

(** C66, sized ranges (iterators that can be subtracted, initializer lists), as long as nothing was erased: insert(first,
    last) either throws and leaves the container exactly as it was, or inserts everything; bucket_count() is then what
    reserve(size() + (last - first)) makes it, and after this reserve no element moves.
    Missing: containers from which something was erased, where this is false (C66_all_or_nothing_refuted). *)
Theorem C66_all_or_nothing_partial : forall (K V : Type) (hash : K -> N) (eqb : K -> K -> bool) (E : env)
    (os : list (rop K V)) (l : list (K * V)) (t t' : table K V) (rs : list (rout K V)) (r : rout K V),
  real_env E -> KeyOK hash eqb -> Forall (rop_ok E) os -> Forall rno_erase os -> rop_ok E (RRange true l) ->
  rrun hash eqb E empty_table os = Ok (t, rs) -> rexec hash eqb E t (RRange true l) = Ok (t', r) ->
  (r = RThrew /\ t' = t) \/
  (r = RDone /\ (forall e, In e l -> exists e', In e' (elems (t_slots t')) /\ eqb (fst e) (fst e') = true) /\
   exists t1, reserve hash E t (N.of_nat (t_size t + length l)) = Ok t1 /\ t_cap t' = t_cap t1 /\
     forall i e, t_slots t1 !! i = Some (Some e) -> exists v, t_slots t' !! i = Some (Some (fst e, v))).
Proof.
  intros K V hash eqb E os l t t' rs r HE0 HK Ho Hne Hl Hr Hx. pose proof (real_env_ok E HE0) as HE.
  destruct (rrun_ok hash eqb E HE HK os empty_table [] (R_empty hash eqb E) Ho) as (t0 & rs0 & m & H1 & _ & HR).
  rewrite Hr in H1. injection H1 as <- <-.
  assert (Hnt : no_tombstones t).
  { refine (rrun_no_erase hash eqb E HE HK os empty_table [] t rs (R_empty hash eqb E) _ Ho Hne Hr). intros i Hi. cbn in Hi. lia. }
  cbn [rexec] in Hx. destruct (insert_range_ok hash eqb E HE HK true t m l HR Hl) as (u & b & Hu & Hb & Hk).
  rewrite Hu in Hx. cbn [rbind] in Hx. injection Hx as <- <-. destruct (Hk Hnt) as [_ Hk']. specialize (Hk' eq_refl).
  destruct b; [left; auto|right]. split; [reflexivity|]. destruct Hk' as (t1 & H1 & H2 & H3). split.
  - intros e He. destruct Hb as [_ Hp].
    assert (Hin : exists e', In e' (s_insert_all eqb m l) /\ eqb (fst e) (fst e') = true).
    { clear -He HK. revert m. assert (Hmono : forall l m (x : K * V), In x m -> In x (s_insert_all eqb m l)).
      { clear. induction l as [|y l IH]; intros m x Hx; [exact Hx|]. unfold s_insert_all in *. cbn [fold_left].
        apply IH. destruct (s_find eqb m (fst y)); [assumption|right; assumption]. }
      induction l as [|y l IH]; intros m; [destruct He|]. destruct He as [->|He].
      - unfold s_insert_all. cbn [fold_left]. destruct (s_find eqb m (fst e)) as [x|] eqn:Hf.
        + destruct (s_find_some eqb m (fst e) x Hf) as [Hx Hk]. exists x. split; [apply (Hmono l m x Hx)|assumption].
        + exists e. split; [apply (Hmono l (e :: m) e); left; reflexivity|apply (ko_refl _ _ HK)].
      - unfold s_insert_all. cbn [fold_left]. apply (IH He). }
    destruct Hin as (e' & Hin & Hke). exists e'. split; [|assumption]. eapply Permutation_in; [symmetry; exact Hp|exact Hin].
  - exists t1. auto.
Qed.
Print Assumptions C66_all_or_nothing_partial.

Definition rins (l : list N) : rop N N := RRange true (map (fun k => (k, k)) l).
Example C66_example :
  let os := [RNew 5 true (map (fun k => (k, 1%N)) [3; 4; 3; 5]%N); rins (nums 0 10); RRange false [(60, 7); (60, 8); (4, 9)]%N; RBase (OFind 60%N);
             RBase (OFind 4%N); RBase OSize; RNew 100 false []; RBase OSize] in
  Forall (rop_ok ex_env) os /\ Forall rno_erase os /\ rop_ok ex_env (rins (nums 0 30)) /\
  match rrun ex_hash N.eqb ex_env empty_table os with
  | Ok (t, rs) => t_cap t = 127 /\
      rs = [RDone; RDone; RDone; ROut (RFound (Some (60, 7)%N)); ROut (RFound (Some (4, 1)%N)); ROut (RSize 11); RDone; ROut (RSize 0)]
  | _ => False end.
Proof.
  cbn zeta. split; [|split; [|split; [reflexivity|vm_compute; split; reflexivity]]].
  - repeat (apply Forall_cons_2; [cbn; try exact I; try reflexivity; (split; [reflexivity|right; repeat split; try discriminate; reflexivity])|]).
    apply Forall_nil_2.
  - repeat (apply Forall_cons_2; [exact I|]). apply Forall_nil_2.
Qed.

(** With erased elements the insertion of a sized range can throw in the middle although reserve succeeded: the
    tombstones are not counted.  28 elements in 31 buckets, 3 of them erased, memory for no more than 31 buckets. *)
Definition small_env : env := Build_env (group_sse2 false) 400 8 3 0%Z.
Theorem C66_all_or_nothing_refuted : exists (os : list (rop N N)) t rs t1 t' l,
  Forall (rop_ok small_env) os /\ real_env small_env /\ rop_ok small_env (RRange true l) /\
  rrun ex_hash N.eqb small_env empty_table os = Ok (t, rs) /\ ~ In RThrew rs /\
  reserve ex_hash small_env t (N.of_nat (t_size t + length l)) = Ok t1 /\
  rexec ex_hash N.eqb small_env t (RRange true l) = Ok (t', RThrew) /\ t_size t' = t_size t + 1.
Proof.
  exists [rins (nums 0 28); RBase (OErase 0%N); RBase (OErase 1%N); RBase (OErase 2%N)]. do 4 eexists.
  exists [(20, 0); (0, 0); (100, 0)]%N. split.
  { repeat (apply Forall_cons_2; [cbn; try exact I; reflexivity|]). apply Forall_nil_2. }
  split. { constructor; try reflexivity; try (split; [discriminate|reflexivity]); try discriminate. left. exists false. reflexivity. }
  split; [reflexivity|]. split; [vm_compute; reflexivity|].
  split; [vm_compute; intros H; repeat (destruct H as [H|H]; [discriminate|]); exact H|].
  split; [vm_compute; reflexivity|]. split; [vm_compute; reflexivity|]. vm_compute. reflexivity.
Qed.
Print Assumptions C66_all_or_nothing_refuted.

(** Inserting an empty sized range gives back the memory of an empty container, so that a bucket count or a reservation is
    lost: reserve(n); insert(v.begin(), v.end()) and Map(v.begin(), v.end(), n) with an empty v leave bucket_count() = 0,
    whatever n is. *)
Theorem C66_reservation_lost_refuted : forall (K V : Type) (hash : K -> N) (eqb : K -> K -> bool) (E : env) (t : table K V) (n : N),
  t_size t = 0 ->
  (exists t', rexec hash eqb E t (RRange true []) = Ok (t', RDone) /\ t_cap t' = 0) /\
  (forall u : table K V, construct_buckets E n = Ok u -> t_size u = 0 ->
     exists u' : table K V, construct_range hash eqb E n true [] = Ok u' /\ t_cap u' = 0).
Proof.
  intros K V hash eqb E t n H0.
  assert (H : forall t : table K V, t_size t = 0 -> exists t', insert_range hash eqb E true t [] = Ok (t', false) /\ t_cap t' = 0).
  { clear. intros t H0. unfold insert_range. rewrite H0. change (wadd 64 (N.of_nat 0) (N.of_nat (length []))) with 0%N. unfold reserve.
    rewrite (g2l_0 E). cbn [rbind]. unfold rehash. cbn [N.eqb andb]. rewrite H0.
    destruct (Nat.eqb_spec (t_cap t) 0) as [Hc|Hc]; cbn [insert_each Nat.eqb]; eexists; split; try reflexivity. assumption. }
  split.
  - destruct (H t H0) as (t' & Ht & Hc). exists t'. cbn [rexec]. rewrite Ht. auto.
  - intros u Hu Hz. destruct (H u Hz) as (u' & Ht & Hc). exists u'. unfold construct_range. rewrite Hu. cbn [rbind]. rewrite Ht. auto.
Qed.
Print Assumptions C66_reservation_lost_refuted.
Example C66_lost_example : exists u t : table N N, construct_buckets ex_env 1000 = Ok u /\ @t_size N N u = 0 /\ t_cap u = 1023 /\
  run ex_hash N.eqb ex_env empty_table [OReserve 500%N] = Ok (t, [RUnit]) /\ t_size t = 0 /\ t_cap t = 1023.
Proof. do 2 eexists. split; [vm_compute; reflexivity|]. repeat split; vm_compute; reflexivity. Qed.
