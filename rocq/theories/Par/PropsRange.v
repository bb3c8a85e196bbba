(** C89: construction of parallel containers with a bucket count, from a range or an initializer list, and insertion of a range. *)
From stdpp Require Import list list_numbers.
From Coq Require Import Arith NArith ZArith Lia.
From Verif.Common Require Import Res Word.
From Verif.Swiss Require Import Group GroupSpec GroupProof Model Probe ProbeProof Inv TableInv Resize Ops MapSpec History Multi MultiSpec MultiProof MultiHistory PropsTable PropsMulti Range RangeProof.
From Verif.Par Require Import Seq SeqSpec SeqProof PropsSeq PropsHSeq.
Local Open Scope nat_scope.
Local Open Scope res_scope.

Section Model.
Context {K V : Type} (hash : K -> N) (eqb : K -> K -> bool) (E : env) (lg : nat).
Notation ptable := (list (table K V)).
Notation elt := (K * V)%type.
(* insert(first, last) (phmap.hpp 3652-3656) and the initializer lists (3658-3663): one insertion after another, nothing is reserved.
   The flag tells that std::bad_alloc was thrown; the container is the one it leaves. *)
Fixpoint p_insert_each (ps : ptable) (l : list elt) : res (ptable * bool) :=
  match l with
  | [] => Ok (ps, false)
  | e :: l' =>
      let* (ps', r) := p_exec hash eqb E lg ps (OEmplace (fst e) (snd e)) in
      match r with RThrow => Ok (ps', true) | _ => p_insert_each ps' l' end
  end.
(* parallel_hash_set(bucket_cnt, ...) (3402-3411) with Inner(Params) (3245-3246): every submap gets the whole bucket_cnt *)
Fixpoint p_build (n : N) (k : nat) : res ptable :=
  match k with
  | O => Ok []
  | S k' => let* t := construct_buckets E n in let* ts := p_build n k' in Ok (t :: ts)
  end.
(* parallel_hash_set(first, last, bucket_cnt, ...) (3422-3431); an exception of insert runs the destructor: nothing remains *)
Definition p_construct (n : N) (l : list elt) : res ptable :=
  let* ps := p_build n (num_tables lg) in
  let* (ps', threw) := p_insert_each ps l in
  if threw then BadAlloc else Ok ps'.
End Model.

Section Facts.
Context {K V : Type} (hash : K -> N) (eqb : K -> K -> bool) (E : env) (lg : nat).
Context (HE : env_ok E) (HK : KeyOK hash eqb) (Hlg : lg <= 12).
Notation ptable := (list (table K V)).
Notation elt := (K * V)%type.
Lemma p_insert_each_ok (l : list elt) : forall (ps : ptable) m, PR hash eqb E lg ps m ->
  exists ps' threw, p_insert_each hash eqb E lg ps l = Ok (ps', threw) /\
    ((threw = false /\ PR hash eqb E lg ps' (s_insert_all eqb m l)) \/
     (threw = true /\ exists l1 e l2, l = l1 ++ e :: l2 /\ s_find eqb (s_insert_all eqb m l1) (fst e) = None /\ PR hash eqb E lg ps' (s_insert_all eqb m l1))).
Proof using HE HK Hlg.
  induction l as [|e l IH]; intros ps m HP; [exists ps, false; split; [reflexivity|]; left; auto|].
  destruct (p_exec_ok hash eqb E lg HE HK Hlg ps m (OEmplace (fst e) (snd e)) HP I) as (ps1 & r & m1 & Hx & Hst & HP1).
  cbn [p_insert_each]. rewrite Hx. cbn [rbind]. cbn in Hst. destruct (s_find eqb m (fst e)) as [y|] eqn:Hf.
  - destruct Hst as [-> ->]. destruct (IH ps1 m HP1) as (ps' & b & Hr & Hor). exists ps', b. split; [exact Hr|].
    assert (Hcons : forall l0, s_insert_all eqb m (e :: l0) = s_insert_all eqb m l0) by (intros l0; unfold s_insert_all; cbn [fold_left]; rewrite Hf; reflexivity).
    rewrite Hcons. destruct Hor as [H|(-> & l1 & x & l2 & -> & H2 & H3)]; [left; exact H|right]. split; [reflexivity|]. exists (e :: l1), x, l2. rewrite Hcons. auto.
  - destruct Hst as [[-> ->]|[-> ->]].
    + destruct (IH ps1 _ HP1) as (ps' & b & Hr & Hor). exists ps', b. split; [exact Hr|].
      assert (Hcons : forall l0, s_insert_all eqb m (e :: l0) = s_insert_all eqb ((fst e, snd e) :: m) l0) by (intros l0; unfold s_insert_all; cbn [fold_left]; rewrite Hf; destruct e; reflexivity).
      rewrite Hcons. destruct Hor as [H|(-> & l1 & x & l2 & -> & H2 & H3)]; [left; exact H|right]. split; [reflexivity|]. exists (e :: l1), x, l2. rewrite Hcons. auto.
    + exists ps1, true. split; [reflexivity|]. right. split; [reflexivity|]. exists [], e, l. cbn. auto.
Qed.
Lemma p_build_ok n : n = 0%N \/ op_ok E (@ORehash K V n) -> forall k, 1 <= k ->
  @p_build K V E n k = BadAlloc \/ exists t : table K V, p_build E n k = Ok (replicate k t) /\ good hash eqb E t /\ pe t = [] /\ (n <= N.of_nat (t_cap t))%N.
Proof using HE HK.
  clear Hlg. intros Hn k Hk. destruct (construct_buckets_ok hash eqb E HE HK n Hn) as [Hb|(t & Ht & [Hg Hp] & _ & Hc)].
  - left. destruct k as [|k]; [lia|]. cbn [p_build]. rewrite Hb. reflexivity.
  - right. exists t. split; [|split; [exact Hg|split; [apply Permutation_nil; symmetry; exact Hp|exact Hc]]]. clear Hk. induction k as [|k IH]; [reflexivity|]. cbn [p_build]. rewrite Ht. cbn [rbind]. rewrite IH. reflexivity.
Qed.
Lemma replicate_PR0 (t : table K V) : good hash eqb E t -> pe t = [] -> PR hash eqb E lg (replicate (num_tables lg) t) [].
Proof using.
  intros Hg Hp. split.
  - split; [apply Forall_replicate; exact Hg|apply replicate_length|]. intros i u e Hu He. apply lookup_replicate in Hu as [-> _]. rewrite Hp in He. destruct He.
  - induction (num_tables lg) as [|k IH]; [reflexivity|]. unfold pelems in *. cbn. rewrite Hp. exact IH.
Qed.
End Facts.

(** In every parallel container that a program of C13 can leave: insert(first, last) inserts the range element by element; the first element with a key
    wins and elements that are there win; if std::bad_alloc is thrown, exactly the elements before one that was not there have been inserted. *)
Theorem C89_insert : forall (K V : Type) (hash : K -> N) (eqb : K -> K -> bool) (eeq : K * V -> K * V -> bool)
    (E : env) (lg n1 n2 : nat) (os : list (mop K V)) cs ns rs (c : nat) (ps : list (table K V)) (l0 l : list (K * V)),
  real_env E -> KeyOK hash eqb -> EltOK eqb eeq -> lg <= 12 -> Forall (pmop_ok E lg n1 n2) os ->
  pm_run hash eqb eeq E lg (replicate n1 (p_empty lg)) (replicate n2 None) os = Ok (cs, ns, rs) -> cs !! c = Some ps ->
  p_to_list E ps = Ok l0 ->
  exists ps' threw l', p_insert_each hash eqb E lg ps l = Ok (ps', threw) /\ p_to_list E ps' = Ok l' /\ p_size ps' = length l' /\
    if threw then exists l1 e l2, l = l1 ++ e :: l2 /\ s_find eqb (s_insert_all eqb l0 l1) (fst e) = None /\ Permutation l' (s_insert_all eqb l0 l1)
    else Permutation l' (s_insert_all eqb l0 l).
Proof.
  intros K V hash eqb eeq E lg n1 n2 os cs ns rs c ps l0 l HE0 HK HQ Hlg Ho Hrun Hi Hl. pose proof (real_env_ok E HE0) as HE.
  destruct (pm_run_ok hash eqb E lg HE HK Hlg eeq HQ os (replicate n1 (p_empty lg)) (replicate n2 None) (replicate n1 []))
    as (cs2 & ns2 & rs2 & ms & H1 & _ & HF); [apply pm_start|rewrite !replicate_length; assumption|].
  rewrite Hrun in H1. injection H1 as <- <- <-. destruct (Forall2_lookup_l _ _ _ _ _ HF Hi) as (m & _ & [Hg _]). clear Hrun HF.
  assert (Htl : forall qs : list (table K V), pgood hash eqb E lg qs -> p_to_list E qs = Ok (pelems qs)).
  { intros qs Hqs. apply (p_to_list_ok hash eqb E HE HK); [apply (pg_good _ _ _ _ _ Hqs)|]. rewrite (pg_len _ _ _ _ _ Hqs). apply num_pos. }
  rewrite (Htl ps Hg) in Hl. injection Hl as <-.
  destruct (p_insert_each_ok hash eqb E lg HE HK Hlg l ps (pelems ps)) as (ps' & b & Hr & Hor); [split; [exact Hg|reflexivity]|].
  assert (Hg' : pgood hash eqb E lg ps') by (destruct Hor as [[_ [H _]]|(_ & l1 & e & l2 & _ & _ & [H _])]; exact H).
  exists ps', b, (pelems ps'). split; [exact Hr|]. split; [apply Htl; exact Hg'|]. split; [apply (p_size_ok hash eqb E); apply (pg_good _ _ _ _ _ Hg')|].
  destruct Hor as [[-> [_ H]]|(-> & l1 & e & l2 & H1 & H2 & [_ H])]; [exact H|]. exists l1, e, l2. auto.
Qed.
Print Assumptions C89_insert.

(** A construction throws std::bad_alloc or gives the container of the range; with an empty range every submap has at least bucket_cnt buckets
    (for single tables, a reservation is lost in this case: C66). *)
Theorem C89_construct : forall (K V : Type) (hash : K -> N) (eqb : K -> K -> bool) (E : env) (lg : nat) (n : N) (l : list (K * V)),
  real_env E -> KeyOK hash eqb -> lg <= 12 -> n = 0%N \/ op_ok E (@ORehash K V n) ->
  p_construct hash eqb E lg n l = BadAlloc \/
  exists ps l', p_construct hash eqb E lg n l = Ok ps /\ p_to_list E ps = Ok l' /\ Permutation l' (s_insert_all eqb [] l) /\ p_size ps = length l' /\
    length ps = num_tables lg /\ (l = [] -> Forall (fun t => n <= N.of_nat (t_cap t))%N ps) /\
    (forall k, exists ps', p_exec hash eqb E lg ps (OFind k) = Ok (ps', RFound (s_find eqb (s_insert_all eqb [] l) k))).
Proof.
  intros K V hash eqb E lg n l HE0 HK Hlg Hn. pose proof (real_env_ok E HE0) as HE. unfold p_construct.
  destruct (p_build_ok hash eqb E HE HK n Hn (num_tables lg) (num_pos lg)) as [->|(t & -> & Hg & Hp & Hc)]; [left; reflexivity|]. cbn [rbind].
  destruct (p_insert_each_ok hash eqb E lg HE HK Hlg l (replicate (num_tables lg) t) [] (replicate_PR0 hash eqb E lg t Hg Hp)) as (ps' & b & Hr & Hor).
  rewrite Hr. cbn [rbind]. destruct Hor as [[-> HP]|(-> & _)]; [right|left; reflexivity]. pose proof HP as [Hg' Hperm]. exists ps', (pelems ps'). split; [reflexivity|].
  split; [apply (p_to_list_ok hash eqb E HE HK); [apply (pg_good _ _ _ _ _ Hg')|rewrite (pg_len _ _ _ _ _ Hg'); apply num_pos]|]. split; [exact Hperm|].
  split; [apply (p_size_ok hash eqb E); apply (pg_good _ _ _ _ _ Hg')|]. split; [apply Hg'|]. split.
  - intros ->. cbn in Hr. injection Hr as <-. apply Forall_replicate. exact Hc.
  - intros k. destruct (p_exec_ok hash eqb E lg HE HK Hlg ps' _ (OFind k) HP I) as (ps2 & r & m2 & Hx & Hst & _). exists ps2. rewrite Hx. destruct Hst as [-> _]. reflexivity.
Qed.
Print Assumptions C89_construct.

Example C89_example :
  match p_construct exp_hash N.eqb ex_env 2 20 [(1, 1); (2, 2); (1, 3); (7, 4); (2, 5)]%N with
  | Ok ps =>
      match p_insert_each exp_hash N.eqb ex_env 2 ps [(7, 9); (8, 8); (8, 0)]%N with
      | Ok (ps', b) => Some (map t_cap ps, p_to_list ex_env ps, p_to_list ex_env ps', b) | _ => None end
  | _ => None
  end = Some ([31; 31; 31; 31], Ok [(1, 1); (2, 2); (7, 4)]%N, Ok [(8, 8); (1, 1); (2, 2); (7, 4)]%N, false) /\ op_ok ex_env (@ORehash N N 20) /\
  match p_insert_each exp_hash N.eqb small_env 0 (p_empty 0) (map (fun k => (k, k)) (nums 0 60)) with Ok (ps, b) => Some (b, p_size ps) | _ => None end = Some (true, 7).
Proof. split; [vm_compute; reflexivity|]. split; [|vm_compute; reflexivity]. repeat split; vm_compute; congruence. Qed.
