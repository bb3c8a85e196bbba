(** Proofs about construction from ranges and insertion of ranges. *)
From stdpp Require Import list.
From Coq Require Import Arith NArith ZArith Lia.
From Coq Require Import ZifyBool ZifyNat ZifyN.
From Verif.Common Require Import Res Word WordFacts.
From Verif.Swiss Require Import Group GroupSpec Model Probe Inv TableInv Resize Ops MapSpec History Reserve Range.
Ltac Zify.zify_post_hook ::= Z.div_mod_to_equations.
Local Open Scope nat_scope.
Local Open Scope res_scope.
Local Arguments cnt : simpl never.
Local Arguments elems : simpl never.

Section RangeProof.
Context {K V : Type} (hash : K -> N) (eqb : K -> K -> bool) (E : env).
Context (HE : env_ok E) (HK : KeyOK hash eqb).
Set Default Proof Using "HE HK".
Notation W := (g_width (e_group E)).
Notation elt := (K * V)%type.
Notation table := (table K V).
Notation good := (good hash eqb E).
Notation tinv := (tinv hash eqb E).
Notation R := (R hash eqb E).

(** A range takes less than 2^60 bytes; a bucket count is one rehash accepts. *)
Definition rop_ok (o : rop K V) : Prop :=
  match o with
  | RBase o => op_ok E o
  | RRange _ l => (N.of_nat (length l) * (e_slot_size E + 1) < 2 ^ 60)%N
  | RNew n _ l => (N.of_nat (length l) * (e_slot_size E + 1) < 2 ^ 60)%N /\ (n = 0%N \/ op_ok E (@ORehash K V n))
  end.

Lemma normalize_le n : n <> 0%N -> (n < 2 ^ 64)%N -> (NormalizeCapacity n <= 2 * n)%N.
Proof using.
  intros H0 H64. destruct (normalize_eq n H0 H64) as [-> _]. pose proof (N.size_le n) as H. lia.
Qed.
Lemma reserve_fits (t : table) n : good t -> (n * (e_slot_size E + 1) < 2 ^ 60)%N -> (N.of_nat (t_size t) + n <> 0)%N ->
  wadd 64 (N.of_nat (t_size t)) n = (N.of_nat (t_size t) + n)%N /\
  op_ok E (@OReserve K V (N.of_nat (t_size t) + n)).
Proof.
  intros Hg Hn H0. pose proof (eo_slot _ HE) as [Hs1 Hs2]. pose proof (eo_align _ HE) as Hal. pose proof (eo_max _ HE) as Hmx.
  assert (Ha : (2 ^ e_align_log E <= 2 ^ 61)%N) by (apply N.pow_le_mono_r; lia).
  pose proof (good_room hash eqb E t Hg) as [_ Hsz].
  assert (Hb : (N.of_nat (t_size t) * (e_slot_size E + 1) < 2 ^ 62 - 9)%N).
  { destruct Hg as [->|Ht]; [cbn [t_size empty_table]; reflexivity|].
    pose proof (tv_bytes _ _ _ _ Ht) as Hby. unfold needed_bytes in Hby.
    assert (N.of_nat (t_size t) * (e_slot_size E + 1) <= N.of_nat (t_cap t) * (e_slot_size E + 1))%N by (apply N.mul_le_mono_r; lia).
    pose proof (W_cases E (eo_group _ HE)). lia. }
  set (a := N.of_nat (t_size t)) in *. set (s := (e_slot_size E + 1)%N) in *.
  assert (Hs : (2 <= s)%N) by lia.
  assert (Ha2 : (2 * a <= a * s)%N) by nia. assert (Hn2 : (2 * n <= n * s)%N) by nia.
  change (2 ^ 62)%N with (4 * 2 ^ 60)%N in *. change (2 ^ 61)%N with (2 * 2 ^ 60)%N in *.
  assert (Hbig : (100 <= 2 ^ 60)%N) by (apply N.leb_le; vm_compute; reflexivity).
  split; [apply wadd_small; change (2 ^ 64)%N with (16 * 2 ^ 60)%N; lia|].
  cbn [op_ok]. split; [assumption|]. split; [change (2 ^ 62)%N with (4 * 2 ^ 60)%N; lia|].
  intros m Hm.
  destruct (g2l_eq W (a + n) ltac:(lia) ltac:(change (2 ^ 62)%N with (4 * 2 ^ 60)%N; lia)) as (m' & Hm' & Hge & H63 & Hcase).
  rewrite Hm in Hm'. injection Hm' as <-.
  assert (Hle : (7 * m <= 8 * (a + n))%N) by lia.
  pose proof (normalize_le m ltac:(lia) ltac:(change (2 ^ 64)%N with (2 * 2 ^ 63)%N; lia)) as Hnl.
  set (c := NormalizeCapacity m) in *.
  assert (Hc : (7 * c <= 16 * (a + n))%N) by lia.
  assert (Hcs : (7 * (c * s) <= 16 * (a * s + n * s))%N) by nia.
  assert (Hcs' : (c * s = c * e_slot_size E + c)%N) by (unfold s; lia).
  unfold no_wrap. pose proof (W_cases E (eo_group _ HE)) as HW. change (2 ^ 64)%N with (16 * 2 ^ 60)%N.
  set (y := (2 ^ 60)%N) in *. lia.
Qed.

(** ** The loop *)
Lemma insert_all_perm (l : list elt) : forall m m', distinct eqb m -> m ≡ₚ m' -> s_insert_all eqb m l ≡ₚ s_insert_all eqb m' l.
Proof using HK.
  induction l as [|e l IH]; intros m m' Hd Hp; [exact Hp|]. unfold s_insert_all in *. cbn [fold_left].
  rewrite <- (s_find_perm hash eqb HK m m' (fst e) Hd Hp).
  destruct (s_find eqb m (fst e)) eqn:Hf; [apply IH; assumption|].
  apply IH; [|rewrite Hp; reflexivity]. split; [|assumption]. intros y Hy. apply (proj1 (s_find_none eqb m (fst e)) Hf y Hy).
Qed.
Lemma insert_each_ok (l : list elt) : forall t m, R t m ->
  exists t' b, insert_each hash eqb E t l = Ok (t', b) /\
    (if b then exists l1 l2, l = l1 ++ l2 /\ R t' (s_insert_all eqb m l1) else R t' (s_insert_all eqb m l)) /\
    (no_tombstones t -> no_tombstones t' /\
       (t_size t + length l <= CapacityToGrowth W (t_cap t) -> b = false /\ kept t t')).
Proof.
  induction l as [|e l IH]; intros t m HR; cbn [insert_each].
  - exists t, false. split; [reflexivity|]. split; [exact HR|]. intros Hnt. split; [assumption|]. intros _. split; [reflexivity|apply kept_refl].
  - pose proof HR as [Hg Hp].
    destruct (exec_ok hash eqb E HE HK t m (OEmplace (fst e) (snd e)) HR I) as (t1 & r & m1 & Hex & Hst & HR1 & _).
    pose proof (exec_quiet hash eqb E HE HK t t1 (OEmplace (fst e) (snd e)) r Hg) as Hq.
    cbn [exec] in Hex.
    destruct (emplace hash eqb E t (fst e) (snd e)) as [[[t2 p] b]| | | |] eqn:Hem; cbn [rbind catch] in Hex; try discriminate.
    + assert (Hd : exists x, deref t2 p = Ok x).
      { destruct (deref t2 p) as [x| | | |] eqn:Hd; cbn [rbind catch] in Hex; try discriminate; [eauto|].
        exfalso. unfold deref in Hd. destruct (load _ _) as [[?|]| | | |] eqn:?; cbn in Hd; try discriminate; unfold load in *; destruct (t_slots t2 !! p); discriminate. }
      destruct Hd as [x Hd]. rewrite Hd in Hex. cbn [rbind catch] in Hex. injection Hex as <- <-.
      assert (Hm1 : m1 = match s_find eqb m (fst e) with Some _ => m | None => e :: m end).
      { cbn [s_step] in Hst. destruct (s_find eqb m (fst e)); [apply Hst|]. destruct Hst as [[_ ->]|[? _]]; [destruct e; reflexivity|discriminate]. }
      destruct (IH t2 m1 HR1) as (t' & b' & Hr & Hb & Hk). exists t', b'. split; [exact Hr|]. split.
      * unfold s_insert_all in *. cbn [fold_left]. rewrite <- Hm1. destruct b'; [|exact Hb].
        destruct Hb as (l1 & l2 & -> & Hb). exists (e :: l1), l2. split; [reflexivity|]. cbn [fold_left]. rewrite <- Hm1. exact Hb.
      * intros Hnt. destruct Hq as (Hg2 & Hnt2 & Hsz2 & Hk2 & _).
        { assumption. } { exact I. }
        { cbn [exec]. rewrite Hem. cbn [rbind]. rewrite Hd. reflexivity. }
        destruct (Hk Hnt2) as [Hnt' Hk']. split; [assumption|]. intros Hle. cbn [length] in Hle.
        assert (Hs2 : t_size t2 <= S (t_size t)).
        { pose proof HR1 as [_ Hp1]. rewrite (good_size hash eqb E t2 Hg2), (good_size hash eqb E t Hg).
          rewrite (Permutation_length Hp1), (Permutation_length Hp), Hm1.
          destruct (s_find eqb m (fst e)); cbn [length]; lia. }
        pose proof (Hk2 ltac:(lia)) as Hkk. destruct Hkk as [Hc Hsl].
        destruct (Hk' ltac:(rewrite Hc; lia)) as [-> Hkt]. split; [reflexivity|]. eapply kept_trans; [|exact Hkt]. split; assumption.
    + injection Hex as <- <-. exists t, true. split; [reflexivity|]. split.
      * exists [], (e :: l). split; [reflexivity|]. exact HR.
      * intros Hnt. split; [assumption|]. intros Hle. exfalso. cbn [length] in Hle.
        destruct Hq as (_ & _ & _ & _ & Hth); [assumption|exact I|cbn [exec]; rewrite Hem; reflexivity|].
        destruct (Hth eq_refl). lia.
Qed.

Lemma R_size (t : table) m : R t m -> t_size t = length m.
Proof using. intros [Hg Hp]. rewrite (good_size hash eqb E t Hg). apply Permutation_length. assumption. Qed.
Lemma g2l_0 : GrowthToLowerboundCapacity W 0 = Ok 0%N.
Proof using. unfold GrowthToLowerboundCapacity. rewrite andb_false_r. reflexivity. Qed.
Lemma reserve_0 (t : table) m : R t m -> t_size t = 0 ->
  exists t', reserve hash E t 0 = Ok t' /\ R t' m /\ t_cap t' = 0 /\ m = [].
Proof.
  intros HR H0. pose proof (R_size t m HR) as Hl. rewrite H0 in Hl. symmetry in Hl. apply nil_length_inv in Hl. subst m.
  unfold reserve. rewrite g2l_0. cbn [rbind]. unfold rehash. cbn [N.eqb andb].
  destruct (Nat.eqb_spec (t_cap t) 0) as [Hc|Hc]; [exists t; auto|].
  rewrite H0. cbn [Nat.eqb]. exists empty_table. split; [reflexivity|]. split; [|split; reflexivity].
  split; [left; reflexivity|reflexivity].
Qed.
Lemma insert_range_ok sized (t : table) m l : R t m -> (N.of_nat (length l) * (e_slot_size E + 1) < 2 ^ 60)%N ->
  exists t' b, insert_range hash eqb E sized t l = Ok (t', b) /\
    (if b then exists l1 l2, l = l1 ++ l2 /\ R t' (s_insert_all eqb m l1) else R t' (s_insert_all eqb m l)) /\
    (no_tombstones t -> no_tombstones t' /\ (sized = true -> if b then t' = t else
       exists t1, reserve hash E t (N.of_nat (t_size t + length l)) = Ok t1 /\ kept t1 t')).
Proof.
  intros HR Hl. unfold insert_range. destruct sized.
  2: { destruct (insert_each_ok l t m HR) as (t' & b & H1 & H2 & H3). exists t', b. split; [exact H1|]. split; [exact H2|].
       intros Hnt. destruct (H3 Hnt). split; [assumption|discriminate]. }
  pose proof HR as [Hg Hp].
  destruct (N.eq_dec (N.of_nat (t_size t) + N.of_nat (length l)) 0) as [Hz|Hz].
  - destruct (reserve_0 t m HR ltac:(lia)) as (t1 & Hr & HR1 & Hc1 & ->).
    replace (wadd 64 (N.of_nat (t_size t)) (N.of_nat (length l))) with 0%N by (replace (t_size t) with 0 by lia; replace (length l) with 0 by lia; reflexivity).
    rewrite Hr. replace l with (@nil elt) by (symmetry; apply nil_length_inv; lia). cbn [insert_each].
    exists t1, false. split; [reflexivity|]. split; [exact HR1|]. intros Hnt. split; [intros i Hi; lia|]. intros _. exists t1.
    split; [|apply kept_refl]. replace (t_size t) with 0 by lia. exact Hr.
  - destruct (reserve_fits t (N.of_nat (length l)) Hg Hl Hz) as [-> Hop].
    destruct Hop as (Hn & Hn62 & Hw).
    destruct (reserve_ok hash eqb E HE HK t _ Hg Hn Hn62 Hw) as [[Hb _]|(t1 & Hr & Hg1 & Hsz & Hp1 & _ & Hgr & Hor)].
    + rewrite Hb. exists t, true. split; [reflexivity|]. split; [exists [], l; split; [reflexivity|exact HR]|].
      intros Hnt. split; [assumption|]. intros _. reflexivity.
    + rewrite Hr. assert (HR1 : R t1 m) by (split; [assumption|rewrite Hp1; assumption]).
      destruct (insert_each_ok l t1 m HR1) as (t' & b & H1 & H2 & H3). exists t', b. split; [exact H1|]. split; [exact H2|].
      intros Hnt. assert (Hnt1 : no_tombstones t1).
      { destruct Hor as [->|Hnd]; [assumption|]. apply (no_tomb_ndel hash eqb E HE HK); assumption. }
      destruct (H3 Hnt1) as [Hnt' Hk]. split; [assumption|]. intros _. destruct (Hk ltac:(lia)) as [-> Hkk].
      exists t1. split; [rewrite Nat2N.inj_add; exact Hr|exact Hkk].
Qed.
Lemma construct_buckets_eq n : (n < 2 ^ 64)%N ->
  @construct_buckets K V E n = rehash hash E empty_table n.
Proof using.
  intros H. unfold construct_buckets, rehash. destruct (N.eqb_spec n 0) as [->|Hn]; [reflexivity|]. cbn [andb orb t_cap empty_table t_size].
  change (N.of_nat 0) with 0%N. rewrite N.max_0_r. destruct (normalize_ge n H) as [_ H1].
  destruct (N.ltb_spec 0 (NormalizeCapacity n)); [|lia]. unfold resize. cbn [empty_table t_size t_cap t_ctrl t_slots seq resize_loop].
  destruct (initialize_slots E (NormalizeCapacity n) 0); reflexivity.
Qed.
Lemma R_empty : R (@empty_table K V) [].
Proof using. split; [left; reflexivity|reflexivity]. Qed.
Lemma construct_buckets_ok n : n = 0%N \/ op_ok E (@ORehash K V n) ->
  @construct_buckets K V E n = BadAlloc \/
  exists t, @construct_buckets K V E n = Ok t /\ R t [] /\ no_tombstones t /\ (n <= N.of_nat (t_cap t))%N.
Proof.
  intros [->|(Hn & H64 & Hw)].
  - right. exists empty_table. split; [reflexivity|]. split; [apply R_empty|]. split; [intros i Hi; cbn in Hi; lia|cbn; lia].
  - rewrite construct_buckets_eq by assumption.
    destruct (rehash_ok hash eqb E HE HK (@empty_table K V) n (or_introl eq_refl) Hn H64 Hw) as [[Hb _]|(t & Hr & Hg & Hsz & Hp & _ & Hge & Hor)]; [left; assumption|].
    right. exists t. split; [assumption|]. split; [split; [assumption|exact Hp]|]. split; [|assumption].
    destruct Hor as [->|Hnd]; [intros i Hi; cbn in Hi; lia|]. apply (no_tomb_ndel hash eqb E HE HK); assumption.
Qed.
Lemma construct_range_ok n sized l : rop_ok (RNew n sized l) ->
  construct_range hash eqb E n sized l = BadAlloc \/
  exists t', construct_range hash eqb E n sized l = Ok t' /\ R t' (s_insert_all eqb [] l) /\ no_tombstones t'.
Proof.
  intros [Hl Hn]. unfold construct_range.
  destruct (construct_buckets_ok n Hn) as [->|(t & -> & HR & Hnt & _)]; [left; reflexivity|]. cbn [rbind].
  destruct (insert_range_ok sized t [] l HR Hl) as (t' & b & -> & Hb & Hk). cbn [rbind].
  destruct b; [left; reflexivity|right]. exists t'. split; [reflexivity|]. split; [assumption|]. apply Hk. assumption.
Qed.
Lemma rexec_ok (t : table) m o : R t m -> rop_ok o ->
  exists t' r m', rexec hash eqb E t o = Ok (t', r) /\ s_rstep eqb m o r m' /\ R t' m'.
Proof.
  intros HR Ho. destruct o as [o|sized l|n sized l]; cbn [rexec s_rstep].
  - destruct (exec_ok hash eqb E HE HK t m o HR Ho) as (t' & r & m' & He & Hs & HR' & _).
    exists t', (ROut r), m'. rewrite He. cbn [rbind]. eauto.
  - destruct (insert_range_ok sized t m l HR Ho) as (t' & b & -> & Hb & _). cbn [rbind]. destruct b.
    + destruct Hb as (l1 & l2 & Hl & HR'). exists t', RThrew, (s_insert_all eqb m l1). split; [reflexivity|]. split; [|assumption]. right. eauto.
    + exists t', RDone, (s_insert_all eqb m l). auto.
  - destruct (construct_range_ok n sized l Ho) as [->|(t' & -> & HR' & _)].
    + exists t, RThrew, m. auto.
    + exists t', RDone, (s_insert_all eqb [] l). auto.
Qed.
Lemma rrun_ok os : forall (t : table) m, R t m -> Forall rop_ok os ->
  exists t' rs m', rrun hash eqb E t os = Ok (t', rs) /\ s_rrun eqb m os rs m' /\ R t' m'.
Proof.
  induction os as [|o os IH]; intros t m HR Ho; cbn [rrun].
  - exists t, [], m. split; [reflexivity|]. split; [constructor|assumption].
  - inversion Ho; subst. destruct (rexec_ok t m o HR) as (t1 & r & m1 & -> & Hs & HR1); [assumption|]. cbn [rbind].
    destruct (IH t1 m1 HR1) as (t2 & rs & m2 & -> & Hss & HR2); [assumption|]. cbn [rbind].
    exists t2, (r :: rs), m2. split; [reflexivity|]. split; [econstructor; eassumption|assumption].
Qed.

(** ** Histories that erase nothing *)
Definition rno_erase (o : rop K V) : Prop := match o with RBase o => no_erase o | _ => True end.
Lemma rrun_no_erase os : forall (t : table) m t' rs, R t m -> no_tombstones t -> Forall rop_ok os -> Forall rno_erase os ->
  rrun hash eqb E t os = Ok (t', rs) -> no_tombstones t'.
Proof.
  induction os as [|o os IH]; intros t m t' rs HR Hnt Ho Hne Hr; cbn [rrun] in Hr; [injection Hr as <- _; assumption|].
  inversion Ho; inversion Hne; subst. destruct (rexec_ok t m o HR) as (t1 & r & m1 & He & _ & HR1); [assumption|].
  rewrite He in Hr. cbn [rbind] in Hr. destruct (rrun hash eqb E t1 os) as [[t2 rs2]| | | |] eqn:Hr2; cbn [rbind] in Hr; try discriminate.
  injection Hr as <- <-. refine (IH t1 m1 t2 rs2 HR1 _ _ _ Hr2); try assumption. pose proof HR as [Hg _].
  destruct o as [o|sized l|n sized l]; cbn [rexec] in He.
  - destruct (exec hash eqb E t o) as [[u ro]| | | |] eqn:Hx; cbn [rbind] in He; try discriminate. injection He as <- <-.
    apply (exec_no_erase hash eqb E HE HK t u o ro); assumption.
  - destruct (insert_range_ok sized t m l HR ltac:(assumption)) as (u & b & Hx & _ & Hk). rewrite Hx in He. cbn [rbind] in He.
    injection He as <- <-. apply Hk. assumption.
  - destruct (construct_range_ok n sized l ltac:(assumption)) as [Hx|(u & Hx & _ & Hu)]; rewrite Hx in He; injection He as <- <-; assumption.
Qed.
End RangeProof.
