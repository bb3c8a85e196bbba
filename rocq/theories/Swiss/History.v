(** Sequences of public operations on one table, and their refinement to [MapSpec]. *)
From stdpp Require Import list.
From Coq Require Import Arith NArith ZArith Lia.
From Coq Require Import ZifyBool ZifyNat ZifyN.
From Verif.Common Require Import Res Word WordFacts.
From Verif.Swiss Require Import Group GroupSpec GroupProof GroupPortableProof Model Probe Inv TableInv Resize Ops MapSpec.
Ltac Zify.zify_post_hook ::= Z.div_mod_to_equations.
Local Open Scope nat_scope.
Local Open Scope res_scope.
Local Arguments cnt : simpl never.
Local Arguments elems : simpl never.

(** The environments of real builds: one of the two group implementations of phmap.hpp (832-1030), an
    allocator that cannot satisfy requests of 2^62 bytes, a slot type of non-zero size. *)
Record real_env (E : env) : Prop := {
  re_max : (e_max_bytes E < 2 ^ 62)%N;
  re_slot : (1 <= e_slot_size E < 2 ^ 62)%N;
  re_align : (e_align_log E <= 61)%N;
  re_junk : (-128 <= e_junk E < 128)%Z;
  re_group : (exists b, e_group E = group_sse2 b) \/ e_group E = group_portable
}.
Lemma real_env_ok E : real_env E -> env_ok E.
Proof.
  intros [H1 H2 H3 Hj H4]. constructor; try assumption.
  destruct H4 as [[b ->]| ->]; [apply sse2_ok|apply portable_ok].
Qed.

Section History.
Context {K V : Type} (hash : K -> N) (eqb : K -> K -> bool) (E : env).
Notation W := (g_width (e_group E)).
Notation elt := (K * V)%type.
Notation table := (table K V).
Notation op := (op K V).
Notation out := (out K V).

(** One public call; an exception leaves the table as it was before the call (resize allocates before it
    changes any field, phmap.hpp:2634-2692). *)
Definition catch (t : table) (r : res (table * out)) : res (table * out) :=
  match r with BadAlloc => Ok (t, RThrow) | _ => r end.
Definition exec (t : table) (o : op) : res (table * out) :=
  match o with
  | OEmplace k v =>
      catch t (let* (t', p, b) := emplace hash eqb E t k v in let* e := deref t' p in Ok (t', RInserted b e))
  | OAssign k v =>
      catch t (let* (t', p, b) := insert_or_assign hash eqb E t k v in let* e := deref t' p in Ok (t', RInserted b e))
  | OFind k =>
      let* r := find_key hash eqb E t k in
      match r with None => Ok (t, RFound None) | Some p => let* e := deref t p in Ok (t, RFound (Some e)) end
  | OErase k => let* (e, t') := erase_key hash eqb E t k in Ok (t', RErased e)
  | OClear => let* t' := clear E t in Ok (t', RUnit)
  | ORehash n => catch t (let* t' := rehash hash E t n in Ok (t', RUnit))
  | OReserve n => catch t (let* t' := reserve hash E t n in Ok (t', RUnit))
  | OSize => Ok (t, RSize (t_size t))
  | OTraverse => let* l := to_list E t in Ok (t, RElems l)
  end.
Fixpoint run (t : table) (os : list op) : res (table * list out) :=
  match os with
  | [] => Ok (t, [])
  | o :: os' => let* (t1, r) := exec t o in let* (t2, rs) := run t1 os' in Ok (t2, r :: rs)
  end.

(** Arguments for which the size computations of rehash/reserve do not wrap around; rehash(0) and
    reserve(0) are treated separately (C04), and so are huge arguments (C50). *)
Definition op_ok (o : op) : Prop :=
  match o with
  | ORehash n => n <> 0%N /\ (n < 2 ^ 64)%N /\ no_wrap E (NormalizeCapacity n)
  | OReserve n => n <> 0%N /\ (n < 2 ^ 62)%N /\
      forall m, GrowthToLowerboundCapacity W n = Ok m -> no_wrap E (NormalizeCapacity m)
  | _ => True
  end.

(** Tables that a program can build from a default-constructed one. *)
Definition reachable (t : table) : Prop :=
  exists os rs, Forall op_ok os /\ run empty_table os = Ok (t, rs).

Context (HE : env_ok E) (HK : KeyPER hash eqb).
Set Default Proof Using "HE HK".
Notation good := (good hash eqb E).

(** ** Facts about the specification *)
Lemma s_find_some (m : list elt) k e : s_find eqb m k = Some e -> In e m /\ eqb k (fst e) = true.
Proof using.
  induction m as [|x m IH]; cbn; [discriminate|]. destruct (eqb k (fst x)) eqn:Ex.
  - intros [= ->]. auto.
  - intros H. destruct (IH H). auto.
Qed.
Lemma s_find_none (m : list elt) k : s_find eqb m k = None <-> forall e, In e m -> eqb k (fst e) = false.
Proof using.
  induction m as [|x m IH]; cbn; [split; [intros _ e []|reflexivity]|].
  destruct (eqb k (fst x)) eqn:Ex.
  - split; [discriminate|]. intros H. rewrite (H x) in Ex by auto. discriminate.
  - rewrite IH. split; [intros H e [<-|He]; auto|auto].
Qed.
Lemma eqb_trans_false a b c : eqb a b = true -> eqb b c = false -> eqb a c = false.
Proof using HK.
  intros H1 H2. destruct (eqb a c) eqn:Hac; [|reflexivity].
  rewrite (kp_sym _ _ HK) in H1. rewrite (kp_trans _ _ HK b a c H1 Hac) in H2. discriminate.
Qed.
Lemma s_find_in (m : list elt) k e : distinct eqb m -> In e m -> eqb k (fst e) = true -> s_find eqb m k = Some e.
Proof using HK.
  induction m as [|x m IH]; cbn; [intros _ []|]. intros [Hx Hd] [->|Hin] Hk; [rewrite Hk; reflexivity|].
  destruct (eqb k (fst x)) eqn:Ex; [|auto]. exfalso.
  assert (Hxe : eqb (fst x) (fst e) = false) by (apply Hx; assumption).
  rewrite (kp_sym _ _ HK) in Ex. rewrite (kp_trans _ _ HK _ _ _ Ex Hk) in Hxe. discriminate.
Qed.
Lemma s_find_perm (m m' : list elt) k : distinct eqb m -> m ≡ₚ m' -> s_find eqb m k = s_find eqb m' k.
Proof using HK.
  intros Hd Hp. destruct (s_find eqb m k) as [e|] eqn:Ef.
  - apply s_find_some in Ef. destruct Ef as [Hin Hk]. symmetry. apply s_find_in; [|eapply Permutation_in; eassumption|assumption].
    eapply (distinct_perm eqb (kp_sym _ _ HK)); eassumption.
  - symmetry. rewrite s_find_none in Ef |- *. intros e He. apply Ef. eapply Permutation_in; [symmetry; eassumption|assumption].
Qed.
Lemma s_erase_perm (m m' : list elt) k : m ≡ₚ m' -> s_erase eqb m k ≡ₚ s_erase eqb m' k.
Proof using.
  unfold s_erase. induction 1 as [|x l l' _ IH|x y l|]; cbn; [reflexivity| | |etransitivity; eassumption].
  - destruct (negb _); [constructor|]; assumption.
  - destruct (negb (eqb k (fst x))), (negb (eqb k (fst y))); try reflexivity. constructor.
Qed.
Lemma s_update_perm (m m' : list elt) k v : m ≡ₚ m' -> s_update eqb m k v ≡ₚ s_update eqb m' k v.
Proof using. intros. unfold s_update. apply Permutation_map. assumption. Qed.
Lemma s_erase_absent (m : list elt) k : (forall e, In e m -> eqb k (fst e) = false) -> s_erase eqb m k = m.
Proof using.
  induction m as [|x m IH]; cbn; [reflexivity|]. intros H. rewrite (H x) by auto. cbn. f_equal. apply IH. auto.
Qed.
Lemma s_update_absent (m : list elt) k v : (forall e, In e m -> eqb k (fst e) = false) -> s_update eqb m k v = m.
Proof using.
  induction m as [|x m IH]; cbn; [reflexivity|]. intros H. rewrite (H x) by auto. f_equal. apply IH. auto.
Qed.
(** the other elements of a map with distinct keys do not have the key of [e] *)
Lemma distinct_rest (e : elt) (l : list elt) k : distinct eqb (e :: l) -> eqb k (fst e) = true ->
  forall x, In x l -> eqb k (fst x) = false.
Proof using HK. intros [H _] Hk x Hx. eapply eqb_trans_false; [eassumption|]. apply H. assumption. Qed.

(** ** Erasing *)
Lemma erase_key_present (t : table) k i e : good t -> t_slots t !! i = Some (Some e) -> eqb k (fst e) = true ->
  exists t', erase_key hash eqb E t k = Ok (Some e, t') /\ tinv hash eqb E t' /\
    t_slots t' = <[i := None]> (t_slots t) /\ t_cap t' = t_cap t /\ t_size t = S (t_size t') /\
    elems (t_slots t) ≡ₚ e :: elems (t_slots t').
Proof.
  intros Hg Hs Hk. unfold erase_key. rewrite (good_find_present hash eqb E HE HK t k i e Hg Hs Hk). cbn [rbind].
  destruct Hg as [->|Ht]; [discriminate|].
  destruct (erase_at_ok hash eqb E (eo_group E HE) HK t i e Ht Hs) as (t' & He & H'). rewrite He. cbn [rbind]. eauto.
Qed.

(** ** One step *)
Definition R (t : table) (m : list elt) : Prop := good t /\ elems (t_slots t) ≡ₚ m.

Lemma R_distinct t m : R t m -> distinct eqb m.
Proof. intros [Hg Hp]. eapply (distinct_perm eqb (kp_sym _ _ HK)); [exact Hp|]. eapply good_dist; eassumption. Qed.
Lemma R_find t m k : R t m -> s_find eqb m k = s_find eqb (elems (t_slots t)) k.
Proof. intros [Hg Hp]. symmetry. apply s_find_perm; [eapply good_dist; eassumption|assumption]. Qed.

Lemma R_present t m k i e : R t m -> t_slots t !! i = Some (Some e) -> eqb k (fst e) = true -> s_find eqb m k = Some e.
Proof.
  intros HR Hs Hk. apply s_find_in; [eapply R_distinct; eassumption| |assumption].
  destruct HR as [_ Hp]. eapply Permutation_in; [exact Hp|]. apply elems_in. eauto.
Qed.
Lemma R_absent t m k : R t m -> absent eqb t k -> s_find eqb m k = None.
Proof.
  intros [_ Hp] Ha. apply s_find_none. intros e He. apply Ha. eapply Permutation_in; [symmetry; exact Hp|assumption].
Qed.

(** When may an operation throw?  Only when the table it needs does not fit in memory. *)
Definition too_big (c : N) : Prop := (e_max_bytes E < alloc_size E c)%N.
Definition throw_ok (t : table) (o : op) : Prop :=
  match o with
  | OEmplace _ _ | OAssign _ _ => too_big (2 * N.of_nat (t_cap t) + 1)
  | ORehash n => too_big (NormalizeCapacity n)
  | OReserve n => exists m, GrowthToLowerboundCapacity W n = Ok m /\ too_big (NormalizeCapacity m)
  | _ => False
  end.

Lemma exec_ok t m o : R t m -> op_ok o ->
  exists t' r m', exec t o = Ok (t', r) /\ s_step eqb m o r m' /\ R t' m' /\ (r = RThrow -> throw_ok t o).
Proof.
  intros HR Ho. pose proof HR as [Hg Hp]. destruct o as [k v|k v|k|k| |n|n| |]; cbn [exec s_step throw_ok].
  - (* emplace *)
    destruct (present_or_absent eqb t k) as [(i & e & Hs & Hk)|Ha].
    + rewrite (emplace_old hash eqb E HE HK t k v i e Hg Hs Hk). cbn [rbind]. unfold deref.
      rewrite (load_some _ _ _ Hs). cbn [rbind of_option catch]. rewrite (R_present _ _ _ _ _ HR Hs Hk).
      exists t, (RInserted false e), m. repeat split; try assumption. discriminate.
    + rewrite (R_absent _ _ _ HR Ha).
      destruct (emplace_new hash eqb E HE HK t k v Hg Ha) as [(Hb & Hbig & _)|(t' & p & He & Ht' & Hsl & Hsz & Hperm & _)].
      * rewrite Hb. cbn [rbind catch]. exists t, RThrow, m. split; [reflexivity|]. split; [right; auto|]. split; [assumption|]. auto.
      * rewrite He. cbn [rbind]. unfold deref. rewrite (load_some _ _ _ Hsl). cbn [rbind of_option catch].
        exists t', (RInserted true (k, v)), ((k, v) :: m). split; [reflexivity|]. split; [left; auto|].
        split; [|discriminate]. split; [right; assumption|]. rewrite Hperm, Hp. reflexivity.
  - (* insert_or_assign *)
    unfold insert_or_assign. destruct (present_or_absent eqb t k) as [(i & e & Hs & Hk)|Ha].
    + rewrite (emplace_old hash eqb E HE HK t k v i e Hg Hs Hk). cbn [rbind].
      rewrite (R_present _ _ _ _ _ HR Hs Hk).
      assert (Ht : tinv hash eqb E t) by (destruct Hg as [->|]; [discriminate|assumption]).
      destruct (assign_ok hash eqb E HE HK t i e v Ht Hs) as (t' & Has & Ht' & Hsl & Hsz & Hcap).
      rewrite Has. cbn [rbind]. unfold deref.
      assert (Hs' : t_slots t' !! i = Some (Some (fst e, v))).
      { rewrite Hsl. apply list_lookup_insert. apply lookup_lt_Some in Hs. assumption. }
      rewrite (load_some _ _ _ Hs'). cbn [rbind of_option catch].
      exists t', (RInserted false (fst e, v)), (s_update eqb m k v). split; [reflexivity|]. split; [auto|].
      split; [|discriminate]. split; [right; assumption|]. rewrite Hsl.
      destruct (elems_set (t_slots t) i e (fst e, v) Hs) as (l & Hp1 & Hp2). rewrite Hp2.
      rewrite <- (s_update_perm _ _ k v Hp), (s_update_perm _ _ k v Hp1). cbn [s_update map]. rewrite Hk.
      constructor. fold (s_update eqb l k v). rewrite s_update_absent; [reflexivity|].
      eapply distinct_rest; [|exact Hk]. eapply (distinct_perm eqb (kp_sym _ _ HK)); [exact Hp1|]. eapply good_dist; eassumption.
    + rewrite (R_absent _ _ _ HR Ha).
      destruct (emplace_new hash eqb E HE HK t k v Hg Ha) as [(Hb & Hbig & _)|(t' & p & He & Ht' & Hsl & Hsz & Hperm & _)].
      * rewrite Hb. cbn [rbind catch]. exists t, RThrow, m. split; [reflexivity|]. split; [right; auto|]. split; [assumption|]. auto.
      * rewrite He. cbn [rbind]. unfold deref. rewrite (load_some _ _ _ Hsl). cbn [rbind of_option catch].
        exists t', (RInserted true (k, v)), ((k, v) :: m). split; [reflexivity|]. split; [left; auto|].
        split; [|discriminate]. split; [right; assumption|]. rewrite Hperm, Hp. reflexivity.
  - (* find *)
    destruct (present_or_absent eqb t k) as [(i & e & Hs & Hk)|Ha].
    + rewrite (good_find_present hash eqb E HE HK t k i e Hg Hs Hk). cbn [rbind]. unfold deref.
      rewrite (load_some _ _ _ Hs). cbn [rbind of_option]. rewrite (R_present _ _ _ _ _ HR Hs Hk).
      exists t, (RFound (Some e)), m. repeat split; try assumption. discriminate.
    + rewrite (good_find_absent hash eqb E HE HK t k Hg Ha). cbn [rbind]. rewrite (R_absent _ _ _ HR Ha).
      exists t, (RFound None), m. repeat split; try assumption. discriminate.
  - (* erase *)
    destruct (present_or_absent eqb t k) as [(i & e & Hs & Hk)|Ha].
    + destruct (erase_key_present t k i e Hg Hs Hk) as (t' & He & Ht' & _ & _ & _ & Hperm).
      rewrite He. cbn [rbind]. rewrite (R_present _ _ _ _ _ HR Hs Hk).
      exists t', (RErased (Some e)), (s_erase eqb m k). split; [reflexivity|]. split; [auto|]. split; [|discriminate].
      split; [right; assumption|]. rewrite <- (s_erase_perm _ _ k Hp), (s_erase_perm _ _ k Hperm).
      cbn [s_erase List.filter]. rewrite Hk. cbn [negb]. fold (s_erase eqb (elems (t_slots t')) k).
      rewrite s_erase_absent; [reflexivity|].
      eapply distinct_rest; [|exact Hk]. eapply (distinct_perm eqb (kp_sym _ _ HK)); [exact Hperm|]. eapply good_dist; eassumption.
    + unfold erase_key. rewrite (good_find_absent hash eqb E HE HK t k Hg Ha). cbn [rbind]. rewrite (R_absent _ _ _ HR Ha).
      exists t, (RErased None), (s_erase eqb m k). split; [reflexivity|]. split; [auto|]. split; [|discriminate].
      split; [assumption|]. rewrite s_erase_absent; [assumption|].
      apply s_find_none. apply (R_absent _ _ _ HR Ha).
  - (* clear *)
    destruct (clear_ok hash eqb E HE HK t Hg) as (t' & Hc & Hg' & _ & He & _). rewrite Hc. cbn [rbind].
    exists t', RUnit, []. split; [reflexivity|]. split; [auto|]. split; [|discriminate]. split; [assumption|]. rewrite He. reflexivity.
  - (* rehash *)
    destruct Ho as (Hn & Hn64 & Hnw).
    destruct (rehash_ok hash eqb E HE HK t n Hg Hn Hn64 Hnw) as [[Hb Hbig]|(t' & Hr & Hg' & _ & Hperm & _)].
    + rewrite Hb. cbn [rbind catch]. exists t, RThrow, m. split; [reflexivity|]. split; [auto|]. auto.
    + rewrite Hr. cbn [rbind catch]. exists t', RUnit, m. split; [reflexivity|]. split; [auto|]. split; [|discriminate].
      split; [assumption|]. rewrite Hperm. assumption.
  - (* reserve *)
    destruct Ho as (Hn & Hn62 & Hnw).
    destruct (reserve_ok hash eqb E HE HK t n Hg Hn Hn62 Hnw) as [[Hb Hbig]|(t' & Hr & Hg' & _ & Hperm & _)].
    + rewrite Hb. cbn [rbind catch]. exists t, RThrow, m. split; [reflexivity|]. split; [auto|]. auto.
    + rewrite Hr. cbn [rbind catch]. exists t', RUnit, m. split; [reflexivity|]. split; [auto|]. split; [|discriminate].
      split; [assumption|]. rewrite Hperm. assumption.
  - (* size *)
    exists t, (RSize (t_size t)), m. split; [reflexivity|]. split; [|split; [assumption|discriminate]].
    rewrite (good_size hash eqb E t Hg), (Permutation_length Hp). auto.
  - (* traversal *)
    destruct (iterate_ok hash eqb E HE HK t Hg) as (is & _ & Htl & _). rewrite Htl. cbn [rbind].
    exists t, (RElems (elems (t_slots t))), m. split; [reflexivity|]. split; [|split; [assumption|discriminate]].
    split; [eauto|reflexivity].
Qed.

Lemma run_ok os : forall t m, R t m -> Forall op_ok os ->
  exists t' rs m', run t os = Ok (t', rs) /\ s_run eqb m os rs m' /\ R t' m'.
Proof.
  induction os as [|o os IH]; intros t m HR Ho.
  - exists t, [], m. split; [reflexivity|]. split; [constructor|assumption].
  - inversion Ho as [|? ? Ho1 Ho2]; subst. destruct (exec_ok t m o HR Ho1) as (t1 & r & m1 & He & Hst & HR1 & _).
    destruct (IH t1 m1 HR1 Ho2) as (t2 & rs & m2 & Hr & Hsr & HR2).
    exists t2, (r :: rs), m2. cbn [run]. rewrite He. cbn [rbind]. rewrite Hr. cbn [rbind].
    split; [reflexivity|]. split; [econstructor; eassumption|assumption].
Qed.
Lemma R_empty : R empty_table [].
Proof using. split; [left; reflexivity|reflexivity]. Qed.

Lemma reachable_good t : reachable t -> good t.
Proof.
  intros (os & rs & Ho & Hr). destruct (run_ok os empty_table [] R_empty Ho) as (t' & rs' & m' & Hr' & _ & [Hg _]).
  rewrite Hr in Hr'. injection Hr' as <- _. assumption.
Qed.

(** ** Number of groups a lookup inspects *)
Lemma cover_tight cap h i : valid_cap cap -> i <= cap ->
  exists n, n <= cap / W /\ covers E cap (poffh E cap h n) i /\ (S cap < W -> n = 0).
Proof using HE.
  intros (k & Hk & HM) Hi. destruct (W_pow E (eo_group E HE)) as (w & HW & Hw).
  assert (Ho : probe_start h cap <= cap) by (pose proof (probe_start_lt h cap k HM); lia).
  destruct (Nat.lt_ge_cases (S cap) W) as [Hs|Hl].
  - destruct (cover_ex E (eo_group E HE) cap (probe_start h cap) i) as (n & Hn & Hc & Hz); [exists k; auto|assumption|assumption|].
    exists n. rewrite Hz by assumption. rewrite Hz in Hc by assumption. split; [apply Nat.le_0_l|]. split; [exact Hc|auto].
  - assert (w <= k).
    { destruct (Nat.le_gt_cases w k); [assumption|]. assert (2 ^ k < 2 ^ w) by (apply Nat.pow_lt_mono_r; lia). lia. }
    destruct (probe_cover w k (probe_start h cap) i) as (n & d & Hn & Hd & He); [assumption|lia|lia|].
    exists n. split.
    + assert (Hp : 2 ^ k = 2 ^ w * 2 ^ (k - w)) by (rewrite <- Nat.pow_add_r; f_equal; lia).
      rewrite HW. pose proof (pow2_pos w) as Hpw. apply Nat.div_le_lower_bound; [lia|].
      assert (2 ^ w * S n <= 2 ^ w * 2 ^ (k - w)) by (apply Nat.mul_le_mono_l; exact Hn). lia.
    + split; [|lia]. exists d. rewrite HM. split; [lia|]. split; [lia|].
      unfold poffh. rewrite HW, HM. exact He.
Qed.

Lemma find_bounded (t : table) k : good t ->
  exists r, find_fuel hash eqb E (S (t_cap t / W)) t k = Ok r /\ find_key hash eqb E t k = Ok r.
Proof.
  intros Hg. pose proof Hg as [->|Ht].
  { exists None. rewrite (find_empty hash eqb E HE). split; [|reflexivity].
    change (t_cap empty_table) with 0. rewrite Nat.div_0_l by (destruct (W_cases E (eo_group E HE)); lia).
    pose proof (find_empty (V:=V) hash eqb E HE k) as Hf. exact Hf. }
  pose proof (tv_0 _ _ _ _ Ht) as Ht0. pose proof (ti_wfc _ _ _ _ Ht0) as Hwf. pose proof (tinv_cap _ _ _ t Ht) as Hv.
  (* the first group with an empty byte, at most cap / W probes away *)
  assert (Hstop : exists ns, ns <= t_cap t / W /\ ~ nempty E (t_ctrl t) (t_cap t) (poffh E (t_cap t) (hash k) ns)).
  { destruct (tinv_has_empty hash eqb E HE HK t Ht) as [Hs|(i & Hi & He)].
    - exists 0. split; [apply Nat.le_0_l|]. intros [Hx _]. lia.
    - destruct (cover_tight (t_cap t) (hash k) i Hv ltac:(lia)) as (n & Hn & (d & Hd & HdM & Hmod) & _).
      exists n. split; [assumption|]. intros [_ Hne]. apply (Hne d Hd). rewrite Hmod. assumption. }
  destruct Hstop as (ns & Hns & Hnot).
  destruct (present_or_absent eqb t k) as [(i & e & Hs & Hk)|Ha].
  - exists (Some i). split; [|eapply good_find_present; eassumption].
    destruct (ti_reach _ _ _ _ Ht0 i e Hs) as (n & Hn & Hcov & Hne).
    rewrite <- (kp_hash _ _ HK _ _ Hk) in Hcov, Hne.
    assert (n <= ns).
    { destruct (Nat.le_gt_cases n ns); [assumption|]. exfalso. apply Hnot. apply Hne. assumption. }
    unfold find_fuel. rewrite (poffh_0 E _ _ Hv).
    apply (find_loop_ok hash eqb E (eo_group E HE) HK t k i e n Ht0 Hs Hk Hcov Hne (S (t_cap t / W)) 0); lia.
  - exists None. split; [|eapply good_find_absent; eassumption].
    unfold find_fuel. rewrite (poffh_0 E _ _ Hv).
    apply (find_loop_none hash eqb E (eo_group E HE) HK t k ns Ht0 Ha Hnot (S (t_cap t / W)) 0); lia.
Qed.
End History.
