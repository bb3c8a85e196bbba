(** rehash(0), insert-only runs after reserve, insertions whose element constructor throws. *)
From stdpp Require Import list.
From Coq Require Import Arith NArith ZArith Lia.
From Coq Require Import ZifyBool ZifyNat ZifyN.
From Verif.Common Require Import Res Word WordFacts.
From Verif.Swiss Require Import Group GroupSpec Model Probe Inv TableInv Resize Ops MapSpec History.
Ltac Zify.zify_post_hook ::= Z.div_mod_to_equations.
Local Open Scope nat_scope.
Local Open Scope res_scope.
Local Arguments cnt : simpl never.
Local Arguments elems : simpl never.

(** An insertion whose element constructor throws (emplace_at, phmap.hpp:2861-2865, called after
    prepare_insert 2867-2881): the exception propagates with the state prepare_insert left; nothing is
    rolled back.  The result is the table after the exception. *)
Definition emplace_throwing {K V} (hash : K -> N) (eqb : K -> K -> bool) (E : env) (t : table K V) (k : K) : res (table K V) :=
  let* r := find_key hash eqb E t k in
  match r with
  | Some _ => Ok t
  | None => let* (t1, _) := prepare_insert hash E t (hash k) in Ok t1
  end.

(** Operations that neither remove nor resize explicitly. *)
Definition quiet {K V} (o : op K V) : Prop :=
  match o with OEmplace _ _ | OAssign _ _ | OFind _ | OSize | OTraverse => True | _ => False end.
Definition no_erase {K V} (o : op K V) : Prop := match o with OErase _ => False | _ => True end.
(** No slot carries a tombstone. *)
Definition no_tombstones {K V} (t : table K V) : Prop := forall i, i < t_cap t -> t_ctrl t !! i <> Some kDeleted.

Section Reserve.
Context {K V : Type} (hash : K -> N) (eqb : K -> K -> bool) (E : env).
Context (HE : env_ok E) (HK : KeyOK hash eqb).
Set Default Proof Using "HE HK".
Notation HG := (eo_group E HE).
Notation W := (g_width (e_group E)).
Notation elt := (K * V)%type.
Notation table := (table K V).
Notation good := (good hash eqb E).
Notation tinv := (tinv hash eqb E).
Notation tinv0 := (tinv0 hash eqb E).

Lemma no_tomb_ndel (t : table) : good t -> no_tombstones t <-> ndel (t_ctrl t) (t_cap t) = 0.
Proof.
  intros Hg. unfold ndel, no_tombstones. rewrite cnt_zero. split.
  - intros H i x Hx. assert (Hi : i < t_cap t) by (apply lookup_lt_Some in Hx; rewrite take_length in Hx; lia).
    rewrite lookup_take in Hx by assumption. unfold isDel. destruct (Z.eqb_spec x kDeleted) as [->|]; [|reflexivity].
    exfalso. apply (H i Hi Hx).
  - intros H i Hi Hx. specialize (H i kDeleted). rewrite lookup_take in H by assumption. specialize (H Hx). discriminate.
Qed.

(** ** rehash(0) *)
Lemma fits_no_wrap (t : table) m : tinv t -> (m <= N.of_nat (t_cap t))%N -> no_wrap E m.
Proof using HE.
  intros Ht Hm. pose proof (tv_bytes _ _ _ _ Ht) as Hby. unfold needed_bytes, no_wrap in *.
  pose proof (eo_max _ HE) as H1. pose proof (eo_align _ HE) as H3.
  assert (Ha : (2 ^ e_align_log E <= 2 ^ 61)%N) by (apply N.pow_le_mono_r; lia).
  assert (Hmm : (m * e_slot_size E <= N.of_nat (t_cap t) * e_slot_size E)%N) by (apply N.mul_le_mono_r; assumption).
  change (2 ^ 64)%N with (8 * 2 ^ 61)%N. change (2 ^ 62)%N with (2 * 2 ^ 61)%N in H1. lia.
Qed.
Lemma size_bound (t : table) : tinv t -> t_size t <= t_cap t /\ (N.of_nat (t_cap t) < 2 ^ 62)%N.
Proof using HE.
  intros Ht. pose proof (good_room hash eqb E t (or_intror Ht)) as [_ H]. split; [assumption|].
  pose proof (tv_bytes _ _ _ _ Ht) as Hby. pose proof (eo_max _ HE). unfold needed_bytes in Hby. lia.
Qed.
Lemma normalize_size (t : table) : tinv t -> let m := NormalizeCapacity (N.of_nat (t_size t)) in
  valid_cap (N.to_nat m) /\ no_wrap E m /\ (m <= N.of_nat (t_cap t))%N /\ t_size t <= N.to_nat m.
Proof using HE.
  intros Ht. destruct (size_bound t Ht) as [H1 H2]. cbv zeta.
  assert (H64 : (N.of_nat (t_size t) < 2 ^ 62)%N) by lia.
  assert (Hp1 : (2 ^ 62 < 2 ^ 63)%N) by reflexivity. assert (Hp2 : (2 ^ 63 < 2 ^ 64)%N) by reflexivity.
  assert (Hle : (NormalizeCapacity (N.of_nat (t_size t)) <= N.of_nat (t_cap t))%N).
  { apply normalize_min; [lia|apply (tinv_cap hash eqb E); assumption|lia]. }
  split; [apply normalize_valid; lia|]. split; [eapply fits_no_wrap; eassumption|]. split; [assumption|].
  destruct (normalize_ge (N.of_nat (t_size t)) ltac:(lia)). lia.
Qed.

Lemma rehash0_ok (t : table) : good t ->
  t_size t <= CapacityToGrowth W (N.to_nat (NormalizeCapacity (N.of_nat (t_size t)))) ->
  (rehash hash E t 0 = BadAlloc /\ (e_max_bytes E < alloc_size E (NormalizeCapacity (N.of_nat (t_size t))))%N) \/
  exists t', rehash hash E t 0 = Ok t' /\ good t' /\ t_size t' = t_size t /\ elems (t_slots t') ≡ₚ elems (t_slots t).
Proof.
  intros Hg Hroom. unfold rehash. cbn [N.eqb andb orb].
  destruct (Nat.eqb_spec (t_cap t) 0) as [Hc|Hc].
  { right. exists t. auto. }
  destruct (Nat.eqb_spec (t_size t) 0) as [Hs|Hs].
  { right. exists empty_table. split; [reflexivity|]. split; [left; reflexivity|]. split; [symmetry; assumption|].
    pose proof (good_size _ _ _ t Hg) as Hl. rewrite (nil_length_inv (elems (t_slots t))) by lia. reflexivity. }
  destruct Hg as [->|Ht]; [cbn in Hc; lia|]. rewrite N.max_0_l.
  destruct (normalize_size t Ht) as (Hv & Hnw & Hle & Hsz).
  destruct (resize_tinv hash eqb E HE HK t _ (or_intror Ht) Hv Hnw Hroom) as [[Hb Hx]|(t' & Hr & Ht' & Hnd & Hsz' & Hcap & Hp)].
  - left. auto.
  - right. exists t'. split; [assumption|]. split; [right; assumption|]. auto.
Qed.

(** On a table without any empty control byte, a lookup of an absent key never stops. *)
Lemma find_full_loops (t : table) k : tinv0 t -> absent eqb t k -> W <= S (t_cap t) ->
  length (elems (t_slots t)) = t_cap t -> forall fuel, find_fuel hash eqb E fuel t k = Loop.
Proof.
  intros Ht Ha HWM Hfull fuel. pose proof (ti_wfc _ _ _ _ Ht) as Hwf. pose proof (wfc_cap _ _ _ Hwf) as Hv.
  assert (Hnf := all_full_not_nonfull hash eqb E HG HK t Ht Hfull).
  unfold find_fuel. rewrite (poffh_0 E _ _ Hv).
  cut (forall n, find_loop eqb E fuel t k (hash k) (poffh E (t_cap t) (hash k) n) (n * W) = Loop); [intros H; exact (H 0)|].
  induction fuel as [|f IH]; intros n; [reflexivity|]. cbn [find_loop].
  set (o := poffh E (t_cap t) (hash k) n) in *. assert (Ho : o <= t_cap t) by apply poffh_le.
  destruct (window_ok E HG _ _ _ Hwf Ho) as (w & Hw & Hl & Hvw & Hb). rewrite Hw. cbn [rbind].
  destruct (match_loop_spec hash eqb E HG HK t k o (g_match (e_group E) w (H2 (hash k))) Ht Ho) as (r & Hr & Hspec).
  { intros d Hd. destruct (gok_match_sound _ HG w _ d Hl Hvw (H2_range _) Hd) as (c & Hc & H0).
    assert (Hdl : d < W) by (apply lookup_lt_Some in Hc; lia). split; [assumption|].
    exists c. rewrite <- Hb by assumption. split; assumption. }
  rewrite Hr. cbn [rbind]. destruct r as [p|].
  { destruct Hspec as (e' & He' & Hk'). rewrite Ha in Hk'; [discriminate|]. apply elems_in. eauto. }
  assert (Hne : nempty E (t_ctrl t) (t_cap t) o).
  { split; [assumption|]. intros d Hd He.
    set (j := (o + d) mod S (t_cap t)) in *.
    assert (Hj : j <= t_cap t) by (pose proof (Nat.mod_upper_bound (o + d) (S (t_cap t)) ltac:(lia)); lia).
    destruct (Nat.eq_dec j (t_cap t)) as [Hjc|Hjc].
    - rewrite Hjc, (wfc_sent _ _ _ Hwf) in He. discriminate.
    - apply (Hnf j ltac:(lia)). exists kEmpty. split; [assumption|]. unfold kEmpty. lia. }
  rewrite (proj2 (any_empty_nempty E HG _ _ _ _ Hwf Ho Hw) Hne).
  unfold o. rewrite (probe_next_off E _ _ _ Hv). apply (IH (S n)).
Qed.

Lemma rehash0_hang (t : table) k i : good t -> t_size t = 2 ^ i - 1 -> W <= 2 ^ i -> absent eqb t k ->
  rehash hash E t 0 = BadAlloc \/
  exists t', rehash hash E t 0 = Ok t' /\ t_cap t' = t_size t /\ elems (t_slots t') ≡ₚ elems (t_slots t) /\
    forall fuel, find_fuel hash eqb E fuel t' k = Loop.
Proof.
  intros Hg Hsz HWi Ha. pose proof (W_cases E HG) as HW8. pose proof (pow2_pos i) as Hpi.
  destruct Hg as [->|Ht]; [cbn in Hsz; lia|].
  destruct (normalize_size t Ht) as (Hv & Hnw & Hle & Hszm). destruct (size_bound t Ht) as [Hsc Hc62].
  assert (Hi : 3 <= i <= 63).
  { split.
    - destruct (Nat.le_gt_cases 3 i); [assumption|]. assert (2 ^ i < 2 ^ 3) by (apply Nat.pow_lt_mono_r; lia). cbn in *. lia.
    - destruct (Nat.le_gt_cases i 63); [assumption|]. exfalso.
      assert (Hx : (2 ^ 63 <= 2 ^ N.of_nat i)%N) by (apply N.pow_le_mono_r; lia).
      assert (Hy : N.of_nat (2 ^ i) = (2 ^ N.of_nat i)%N) by (rewrite Nat2N.inj_pow; reflexivity).
      change (2 ^ 63)%N with (2 * 2 ^ 62)%N in Hx. lia. }
  assert (Hvs : valid_cap (t_size t)) by (exists i; split; [lia|lia]).
  assert (Hm : N.to_nat (NormalizeCapacity (N.of_nat (t_size t))) = t_size t).
  { assert (NormalizeCapacity (N.of_nat (t_size t)) <= N.of_nat (t_size t))%N; [|lia].
    apply normalize_min; [change (2 ^ 64)%N with (4 * 2 ^ 62)%N; lia|assumption|lia]. }
  unfold rehash. cbn [N.eqb andb orb]. rewrite N.max_0_l.
  destruct (Nat.eqb_spec (t_cap t) 0); [lia|]. destruct (Nat.eqb_spec (t_size t) 0); [lia|].
  destruct (resize_ok hash eqb E HE HK t _ (or_intror (tv_0 _ _ _ _ Ht)) Hv Hnw) as [[Hb Hx]|(t' & Hr & Ht' & Hnd & Hsz' & Hcap & Hgr & Hp & _)].
  - rewrite <- (tv_size _ _ _ _ Ht). assumption.
  - left. assumption.
  - right. exists t'. split; [assumption|]. rewrite Hm in Hcap. split; [assumption|]. split; [assumption|].
    apply find_full_loops; [assumption| |lia|].
    + intros e He. apply Ha. eapply Permutation_in; eassumption.
    + rewrite (Permutation_length Hp), <- (tv_size _ _ _ _ Ht). lia.
Qed.

(** ** Insertions after a reserve *)
Definition kept (t t' : table) : Prop :=
  t_cap t' = t_cap t /\
  forall i e, t_slots t !! i = Some (Some e) -> exists v, t_slots t' !! i = Some (Some (fst e, v)).
Lemma kept_refl t : kept t t.
Proof using. split; [reflexivity|]. intros i [k v] H. exists v. exact H. Qed.
Lemma kept_trans t1 t2 t3 : kept t1 t2 -> kept t2 t3 -> kept t1 t3.
Proof using.
  intros [H1 H2] [H3 H4]. split; [congruence|]. intros i e He. destruct (H2 i e He) as [v Hv].
  apply (H4 i _ Hv).
Qed.

Lemma growth_0 : CapacityToGrowth W 0 = 0.
Proof using. unfold CapacityToGrowth. rewrite andb_false_r. reflexivity. Qed.
Lemma exec_quiet (t t' : table) o r : good t -> no_tombstones t -> quiet o ->
  exec hash eqb E t o = Ok (t', r) ->
  good t' /\ no_tombstones t' /\ t_size t <= t_size t' /\
  (t_size t' <= CapacityToGrowth W (t_cap t) -> kept t t') /\
  (r = RThrow -> CapacityToGrowth W (t_cap t) <= t_size t /\ t_size t' = t_size t).
Proof.
  intros Hg Hnt Hq Hex. pose proof (proj1 (no_tomb_ndel t Hg) Hnt) as Hnd.
  assert (Hgr : t_growth t = 0%N -> CapacityToGrowth W (t_cap t) <= t_size t).
  { intros H0. destruct Hg as [->|Ht]; [change (t_cap empty_table) with 0; rewrite growth_0; lia|]. rewrite (tv_growth _ _ _ _ Ht), Hnd in H0. lia. }
  assert (Hgr' : t_size t < CapacityToGrowth W (t_cap t) -> (0 < t_growth t)%N).
  { intros H0. destruct Hg as [->|Ht]; [change (t_cap empty_table) with 0 in H0; rewrite growth_0 in H0; lia|]. rewrite (tv_growth _ _ _ _ Ht), Hnd. lia. }
  assert (Hemp : forall k v t1 p b, emplace hash eqb E t k v = Ok (t1, p, b) ->
    good t1 /\ no_tombstones t1 /\ t_size t <= t_size t1 /\
    (t_size t1 <= CapacityToGrowth W (t_cap t) -> kept t t1) /\ (b = false -> t1 = t /\ exists e, t_slots t !! p = Some (Some e))).
  { intros k v t1 p b He. destruct (present_or_absent eqb t k) as [(i & e & Hs & Hk)|Ha].
    - rewrite (emplace_old hash eqb E HE HK t k v i e Hg Hs Hk) in He. injection He as <- <- <-.
      split; [assumption|]. split; [assumption|]. split; [lia|]. split; [intros _; apply kept_refl|]. eauto.
    - destruct (emplace_new hash eqb E HE HK t k v Hg Ha) as [(Hb & _)|(t2 & q & He' & Ht2 & Hsl & Hsz & Hperm & Hin & Hnd2 & _)]; [congruence|].
      rewrite He in He'. injection He' as <- <- ->. split; [right; assumption|].
      split; [apply no_tomb_ndel; [right; assumption|lia]|]. split; [lia|]. split; [|discriminate].
      intros Hle. destruct (Hin (Hgr' ltac:(lia))) as (Hcap & Hsl' & Hnone). split; [assumption|].
      intros j e' Hj. exists (snd e'). rewrite Hsl', list_lookup_insert_ne by congruence. destruct e'; assumption. }
  destruct o as [k v|k v|k|k| |n|n| |]; cbn [quiet] in Hq; try contradiction; cbn [exec] in Hex.
  - destruct (emplace hash eqb E t k v) as [[[t1 p] b]| | | |] eqn:He; cbn [rbind catch] in Hex; try discriminate.
    + destruct (deref t1 p) as [e| | | |] eqn:Hd; cbn [rbind catch] in Hex; try discriminate.
      * injection Hex as <- <-. destruct (Hemp k v t1 p b He) as (H1 & H2 & H3 & H4 & _).
        repeat (split; [assumption|]). discriminate.
      * exfalso. unfold deref in Hd. destruct (load _ _) as [[?|]| | | |] eqn:?; cbn in Hd; try discriminate; unfold load in *; destruct (t_slots t1 !! p); discriminate.
    + injection Hex as <- <-. split; [assumption|]. split; [assumption|]. split; [lia|]. split; [intros _; apply kept_refl|].
      intros _. split; [|reflexivity]. apply Hgr.
      destruct (present_or_absent eqb t k) as [(i & e & Hs & Hk)|Ha].
      * rewrite (emplace_old hash eqb E HE HK t k v i e Hg Hs Hk) in He. discriminate.
      * destruct (emplace_new hash eqb E HE HK t k v Hg Ha) as [(_ & _ & H0)|(t2 & q & He' & _)]; [assumption|congruence].
  - unfold insert_or_assign in Hex.
    destruct (emplace hash eqb E t k v) as [[[t1 p] b]| | | |] eqn:He; cbn [rbind catch] in Hex; try discriminate.
    + destruct (Hemp k v t1 p b He) as (H1 & H2 & H3 & H4 & H5). destruct b; cbn [rbind] in Hex.
      * destruct (deref t1 p) as [e| | | |] eqn:Hd; cbn [rbind catch] in Hex; try discriminate.
        -- injection Hex as <- <-. repeat (split; [assumption|]). discriminate.
        -- exfalso. unfold deref in Hd. destruct (load _ _) as [[?|]| | | |] eqn:?; cbn in Hd; try discriminate; unfold load in *; destruct (t_slots t1 !! p); discriminate.
      * destruct (H5 eq_refl) as [-> (e & Hs)].
        assert (Ht : tinv t) by (destruct Hg as [->|]; [discriminate|assumption]).
        destruct (assign_ok hash eqb E HE HK t p e v Ht Hs) as (t2 & Has & Ht2 & Hsl & Hsz & Hcap).
        assert (Hct : t_ctrl t2 = t_ctrl t).
        { unfold assign_at in Has. rewrite (load_some _ _ _ Hs) in Has. cbn [rbind of_option] in Has.
          destruct (store _ _ _) as [?| | | |]; cbn [rbind] in Has; try discriminate. injection Has as <-. reflexivity. }
        rewrite Has in Hex. cbn [rbind] in Hex. unfold deref in Hex.
        assert (Hs2 : t_slots t2 !! p = Some (Some (fst e, v))).
        { rewrite Hsl. apply list_lookup_insert. apply lookup_lt_Some in Hs. assumption. }
        rewrite (load_some _ _ _ Hs2) in Hex. cbn [rbind of_option catch] in Hex. injection Hex as <- <-.
        split; [right; assumption|]. split; [unfold no_tombstones; rewrite Hct, Hcap; assumption|]. split; [lia|].
        split; [|discriminate]. intros _. split; [assumption|]. intros j e' Hj. rewrite Hsl.
        destruct (Nat.eq_dec j p) as [->|Hne].
        -- rewrite Hs in Hj. injection Hj as <-. exists v. apply list_lookup_insert. apply lookup_lt_Some in Hs. assumption.
        -- rewrite list_lookup_insert_ne by congruence. exists (snd e'). destruct e'; assumption.
    + injection Hex as <- <-. split; [assumption|]. split; [assumption|]. split; [lia|]. split; [intros _; apply kept_refl|].
      intros _. split; [|reflexivity]. apply Hgr.
      destruct (present_or_absent eqb t k) as [(i & e & Hs & Hk)|Ha].
      * rewrite (emplace_old hash eqb E HE HK t k v i e Hg Hs Hk) in He. discriminate.
      * destruct (emplace_new hash eqb E HE HK t k v Hg Ha) as [(_ & _ & H0)|(t2 & q & He' & _)]; [assumption|congruence].
  - destruct (find_key hash eqb E t k) as [[p|]| | | |]; cbn [rbind] in Hex; try discriminate.
    + destruct (deref t p); cbn [rbind] in Hex; try discriminate. injection Hex as <- <-.
      split; [assumption|]. split; [assumption|]. split; [lia|]. split; [intros _; apply kept_refl|discriminate].
    + injection Hex as <- <-. split; [assumption|]. split; [assumption|]. split; [lia|]. split; [intros _; apply kept_refl|discriminate].
  - injection Hex as <- <-. split; [assumption|]. split; [assumption|]. split; [lia|]. split; [intros _; apply kept_refl|discriminate].
  - destruct (to_list E t); cbn [rbind] in Hex; try discriminate. injection Hex as <- <-.
    split; [assumption|]. split; [assumption|]. split; [lia|]. split; [intros _; apply kept_refl|discriminate].
Qed.

Lemma run_quiet os : forall (t t' : table) rs, good t -> no_tombstones t -> Forall quiet os ->
  run hash eqb E t os = Ok (t', rs) ->
  t_size t <= t_size t' /\
  (t_size t' <= CapacityToGrowth W (t_cap t) -> kept t t') /\
  (t_size t' < CapacityToGrowth W (t_cap t) -> ~ In RThrow rs).
Proof.
  induction os as [|o os IH]; intros t t' rs Hg Hnt Hq Hr; cbn [run] in Hr.
  - injection Hr as <- <-. split; [lia|]. split; [intros _; apply kept_refl|intros _ []].
  - inversion Hq as [|? ? Hq1 Hq2]; subst.
    destruct (exec hash eqb E t o) as [[t1 r]| | | |] eqn:He; cbn [rbind] in Hr; try discriminate.
    destruct (run hash eqb E t1 os) as [[t2 rs2]| | | |] eqn:Hr2; cbn [rbind] in Hr; try discriminate.
    injection Hr as <- <-. destruct (exec_quiet t t1 o r Hg Hnt Hq1 He) as (Hg1 & Hnt1 & Hs1 & Hk1 & Ht1).
    destruct (IH t1 t2 rs2 Hg1 Hnt1 Hq2 Hr2) as (Hs2 & Hk2 & Ht2). split; [lia|]. split.
    + intros Hle. specialize (Hk1 ltac:(lia)). eapply kept_trans; [exact Hk1|]. destruct Hk1 as [Hcap _].
      apply Hk2. rewrite Hcap. assumption.
    + intros Hlt [Hin|Hin].
      * destruct (Ht1 Hin). lia.
      * specialize (Hk1 ltac:(lia)). destruct Hk1 as [Hcap _]. rewrite Hcap in Ht2. apply (Ht2 Hlt Hin).
Qed.

(** The growth budget after reserve(n) covers n elements. *)
Lemma exec_reserve (t t1 : table) n : good t -> op_ok E (@OReserve K V n) -> exec hash eqb E t (OReserve n) = Ok (t1, RUnit) ->
  good t1 /\ N.to_nat n <= CapacityToGrowth W (t_cap t1) /\ (t_cap t1 <> t_cap t -> no_tombstones t1) /\
  (no_tombstones t -> no_tombstones t1) /\ (t_cap t1 = t_cap t -> t1 = t \/ no_tombstones t1).
Proof.
  intros Hg (Hn & Hn62 & Hnw) Hex. cbn [exec] in Hex.
  destruct (reserve_ok hash eqb E HE HK t n Hg Hn Hn62 Hnw) as [[Hb _]|(t' & Hr & Hg' & _ & _ & _ & Hge & Hor)].
  - rewrite Hb in Hex. cbn [rbind catch] in Hex. discriminate.
  - rewrite Hr in Hex. cbn [rbind catch] in Hex. injection Hex as <-. split; [assumption|]. split; [assumption|].
    destruct Hor as [->|Hnd]; [split; [congruence|]; split; auto|].
    assert (no_tombstones t') by (apply no_tomb_ndel; assumption). auto.
Qed.

(** Histories without erase leave no tombstone. *)
Lemma exec_no_erase (t t' : table) o r : good t -> no_tombstones t -> op_ok E o -> no_erase o ->
  exec hash eqb E t o = Ok (t', r) -> good t' /\ no_tombstones t'.
Proof.
  intros Hg Hnt Ho Hne Hex. destruct o as [k v|k v|k|k| |n|n| |]; cbn [no_erase] in Hne; try contradiction.
  - destruct (exec_quiet t t' (OEmplace k v) r Hg Hnt I Hex) as (? & ? & _). auto.
  - destruct (exec_quiet t t' (OAssign k v) r Hg Hnt I Hex) as (? & ? & _). auto.
  - destruct (exec_quiet t t' (OFind k) r Hg Hnt I Hex) as (? & ? & _). auto.
  - destruct (clear_ok hash eqb E HE HK t Hg) as (t2 & Hc & Hg2 & _). cbn [exec] in Hex. rewrite Hc in Hex. cbn [rbind] in Hex.
    injection Hex as <- <-. split; [assumption|].
    unfold clear in Hc. destruct (t_size t =? 0); [injection Hc as <-; assumption|].
    destruct (Nat.eqb_spec (t_cap t) 0); [injection Hc as <-; assumption|].
    destruct Hg as [->|Ht]; [cbn in *; lia|].
    destruct (wfc_last _ _ _ (ti_wfc _ _ _ _ (tv_0 _ _ _ _ Ht))) as (last & Hlast & Hl8).
    rewrite (load_some _ _ _ Hlast) in Hc. cbn [rbind] in Hc. injection Hc as <-.
    apply no_tomb_ndel; [assumption|]. cbn [t_ctrl t_cap].
    apply (fresh_tinv0 hash eqb E HE HK (V:=V) (t_cap t) 0 0%N last Hl8 (tinv_cap _ _ _ t Ht)).
  - destruct Ho as (Hn & Hn64 & Hnw). cbn [exec] in Hex.
    destruct (rehash_ok hash eqb E HE HK t n Hg Hn Hn64 Hnw) as [[Hb _]|(t2 & Hr & Hg2 & _ & _ & _ & _ & Hor)].
    + rewrite Hb in Hex. cbn [rbind catch] in Hex. injection Hex as <- <-. auto.
    + rewrite Hr in Hex. cbn [rbind catch] in Hex. injection Hex as <- <-. split; [assumption|].
      destruct Hor as [->|Hnd]; [assumption|]. apply no_tomb_ndel; assumption.
  - destruct (exec hash eqb E t (OReserve n)) as [[t2 r2]| | | |] eqn:He; [|discriminate..]. injection Hex as <- <-.
    destruct r2; try (exfalso; cbn [exec] in He; destruct (reserve hash E t n); cbn in He; congruence).
    + destruct (exec_reserve t t2 n Hg Ho He) as (? & _ & _ & Hx & _). auto.
    + cbn [exec] in He. destruct (reserve hash E t n); cbn [rbind catch] in He; try discriminate. injection He as <-. auto.
  - destruct (exec_quiet t t' OSize r Hg Hnt I Hex) as (? & ? & _). auto.
  - destruct (exec_quiet t t' OTraverse r Hg Hnt I Hex) as (? & ? & _). auto.
Qed.
Lemma run_no_erase os : forall (t t' : table) rs, good t -> no_tombstones t -> Forall (op_ok E) os -> Forall no_erase os ->
  run hash eqb E t os = Ok (t', rs) -> good t' /\ no_tombstones t'.
Proof.
  induction os as [|o os IH]; intros t t' rs Hg Hnt Ho Hne Hr; cbn [run] in Hr.
  - injection Hr as <- <-. auto.
  - inversion Ho; inversion Hne; subst.
    destruct (exec hash eqb E t o) as [[t1 r]| | | |] eqn:He; cbn [rbind] in Hr; try discriminate.
    destruct (run hash eqb E t1 os) as [[t2 rs2]| | | |] eqn:Hr2; cbn [rbind] in Hr; try discriminate.
    injection Hr as <- <-. destruct (exec_no_erase t t1 o r) as [? ?]; try assumption. eapply IH; eassumption.
Qed.

(** ** Throwing constructors *)
Lemma emplace_throwing_ok (t : table) k : good t -> absent eqb t k ->
  emplace_throwing hash eqb E t k = BadAlloc \/
  exists t1 gr, emplace_throwing hash eqb E t k = Ok (mkTable (t_ctrl t1) (t_slots t1) (S (t_size t)) (t_cap t1) gr) /\
    tinv t1 /\ elems (t_slots t1) ≡ₚ elems (t_slots t).
Proof.
  intros Hg Ha. unfold emplace_throwing. rewrite (good_find_absent hash eqb E HE HK t k Hg Ha). cbn [rbind].
  destruct (prepare_ok hash eqb E HE HK t k Hg Ha) as [(Hb & _)|(t1 & p & c & Hpr & Ht1 & Hsz1 & Hp1 & _)].
  - left. rewrite Hb. reflexivity.
  - right. rewrite Hpr. cbn [rbind]. rewrite Hsz1. eauto.
Qed.
(** lookups and traversals do not read size_ or growth_left *)
Lemma find_fields (t1 t2 : table) k : t_ctrl t1 = t_ctrl t2 -> t_slots t1 = t_slots t2 -> t_cap t1 = t_cap t2 ->
  find_key hash eqb E t1 k = find_key hash eqb E t2 k.
Proof using.
  intros H1 H2 H3. unfold find_key, find_fuel. rewrite H3.
  generalize (S (t_cap t2)) (probe_start (hash k) (t_cap t2)) 0. intros n. induction n as [|n IH]; intros o i; [reflexivity|].
  cbn [find_loop]. rewrite H1. destruct (window E (t_ctrl t2) o); cbn [rbind]; try reflexivity.
  assert (Hm : forall is, match_loop eqb t1 k o is = match_loop eqb t2 k o is).
  { induction is as [|x is IHis]; [reflexivity|]. cbn [match_loop]. rewrite H2, H3.
    destruct (load _ _) as [s| | | |]; cbn [rbind]; try reflexivity. destruct s; cbn [of_option rbind]; [|reflexivity].
    destruct (eqb _ _); [reflexivity|assumption]. }
  rewrite Hm. destruct (match_loop _ _ _ _ _) as [[p|]| | | |]; cbn [rbind]; try reflexivity.
  destruct (g_any_empty _ _); [reflexivity|]. rewrite H3. destruct (probe_next _ _ _ _). apply IH.
Qed.
Lemma iter_fields (t1 t2 : table) : t_ctrl t1 = t_ctrl t2 -> t_slots t1 = t_slots t2 -> t_cap t1 = t_cap t2 ->
  to_list E t1 = to_list E t2.
Proof using.
  intros H1 H2 H3.
  assert (Hs : forall f i, skip_empty E f t1 i = skip_empty E f t2 i).
  { induction f as [|f IH]; intros i; [reflexivity|]. cbn [skip_empty]. rewrite H1.
    destruct (load _ _); cbn [rbind]; try reflexivity. destruct (IsEmptyOrDeleted _); [|reflexivity].
    destruct (window _ _ _); cbn [rbind]; try reflexivity. apply IH. }
  assert (Hi : forall f i, iterate_from E f t1 i = iterate_from E f t2 i).
  { induction f as [|f IH]; intros i; [reflexivity|]. cbn [iterate_from]. rewrite H3. destruct (_ =? _); [reflexivity|].
    unfold next_it. rewrite H3, Hs. destruct (skip_empty _ _ _ _); cbn [rbind]; try reflexivity. rewrite IH. reflexivity. }
  assert (Hd : forall is, deref_all t1 is = deref_all t2 is).
  { induction is as [|x is IH]; [reflexivity|]. cbn [deref_all]. unfold deref. rewrite H2, IH. reflexivity. }
  unfold to_list, iterate, begin_it. rewrite H3, Hs. destruct (skip_empty _ _ _ _); cbn [rbind]; try reflexivity.
  rewrite Hi. destruct (iterate_from _ _ _ _); cbn [rbind]; try reflexivity. apply Hd.
Qed.
End Reserve.
