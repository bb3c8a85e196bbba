(** Growth, insertion, rehash, clear and iteration on tables satisfying the invariant. *)
From stdpp Require Import list.
From Coq Require Import Arith NArith ZArith Lia.
From Coq Require Import ZifyBool ZifyNat ZifyN.
From Verif.Common Require Import Res Word WordFacts.
From Verif.Swiss Require Import Group GroupSpec Model Probe Inv TableInv Resize.
Ltac Zify.zify_post_hook ::= Z.div_mod_to_equations.
Local Open Scope nat_scope.
Local Open Scope res_scope.
Local Arguments cnt : simpl never.
Local Arguments elems : simpl never.

(** ** Capacity arithmetic *)
Lemma normalize_eq n : n <> 0%N -> (n < 2 ^ 64)%N -> NormalizeCapacity n = (2 ^ N.size n - 1)%N /\ (N.size n <= 64)%N.
Proof.
  intros Hn Hlt. unfold NormalizeCapacity. destruct (N.eqb_spec n 0); [congruence|].
  assert (Hs : (N.size n <= 64)%N).
  { rewrite N.size_log2 by assumption. apply N.log2_lt_pow2 in Hlt; lia. }
  split; [|assumption]. unfold clz. rewrite N.shiftr_div_pow2.
  assert (Hp : (2 ^ 64 = 2 ^ N.size n * 2 ^ (64 - N.size n))%N) by (rewrite <- N.pow_add_r; f_equal; lia).
  assert (Hq : (2 ^ (64 - N.size n) <> 0)%N) by (apply N.pow_nonzero; discriminate).
  assert (Hr : (2 ^ N.size n <> 0)%N) by (apply N.pow_nonzero; discriminate).
  symmetry. apply (N.div_unique _ _ _ (2 ^ (64 - N.size n) - 1)); [lia|].
  rewrite Hp. nia.
Qed.
Lemma normalize_ge n : (n < 2 ^ 64)%N -> (n <= NormalizeCapacity n /\ 1 <= NormalizeCapacity n)%N.
Proof.
  intros Hlt. destruct (N.eq_dec n 0) as [->|Hn]; [unfold NormalizeCapacity; cbn; lia|].
  destruct (normalize_eq n Hn Hlt) as [-> _]. pose proof (N.size_gt n) as Hg.
  assert (1 < 2 ^ N.size n)%N; [|lia].
  apply N.le_lt_trans with n; lia.
Qed.
Lemma normalize_valid n : (n < 2 ^ 63)%N -> valid_cap (N.to_nat (NormalizeCapacity n)).
Proof.
  intros Hlt. destruct (N.eq_dec n 0) as [->|Hn]; [apply valid_cap_1|].
  assert (Hlt64 : (n < 2 ^ 64)%N) by (change (2 ^ 64)%N with (2 * 2 ^ 63)%N; lia).
  destruct (normalize_eq n Hn Hlt64) as [-> _].
  assert (Hs : (1 <= N.size n <= 63)%N).
  { rewrite N.size_log2 by assumption. apply N.log2_lt_pow2 in Hlt; lia. }
  exists (N.to_nat (N.size n)). split; [lia|].
  apply Nat2N.inj. rewrite Nat2N.inj_pow, Nat2N.inj_succ, !N2Nat.id. change (N.of_nat 2) with 2%N.
  assert (2 ^ N.size n <> 0)%N by (apply N.pow_nonzero; discriminate). lia.
Qed.
(** the normalized capacity is the least valid one *)
Lemma normalize_min n c : (n < 2 ^ 64)%N -> valid_cap c -> (n <= N.of_nat c)%N -> (NormalizeCapacity n <= N.of_nat c)%N.
Proof.
  intros Hlt (k & Hk & HM) Hle.
  assert (Hc : (N.of_nat c = 2 ^ N.of_nat k - 1)%N).
  { apply (f_equal N.of_nat) in HM. rewrite Nat2N.inj_succ, Nat2N.inj_pow in HM. change (N.of_nat 2) with 2%N in HM. lia. }
  destruct (N.eq_dec n 0) as [->|Hn].
  { unfold NormalizeCapacity. cbn [N.eqb]. assert (2 <= 2 ^ N.of_nat k)%N; [|lia].
    change 2%N with (2 ^ 1)%N at 1. apply N.pow_le_mono_r; lia. }
  destruct (normalize_eq n Hn Hlt) as [-> _]. rewrite Hc.
  assert (N.size n <= N.of_nat k)%N.
  { rewrite N.size_log2 by assumption.
    assert (Hl : (n < 2 ^ N.of_nat k)%N).
    { assert (2 ^ N.of_nat k <> 0)%N by (apply N.pow_nonzero; discriminate). lia. }
    apply N.log2_lt_pow2 in Hl; lia. }
  assert (2 ^ N.size n <= 2 ^ N.of_nat k)%N by (apply N.pow_le_mono_r; lia). lia.
Qed.

Lemma g2l_eq W n : (1 <= n)%N -> (n < 2 ^ 62)%N ->
  exists m, GrowthToLowerboundCapacity W n = Ok m /\ (n <= m)%N /\ (m < 2 ^ 63)%N /\
    (m = n + (n - 1) / 7 \/ (W = 8%nat /\ n = 7 /\ m = 8))%N.
Proof.
  intros H1 Hlt. unfold GrowthToLowerboundCapacity.
  destruct (Nat.eqb_spec W 8) as [HW|HW], (N.eqb_spec n 7) as [Hn|Hn]; cbn [andb];
    [exists 8%N; subst; split; [reflexivity|]; split; [lia|]; split; [reflexivity|right; auto]|..].
  all: change (2 ^ 62)%N with 4611686018427387904%N in *; change (2 ^ 63)%N with 9223372036854775808%N;
    change (2 ^ 63)%Z with 9223372036854775808%Z; change (2 ^ 64)%Z with 18446744073709551616%Z;
    destruct (N.ltb_spec n 9223372036854775808); [|lia];
    match goal with |- context [Z.eqb ?a ?b] => destruct (Z.eqb_spec a b); [lia|] end;
    exists (n + (n - 1) / 7)%N; rewrite Z.quot_div_nonneg by lia; rewrite Z.mod_small by lia;
    (split; [apply f_equal; apply N2Z.inj; rewrite Z2N.id by lia; rewrite N2Z.inj_add, N2Z.inj_div, N2Z.inj_sub by lia; reflexivity|]);
    (split; [lia|]); (split; [lia|left; reflexivity]).
Qed.

Section Ops.
Context {K V : Type} (hash : K -> N) (eqb : K -> K -> bool) (E : env) (HE : env_ok E).
Context (HK : KeyPER hash eqb).
Set Default Proof Using "HE HK".
Notation HG := (eo_group E HE).
Notation g := (e_group E).
Notation W := (g_width (e_group E)).
Notation elt := (K * V)%type.
Notation table := (table K V).
Notation tinv0 := (tinv0 hash eqb E).
Notation tinv := (tinv hash eqb E).

Lemma growth_mono c1 c2 : valid_cap c1 -> valid_cap c2 -> c1 <= c2 -> CapacityToGrowth W c1 <= CapacityToGrowth W c2.
Proof using.
  intros H1 H2 Hle. pose proof (valid_cap_cases _ H1). pose proof (valid_cap_cases _ H2). unfold CapacityToGrowth.
  destruct (Nat.eqb_spec W 8), (Nat.eqb_spec c1 7), (Nat.eqb_spec c2 7); cbn [andb]; lia.
Qed.
Lemma g2l_room n m c : (1 <= n)%N -> (m = n + (n - 1) / 7 \/ (W = 8%nat /\ n = 7 /\ m = 8))%N ->
  valid_cap c -> (m <= N.of_nat c)%N -> (n = 7%N -> W = 8 -> m = 8%N) -> N.to_nat n <= CapacityToGrowth W c.
Proof using.
  intros H1 Hm Hc Hle Hsp. pose proof (valid_cap_cases _ Hc). unfold CapacityToGrowth.
  destruct (Nat.eqb_spec W 8) as [HW|HW], (Nat.eqb_spec c 7) as [H7|H7]; cbn [andb];
  (destruct (N.eq_dec n 7) as [Hn|Hn]; [try (pose proof (Hsp Hn HW)); lia|lia]).
Qed.

Definition good (t : table) : Prop := t = empty_table \/ tinv t.

Lemma good_size (t : table) : good t -> t_size t = length (elems (t_slots t)).
Proof using. intros [->|Ht]; [reflexivity|apply (tv_size _ _ _ _ Ht)]. Qed.
Lemma good_dist (t : table) : good t -> distinct eqb (elems (t_slots t)).
Proof using. intros [->|Ht]; [exact I|apply (ti_dist _ _ _ _ (tv_0 _ _ _ _ Ht))]. Qed.
Lemma tinv_cap (t : table) : tinv t -> valid_cap (t_cap t).
Proof using. intros Ht. apply (wfc_cap _ _ _ (ti_wfc _ _ _ _ (tv_0 _ _ _ _ Ht))). Qed.
Lemma good_room (t : table) : good t -> t_size t <= CapacityToGrowth W (t_cap t) /\ t_size t <= t_cap t.
Proof using.
  intros [->|Ht]; [cbn; lia|]. pose proof (tv_room _ _ _ _ Ht).
  pose proof (cap_le_growth E (t_cap t)). lia.
Qed.
Lemma elems_slot (t : table) e : In e (elems (t_slots t)) <-> exists i, t_slots t !! i = Some (Some e).
Proof using. apply elems_in. Qed.

(** ** the empty table *)
Lemma empty_window h : probe_start h 0 = 0 /\ exists w, window E (kSentinel :: replicate 15 kEmpty) 0 = Ok w /\ length w = W /\
  Forall valid_ctrl w /\ w !! 0 = Some kSentinel /\ forall d, 0 < d < W -> w !! d = Some kEmpty.
Proof using HE.
  split.
  { unfold probe_start. change (N.of_nat 0) with 0%N. rewrite N.land_0_r. reflexivity. }
  pose proof (W_cases E HG) as HW. unfold window. change (length (kSentinel :: replicate 15 kEmpty)) with 16.
  destruct (Nat.leb_spec (0 + W) 16); [|lia]. eexists. split; [reflexivity|]. rewrite drop_0.
  assert (Hlk : forall d, d < W -> take W (kSentinel :: replicate 15 kEmpty) !! d = (kSentinel :: replicate 15 kEmpty) !! d).
  { intros d Hd. apply lookup_take. assumption. }
  split; [rewrite take_length; cbn [length]; rewrite replicate_length; lia|]. split; [|split].
  - apply Forall_take. apply Forall_cons. split; [unfold valid_ctrl, kSentinel; lia|].
    apply Forall_replicate. unfold valid_ctrl, kEmpty. lia.
  - rewrite Hlk by lia. reflexivity.
  - intros d Hd. rewrite Hlk by lia. destruct d; [lia|]. cbn [lookup list_lookup]. apply lookup_replicate_2. lia.
Qed.

Lemma find_empty k : find_key hash eqb E (@empty_table K V) k = Ok None.
Proof using HE.
  unfold find_key, find_fuel. cbn [t_cap empty_table find_loop t_ctrl].
  destruct (empty_window (hash k)) as (-> & w & Hw & Hl & Hv & H0 & Hd).
  change (kEmpty :: replicate 14 kEmpty) with (replicate 15 kEmpty) in *.
  rewrite Hw. cbn [rbind].
  assert (Hm : g_match g w (H2 (hash k)) = []).
  { destruct (g_match g w (H2 (hash k))) as [|d l] eqn:Em; [reflexivity|]. exfalso.
    destruct (gok_match_sound _ HG w (H2 (hash k)) d Hl Hv (H2_range _)) as (c & Hc & Hp); [rewrite Em; left; reflexivity|].
    assert (Hdl : d < W) by (apply lookup_lt_Some in Hc; lia).
    destruct (Nat.eq_dec d 0) as [->|]; [rewrite H0 in Hc|rewrite Hd in Hc by lia]; injection Hc as <-; unfold kSentinel, kEmpty in Hp; lia. }
  rewrite Hm. cbn [match_loop rbind].
  assert (Ha : g_any_empty g w = true).
  { apply (gok_any_empty _ HG w Hl Hv). exists 1. apply Hd. pose proof (W_cases E HG). lia. }
  rewrite Ha. reflexivity.
Qed.
Lemma ffnf_empty h : find_first_non_full E (kSentinel :: replicate 15 kEmpty) 0 h = Ok 0.
Proof using HE.
  unfold find_first_non_full. cbn [ffnf_loop].
  destruct (empty_window h) as (-> & w & Hw & Hl & Hv & H0 & Hd). rewrite Hw. cbn [rbind].
  destruct (g_first_nonfull g w) as [i|] eqn:Ei.
  - unfold probe_at. rewrite Nat.land_0_r. reflexivity.
  - exfalso. pose proof (W_cases E HG).
    pose proof (gok_nonfull_none _ HG w Hl Hv Ei 1 kEmpty (Hd 1 ltac:(lia))). unfold kEmpty in *. lia.
Qed.

(** ** Lookup on good tables *)
Lemma tinv_has_empty (t : table) : tinv t -> S (t_cap t) < W \/ exists i, i < t_cap t /\ t_ctrl t !! i = Some kEmpty.
Proof.
  intros Ht. destruct (Nat.lt_ge_cases (S (t_cap t)) W) as [?|Hl]; [left; assumption|right].
  apply (ex_empty hash eqb E HG HK t (tv_0 _ _ _ _ Ht)). rewrite <- (tv_size _ _ _ _ Ht).
  pose proof (tv_room _ _ _ _ Ht). destruct (growth_facts E HE _ (tinv_cap t Ht)) as (_ & _ & Hg & _). lia.
Qed.
Lemma good_find_absent (t : table) k : good t -> absent eqb t k -> find_key hash eqb E t k = Ok None.
Proof.
  intros [->|Ht] Ha; [apply find_empty|].
  apply (find_absent hash eqb E HG HK t k (tv_0 _ _ _ _ Ht) Ha). apply tinv_has_empty. assumption.
Qed.
Lemma good_find_present (t : table) k i e : good t -> t_slots t !! i = Some (Some e) -> eqb k (fst e) = true ->
  find_key hash eqb E t k = Ok (Some i).
Proof.
  intros [->|Ht] Hs Hk; [discriminate|]. eapply (find_present hash eqb E HG HK); eauto. apply (tv_0 _ _ _ _ Ht).
Qed.
Lemma present_or_absent (t : table) k : (exists i e, t_slots t !! i = Some (Some e) /\ eqb k (fst e) = true) \/ absent eqb t k.
Proof using.
  unfold absent. destruct (List.find (fun e => eqb k (fst e)) (elems (t_slots t))) as [e|] eqn:Ef.
  - left. apply find_some in Ef. destruct Ef as [Hin Hk]. apply elems_in in Hin. destruct Hin as [i Hi]. eauto.
  - right. intros e He. exact (find_none _ _ Ef e He).
Qed.

(** ** Growth *)
Lemma grow_ok (t : table) : good t -> t_growth t = 0%N ->
  (rehash_and_grow_if_necessary hash E t = BadAlloc /\ (e_max_bytes E < alloc_size E (2 * N.of_nat (t_cap t) + 1))%N) \/
  exists t', rehash_and_grow_if_necessary hash E t = Ok t' /\ tinv t' /\ ndel (t_ctrl t') (t_cap t') = 0 /\
    t_size t' = t_size t /\ elems (t_slots t') ≡ₚ elems (t_slots t) /\
    t_size t' < CapacityToGrowth W (t_cap t') /\ (t_cap t' = t_cap t \/ t_cap t' = 2 * t_cap t + 1).
Proof.
  intros Hg H0. unfold rehash_and_grow_if_necessary. destruct Hg as [->|Ht].
  - change (t_cap empty_table) with 0. cbn [Nat.eqb].
    destruct (resize_tinv hash eqb E HE HK (@empty_table K V) 1) as [[Hb Hlt]|(t' & Hr & Ht' & Hnd & Hsz & Hcap & Hp)].
    + left. reflexivity.
    + apply valid_cap_1.
    + apply no_wrap_1. assumption.
    + cbn. lia.
    + left. split; [exact Hb|exact Hlt].
    + right. exists t'. split; [exact Hr|]. repeat (split; [assumption|]).
      change (t_size empty_table) with 0 in Hsz. change (N.to_nat 1) with 1 in Hcap.
      split; [|right; exact Hcap]. rewrite Hsz, Hcap.
      destruct (growth_facts E HE 1 valid_cap_1) as (H1 & _). lia.
  - pose proof (tinv_cap t Ht) as Hv. destruct (growth_facts E HE _ Hv) as (Hg1 & Hgs & Hgl & Hgd).
    pose proof (tv_room _ _ _ _ Ht) as Hroom. pose proof (tv_growth _ _ _ _ Ht) as Hgr.
    pose proof (tv_bytes _ _ _ _ Ht) as Hby.
    destruct (Nat.eqb_spec (t_cap t) 0) as [Hc0|Hc0].
    { pose proof (valid_cap_cases _ Hv). lia. }
    destruct (Nat.leb_spec (t_size t) (CapacityToGrowth W (t_cap t) / 2)) as [Hle|Hgt].
    + right. assert (Hlarge : W <= S (t_cap t)).
      { destruct (Nat.le_gt_cases W (S (t_cap t))); [assumption|].
        pose proof (tv_small _ _ _ _ Ht ltac:(lia)). lia. }
      destruct (drop_deletes_ok hash eqb E HE HK t Ht Hlarge) as (t' & Hr & Ht' & Hnd & Hsz & Hcap & Hp).
      exists t'. split; [exact Hr|]. repeat (split; [assumption|]). split; [rewrite Hsz, Hcap; lia|left; assumption].
    + destruct (no_wrap_double E HE (t_cap t) Hby ltac:(lia)) as [Hnw Hwa]. rewrite Hwa.
      assert (Hto : N.to_nat (2 * N.of_nat (t_cap t) + 1) = 2 * t_cap t + 1) by lia.
      assert (Hlt62 : (N.of_nat (t_cap t) < 2 ^ 62)%N).
      { pose proof (eo_max _ HE). unfold needed_bytes in Hby. lia. }
      destruct (resize_tinv hash eqb E HE HK t (2 * N.of_nat (t_cap t) + 1)) as [[Hb Hlt]|(t' & Hr & Ht' & Hnd & Hsz & Hcap & Hp)].
      * right. assumption.
      * rewrite Hto. apply valid_cap_double; assumption.
      * assumption.
      * rewrite Hto. lia.
      * left. split; assumption.
      * right. exists t'. split; [exact Hr|]. rewrite Hto in Hcap. repeat (split; [assumption|]).
        split; [rewrite Hsz, Hcap; lia|right; assumption].
Qed.

(** ** Insertion of a new key *)
(** Constructing the element in a slot found by find_first_non_full keeps the invariant. *)
Lemma finish_ok (t : table) k v p : tinv t -> absent eqb t k -> t_size t < t_cap t ->
  find_first_non_full E (t_ctrl t) (t_cap t) (hash k) = Ok p ->
  ((0 < t_growth t)%N \/ t_ctrl t !! p = Some kDeleted) ->
  exists c t', t_ctrl t !! p = Some c /\
    finish_insert hash E (mkTable (t_ctrl t) (t_slots t) (S (t_size t)) (t_cap t)
        (wsub 64 (t_growth t) (if IsEmpty c then 1%N else 0%N))) p (k, v) = Ok t' /\
    tinv t' /\ t_cap t' = t_cap t /\ t_slots t !! p = Some None /\ t_slots t' = <[p := Some (k, v)]> (t_slots t) /\
    t_size t' = S (t_size t) /\ elems (t_slots t') ≡ₚ (k, v) :: elems (t_slots t) /\
    ndel (t_ctrl t') (t_cap t') <= ndel (t_ctrl t) (t_cap t).
Proof.
  intros Ht Ha Hlt Hff Hgr. pose proof (tv_0 _ _ _ _ Ht) as Ht0. pose proof (tv_size _ _ _ _ Ht) as Hsz.
  destruct (ffnf_reach hash eqb E HG HK t (hash k) Ht0 ltac:(lia)) as (p' & Hp & Hpc & Hpn & Hreach).
  rewrite Hff in Hp. injection Hp as <-. pose proof Hpn as (c & Hc & Hneg).
  pose proof (ti_wfc _ _ _ _ Ht0) as Hwf.
  destruct (set_ctrl_ok E HG (t_ctrl t) (t_cap t) p (H2 (hash k)) Hwf Hpc (H2_sb _)) as (ctrl' & Hset & Hwf' & Hcp & Hoth & _).
  assert (Hsn : t_slots t !! p = Some None) by (eapply (slot_none hash eqb E HG HK); eauto; lia).
  set (gr' := wsub 64 (t_growth t) (if IsEmpty c then 1%N else 0%N)).
  destruct (insert_at hash eqb E HG HK t p k v ctrl' Ht0 Hpc Hpn Hreach Ha Hwf' Hcp Hoth (S (t_size t)) gr') as [Hti Hperm].
  exists c. eexists. split; [assumption|]. split.
  { unfold finish_insert. cbn [t_slots t_ctrl t_cap t_size t_growth]. rewrite (construct_ok _ _ _ Hsn). cbn [rbind fst].
    rewrite Hset. cbn [rbind]. reflexivity. }
  pose proof (ndel_set E _ _ _ _ _ _ Hwf Hwf' Hpc Hc Hcp Hoth) as Hnd. rewrite isDel_H2 in Hnd.
  assert (Hsb : sb c). { destruct (wfc_byte _ _ _ Hwf p Hpc) as (c' & Hc' & Hs). congruence. }
  pose proof (tv_growth _ _ _ _ Ht) as Hg. pose proof (tv_room _ _ _ _ Ht) as Hroom.
  assert (HN64 : (t_growth t < 2 ^ 64)%N).
  { pose proof (cap_le_growth E (t_cap t)). pose proof (tv_bytes _ _ _ _ Ht) as Hby. pose proof (eo_max _ HE).
    unfold needed_bytes in Hby. change (2 ^ 64)%N with (4 * 2 ^ 62)%N. lia. }
  cbn [t_slots t_ctrl t_cap t_size t_growth].
  split.
  { constructor; cbn [t_slots t_ctrl t_cap t_size t_growth].
    - assumption.
    - rewrite (Permutation_length Hperm). cbn [length]. lia.
    - unfold isDel, IsEmpty in *. unfold sb in Hsb. destruct Hsb as [->|[->|?]]; [|cbn in Hnd; lia|lia].
      cbn in Hnd. destruct Hgr as [Hgr|Hgr]; [lia|]. rewrite Hc in Hgr. injection Hgr as Hgr. unfold kEmpty, kDeleted in Hgr. lia.
    - unfold gr', isDel, IsEmpty in *. unfold sb in Hsb. destruct Hsb as [->|[->|?]]; [| |lia].
      + cbn in Hnd. change (kEmpty =? kEmpty)%Z with true. cbv iota.
        destruct Hgr as [Hgr|Hgr]; [|rewrite Hc in Hgr; injection Hgr as Hgr; unfold kEmpty, kDeleted in Hgr; lia].
        rewrite wsub_small by lia. lia.
      + cbn in Hnd. change (kDeleted =? kEmpty)%Z with false. cbv iota. rewrite wsub_small by lia. lia.
    - intros Hs. pose proof (tv_small _ _ _ _ Ht Hs) as H0. lia.
    - apply (tv_bytes _ _ _ _ Ht). }
  repeat split; try assumption. lia.
Qed.

Lemma prepare_ok (t : table) k : good t -> absent eqb t k ->
  (prepare_insert hash E t (hash k) = BadAlloc /\ (e_max_bytes E < alloc_size E (2 * N.of_nat (t_cap t) + 1))%N /\ t_growth t = 0%N) \/
  exists t1 p c, prepare_insert hash E t (hash k) =
      Ok (mkTable (t_ctrl t1) (t_slots t1) (S (t_size t1)) (t_cap t1) (wsub 64 (t_growth t1) (if IsEmpty c then 1%N else 0%N)), p) /\
    tinv t1 /\ t_size t1 = t_size t /\ elems (t_slots t1) ≡ₚ elems (t_slots t) /\ t_size t1 < t_cap t1 /\
    find_first_non_full E (t_ctrl t1) (t_cap t1) (hash k) = Ok p /\ t_ctrl t1 !! p = Some c /\
    ((0 < t_growth t1)%N \/ t_ctrl t1 !! p = Some kDeleted) /\
    (t1 = t \/ (t_growth t = 0%N /\ ndel (t_ctrl t1) (t_cap t1) = 0)) /\
    (t_cap t1 = t_cap t \/ t_cap t1 = 2 * t_cap t + 1).
Proof.
  intros Hg Ha. unfold prepare_insert.
  (* the first find_first_non_full always succeeds *)
  assert (Hff : exists p0 c0, find_first_non_full E (t_ctrl t) (t_cap t) (hash k) = Ok p0 /\ t_ctrl t !! p0 = Some c0 /\
            ((c0 = kDeleted \/ (0 < t_growth t)%N) -> tinv t /\ t_size t < t_cap t)).
  { destruct Hg as [->|Ht].
    - exists 0, kSentinel. split; [apply ffnf_empty|]. split; [reflexivity|].
      intros [H|H]; [discriminate|cbn in H; lia].
    - pose proof (tv_room _ _ _ _ Ht) as Hroom. pose proof (tv_size _ _ _ _ Ht) as Hsz.
      pose proof (cap_le_growth E (t_cap t)) as Hcg.
      destruct (Nat.lt_ge_cases (t_size t) (t_cap t)) as [Hlt|Hge].
      + destruct (ffnf_reach hash eqb E HG HK t (hash k) (tv_0 _ _ _ _ Ht) ltac:(lia)) as (p & Hp & Hpc & (c & Hc & _) & _).
        exists p, c. auto.
      + destruct (growth_facts E HE _ (tinv_cap t Ht)) as (_ & _ & Hgl & _).
        assert (Hsm : S (t_cap t) < W) by (destruct (Nat.lt_ge_cases (S (t_cap t)) W) as [|Hl]; [assumption|specialize (Hgl Hl); lia]).
        pose proof (ti_wfc _ _ _ _ (tv_0 _ _ _ _ Ht)) as Hwf.
        exists (t_cap t), kSentinel. split; [|split; [apply (wfc_sent _ _ _ Hwf)|]].
        * apply ffnf_small_full; [exact HG|assumption|assumption|].
          intros i Hi. apply (all_full_not_nonfull hash eqb E HG HK t (tv_0 _ _ _ _ Ht)); [lia|assumption].
        * intros [H|H]; [discriminate|]. pose proof (tv_growth _ _ _ _ Ht). lia. }
  destruct Hff as (p0 & c0 & Hp0 & Hc0 & Himp). rewrite Hp0. cbn [rbind]. rewrite (load_some _ _ _ Hc0). cbn [rbind].
  destruct ((t_growth t =? 0)%N && negb (IsDeleted c0)) eqn:Hcond.
  - (* grow *)
    apply andb_true_iff in Hcond. destruct Hcond as [Hgz _]. apply N.eqb_eq in Hgz.
    destruct (grow_ok t Hg Hgz) as [[Hb Hlt]|(t1 & Hr & Ht1 & Hnd1 & Hsz1 & Hp1 & Hroom1 & Hcap1)].
    + left. rewrite Hb. cbn [rbind]. auto.
    + right. rewrite Hr. cbn [rbind]. pose proof (cap_le_growth E (t_cap t1)) as Hcg.
      destruct (ffnf_reach hash eqb E HG HK t1 (hash k) (tv_0 _ _ _ _ Ht1)) as (p & Hp & Hpc & (c & Hc & _) & _).
      { rewrite <- (tv_size _ _ _ _ Ht1). lia. }
      rewrite Hp. cbn [rbind]. rewrite (load_some _ _ _ Hc). cbn [rbind].
      exists t1, p, c. split; [reflexivity|]. repeat (split; [first [assumption | lia]|]).
      split; [|split; [right; auto|assumption]].
      left. rewrite (tv_growth _ _ _ _ Ht1), Hnd1. lia.
  - (* use the slot found *)
    right. assert (Hor : c0 = kDeleted \/ (0 < t_growth t)%N).
    { destruct (IsDeleted c0) eqn:Hd; [left; apply Z.eqb_eq; exact Hd|right].
      rewrite andb_true_r in Hcond. apply N.eqb_neq in Hcond. clear -Hcond. lia. }
    destruct (Himp Hor) as [Ht Hlt]. cbn [rbind]. rewrite (load_some _ _ _ Hc0). cbn [rbind].
    exists t, p0, c0. split; [reflexivity|]. split; [assumption|]. split; [reflexivity|]. split; [reflexivity|].
    split; [assumption|]. split; [assumption|]. split; [assumption|]. split; [|auto].
    destruct Hor as [->|?]; auto.
Qed.

Lemma emplace_new (t : table) k v : good t -> absent eqb t k ->
  (emplace hash eqb E t k v = BadAlloc /\ (e_max_bytes E < alloc_size E (2 * N.of_nat (t_cap t) + 1))%N /\ t_growth t = 0%N) \/
  exists t' p, emplace hash eqb E t k v = Ok (t', p, true) /\ tinv t' /\
    t_slots t' !! p = Some (Some (k, v)) /\ t_size t' = S (t_size t) /\
    elems (t_slots t') ≡ₚ (k, v) :: elems (t_slots t) /\
    ((0 < t_growth t)%N -> t_cap t' = t_cap t /\ t_slots t' = <[p := Some (k, v)]> (t_slots t) /\
       t_slots t !! p = Some None) /\
    ndel (t_ctrl t') (t_cap t') <= ndel (t_ctrl t) (t_cap t) /\
    (t_cap t' = t_cap t \/ t_cap t' = 2 * t_cap t + 1).
Proof.
  intros Hg Ha. unfold emplace. rewrite (good_find_absent t k Hg Ha). cbn [rbind].
  destruct (prepare_ok t k Hg Ha) as [(Hb & Hlt & H0)|(t1 & p & c & Hpr & Ht1 & Hsz1 & Hp1 & Hlt1 & Hff & Hc & Hgr & Hor & Hcap1)].
  - left. rewrite Hb. cbn [rbind]. auto.
  - right. rewrite Hpr. cbn [rbind].
    assert (Ha1 : absent eqb t1 k).
    { intros e He. apply Ha. eapply Permutation_in; eassumption. }
    destruct (finish_ok t1 k v p Ht1 Ha1 Hlt1 Hff Hgr) as (c' & t' & Hc' & Hfin & Ht' & Hcap & Hsn & Hsl & Hsz & Hperm & Hnd).
    rewrite Hc in Hc'. injection Hc' as <-. rewrite Hfin. cbn [rbind].
    exists t', p. split; [reflexivity|]. split; [assumption|]. split.
    { rewrite Hsl. apply list_lookup_insert. apply lookup_lt_Some in Hsn. assumption. }
    split; [lia|]. split; [rewrite Hperm, Hp1; reflexivity|].
    split; [|split; [|rewrite Hcap; assumption]].
    + intros Hpos. destruct Hor as [->|[Hz _]]; [auto|exfalso; lia].
    + destruct Hor as [->|[_ Hz]]; lia.
Qed.

Lemma emplace_old (t : table) k v i e : good t -> t_slots t !! i = Some (Some e) -> eqb k (fst e) = true ->
  emplace hash eqb E t k v = Ok (t, i, false).
Proof.
  intros Hg Hs Hk. unfold emplace. rewrite (good_find_present t k i e Hg Hs Hk). reflexivity.
Qed.

(** ** Changing the mapped value in place *)
Lemma elems_set (slots : list (option elt)) i e e' : slots !! i = Some (Some e) ->
  exists l, elems slots ≡ₚ e :: l /\ elems (<[i := Some e']> slots) ≡ₚ e' :: l.
Proof using.
  intros Hs. exists (elems (<[i:=None]> slots)). split; [apply elems_remove; assumption|].
  rewrite <- (elems_insert_some (<[i:=None]> slots) i e').
  - rewrite list_insert_insert. reflexivity.
  - apply list_lookup_insert. apply lookup_lt_Some in Hs. assumption.
Qed.
Lemma assign_ok (t : table) i e v : tinv t -> t_slots t !! i = Some (Some e) ->
  exists t', assign_at t i v = Ok t' /\ tinv t' /\ t_slots t' = <[i := Some (fst e, v)]> (t_slots t) /\
    t_size t' = t_size t /\ t_cap t' = t_cap t.
Proof.
  intros Ht Hs. pose proof (tv_0 _ _ _ _ Ht) as Ht0.
  unfold assign_at. rewrite (load_some _ _ _ Hs). cbn [rbind of_option].
  assert (Hil : i < length (t_slots t)) by (apply lookup_lt_Some in Hs; assumption).
  rewrite store_ok by assumption. cbn [rbind]. eexists. split; [reflexivity|].
  destruct (elems_set (t_slots t) i e (fst e, v) Hs) as (l & Hp1 & Hp2).
  cbn [t_slots t_ctrl t_cap t_size t_growth]. split; [|split; [reflexivity|split; reflexivity]].
  constructor; cbn [t_slots t_ctrl t_cap t_size t_growth];
    [| |exact (tv_room _ _ _ _ Ht)|exact (tv_growth _ _ _ _ Ht)|exact (tv_small _ _ _ _ Ht)|exact (tv_bytes _ _ _ _ Ht)].
  - constructor; cbn [t_slots t_ctrl t_cap t_size t_growth].
    + apply (ti_wfc _ _ _ _ Ht0).
    + rewrite insert_length. apply (ti_slen _ _ _ _ Ht0).
    + intros j c s Hj Hc Hsj. destruct (Nat.eq_dec j i) as [->|Hne].
      * rewrite list_lookup_insert in Hsj by assumption. injection Hsj as <-. cbn.
        apply (ti_rel _ _ _ _ Ht0 i c (Some e) Hj Hc Hs).
      * rewrite list_lookup_insert_ne in Hsj by congruence. eapply (ti_rel _ _ _ _ Ht0); eassumption.
    + eapply (distinct_perm eqb (kp_sym _ _ HK)); [symmetry; exact Hp2|].
      pose proof (distinct_perm eqb (kp_sym _ _ HK) _ _ Hp1 (ti_dist _ _ _ _ Ht0)) as [Hd1 Hd2]. split; assumption.
    + intros j e' Hsj. destruct (Nat.eq_dec j i) as [->|Hne].
      * rewrite list_lookup_insert in Hsj by assumption. injection Hsj as <-. cbn.
        apply (ti_reach _ _ _ _ Ht0 i e Hs).
      * rewrite list_lookup_insert_ne in Hsj by congruence. eapply (ti_reach _ _ _ _ Ht0); eassumption.
  - rewrite (tv_size _ _ _ _ Ht). rewrite (Permutation_length Hp1), (Permutation_length Hp2). reflexivity.
Qed.

(** ** rehash / reserve *)
Lemma no_wrap_lt n : no_wrap E n -> (n < 2 ^ 63)%N.
Proof using HE.
  unfold no_wrap. intros H. pose proof (eo_slot _ HE) as [Hs _]. change (2 ^ 64)%N with (2 * 2 ^ 63)%N in H. nia.
Qed.
Lemma rehash_ok (t : table) n : good t -> n <> 0%N -> (n < 2 ^ 64)%N -> no_wrap E (NormalizeCapacity n) ->
  (rehash hash E t n = BadAlloc /\ (e_max_bytes E < alloc_size E (NormalizeCapacity n))%N) \/
  exists t', rehash hash E t n = Ok t' /\ good t' /\ t_size t' = t_size t /\
    elems (t_slots t') ≡ₚ elems (t_slots t) /\ t_cap t <= t_cap t' /\ (n <= N.of_nat (t_cap t'))%N /\
    (t' = t \/ ndel (t_ctrl t') (t_cap t') = 0).
Proof.
  intros Hg Hn Hn64 Hnw. unfold rehash.
  destruct (N.eqb_spec n 0) as [|_]; [congruence|]. cbn [andb orb].
  pose proof (no_wrap_lt _ Hnw) as Hm63. destruct (normalize_ge n Hn64) as [Hge Hge1].
  pose proof (good_room t Hg) as [Hroom Hroomc].
  assert (Hcap64 : (N.of_nat (t_cap t) < 2 ^ 64)%N).
  { destruct Hg as [->|Ht]; [cbn; lia|]. pose proof (tv_bytes _ _ _ _ Ht) as Hby. pose proof (eo_max _ HE).
    unfold needed_bytes in Hby. change (2 ^ 64)%N with (4 * 2 ^ 62)%N. lia. }
  destruct (N.ltb_spec (N.of_nat (t_cap t)) (NormalizeCapacity (N.max n (N.of_nat (t_size t))))) as [Hlt|Hle].
  - assert (Hmax : NormalizeCapacity (N.max n (N.of_nat (t_size t))) = NormalizeCapacity n).
    { destruct (N.le_gt_cases (N.of_nat (t_size t)) n) as [Hx|Hx]; [rewrite N.max_l by assumption; reflexivity|].
      exfalso. rewrite N.max_r in Hlt by lia.
      destruct Hg as [->|Ht]; [cbn in Hx; lia|].
      pose proof (normalize_min (N.of_nat (t_size t)) (t_cap t) ltac:(lia) (tinv_cap t Ht) ltac:(lia)). lia. }
    rewrite Hmax in *. set (m := NormalizeCapacity n) in *.
    assert (Hvm : valid_cap (N.to_nat m)) by (apply normalize_valid; lia).
    destruct (resize_tinv hash eqb E HE HK t m) as [[Hb Hx]|(t' & Hr & Ht' & Hnd & Hsz & Hcap & Hp)].
    + exact Hg.
    + assumption.
    + assumption.
    + destruct Hg as [->|Ht]; [cbn; lia|].
      pose proof (growth_mono _ _ (tinv_cap t Ht) Hvm ltac:(lia)). lia.
    + left. auto.
    + right. exists t'. split; [assumption|]. split; [right; assumption|]. repeat (split; [assumption|]).
      split; [lia|]. split; [lia|]. right. assumption.
  - right. exists t. split; [reflexivity|]. split; [assumption|]. split; [reflexivity|]. split; [reflexivity|].
    split; [lia|]. split; [|left; reflexivity].
    assert (Hx : (N.max n (N.of_nat (t_size t)) < 2 ^ 64)%N) by lia.
    destruct (normalize_ge _ Hx). lia.
Qed.

Lemma reserve_ok (t : table) n : good t -> n <> 0%N -> (n < 2 ^ 62)%N ->
  (forall m, GrowthToLowerboundCapacity W n = Ok m -> no_wrap E (NormalizeCapacity m)) ->
  (reserve hash E t n = BadAlloc /\ exists m, GrowthToLowerboundCapacity W n = Ok m /\ (e_max_bytes E < alloc_size E (NormalizeCapacity m))%N) \/
  exists t', reserve hash E t n = Ok t' /\ good t' /\ t_size t' = t_size t /\
    elems (t_slots t') ≡ₚ elems (t_slots t) /\ t_cap t <= t_cap t' /\ N.to_nat n <= CapacityToGrowth W (t_cap t') /\
    (t' = t \/ ndel (t_ctrl t') (t_cap t') = 0).
Proof.
  intros Hg Hn Hlt Hnw. unfold reserve.
  destruct (g2l_eq W n ltac:(lia) Hlt) as (m & Hm & Hge & Hm63 & Hcase). rewrite Hm. cbn [rbind].
  destruct (rehash_ok t m Hg ltac:(lia) ltac:(change (2 ^ 64)%N with (2 * 2 ^ 63)%N; lia) (Hnw m Hm)) as [[Hb Hx]|(t' & Hr & Hg' & Hsz & Hp & Hcap & Hmc & Hor)].
  - left. split; [assumption|]. eauto.
  - right. exists t'. repeat (split; [assumption|]). split; [|assumption].
    destruct Hg' as [->|Ht']; [cbn in Hmc; lia|].
    apply (g2l_room n m); try assumption; [lia|apply tinv_cap; assumption|].
    intros -> HW8. revert Hm. unfold GrowthToLowerboundCapacity. rewrite HW8. cbn [Nat.eqb N.eqb andb Pos.eqb].
    intros Hm. injection Hm as <-. reflexivity.
Qed.

(** ** clear *)
Lemma clear_ok (t : table) : good t -> exists t', clear E t = Ok t' /\ good t' /\ t_size t' = 0 /\ elems (t_slots t') = [] /\ t_cap t' = t_cap t.
Proof.
  intros Hg. unfold clear. pose proof (good_size t Hg) as Hsz. destruct (Nat.eqb_spec (t_size t) 0) as [H0|H0].
  - exists t. split; [reflexivity|]. split; [assumption|]. split; [assumption|]. split; [|reflexivity].
    apply nil_length_inv. lia.
  - destruct Hg as [->|Ht]; [cbn in H0; lia|].
    pose proof (tinv_cap t Ht) as Hv. pose proof (valid_cap_cases _ Hv).
    destruct (Nat.eqb_spec (t_cap t) 0); [lia|].
    pose proof (wfc_len _ _ _ (ti_wfc _ _ _ _ (tv_0 _ _ _ _ Ht))) as Hlen.
    destruct (wfc_last _ _ _ (ti_wfc _ _ _ _ (tv_0 _ _ _ _ Ht))) as (last & Hlast & Hl8).
    rewrite (load_some _ _ _ Hlast). cbn [rbind]. eexists. split; [reflexivity|].
    cbn [t_slots t_ctrl t_cap t_size t_growth]. rewrite elems_replicate_none.
    split; [|repeat split].
    right. destruct (fresh_tinv0 hash eqb E HE HK (V:=V) (t_cap t) 0 (growth_left_for E (t_cap t) 0) last Hl8 Hv) as [Hf Hnd].
    constructor; cbn [t_slots t_ctrl t_cap t_size t_growth].
    + assumption.
    + rewrite elems_replicate_none. reflexivity.
    + rewrite Hnd. lia.
    + rewrite Hnd, growth_left_small by (try assumption; lia). f_equal. lia.
    + intros _. assumption.
    + apply (tv_bytes _ _ _ _ Ht).
Qed.

(** ** Iteration *)
Lemma skip_ok (t : table) : tinv t -> forall fuel i, i <= t_cap t -> t_cap t - i < fuel ->
  exists j, skip_empty E fuel t i = Ok j /\ i <= j <= t_cap t /\
    (j = t_cap t \/ exists e, t_slots t !! j = Some (Some e)) /\
    (forall x, i <= x < j -> t_slots t !! x = Some None).
Proof.
  intros Ht. pose proof (tv_0 _ _ _ _ Ht) as Ht0. pose proof (ti_wfc _ _ _ _ Ht0) as Hwf.
  induction fuel as [|f IH]; intros i Hi Hf; [lia|]. cbn [skip_empty].
  destruct (Nat.eq_dec i (t_cap t)) as [Hic|Hic].
  - rewrite Hic. rewrite (load_some _ _ _ (wfc_sent _ _ _ Hwf)). cbn [rbind].
    change (IsEmptyOrDeleted kSentinel) with false. cbv iota.
    exists (t_cap t). split; [reflexivity|]. split; [lia|]. split; [left; reflexivity|]. intros; lia.
  - destruct (slot_at hash eqb E HG HK t i Ht0 ltac:(lia)) as (c & s & Hc & Hs & Hrel & Hsb).
    rewrite (load_some _ _ _ Hc). cbn [rbind]. unfold IsEmptyOrDeleted, kSentinel.
    destruct (Z.ltb_spec c (-1)) as [Hneg|Hpos].
    + destruct (window_ok E HG _ _ i Hwf ltac:(lia)) as (w & Hw & Hl & Hvw & Hb). rewrite Hw. cbn [rbind].
      destruct (gok_count_leading _ HG w Hl Hvw) as (Hcl & Hbef & Hat).
      set (n := g_count_leading g w) in *.
      assert (Hn1 : 1 <= n).
      { destruct (Nat.eq_dec n 0) as [Hz|]; [|lia]. exfalso. rewrite Hz in Hat.
        pose proof (Hat c) as Hx. rewrite Hb in Hx by (pose proof (W_cases E HG); lia). rewrite Nat.add_0_r in Hx.
        specialize (Hx Hc). lia. }
      assert (Hnc : i + n <= t_cap t).
      { destruct (Nat.le_gt_cases (i + n) (t_cap t)); [assumption|]. exfalso.
        pose proof (Hbef (t_cap t - i) kSentinel ltac:(lia)) as Hx.
        rewrite Hb in Hx by lia. replace (i + (t_cap t - i)) with (t_cap t) in Hx by lia.
        specialize (Hx (wfc_sent _ _ _ Hwf)). unfold kSentinel in Hx. lia. }
      destruct (IH (i + n) ltac:(lia) ltac:(lia)) as (j & Hj & Hij & Hjs & Hjb).
      exists j. split; [exact Hj|]. split; [lia|]. split; [assumption|].
      intros x Hx. destruct (Nat.lt_ge_cases x (i + n)) as [Hlt|Hge]; [|apply Hjb; lia].
      destruct (slot_at hash eqb E HG HK t x Ht0 ltac:(lia)) as (cx & sx & Hcx & Hsx & Hrx & _).
      pose proof (Hbef (x - i) cx ltac:(lia)) as Hy. rewrite Hb in Hy by lia.
      replace (i + (x - i)) with x in Hy by lia. specialize (Hy Hcx).
      destruct sx as [e|]; [|assumption]. cbn in Hrx. pose proof (H2_range (hash (fst e))). lia.
    + exists i. split; [reflexivity|]. split; [lia|]. split; [|intros; lia]. right.
      destruct s as [e|]; [eauto|]. cbn in Hrel. unfold sb, kEmpty, kDeleted in Hsb. lia.
Qed.

Lemma elems_drop_none (slots : list (option elt)) n : forall i, i + n <= length slots ->
  (forall x, i <= x < i + n -> slots !! x = Some None) -> elems (drop i slots) = elems (drop (i + n) slots).
Proof using.
  induction n as [|n IH]; intros i Hl Hn; [rewrite Nat.add_0_r; reflexivity|].
  rewrite (drop_cons slots i None) by (apply Hn; lia). rewrite elems_cons_none.
  rewrite IH; [f_equal; f_equal; lia|lia|]. intros x Hx. apply Hn. lia.
Qed.

(** [iterate_from] from a full slot (or the end) visits exactly the full slots from there on, in order. *)
Lemma iterate_from_ok (t : table) : tinv t -> forall fuel i, i <= t_cap t -> t_cap t - i < fuel ->
  (i = t_cap t \/ exists e, t_slots t !! i = Some (Some e)) ->
  exists is, iterate_from E fuel t i = Ok is /\ deref_all t is = Ok (elems (drop i (t_slots t))) /\
    (forall j, In j is <-> i <= j /\ exists e, t_slots t !! j = Some (Some e)) /\ List.NoDup is.
Proof.
  intros Ht. pose proof (ti_slen _ _ _ _ (tv_0 _ _ _ _ Ht)) as Hsl.
  induction fuel as [|f IH]; intros i Hi Hf Hst; [lia|]. cbn [iterate_from].
  destruct (Nat.eqb_spec i (t_cap t)) as [->|Hne].
  - exists []. split; [reflexivity|]. split; [rewrite drop_ge by lia; reflexivity|]. split; [|constructor].
    intros j. split; [intros []|]. intros [Hj (e & He)]. apply lookup_lt_Some in He. lia.
  - destruct Hst as [?|(e & He)]; [congruence|].
    unfold next_it. destruct (skip_ok t Ht (S (S (t_cap t))) (S i) ltac:(lia) ltac:(lia)) as (j & Hj & Hij & Hjs & Hjb).
    rewrite Hj. cbn [rbind]. destruct (IH j ltac:(lia) ltac:(lia) Hjs) as (is & His & Hde & Hin & Hnd).
    rewrite His. cbn [rbind]. exists (i :: is). split; [reflexivity|]. split; [|split].
    + cbn [deref_all]. unfold deref. rewrite (load_some _ _ _ He). cbn [rbind of_option]. rewrite Hde. cbn [rbind].
      rewrite (drop_cons _ _ _ He), elems_cons_some. f_equal. f_equal.
      rewrite (elems_drop_none (t_slots t) (j - S i) (S i)); [f_equal; f_equal; lia|lia|].
      intros x Hx. apply Hjb. lia.
    + intros x. cbn [In]. rewrite Hin. split.
      * intros [<-|[Hx Hex]]; [split; [lia|eauto]|split; [lia|assumption]].
      * intros [Hx (ex & Hex)]. destruct (Nat.eq_dec x i); [left; congruence|right]. split; [|eauto].
        destruct (Nat.le_gt_cases j x); [assumption|]. rewrite Hjb in Hex by lia. discriminate.
    + constructor; [|assumption]. rewrite Hin. lia.
Qed.

Lemma iterate_ok (t : table) : good t ->
  exists is, iterate E t = Ok is /\ to_list E t = Ok (elems (t_slots t)) /\
    (forall j, In j is <-> exists e, t_slots t !! j = Some (Some e)) /\ List.NoDup is.
Proof.
  intros [->|Ht].
  - exists []. split; [reflexivity|]. split; [reflexivity|]. split; [|constructor].
    intros j. split; [intros []|]. intros (e & He). discriminate.
  - unfold to_list, iterate, begin_it. destruct (skip_ok t Ht (S (S (t_cap t))) 0 ltac:(lia) ltac:(lia)) as (j & Hj & Hij & Hjs & Hjb).
    rewrite Hj. cbn [rbind]. destruct (iterate_from_ok t Ht (S (t_cap t)) j ltac:(lia) ltac:(lia) Hjs) as (is & His & Hde & Hin & Hnd).
    rewrite His. cbn [rbind]. exists is. split; [reflexivity|]. split; [|split; [|assumption]].
    + rewrite Hde. f_equal. pose proof (ti_slen _ _ _ _ (tv_0 _ _ _ _ Ht)) as Hsl.
      rewrite <- (drop_0 (t_slots t)) at 2. symmetry.
      rewrite (elems_drop_none (t_slots t) j 0); [reflexivity|lia|]. intros x Hx. apply Hjb. lia.
    + intros x. rewrite Hin. split; [intros [_ ?]; assumption|]. intros (e & He). split; [|eauto].
      destruct (Nat.le_gt_cases j x); [assumption|]. rewrite Hjb in He by lia. discriminate.
Qed.

End Ops.
