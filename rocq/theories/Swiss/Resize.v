(** resize, drop_deletes_without_resize, growth and insertion preserve the table invariant. *)
From stdpp Require Import list.
From Coq Require Import Arith NArith ZArith Lia.
From Coq Require Import ZifyBool ZifyNat ZifyN.
From Verif.Common Require Import Res Word WordFacts.
From Verif.Swiss Require Import Group GroupSpec Model Probe Inv TableInv.
Ltac Zify.zify_post_hook ::= Z.div_mod_to_equations.
Local Open Scope nat_scope.
Local Open Scope res_scope.
Local Arguments cnt : simpl never.
Local Arguments elems : simpl never.

Definition valid_cap (c : nat) : Prop := exists k, 1 <= k <= 63 /\ S c = 2 ^ k.
(** The allocator cannot hand out 2^62 bytes or more, and one slot is smaller than that. *)
Record env_ok (E : env) : Prop := {
  eo_max : (e_max_bytes E < 2 ^ 62)%N;
  eo_slot : (1 <= e_slot_size E < 2 ^ 62)%N;
  eo_align : (e_align_log E <= 61)%N;
  eo_group : GroupOK (e_group E);
  eo_junk : s8 (e_junk E)
}.
(** The allocation size for capacity [m] does not wrap around 2^64. *)
Definition no_wrap (E : env) (m : N) : Prop :=
  (m + N.of_nat (g_width (e_group E)) + 1 + 2 ^ e_align_log E + m * e_slot_size E < 2 ^ 64)%N.

Lemma cap_cancel cap x y c : (x + c) mod S cap = (y + c) mod S cap -> x mod S cap = y mod S cap.
Proof.
  intros H.
  assert (G : forall u, u mod S cap = ((u + c) mod S cap + (S cap - c mod S cap)) mod S cap).
  { intros u. rewrite Nat.add_mod_idemp_l by lia.
    pose proof (Nat.mod_upper_bound c (S cap) ltac:(lia)). pose proof (Nat.div_mod c (S cap) ltac:(lia)).
    replace (u + c + (S cap - c mod S cap)) with (u + (1 + c / S cap) * S cap) by nia.
    rewrite Nat.mod_add by lia. reflexivity. }
  rewrite (G x), (G y), H. reflexivity.
Qed.

Lemma land_wnot y m : (y < 2 ^ 64)%N -> (m < 2 ^ 64)%N -> N.land y (wnot 64 m) = N.ldiff y m.
Proof.
  intros Hy Hm. apply N.bits_inj. intros i. rewrite N.land_spec, N.ldiff_spec.
  destruct (N.lt_ge_cases i 64) as [Hi|Hi].
  - rewrite wnot_spec_low by assumption. reflexivity.
  - rewrite (testbit_high y 64 i Hy Hi). reflexivity.
Qed.

Section Resize.
Context {K V : Type} (hash : K -> N) (eqb : K -> K -> bool) (E : env) (HE : env_ok E).
Context (HK : KeyPER hash eqb).
Set Default Proof Using "HE HK".
Notation HG := (eo_group E HE).
Notation eqb_sym := (kp_sym _ _ HK).
Notation eqb_trans := (kp_trans _ _ HK).
Notation hash_eqb := (kp_hash _ _ HK).
Notation g := (e_group E).
Notation W := (g_width (e_group E)).
Notation elt := (K * V)%type.
Notation table := (table K V).
Notation tinv0 := (tinv0 hash eqb E).
Notation tinv := (tinv hash eqb E).

(** ** Allocation *)
Lemma align_up_bounds x : (x + 2 ^ e_align_log E < 2 ^ 64)%N ->
  (x <= align_up E x /\ align_up E x < x + 2 ^ e_align_log E)%N.
Proof using.
  intros Hx. unfold align_up. set (al := e_align_log E) in *.
  assert (Ha : (2 ^ al <> 0)%N) by (apply N.pow_nonzero; discriminate).
  rewrite wadd_small by lia.
  rewrite land_wnot by lia.
  replace (2 ^ al - 1)%N with (N.ones al) at 2 4 by (rewrite N.ones_equiv; lia).
  rewrite N.ldiff_ones_r, N.shiftl_mul_pow2, N.shiftr_div_pow2.
  pose proof (N.div_mod (x + (2 ^ al - 1)) (2 ^ al) Ha). pose proof (N.mod_lt (x + (2 ^ al - 1)) (2 ^ al) Ha). nia.
Qed.

Lemma alloc_size_ge m : no_wrap E m -> (needed_bytes E m <= alloc_size E m)%N.
Proof using.
  unfold no_wrap, needed_bytes, alloc_size. intros H.
  assert (Hm : wmod 64 (m + N.of_nat W + 1) = (m + N.of_nat W + 1)%N).
  { unfold wmod. apply N.mod_small. lia. }
  rewrite Hm.
  pose proof (align_up_bounds (m + N.of_nat W + 1) ltac:(lia)) as [H1 H2].
  assert (Hmul : wmul 64 m (e_slot_size E) = (m * e_slot_size E)%N) by (unfold wmul; apply N.mod_small; lia).
  rewrite Hmul, wadd_small by lia. lia.
Qed.

Lemma init_ok m size : no_wrap E m ->
  (@initialize_slots K V E m size = BadAlloc /\ (e_max_bytes E < alloc_size E m)%N) \/
  (@initialize_slots K V E m size =
     Ok (mkTable (reset_ctrl E (e_junk E) (N.to_nat m)) (replicate (N.to_nat m) None) size (N.to_nat m)
          (growth_left_for E (N.to_nat m) size)) /\ (needed_bytes E m <= e_max_bytes E)%N /\
   (alloc_size E m <= e_max_bytes E)%N).
Proof using.
  intros Hn. pose proof (alloc_size_ge m Hn). unfold initialize_slots.
  destruct (N.ltb_spec (e_max_bytes E) (alloc_size E m)); [left; auto|right].
  destruct (N.ltb_spec (alloc_size E m) (needed_bytes E m)); [lia|]. split; [reflexivity|lia].
Qed.

Lemma no_wrap_double cap : (needed_bytes E (N.of_nat cap) <= e_max_bytes E)%N -> 1 <= cap ->
  no_wrap E (2 * N.of_nat cap + 1) /\ wadd 64 (wmul 64 (N.of_nat cap) 2) 1 = (2 * N.of_nat cap + 1)%N.
Proof using HE.
  intros Hn Hc. unfold needed_bytes, no_wrap in *. pose proof (eo_max _ HE) as H1; pose proof (eo_slot _ HE) as H2; pose proof (eo_align _ HE) as H3.
  assert (Ha : (2 ^ e_align_log E <= 2 ^ 61)%N) by (apply N.pow_le_mono_r; lia).
  assert (Hw : N.of_nat W = 8%N \/ N.of_nat W = 16%N) by (destruct (W_cases E HG) as [->| ->]; auto).
  replace ((2 * N.of_nat cap + 1) * e_slot_size E)%N with (2 * (N.of_nat cap * e_slot_size E) + e_slot_size E)%N by lia.
  set (x := (N.of_nat cap * e_slot_size E)%N) in *.
  change (2 ^ 64)%N with (8 * 2 ^ 61)%N. change (2 ^ 62)%N with (2 * 2 ^ 61)%N in *.
  assert (Hbig : (100 <= 2 ^ 61)%N) by (apply N.leb_le; vm_compute; reflexivity).
  set (y := (2 ^ 61)%N) in *. split; [lia|].
  unfold wadd, wmul. assert (H64 : (2 ^ 64 = 8 * y)%N) by reflexivity. rewrite H64.
  rewrite (N.mod_small (N.of_nat cap * 2)) by lia. rewrite N.mod_small by lia. lia.
Qed.

Lemma no_wrap_1 : no_wrap E 1.
Proof using HE.
  unfold no_wrap. pose proof (eo_max _ HE) as H1; pose proof (eo_slot _ HE) as H2; pose proof (eo_align _ HE) as H3.
  assert (Ha : (2 ^ e_align_log E <= 2 ^ 61)%N) by (apply N.pow_le_mono_r; lia).
  assert (Hw : N.of_nat W = 8%N \/ N.of_nat W = 16%N) by (destruct (W_cases E HG) as [->| ->]; auto).
  assert (Hbig : (100 <= 2 ^ 61)%N) by (apply N.leb_le; vm_compute; reflexivity).
  change (2 ^ 64)%N with (8 * 2 ^ 61)%N. change (2 ^ 62)%N with (2 * 2 ^ 61)%N in *. lia.
Qed.

Lemma valid_cap_double cap : valid_cap cap -> (N.of_nat cap < 2 ^ 62)%N -> valid_cap (2 * cap + 1).
Proof using.
  intros (k & Hk & HM) Hlt. exists (S k). split.
  - assert (k <= 62); [|lia]. destruct (Nat.le_gt_cases k 62); [assumption|].
    assert (k = 63) by lia. subst k. apply (f_equal N.of_nat) in HM.
    rewrite Nat2N.inj_succ, Nat2N.inj_pow in HM. change (N.of_nat 2 ^ N.of_nat 63)%N with (2 * 2 ^ 62)%N in HM. lia.
  - cbn [Nat.pow]. lia.
Qed.
Lemma valid_cap_1 : valid_cap 1.
Proof using. exists 1. cbn. lia. Qed.

(** ** Growth *)
Lemma cap_le_growth cap : CapacityToGrowth W cap <= cap.
Proof using. unfold CapacityToGrowth. destruct (Nat.eqb_spec W 8), (Nat.eqb_spec cap 7); cbn [andb]; lia. Qed.
Lemma valid_cap_cases cap : valid_cap cap -> cap = 1 \/ cap = 3 \/ cap = 7 \/ 15 <= cap.
Proof using.
  intros (k & Hk & HM). destruct k as [|[|[|[|k]]]]; [lia|cbn in HM; lia|cbn in HM; lia|cbn in HM; lia|].
  right; right; right. cbn [Nat.pow] in HM. pose proof (pow2_pos k). lia.
Qed.
Lemma growth_facts cap : valid_cap cap ->
  1 <= CapacityToGrowth W cap /\ (S cap < W -> CapacityToGrowth W cap = cap) /\
  (W <= S cap -> CapacityToGrowth W cap < cap) /\
  CapacityToGrowth W cap < CapacityToGrowth W (2 * cap + 1).
Proof using HE.
  intros Hv. pose proof (valid_cap_cases cap Hv) as Hc. unfold CapacityToGrowth.
  destruct (W_cases E HG) as [->| ->]; cbn [Nat.eqb andb];
    destruct Hc as [->|[->|[->|Hc]]]; try (cbn; lia).
  - destruct (Nat.eqb_spec cap 7), (Nat.eqb_spec (2 * cap + 1) 7); try lia.
  - lia.
Qed.

Lemma growth_left_small cap size : valid_cap cap -> size <= CapacityToGrowth W cap ->
  growth_left_for E cap size = N.of_nat (CapacityToGrowth W cap - size).
Proof using HE.
  intros (k & Hk & HM) Hs. unfold growth_left_for.
  assert (HN : (N.of_nat cap < 2 ^ 64)%N).
  { apply (f_equal N.of_nat) in HM. rewrite Nat2N.inj_succ, Nat2N.inj_pow in HM.
    assert (N.of_nat 2 ^ N.of_nat k <= 2 ^ 63)%N by (change (N.of_nat 2) with 2%N; apply N.pow_le_mono_r; lia).
    change (2 ^ 64)%N with (2 * 2 ^ 63)%N. lia. }
  pose proof (cap_le_growth cap). rewrite wsub_small by lia. lia.
Qed.

(** ** resize *)
Lemma drop_cons {A} (l : list A) i x : l !! i = Some x -> drop i l = x :: drop (S i) l.
Proof using. intros H. apply drop_S. assumption. Qed.

Lemma elems_cons_some {A} (e : A) l : elems (Some e :: l) = e :: elems l.
Proof using. reflexivity. Qed.
Lemma elems_cons_none {A} (l : list (option A)) : elems (None :: l) = elems l.
Proof using. reflexivity. Qed.

Lemma distinct_app_l (l1 l2 : list elt) : distinct eqb (l1 ++ l2) -> distinct eqb l1.
Proof using.
  induction l1 as [|x l1 IH]; cbn; [auto|]. intros [H1 H2]. split; [|auto].
  intros y Hy. apply H1. apply in_or_app. auto.
Qed.

Lemma ndel_set ctrl ctrl' cap i y h : wfc E ctrl cap -> wfc E ctrl' cap -> i < cap ->
  ctrl !! i = Some y -> ctrl' !! i = Some h -> (forall j, j <= cap -> j <> i -> ctrl' !! j = ctrl !! j) ->
  ndel ctrl' cap + (if isDel y then 1 else 0) = ndel ctrl cap + (if isDel h then 1 else 0).
Proof using.
  intros Hwf Hwf' Hi Hy Hh Hoth. unfold ndel. pose proof (wfc_len _ _ _ Hwf). pose proof (wfc_len _ _ _ Hwf').
  rewrite (take_ctrl_insert ctrl ctrl' cap i h ltac:(lia) ltac:(lia) Hi Hh Hoth).
  apply cnt_insert. rewrite lookup_take by assumption. assumption.
Qed.
Lemma isDel_H2 h : isDel (H2 h) = false.
Proof using. unfold isDel, kDeleted. pose proof (H2_range h). lia. Qed.

Lemma resize_loop_ok (old : table) :
  tinv0 old -> forall n i t, i + n = t_cap old -> tinv0 t -> ndel (t_ctrl t) (t_cap t) = 0 ->
  distinct eqb (elems (t_slots t) ++ elems (drop i (t_slots old))) ->
  length (elems (t_slots t)) + length (elems (drop i (t_slots old))) <= t_cap t ->
  exists t', resize_loop hash E (seq i n) (t_ctrl old) (t_slots old) t = Ok t' /\ tinv0 t' /\
    ndel (t_ctrl t') (t_cap t') = 0 /\ t_size t' = t_size t /\ t_cap t' = t_cap t /\ t_growth t' = t_growth t /\
    elems (t_slots t') ≡ₚ elems (t_slots t) ++ elems (drop i (t_slots old)).
Proof.
  intros Hold. induction n as [|n IH]; intros i t Hin Ht Hnd Hdist Hroom; cbn [seq resize_loop].
  - exists t. repeat split; try assumption; try apply Ht. rewrite drop_ge by (rewrite (ti_slen _ _ _ _ Hold); lia).
    rewrite app_nil_r. reflexivity.
  - assert (Hi : i < t_cap old) by lia.
    destruct (slot_at hash eqb E HG HK old i Hold Hi) as (c & s & Hc & Hs & Hrel & _).
    rewrite (load_some _ _ _ Hc). cbn [rbind].
    rewrite (drop_cons _ _ _ Hs) in Hdist, Hroom.
    unfold IsFull. destruct s as [e|]; cbn in Hrel.
    + pose proof (H2_range (hash (fst e))). destruct (Z.leb_spec 0 c); [|lia].
      rewrite (load_some _ _ _ Hs). cbn [rbind of_option].
      rewrite elems_cons_some in Hdist, Hroom. cbn [length] in Hroom.
      destruct (ffnf_reach hash eqb E HG HK t (hash (fst e)) Ht ltac:(lia)) as (p & Hp & Hpc & Hpn & Hpr).
      rewrite Hp. cbn [rbind].
      destruct (set_ctrl_ok E HG (t_ctrl t) (t_cap t) p (H2 (hash (fst e))) (ti_wfc _ _ _ _ Ht) Hpc (H2_sb _)) as (ctrl' & Hset & Hwf' & Hcp & Hoth & _).
      rewrite Hset. cbn [rbind].
      destruct Hpn as (cp & Hcp0 & Hneg).
      rewrite (construct_ok _ _ _ (slot_none hash eqb E HG HK t p cp Ht Hpc Hcp0 ltac:(lia))). cbn [rbind].
      assert (Hswap : elems (t_slots t) ++ e :: elems (drop (S i) (t_slots old)) ≡ₚ (e :: elems (t_slots t)) ++ elems (drop (S i) (t_slots old))).
      { symmetry. apply Permutation_middle. }
      assert (Habs : absent eqb t (fst e)).
      { pose proof (distinct_perm eqb eqb_sym _ _ Hswap Hdist) as Hd2. cbn in Hd2. destruct Hd2 as [Hd2 _].
        intros y Hy. apply Hd2. apply in_or_app. auto. }
      destruct e as [k v]. cbn [fst] in *.
      destruct (insert_at hash eqb E HG HK t p k v ctrl' Ht Hpc (ex_intro _ cp (conj Hcp0 Hneg)) Hpr Habs Hwf' Hcp Hoth (t_size t) (t_growth t)) as [Ht' Hperm].
      destruct (IH (S i) (mkTable ctrl' (<[p:=Some (k, v)]> (t_slots t)) (t_size t) (t_cap t) (t_growth t))) as (t' & Hr & Ht'' & Hnd' & Hsz & Hcap & Hgr & Hp'); cbn [t_ctrl t_slots t_size t_cap t_growth] in *.
      * lia.
      * assumption.
      * pose proof (ndel_set _ _ _ _ _ _ (ti_wfc _ _ _ _ Ht) Hwf' Hpc Hcp0 Hcp Hoth) as Hn.
        rewrite isDel_H2 in Hn. lia.
      * eapply (distinct_perm eqb eqb_sym); [|exact Hdist]. rewrite Hswap, Hperm. reflexivity.
      * rewrite (Permutation_length Hperm). cbn [length]. lia.
      * exists t'. repeat split; try assumption; try apply Ht''. rewrite Hp', (drop_cons _ _ _ Hs), elems_cons_some, Hperm.
        symmetry. exact Hswap.
    + destruct (Z.leb_spec 0 c); [lia|]. rewrite elems_cons_none in Hdist, Hroom.
      destruct (IH (S i) t ltac:(lia) Ht Hnd Hdist Hroom) as (t' & Hr & Hrest).
      exists t'. split; [exact Hr|]. rewrite (drop_cons _ _ _ Hs), elems_cons_none. exact Hrest.
Qed.

Lemma fresh_tinv0 cap size gr junk : s8 junk -> valid_cap cap ->
  tinv0 (@mkTable K V (reset_ctrl E junk cap) (replicate cap None) size cap gr) /\
  ndel (reset_ctrl E junk cap) cap = 0.
Proof.
  intros Hj Hv. destruct (reset_ctrl_wf E HG cap junk Hj Hv) as [Hwf Hemp]. split.
  - constructor; cbn [t_ctrl t_slots t_size t_cap t_growth].
    + assumption.
    + apply replicate_length.
    + intros i c s Hi Hc Hs. rewrite Hemp in Hc by assumption. injection Hc as <-.
      apply lookup_replicate in Hs. destruct Hs as [-> _]. cbn. unfold kEmpty. lia.
    + rewrite elems_replicate_none. exact I.
    + intros i e Hs. apply lookup_replicate in Hs. destruct Hs as [Hs _]. discriminate.
  - unfold ndel. apply cnt_zero. intros i x Hx.
    assert (i < cap). { apply lookup_lt_Some in Hx. rewrite take_length in Hx. lia. }
    rewrite lookup_take in Hx by assumption. rewrite Hemp in Hx by assumption. injection Hx as <-. reflexivity.
Qed.

(** resize keeps exactly the same elements whenever they fit in the new capacity, or throws. *)
Lemma resize_ok (t : table) m : (t = empty_table \/ tinv0 t) -> valid_cap (N.to_nat m) -> no_wrap E m ->
  length (elems (t_slots t)) <= N.to_nat m ->
  (resize hash E t m = BadAlloc /\ (e_max_bytes E < alloc_size E m)%N) \/
  exists t', resize hash E t m = Ok t' /\ tinv0 t' /\ ndel (t_ctrl t') (t_cap t') = 0 /\
    t_size t' = t_size t /\ t_cap t' = N.to_nat m /\ t_growth t' = growth_left_for E (N.to_nat m) (t_size t) /\
    elems (t_slots t') ≡ₚ elems (t_slots t) /\ (needed_bytes E m <= e_max_bytes E)%N.
Proof.
  intros Ht Hv Hn Hroom. unfold resize.
  destruct (init_ok m (t_size t) Hn) as [[Hi Hlt]|(Hi & Hnb & _)]; rewrite Hi; cbn [rbind].
  - left. auto.
  - right. destruct (fresh_tinv0 (N.to_nat m) (t_size t) (growth_left_for E (N.to_nat m) (t_size t)) (e_junk E) (eo_junk E HE) Hv) as [Hf Hnd].
    destruct Ht as [->|Ht].
    + cbn [t_cap t_ctrl t_slots t_size empty_table seq resize_loop]. eexists. split; [reflexivity|].
      cbn [t_ctrl t_slots t_size t_cap t_growth]. repeat split; try assumption; try apply Hf.
      rewrite elems_replicate_none. reflexivity.
    + destruct (resize_loop_ok t Ht (t_cap t) 0 _ eq_refl Hf) as (t' & Hr & Ht' & Hnd' & Hsz & Hc & Hgr & Hp);
        cbn [t_ctrl t_slots t_size t_cap t_growth] in *.
      * assumption.
      * rewrite elems_replicate_none. cbn [app]. rewrite drop_0. apply (ti_dist _ _ _ _ Ht).
      * rewrite elems_replicate_none, drop_0. cbn [length]. lia.
      * exists t'. rewrite elems_replicate_none, drop_0 in Hp. repeat split; try assumption; apply Ht'.
Qed.

Lemma resize_tinv (t : table) m : (t = empty_table \/ tinv t) -> valid_cap (N.to_nat m) -> no_wrap E m ->
  t_size t <= CapacityToGrowth W (N.to_nat m) ->
  (resize hash E t m = BadAlloc /\ (e_max_bytes E < alloc_size E m)%N) \/
  exists t', resize hash E t m = Ok t' /\ tinv t' /\ ndel (t_ctrl t') (t_cap t') = 0 /\
    t_size t' = t_size t /\ t_cap t' = N.to_nat m /\ elems (t_slots t') ≡ₚ elems (t_slots t).
Proof.
  intros Ht Hv Hn Hroom.
  assert (Hsz : t_size t = length (elems (t_slots t))) by (destruct Ht as [->|Ht]; [reflexivity|apply (tv_size _ _ _ _ Ht)]).
  pose proof (cap_le_growth (N.to_nat m)).
  destruct (resize_ok t m) as [Hba|(t' & Hr & Ht' & Hnd & Hs & Hc & Hg & Hp & Hnb)]; try assumption.
  - destruct Ht as [->|Ht]; [left; reflexivity|right; apply (tv_0 _ _ _ _ Ht)].
  - lia.
  - left. assumption.
  - right. exists t'. split; [assumption|]. split; [|repeat split; assumption].
    constructor.
    + assumption.
    + rewrite Hs, Hsz. symmetry. apply Permutation_length. assumption.
    + rewrite Hnd, Hs, Hc. lia.
    + rewrite Hg, Hc. rewrite Hc in Hnd. rewrite Hnd, Hs. rewrite growth_left_small by assumption. f_equal. lia.
    + intros _. assumption.
    + rewrite Hc, N2Nat.id. assumption.
Qed.

(** ** drop_deletes_without_resize *)
Definition allfullm (ctrl : list Z) (cap o : nat) : Prop :=
  forall d, d < W -> ~ nonfull_at ctrl ((o + d) mod S cap).
Lemma allfullm_mono ctrl ctrl' cap o : (forall j, j <= cap -> nonfull_at ctrl' j -> nonfull_at ctrl j) ->
  allfullm ctrl cap o -> allfullm ctrl' cap o.
Proof using.
  intros Hm Ha d Hd Hn. apply (Ha d Hd). apply Hm; [|assumption].
  pose proof (Nat.mod_upper_bound (o + d) (S cap) ltac:(lia)). lia.
Qed.

Record dinv (t : table) (i : nat) : Prop := {
  d_wfc : wfc E (t_ctrl t) (t_cap t);
  d_slen : length (t_slots t) = t_cap t;
  d_large : W <= S (t_cap t);
  d_i : i <= t_cap t;
  d_rel : forall j c s, j < t_cap t -> t_ctrl t !! j = Some c -> t_slots t !! j = Some s ->
    match s with
    | Some e => c = H2 (hash (fst e)) \/ (c = kDeleted /\ i <= j)
    | None => c = kEmpty
    end;
  d_set : forall j c e, t_slots t !! j = Some (Some e) -> t_ctrl t !! j = Some c -> (0 <= c)%Z ->
    exists n, n <= t_cap t /\ covers E (t_cap t) (poffh E (t_cap t) (hash (fst e)) n) j /\
      forall n', n' < n -> allfullm (t_ctrl t) (t_cap t) (poffh E (t_cap t) (hash (fst e)) n');
  d_dist : distinct eqb (elems (t_slots t))
}.

Lemma W_divides cap : valid_cap cap -> W <= S cap -> exists P, 0 < P /\ S cap = W * P.
Proof using HE.
  intros (k & Hk & HM) HWM. destruct (W_pow E HG) as (w & HW & Hw). rewrite HW in *.
  assert (Hwk : w <= k).
  { destruct (Nat.le_gt_cases w k); [assumption|].
    assert (2 ^ k < 2 ^ w) by (apply Nat.pow_lt_mono_r; lia). lia. }
  exists (2 ^ (k - w)). split; [apply pow2_pos|]. rewrite HM, <- Nat.pow_add_r. f_equal. lia.
Qed.

Lemma same_probe_index cap h m a b : valid_cap cap -> W <= S cap -> b <= cap ->
  covers E cap (poffh E cap h m) a -> probe_index E cap h a = probe_index E cap h b ->
  covers E cap (poffh E cap h m) b.
Proof using HE.
  intros Hvc HWM Hb (d & Hd & HdM & Hmod) Hpi. unfold probe_index in Hpi.
  destruct (W_divides cap Hvc HWM) as (P & HP & HMP). destruct Hvc as (k & Hk & HM).
  pose proof (probe_start_lt h cap k HM) as Hs. set (s := probe_start h cap) in *.
  assert (Hs64 : (N.of_nat s < 2 ^ 64)%N).
  { clear HMP Hmod Hpi. apply (f_equal N.of_nat) in HM. rewrite Nat2N.inj_succ, Nat2N.inj_pow in HM.
    assert (N.of_nat 2 ^ N.of_nat k <= 2 ^ 63)%N by (change (N.of_nat 2) with 2%N; apply N.pow_le_mono_r; lia).
    change (2 ^ 64)%N with (2 * 2 ^ 63)%N. lia. }
  destruct (sub_and_spec a s cap k HM ltac:(clear -Hk; lia) Hs64) as [Hxa Ha].
  destruct (sub_and_spec b s cap k HM ltac:(clear -Hk; lia) Hs64) as [Hxb Hb2].
  set (xa := sub_and a s cap) in *. set (xb := sub_and b s cap) in *.
  unfold poffh in *. fold s in Hmod |- *. unfold poff in *. clear HM Hs64.
  assert (HWp : 0 < W) by (clear -Hd; lia).
  rewrite Nat.add_mod_idemp_l in Hmod by lia.
  assert (Hxa2 : xa = (W * tri m + d) mod S cap).
  { rewrite <- (Nat.mod_small xa (S cap)) by assumption. apply (cap_cancel cap _ _ s). rewrite Ha.
    rewrite <- Hmod. rewrite Nat.mod_mod by lia. f_equal. lia. }
  assert (Hdiv : xa / W = tri m mod P).
  { rewrite Hxa2, HMP, Nat.mod_mul_r by lia.
    rewrite (Nat.mul_comm W (tri m)), (Nat.add_comm _ d), Nat.mod_add, Nat.div_add by lia.
    rewrite (Nat.mod_small d), (Nat.div_small d) by lia. rewrite Nat.add_0_l.
    rewrite (Nat.mul_comm W), Nat.div_add by lia. rewrite (Nat.div_small d) by lia. reflexivity. }
  exists (xb mod W). split; [apply Nat.mod_upper_bound; lia|]. split.
  { pose proof (Nat.mod_upper_bound xb W ltac:(lia)). lia. }
  rewrite Nat.add_mod_idemp_l by lia.
  assert (Hxb3 : xb = W * (tri m mod P) + xb mod W).
  { rewrite <- Hdiv, Hpi. apply Nat.div_mod. lia. }
  rewrite <- (Nat.mod_small b (S cap)) by lia. rewrite <- Hb2.
  assert (Htri : W * tri m = W * (tri m mod P) + (tri m / P) * S cap).
  { assert (Hq : tri m = P * (tri m / P) + tri m mod P) by (apply Nat.div_mod; clear -HP; lia).
    rewrite HMP. clear -Hq. revert Hq. generalize (tri m / P), (tri m mod P). intros q r ->. ring. }
  replace (s + W * tri m + xb mod W) with (xb + s + (tri m / P) * S cap).
  - apply Nat.mod_add. clear. lia.
  - clear -Hxb3 Htri. revert Hxb3 Htri. generalize (tri m / P * S cap), (W * (tri m mod P)), (xb mod W). intros. lia.
Qed.

Lemma drop_loop_ok : forall fuel t i, dinv t i ->
  (t_cap t - i) + ndel (t_ctrl t) (t_cap t) < fuel ->
  exists t', drop_loop hash E fuel t i = Ok t' /\ dinv t' (t_cap t') /\
    t_size t' = t_size t /\ t_cap t' = t_cap t /\ t_growth t' = t_growth t /\
    elems (t_slots t') ≡ₚ elems (t_slots t).
Proof.
  induction fuel as [|f IH]; intros t i Hd Hf; [lia|]. cbn [drop_loop].
  destruct (Nat.eqb_spec i (t_cap t)) as [->|Hne].
  { exists t. repeat split; try reflexivity; apply Hd. }
  pose proof (d_i _ _ Hd). assert (Hi : i < t_cap t) by lia.
  pose proof (d_wfc _ _ Hd) as Hwf.
  destruct (wfc_byte _ _ _ Hwf i Hi) as (c & Hc & Hsb). rewrite (load_some _ _ _ Hc). cbn [rbind].
  destruct (lookup_lt_is_Some_2 (t_slots t) i) as [s Hs]; [rewrite (d_slen _ _ Hd); assumption|].
  unfold IsDeleted. destruct (Z.eqb_spec c kDeleted) as [Hdel|Hdel]; cbn [negb].
  2:{ apply (IH t (S i)); [|lia]. constructor; [assumption|apply (d_slen _ _ Hd)|apply (d_large _ _ Hd)|lia| |apply (d_set _ _ Hd)|apply (d_dist _ _ Hd)].
      intros j c' s' Hj Hc' Hs'. pose proof (d_rel _ _ Hd j c' s' Hj Hc' Hs') as Hr.
      destruct s' as [e|]; [|assumption]. destruct Hr as [?|[Hcd Hij]]; [auto|]. right. split; [assumption|].
      assert (j <> i) by congruence. lia. }
  subst c. pose proof (d_rel _ _ Hd i _ s Hi Hc Hs) as Hr. destruct s as [e|]; [|unfold kDeleted, kEmpty in Hr; lia].
  rewrite (load_some _ _ _ Hs). cbn [rbind of_option].
  set (h := hash (fst e)) in *.
  assert (Hnf : exists j, j < t_cap t /\ nonfull_at (t_ctrl t) j).
  { exists i. split; [assumption|]. exists kDeleted. split; [assumption|]. unfold kDeleted. lia. }
  destruct (ffnf_ok E HG (t_ctrl t) (t_cap t) h Hwf Hnf) as (m & p & Hp & Hm & Hpc & Hpn & Hcov & Hprev).
  rewrite Hp. cbn [rbind].
  assert (HWM := d_large _ _ Hd).
  assert (Hprevm : forall n', n' < m -> allfullm (t_ctrl t) (t_cap t) (poffh E (t_cap t) h n')).
  { intros n' Hn' d Hdw Hx. destruct (Hprev n' Hn') as [_ Haf]. apply (Haf d Hdw).
    destruct Hx as (cx & Hcx & Hneg). exists cx. split; [|assumption].
    rewrite (byte_lt_M E HG _ (t_cap t)); [assumption|assumption|apply poffh_le|assumption|lia]. }
  destruct (Nat.eqb_spec (probe_index E (t_cap t) h p) (probe_index E (t_cap t) h i)) as [Hpi|Hpi].
  - (* already in the right group *)
    destruct (set_ctrl_ok E HG (t_ctrl t) (t_cap t) i (H2 h) Hwf Hi (H2_sb _)) as (ctrl' & Hset & Hwf' & Hci' & Hoth & _).
    rewrite Hset. cbn [rbind].
    assert (Hmono : forall j, j <= t_cap t -> nonfull_at ctrl' j -> nonfull_at (t_ctrl t) j).
    { intros j Hj (cj & Hcj & Hneg). destruct (Nat.eq_dec j i) as [->|Hji].
      - rewrite Hci' in Hcj. injection Hcj as <-. pose proof (H2_range h). lia.
      - rewrite Hoth in Hcj by assumption. exists cj. auto. }
    pose proof (ndel_set _ _ _ _ _ _ Hwf Hwf' Hi Hc Hci' Hoth) as Hn. rewrite isDel_H2 in Hn. cbn in Hn.
    destruct (IH (mkTable ctrl' (t_slots t) (t_size t) (t_cap t) (t_growth t)) (S i)) as (t' & Ht'); cbn [t_ctrl t_slots t_size t_cap t_growth] in *.
    + constructor; cbn [t_ctrl t_slots t_size t_cap t_growth];
        [assumption|apply (d_slen _ _ Hd)|assumption|lia| | |apply (d_dist _ _ Hd)].
      * intros j cj sj Hj Hcj Hsj. destruct (Nat.eq_dec j i) as [->|Hji].
        -- rewrite Hs in Hsj. injection Hsj as <-. left. unfold h in Hci'. congruence.
        -- rewrite Hoth in Hcj by lia. pose proof (d_rel _ _ Hd j cj sj Hj Hcj Hsj) as Hrj.
           destruct sj; [|assumption]. destruct Hrj as [?|[? ?]]; [auto|right; split; [assumption|lia]].
      * intros j cj ej Hsj Hcj H0. destruct (Nat.eq_dec j i) as [->|Hji].
        -- rewrite Hs in Hsj. injection Hsj as <-. exists m. split; [assumption|]. fold h. split.
           ++ eapply same_probe_index; [apply (wfc_cap _ _ _ Hwf)|assumption|lia|exact Hcov|assumption].
           ++ intros n' Hn'. eapply allfullm_mono; [exact Hmono|]. apply Hprevm. assumption.
        -- assert (Hjc : j < t_cap t) by (rewrite <- (d_slen _ _ Hd); apply lookup_lt_Some in Hsj; assumption).
           rewrite Hoth in Hcj by lia. destruct (d_set _ _ Hd j cj ej Hsj Hcj H0) as (n & Hnc & Hcv & Hal).
           exists n. split; [assumption|]. split; [assumption|]. intros n' Hn'. eapply allfullm_mono; [exact Hmono|]. auto.
    + lia.
    + exists t'. exact Ht'.
  - assert (Hpne : p <> i) by (intros ->; congruence).
    destruct Hpn as (cp & Hcp & Hneg). rewrite (load_some _ _ _ Hcp). cbn [rbind].
    destruct (set_ctrl_ok E HG (t_ctrl t) (t_cap t) p (H2 h) Hwf Hpc (H2_sb _)) as (c1 & Hset & Hwf1 & Hc1p & Hoth1 & _).
    pose proof (ndel_set _ _ _ _ _ _ Hwf Hwf1 Hpc Hcp Hc1p Hoth1) as Hn1. rewrite isDel_H2 in Hn1.
    destruct (wfc_byte _ _ _ Hwf p Hpc) as (cp' & Hcp' & Hsbp). rewrite Hcp in Hcp'. injection Hcp' as <-.
    destruct (lookup_lt_is_Some_2 (t_slots t) p) as [sp Hsp]; [rewrite (d_slen _ _ Hd); assumption|].
    pose proof (d_rel _ _ Hd p _ sp Hpc Hcp Hsp) as Hrp.
    unfold IsEmpty. destruct (Z.eqb_spec cp kEmpty) as [Hemp|Hnemp].
    + (* free slot: move *)
      rewrite Hset. cbn [rbind]. rewrite (take_slot_ok _ _ _ Hs). cbn [rbind].
      destruct sp as [ep|].
      { subst cp. destruct Hrp as [Hrp|[Hrp _]]; [pose proof (H2_range (hash (fst ep)))|]; unfold kEmpty, kDeleted in *; lia. }
      assert (Hsp1 : <[i:=None]> (t_slots t) !! p = Some None) by (rewrite list_lookup_insert_ne by congruence; assumption).
      rewrite (construct_ok _ _ _ Hsp1). cbn [rbind].
      assert (Hc1i : c1 !! i = Some kDeleted) by (rewrite Hoth1 by lia; assumption).
      destruct (set_ctrl_ok E HG c1 (t_cap t) i kEmpty Hwf1 Hi (or_introl eq_refl)) as (c2 & Hset2 & Hwf2 & Hc2i & Hoth2 & _).
      rewrite Hset2. cbn [rbind].
      pose proof (ndel_set _ _ _ _ _ _ Hwf1 Hwf2 Hi Hc1i Hc2i Hoth2) as Hn2. cbn in Hn2.
      assert (Hc2p : c2 !! p = Some (H2 h)) by (rewrite Hoth2 by lia; assumption).
      assert (Hc2o : forall j, j <= t_cap t -> j <> i -> j <> p -> c2 !! j = t_ctrl t !! j).
      { intros j Hj H1 H2. rewrite Hoth2, Hoth1 by assumption. reflexivity. }
      assert (Hmono : forall j, j <= t_cap t -> nonfull_at c2 j -> nonfull_at (t_ctrl t) j).
      { intros j Hj (cj & Hcj & Hng). destruct (Nat.eq_dec j i) as [->|Hji].
        - exists kDeleted. split; [assumption|]. unfold kDeleted. lia.
        - destruct (Nat.eq_dec j p) as [->|Hjp]; [exists cp; auto|]. rewrite Hc2o in Hcj by assumption. exists cj. auto. }
      set (s2 := <[p:=Some e]> (<[i:=None]> (t_slots t))) in *.
      assert (Hs2i : s2 !! i = Some None).
      { unfold s2. rewrite list_lookup_insert_ne by assumption. apply list_lookup_insert. rewrite (d_slen _ _ Hd). assumption. }
      assert (Hs2p : s2 !! p = Some (Some e)).
      { unfold s2. apply list_lookup_insert. rewrite insert_length, (d_slen _ _ Hd). assumption. }
      assert (Hs2o : forall j, j <> i -> j <> p -> s2 !! j = t_slots t !! j).
      { intros j H1 H2. unfold s2. rewrite !list_lookup_insert_ne by congruence. reflexivity. }
      assert (Hperm : elems s2 ≡ₚ elems (t_slots t)).
      { unfold s2. rewrite (elems_insert_some _ _ _ Hsp1). symmetry. apply elems_remove. assumption. }
      destruct (IH (mkTable c2 s2 (t_size t) (t_cap t) (t_growth t)) (S i)) as (t' & Hr' & Hd' & Hsz & Hcap & Hgr & Hp'); cbn [t_ctrl t_slots t_size t_cap t_growth] in *.
      * constructor; cbn [t_ctrl t_slots t_size t_cap t_growth]; try assumption; try lia.
        -- unfold s2. rewrite !insert_length. apply (d_slen _ _ Hd).
        -- intros j cj sj Hj Hcj Hsj. destruct (Nat.eq_dec j i) as [->|Hji].
           { rewrite Hs2i in Hsj. injection Hsj as <-. congruence. }
           destruct (Nat.eq_dec j p) as [->|Hjp].
           { rewrite Hs2p in Hsj. injection Hsj as <-. left. unfold h in Hc2p. congruence. }
           rewrite Hc2o in Hcj by lia. rewrite Hs2o in Hsj by assumption.
           pose proof (d_rel _ _ Hd j cj sj Hj Hcj Hsj) as Hrj.
           destruct sj; [|assumption]. destruct Hrj as [?|[? ?]]; [auto|right; split; [assumption|lia]].
        -- intros j cj ej Hsj Hcj H0.
           assert (Hji : j <> i) by (intros ->; congruence).
           destruct (Nat.eq_dec j p) as [->|Hjp].
           { rewrite Hs2p in Hsj. injection Hsj as <-. fold h. exists m. split; [assumption|]. split; [assumption|].
             intros n' Hn'. eapply allfullm_mono; [exact Hmono|]. auto. }
           rewrite Hs2o in Hsj by assumption.
           assert (Hjc : j < t_cap t) by (rewrite <- (d_slen _ _ Hd); apply lookup_lt_Some in Hsj; assumption).
           rewrite Hc2o in Hcj by lia. destruct (d_set _ _ Hd j cj ej Hsj Hcj H0) as (n & Hnc & Hcv & Hal).
           exists n. split; [assumption|]. split; [assumption|]. intros n' Hn'. eapply allfullm_mono; [exact Hmono|]. auto.
        -- eapply (distinct_perm eqb eqb_sym); [symmetry; exact Hperm|]. apply (d_dist _ _ Hd).
      * lia.
      * exists t'. repeat split; try assumption; try apply Hd'. rewrite Hp'. exact Hperm.
    + (* occupied by an element not yet placed: swap *)
      assert (Hcpd : cp = kDeleted).
      { unfold sb in Hsbp. destruct Hsbp as [?|[?|?]]; [congruence|assumption|lia]. }
      subst cp. destruct sp as [ep|]; [|unfold kDeleted, kEmpty in Hrp; lia].
      destruct Hrp as [Hrp|[_ Hip]]; [pose proof (H2_range (hash (fst ep))); unfold kDeleted in Hrp; lia|].
      rewrite Hset. cbn [rbind]. rewrite (take_slot_ok _ _ _ Hs). cbn [rbind].
      assert (Hsp1 : <[i:=None]> (t_slots t) !! p = Some (Some ep)) by (rewrite list_lookup_insert_ne by congruence; assumption).
      rewrite (take_slot_ok _ _ _ Hsp1). cbn [rbind].
      set (s2 := <[p:=None]> (<[i:=None]> (t_slots t))) in *.
      assert (Hs2i : s2 !! i = Some None).
      { unfold s2. rewrite list_lookup_insert_ne by assumption. apply list_lookup_insert. rewrite (d_slen _ _ Hd). assumption. }
      rewrite (construct_ok _ _ _ Hs2i). cbn [rbind].
      set (s3 := <[i:=Some ep]> s2) in *.
      assert (Hs3p : s3 !! p = Some None).
      { unfold s3, s2. rewrite list_lookup_insert_ne by congruence. apply list_lookup_insert. rewrite insert_length, (d_slen _ _ Hd). assumption. }
      rewrite (construct_ok _ _ _ Hs3p). cbn [rbind].
      set (s4 := <[p:=Some e]> s3) in *.
      assert (Hl3 : length s3 = t_cap t) by (unfold s3, s2; rewrite !insert_length; apply (d_slen _ _ Hd)).
      assert (Hs4i : s4 !! i = Some (Some ep)).
      { unfold s4, s3. rewrite list_lookup_insert_ne by assumption. apply list_lookup_insert.
        unfold s2. rewrite !insert_length, (d_slen _ _ Hd). assumption. }
      assert (Hs4p : s4 !! p = Some (Some e)) by (unfold s4; apply list_lookup_insert; lia).
      assert (Hs4o : forall j, j <> i -> j <> p -> s4 !! j = t_slots t !! j).
      { intros j H1 H2. unfold s4, s3, s2. rewrite !list_lookup_insert_ne by congruence. reflexivity. }
      assert (Hperm : elems s4 ≡ₚ elems (t_slots t)).
      { unfold s4. rewrite (elems_insert_some _ _ _ Hs3p). unfold s3. rewrite (elems_insert_some _ _ _ Hs2i).
        rewrite (elems_remove _ _ _ Hs). apply Permutation_cons; [reflexivity|]. symmetry. apply elems_remove. assumption. }
      assert (Hc1i : c1 !! i = Some kDeleted) by (rewrite Hoth1 by lia; assumption).
      assert (Hmono : forall j, j <= t_cap t -> nonfull_at c1 j -> nonfull_at (t_ctrl t) j).
      { intros j Hj (cj & Hcj & Hng). destruct (Nat.eq_dec j p) as [->|Hjp].
        - exists kDeleted. auto.
        - rewrite Hoth1 in Hcj by assumption. exists cj. auto. }
      cbn in Hn1.
      destruct (IH (mkTable c1 s4 (t_size t) (t_cap t) (t_growth t)) i) as (t' & Hr' & Hd' & Hsz & Hcap & Hgr & Hp'); cbn [t_ctrl t_slots t_size t_cap t_growth] in *.
      * constructor; cbn [t_ctrl t_slots t_size t_cap t_growth]; try assumption; try lia.
        -- unfold s4. rewrite insert_length. assumption.
        -- intros j cj sj Hj Hcj Hsj. destruct (Nat.eq_dec j i) as [->|Hji].
           { rewrite Hs4i in Hsj. injection Hsj as <-. right. split; [congruence|lia]. }
           destruct (Nat.eq_dec j p) as [->|Hjp].
           { rewrite Hs4p in Hsj. injection Hsj as <-. left. unfold h in Hc1p. congruence. }
           rewrite Hoth1 in Hcj by lia. rewrite Hs4o in Hsj by assumption.
           apply (d_rel _ _ Hd j cj sj Hj Hcj Hsj).
        -- intros j cj ej Hsj Hcj H0.
           assert (Hji : j <> i). { intros ->. rewrite Hc1i in Hcj. injection Hcj as <-. unfold kDeleted in H0. lia. }
           destruct (Nat.eq_dec j p) as [->|Hjp].
           { rewrite Hs4p in Hsj. injection Hsj as <-. fold h. exists m. split; [assumption|]. split; [assumption|].
             intros n' Hn'. eapply allfullm_mono; [exact Hmono|]. auto. }
           rewrite Hs4o in Hsj by assumption.
           assert (Hjc : j < t_cap t) by (rewrite <- (d_slen _ _ Hd); apply lookup_lt_Some in Hsj; assumption).
           rewrite Hoth1 in Hcj by lia. destruct (d_set _ _ Hd j cj ej Hsj Hcj H0) as (n & Hnc & Hcv & Hal).
           exists n. split; [assumption|]. split; [assumption|]. intros n' Hn'. eapply allfullm_mono; [exact Hmono|]. auto.
        -- eapply (distinct_perm eqb eqb_sym); [symmetry; exact Hperm|]. apply (d_dist _ _ Hd).
      * lia.
      * exists t'. repeat split; try assumption; try apply Hd'. rewrite Hp'. exact Hperm.
Qed.

Definition conv (c : Z) : Z := if (c <? 0)%Z then (-128)%Z else (-2)%Z.
Lemma convert_groups_eq n ctrl : n * W <= length ctrl -> Forall valid_ctrl (take (n * W) ctrl) ->
  convert_groups E n ctrl = map conv (take (n * W) ctrl).
Proof using HE.
  revert ctrl. induction n as [|n IH]; intros ctrl Hl Hv; cbn [convert_groups].
  - reflexivity.
  - assert (Hsplit : take (S n * W) ctrl = take W ctrl ++ take (n * W) (drop W ctrl)).
    { replace (S n * W) with (W + n * W) by lia. rewrite <- (take_drop W ctrl) at 1.
      rewrite take_app_ge by (rewrite take_length; lia). rewrite take_length.
      f_equal. f_equal. lia. }
    rewrite Hsplit in Hv |- *. rewrite map_app. apply Forall_app in Hv. destruct Hv as [Hv1 Hv2].
    rewrite (gok_convert _ HG); [|rewrite take_length; lia|assumption].
    rewrite IH; [reflexivity|rewrite drop_length; lia|assumption].
Qed.

Lemma convert_ok ctrl cap : wfc E ctrl cap -> W <= S cap ->
  exists c', convert_ctrl E ctrl cap = Ok c' /\ wfc E c' cap /\
    forall i c, i < cap -> ctrl !! i = Some c -> c' !! i = Some (conv c).
Proof using HE.
  intros Hwf HWM. pose proof (wfc_len _ _ _ Hwf) as Hlen. pose proof (W_cases E HG) as HW8.
  destruct (wfc_cap _ _ _ Hwf) as (k & Hk & HM). destruct (W_pow E HG) as (w & HW & Hw).
  assert (Hwk : w <= k).
  { destruct (Nat.le_gt_cases w k); [assumption|].
    assert (2 ^ k < 2 ^ w) by (apply Nat.pow_lt_mono_r; lia). lia. }
  assert (HMP : S cap = 2 ^ (k - w) * W) by (rewrite HM, HW, <- Nat.pow_add_r; f_equal; lia).
  unfold convert_ctrl.
  assert (Hmod : S cap mod W = 0) by (rewrite HMP; apply Nat.mod_mul; lia).
  assert (Hdiv : S cap / W = 2 ^ (k - w)) by (rewrite HMP; apply Nat.div_mul; lia).
  rewrite Hmod, Hdiv. cbn [Nat.eqb].
  rewrite convert_groups_eq; rewrite <- HMP; [|lia|].
  2:{ apply Forall_lookup. intros i c Hi.
      assert (Hil : i < S cap). { apply lookup_lt_Some in Hi. rewrite take_length in Hi. lia. }
      rewrite lookup_take in Hi by assumption. destruct (Nat.eq_dec i cap) as [->|].
      - rewrite (wfc_sent _ _ _ Hwf) in Hi. injection Hi as <-. unfold valid_ctrl, kSentinel. lia.
      - destruct (wfc_byte _ _ _ Hwf i ltac:(lia)) as (c' & Hc' & Hs). rewrite Hc' in Hi. injection Hi as <-.
        apply sb_valid. assumption. }
  set (pref := map conv (take (S cap) ctrl)).
  assert (Hpl : length pref = S cap) by (unfold pref; rewrite map_length, take_length; lia).
  assert (Hpi : forall i, i <= cap -> pref !! i = conv <$> ctrl !! i).
  { intros i Hi. unfold pref. rewrite list_lookup_fmap. rewrite lookup_take by lia. reflexivity. }
  rewrite store_ok by (rewrite app_length, take_length; lia).
  eexists. split; [reflexivity|].
  assert (Hlow : forall i c, i < cap -> ctrl !! i = Some c -> <[cap:=kSentinel]> (pref ++ take W pref) !! i = Some (conv c)).
  { intros i c Hi Hc. rewrite list_lookup_insert_ne by lia. rewrite lookup_app_l by lia. rewrite Hpi by lia. rewrite Hc. reflexivity. }
  split; [|exact Hlow]. constructor.
  - eauto.
  - rewrite insert_length, app_length, take_length. lia.
  - apply list_lookup_insert. rewrite app_length. lia.
  - intros i Hi. destruct (wfc_byte _ _ _ Hwf i Hi) as (c & Hc & _). exists (conv c). split; [apply Hlow; assumption|].
    unfold sb, conv, kEmpty, kDeleted. destruct (c <? 0)%Z; auto.
  - intros j Hj. destruct (Nat.ltb_spec j cap); [|lia].
    rewrite list_lookup_insert_ne by lia. rewrite lookup_app_r by lia.
    replace (S cap + j - length pref) with j by lia. rewrite lookup_take by lia.
    rewrite list_lookup_insert_ne by lia. rewrite lookup_app_l by lia. reflexivity.
  - rewrite list_lookup_insert_ne by lia. rewrite lookup_app_r by lia.
    replace (cap + W - length pref) with (W - 1) by lia. rewrite lookup_take by lia. rewrite Hpi by lia.
    destruct (lookup_lt_is_Some_2 ctrl (W - 1)) as [c Hc]; [lia|]. rewrite Hc. exists (conv c). split; [reflexivity|].
    unfold s8, conv. destruct (c <? 0)%Z; lia.
Qed.

Lemma drop_deletes_ok (t : table) : tinv t -> W <= S (t_cap t) ->
  exists t', drop_deletes_without_resize hash E t = Ok t' /\ tinv t' /\ ndel (t_ctrl t') (t_cap t') = 0 /\
    t_size t' = t_size t /\ t_cap t' = t_cap t /\ elems (t_slots t') ≡ₚ elems (t_slots t).
Proof.
  intros Hv HWM. pose proof (tv_0 _ _ _ _ Hv) as Ht. pose proof (ti_wfc _ _ _ _ Ht) as Hwf.
  unfold drop_deletes_without_resize. destruct (Nat.ltb_spec (t_cap t) (W - 1)); [lia|].
  destruct (convert_ok _ _ Hwf HWM) as (c' & Hc & Hwfc & Hconv). rewrite Hc. cbn [rbind].
  destruct (drop_loop_ok (S (2 * t_cap t)) (mkTable c' (t_slots t) (t_size t) (t_cap t) (t_growth t)) 0) as (t' & Hr & Hd & Hsz & Hcap & _ & Hp);
    cbn [t_ctrl t_slots t_size t_cap t_growth] in *.
  - constructor; cbn [t_ctrl t_slots t_size t_cap t_growth]; try assumption; try lia.
    + apply (ti_slen _ _ _ _ Ht).
    + intros j c s Hj Hcj Hsj. destruct (slot_at hash eqb E HG HK t j Ht Hj) as (c0 & s0 & Hc0 & Hs0 & Hrel & _).
      rewrite Hsj in Hs0. injection Hs0 as <-. rewrite (Hconv j c0 Hj Hc0) in Hcj. injection Hcj as <-.
      unfold conv. destruct s as [e|]; cbn in Hrel.
      * pose proof (H2_range (hash (fst e))). destruct (Z.ltb_spec c0 0); [lia|]. right. split; [reflexivity|lia].
      * destruct (Z.ltb_spec c0 0); [reflexivity|lia].
    + intros j c e Hsj Hcj H0. exfalso.
      assert (Hj : j < t_cap t) by (rewrite <- (ti_slen _ _ _ _ Ht); apply lookup_lt_Some in Hsj; assumption).
      destruct (wfc_byte _ _ _ Hwf j Hj) as (c0 & Hc0 & _). rewrite (Hconv j c0 Hj Hc0) in Hcj. injection Hcj as <-.
      unfold conv in H0. destruct (c0 <? 0)%Z; lia.
    + apply (ti_dist _ _ _ _ Ht).
  - unfold ndel. pose proof (cnt_le isDel (take (t_cap t) c')) as Hle. rewrite take_length in Hle. lia.
  - rewrite Hr. cbn [rbind]. eexists. split; [reflexivity|]. cbn [t_ctrl t_slots t_size t_cap t_growth].
    assert (Hnodel : forall j c, j < t_cap t' -> t_ctrl t' !! j = Some c -> c <> kDeleted).
    { intros j c Hj Hcj ->. destruct (lookup_lt_is_Some_2 (t_slots t') j) as [s Hs]; [rewrite (d_slen _ _ Hd); assumption|].
      pose proof (d_rel _ _ Hd j _ s Hj Hcj Hs) as Hrel. destruct s as [e|].
      - destruct Hrel as [Hrel|[_ Hrel]]; [pose proof (H2_range (hash (fst e))); unfold kDeleted in Hrel; lia|lia].
      - unfold kDeleted, kEmpty in Hrel. lia. }
    assert (Hnd : ndel (t_ctrl t') (t_cap t') = 0).
    { unfold ndel. apply cnt_zero. intros j c Hj.
      assert (Hjc : j < t_cap t'). { apply lookup_lt_Some in Hj. rewrite take_length in Hj. lia. }
      rewrite lookup_take in Hj by assumption. pose proof (Hnodel j c Hjc Hj). unfold isDel. apply Z.eqb_neq. assumption. }
    pose proof (tv_room _ _ _ _ Hv) as Hroom. pose proof (tv_size _ _ _ _ Hv) as Hs0.
    split; [|repeat split; assumption].
    constructor; cbn [t_ctrl t_slots t_size t_cap t_growth].
    + constructor; cbn [t_ctrl t_slots t_size t_cap t_growth].
      * apply (d_wfc _ _ Hd).
      * apply (d_slen _ _ Hd).
      * intros j c s Hj Hcj Hsj. pose proof (d_rel _ _ Hd j c s Hj Hcj Hsj) as Hrel. destruct s as [e|]; cbn.
        -- destruct Hrel as [?|[? _]]; [assumption|]. exfalso. eapply Hnodel; eassumption.
        -- subst c. unfold kEmpty. lia.
      * apply (d_dist _ _ Hd).
      * intros j e Hsj. assert (Hj : j < t_cap t') by (rewrite <- (d_slen _ _ Hd); apply lookup_lt_Some in Hsj; assumption).
        destruct (wfc_byte _ _ _ (d_wfc _ _ Hd) j Hj) as (c & Hcj & _).
        pose proof (d_rel _ _ Hd j c _ Hj Hcj Hsj) as Hrel. cbn in Hrel.
        assert (Hc2 : c = H2 (hash (fst e))) by (destruct Hrel as [?|[? _]]; [assumption|exfalso; eapply Hnodel; eassumption]).
        pose proof (H2_range (hash (fst e))).
        destruct (d_set _ _ Hd j c e Hsj Hcj ltac:(lia)) as (n & Hn & Hcov & Hall).
        exists n. split; [assumption|]. split; [assumption|]. intros n' Hn'. split; [apply (d_large _ _ Hd)|].
        intros d Hdw He. apply (Hall n' Hn' d Hdw). exists kEmpty. split; [assumption|]. unfold kEmpty. lia.
    + rewrite Hsz, Hs0. symmetry. apply Permutation_length. assumption.
    + rewrite Hnd, Hsz, Hcap. lia.
    + rewrite Hnd. rewrite growth_left_small; [f_equal; lia| |rewrite Hsz, Hcap; lia].
      rewrite Hcap. apply (wfc_cap _ _ _ Hwf).
    + intros _. assumption.
    + rewrite Hcap. apply (tv_bytes _ _ _ _ Hv).
Qed.

End Resize.
